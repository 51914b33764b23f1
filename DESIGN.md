# Formal model of Cantera in Rocq (Coq 8.16.1)

## Layout

`rocq/theories/<Area>/Model.v` – Gallina transcription of the C++ code, every definition cites file and lines.
`rocq/theories/<Area>/Spec.v`  – small independent specification (what a user would write down).
`rocq/theories/<Area>/Proofs.v` – lemmas.
`rocq/theories/<Area>/Props.v` – property theorems only (closed by `exact`), each with `Print Assumptions`
and `Example`s showing that the hypotheses are met by concrete non-trivial cases.

## Conventions of the models

* Numbers. `double` is idealised as the real numbers `R` wherever the property is algebraic/analytic
  (rounding is not modelled). Where special values matter (NaN, infinities) an explicit type with these
  values is used. Pure data movement is polymorphic in the scalar type. `size_t`/`int` are `nat`/`Z`;
  overflow is not modelled unless a comment says so.
* Errors. A thrown `CanteraError` is the constructor `Err` of a result type; C++ undefined behaviour
  (out-of-range vector access, dangling pointer, empty std::function, ...) is a separate outcome `UB`.
  Nothing is totalised silently.
* Loops are structural recursion over lists/nat, state machines are `step` functions folded over lists of
  operations. External components (user functors, yaml-cpp, LAPACK, SUNDIALS) are section variables that
  become universally quantified arguments of the theorems.
* Theorems with suffix `_refuted` exhibit a concrete counterexample to a property that is false of the code;
  theorems with suffix `_partial` prove a part only, and say what is missing.

## Plan per property

| id | modelled code | method |
|----|---------------|--------|
| C01,C02,C03 | `Cabinet.h` completely | state machine, refinement to an append-only list of (object, parent, live) by induction over histories |
| C04 | `ValueCache.h`, `Phase` state counter, `updateThermo` of gas, plasma, surface and variable-pressure phases, `A_Debye_TP`, `BulkKinetics::updateROP` | `Cache/`: invariants over all histories of state changes, data changes, clears and reads; exact conditions where staleness is possible |
| C05,C06,C07,C42 | composition/state part of `Phase.cpp` | algebra over R on lists |
| C08,C09 | element/species tables of `Phase.cpp` | invariants over construction histories |
| C10,C11,C12 | `Units.cpp` | algebra on dimension vectors, R |
| C13,C14 | `stringUtils.cpp` | lists of ASCII characters, exact language characterisation |
| C15,C16,C51 | `Func1` class hierarchy | inductive type of functors, denotation, Reals derivatives |
| C17,C18,C19 | `StoichManager.h`, `Kinetics.cpp` | refinement to dense matrix sums |
| C20 | `Kinetics::checkDuplicates` | invariant of the two loops over an arbitrary list; soundness, completeness for exact multiples when earlier comparisons do not interfere, effects on the reactions; refuted variants |
| C21 | `ThirdBodyCalc.h` | induction |
| C22 | `BulkKinetics.cpp` | R, exp/ln |
| C23,C24,C25,C26,C52 | `PlogRate`, `ChebyshevRate`, `Falloff`, `ReactionData`, `MultiRate` | R, induction over tables and evaluation histories |
| C27,C58,C59 | `refine.cpp`, `Sim1D::refine`, `solve`, `setFixedTemperature`, `restoreSteadySolution` | exact invariants over the passes of the analysis; inductive relation between grids; induction on iterations of the solver |
| C28 | `funcs.cpp` | induction, Riemann integrals (Coquelicot) |
| C29,C31,C55,C56 | `Reactor*.cpp`, `*MoleReactor.cpp`, `Wall.cpp`, `FlowDevice.cpp`, `flowControllers.cpp`, `ReactorNet::eval` | networks as states built by call histories; right-hand sides as sums over devices and walls; invariants over evaluation histories |
| C30,C32 | `ReactorNet` indexing, sensitivity parameters | index arithmetic; histories |
| C33,C34 | `Delegator.h`, `FactoryBase.h` | closures / association lists |
| C61 | `ReactorNet::advance`, `step`, `getEstimate`, `CVodesIntegrator::integrate`, `step` | induction on internal steps and halvings, for every solver |
| C62 | `getState` of all reactors and `ReactorNet`, with `updateState` | inversion per kind of reactor, induction on surfaces and reactors |
| C63 | fuel/oxidizer functions of `ThermoPhase` on the composition state of C05 with the ideal gas pressure | loops as folds over IEEE-like numbers, lifted to real sums; linearity of element amounts; refuted variants for degenerate oxidizers |
| C64 | `setState_TP` and the Newton search of `setState_HP/UV/SP/SV` for an arbitrary phase given by its property functions | loop invariant (state, bracket, held pressure) by induction on the iterations; contraction of the distance to the solution for bounded heat capacities |
| C65 | `GasTransport`/`MixTransport`: stored quantities, up-to-date flags, polynomial tables, all mixture-averaged queries | invariant "flag set implies stored value = formula at the stored temperature" by induction over the calls; formulas against an independent specification (Wilke's rule for both triangles, pair order = pair index); sums and bounds for the consequences |
| C66 | `MargulesVPSSTP`, `RedlichKisterVPSSTP`, `GibbsExcessVPSSTP::calcDensity`: activity coefficients, T and composition derivatives, partial molar properties, density | specification = excess Gibbs energy as a function of mole numbers; Coquelicot derivatives of it (is_derive) compared with what each query returns; loop over Redlich-Kister terms proved to compute the polynomial and its derivatives by induction |
| C67 | `PengRobinson`, `RedlichKwongMFTP`: pressure, derivatives, heat capacities, residual and partial molar functions, activity and chemical potentials, coefficients, the polynomial for the molar volume | specification = one molar Helmholtz energy A(T, v, x) per equation of state; Coquelicot derivatives of it compared with what each query returns, for every number of species |
| C68 | `MixtureFugacityTP::solveCubic` and `setPressure`, `densityCalc` and `liquidVolEst` of both real gases | specification = roots of a cubic, its discriminant, the two pressure laws; Viete's and Cardano's formulas proved over R, the Newton polish shown to keep exact roots, then case analysis of densityCalc and setPressure |
| C69 | Interface: coverage dependencies, setSpecies, charge transfer, sticking, exchange currents, shared data with its change detection | documented product by induction over the dependencies; data currency as an invariant of all histories; refutations where the code departs |
| C70 | Interface: rates of progress, phase marks, currents | ratio of rates from the potentials; scan invariant of the phase check; counting invariant over all histories of marks; sums over phases |
| C71 | SetState: ThermoPhase::setState(AnyMap) and overrides as calls made | lookup lemmas for the remapped map, case analysis over the documented pairs, exact condition of the exception; refutations for ignored keys |
| C72 | Plasma: levels, values, slopes, electron temperature, type, quadrature rule and shape factor as a record; every setter returns the state and how the call ended | quadrature is linear, trapezoidal sums of values >= 0 are >= 0; inversion of each setter gives an invariant for histories; integral bound by comparison for the default shape factor |
| C73 | Plasma/Thermo: the two update caches as a store of the temperature each species was evaluated at; the property functions over abstract species functions | invariant of the store over histories; field identities for the relations |
| C35,C60 | `NasaPoly1/2`, `Nasa9Poly1`, `Nasa9PolyMultiTempRegion`, `ShomatePoly/2`, `ConstCpPoly`, `Mu0Poly`, `SpeciesThermoFactory`, `MultiSpeciesThermo`, `LatticeSolidPhase` (heats of formation) | derivatives of the evaluated functions; invariant of factory-made objects under changes; glued pieces for Gibbs data; table invariant over histories |
| C36 | ideal gas: setters, molar, partial molar and standard-state properties, `setToEquilState` | algebra of sums; Coquelicot derivatives along T, p, density and amounts |
| C37,C38,C57 | `MultiNewton.cpp`, `OneDim.cpp` | order reasoning, list partition; time stepping as a state machine over an arbitrary solver |
| C39,C53,C54 | `Array2D`, `BandMatrix` | refinement of call histories, index arithmetic |
| C40 | `MultiPhase`, `MultiPhaseEquil` | histories of calls with an invariant; invariants of Gaussian elimination and of the composition steps; refuted variants |
| C41 | `SurfPhase`, `Reactor::evalSurfaces`, site part of `Reaction::checkBalance` | algebra of sums; histories of calls; Coquelicot derivatives |
| C43,C44,C45,C46 | mechanism construction (`Kinetics::addReaction` …), rates of progress in `BulkKinetics` | construction histories; detailed balance, conservation, mass action as theorems about the mechanism's own matrices |
| C49,C50 | `UnitStack`, `UnitSystem::getDelta` in `Units.cpp` | histories, product of powers |
| C47,C48 | `elementalMassFraction`, `elementalMoleFraction`, `m_nSpeciesLocks` in `Phase.cpp` | sums over tables; invariants over histories |

## What is modelled, and what is not

Everything in `/repo` that is not named here is not modelled.

* **Base** (`theories/Base`): `Outcome` (Ok / Err = CanteraError / Exn = other C++ exception / UB), `Fp`
  (finite reals, infinities and NaN with the C++ comparisons), `Vec` (`double*` as `nat -> R`), sums.
* **Cabinet** (C01-C03): `include/cantera/clib/clib_utils.h`/`Cabinet.h` completely, objects as opaque values with a
  reference count of one handle. Not modelled: threads, `shared_ptr` destructors of the stored classes.
* **Stoich** (C17), **Kinetics** (C18, C19, C21, C22, C43-C46): `StoichManager.h`, `ThirdBodyCalc.h`, `Kinetics.cpp`
  construction and rate queries, `BulkKinetics.cpp` rates of progress, equilibrium constants; reaction rate
  parameterisations are arbitrary functions of the state. Not modelled: derivatives (`*_ddX`), sparse matrices'
  storage, floating point rounding.
* **Phase** (C05-C09, C42, C47, C48): `Phase.cpp` composition setters and getters, `saveState`/`restoreState`,
  `addElement`, `addSpecies`, `addSpeciesAlias`, `modifySpecies`, name lookup, elemental fractions, locks.
  Not modelled: species thermo managers behind `addSpecies`, `setState` AnyMap dispatch, reports.
* **Strings** (C13, C14): `parseCompString`, `fpValue`, `fpValueCheck` on lists of 8-bit characters in the "C" locale. The value
  of a literal is its exact real value (rounding to double not modelled); `std::stod`-like overflow not modelled.
* **Units** (C10-C12, C49, C50): `Units.cpp`/`Units.h`: units, unit strings, `UnitStack`, `UnitSystem` (defaults, conversions,
  activation energies, `convertRateCoeff`, `getDelta`). The leading-number regular expression is transcribed by hand;
  `AnyValue` is a number or a string; `std::pow` of a non-positive base with a non-integer exponent is a placeholder no
  theorem uses. Not modelled: `Units::str`, `unit_str`, vectors of `AnyValue`, `applyUnits` of `AnyMap`.

* **Func1** (C15, C16, C51): `Func1.h`, `Func1.cpp`, `Func1Factory.cpp`: all functor classes, `eval`, `derivative`,
  `isIdentical`, the seven simplifying constructors, construction from a parameter vector. A value computed through an
  infinity or NaN is the single outcome `NF`. Not modelled: `write`, `type`, `order`, deprecated interfaces, sharing of
  functors (`shared_ptr`).

* **Rates** (C23-C26, C52): `PlogRate` (`setRates`, `getRates`, evaluation with its cached interval), `ChebyshevRate`
  (limits, data, evaluation with its cached sums), Lindemann/Troe/SRI/Tsang functions and their coefficients,
  `FalloffRate` evaluation and sign checks, `PlogData`/`ChebyshevData`/`FalloffData` perturbation, `MultiRate` of P-log
  rates with numerical derivatives. NaN is `None`. Not modelled: reading rates from YAML, the other rate types,
  warnings, rounding (so `exp(log x) = x`).

* **Numerics** (C28, C39, C53, C54): `linearInterp`, `trapezoidal`, `simpson`, `numericalQuadrature`; `Array2D` storage,
  `DenseMatrix::leftMult`; `BandMatrix` storage, products, norms, line checks and the `m_factored` protocol. LAPACK and
  Sundials factorisations are a predicate (success or failure); which matrix's factors a solve uses is tracked, their
  numerical content is not. Not modelled: `DenseMatrix` solvers, polynomial fits, CVODES/IDA wrappers.

* **Extend** (C33, C34): `Delegator.h` (install, setDelegate, makeDelegate for all signatures; the method tables of
  `ReactorDelegator` and `ReactionRateDelegator`), `FactoryBase.h` `Factory`. Delegates and original methods are arbitrary
  functions on an arbitrary world that may throw. Not modelled: the Python side, handles, deprecation warnings' text,
  factory singletons and their locks.

* **ZeroD** (C29, C30, C31, C32, C55, C56): `ReactorBase`, `Reservoir`, `Reactor`, `IdealGasReactor`, `ConstPressureReactor`,
  `IdealGasConstPressureReactor` and the four mole reactors: `updateState`, `updateConnected`, `updateSurfaceState`, `eval`,
  `evalWalls`, `evalSurfaces`; `FlowDevice` and the three flow controllers; `Wall`; `ReactorNet::updateState`, `eval`;
  the calls that build and configure a network; `componentIndex`, `componentName` of every reactor class and of
  `ReactorNet`, `initialize` (layout), advance limits; `addSensitivity*`, `applySensitivity`, `resetSensitivity` of
  reactors and surfaces with the heats of formation of every polynomial type (`SensModel.v`). A gas is given by arbitrary functions of temperature, density and mass
  fractions; the root finders are arbitrary functions that may fail. Species are found by exact name. Not modelled:
  `FlowReactor`, `ExtensibleReactor`, Jacobians, preconditioners, the integrator, surfaces shared by reactors.
* **ZeroD advancing** (C61): `ReactorNet::advance` with and without limits, `step`, `getEstimate`, `CVodesIntegrator::integrate`, `step`. CVODES is abstract: a step function,
  its time, solution, order and derivative interpolation; `updateState` is assumed to succeed. Initialisation in the first call is not modelled.
* **ZeroD state vectors** (C62): `getState`, `getSurfaceInitialConditions`, `getMoles` of every reactor kind, `ReactorNet::getState`, against the `updateState` of C29. The root
  finders of the phase are parameters; `faithful` says they deliver the energy or enthalpy asked for.
* **OneD refinement** (C27, C58, C59): `Refiner::setCriteria`, `analyze` (`analysis` and `analyze`), `Sim1D::refine`, `restoreSteadySolution`,
  `setFixedTemperature`, and the loop of `Sim1D::solve` (`RefineModel.v`). Newton and time stepping are arbitrary functions there
  (their own models are `NewtonModel.v`). Not modelled: output and saving, `finalize` and `setInitialGuess`, `show`, control point
  selection (the coordinates in use are given), `Refiner::getNewGrid`/`interpolate` (not called), a throw of `setupGrid` half way
  (proved not to happen from a wellformed simulation).
* **OneD** (C37, C38, C57): `OneDim` domain tables, `resize`, `Domain1D::locate`, `component`, `pointDomain`, `MultiJac::eval` with
  its bandwidth and transient diagonal (`LayoutModel.v`); `MultiNewton` bounds, norm, `dampStep`, `solve` and
  `OneDim::timeStep` (`NewtonModel.v`). Residuals, linear solves and Jacobians are arbitrary functions. Not modelled: the
  residuals of the domains (flow, boundaries), `SteadyStateSystem`'s logging and callbacks, the numeric perturbation
  thresholds' rounding.
* **Mixture** (C63, `Mixture/*.v`): `o2Required`, `o2Present`, `stoichAirFuelRatio`, `setEquivalenceRatio`, both `equivalenceRatio`, `setMixtureFraction`, `mixtureFraction` (Bilger and element), for an ideal gas (`IdealGasPhase::setPressure`). Not modelled: the string and map overloads beyond `getCompositionFromMap` (C05, C13), the `fraction`/`diluent` logic of the Python layer, other equations of state.
* **StateSolve** (C64, `StateSolve/*.v`): `ThermoPhase::setState_TP`, `setState_conditional_TP`, `setState_HPorUV`, `setState_SPorSV` with every branch of the iteration (step limit, bracket, temperature bounds, stability loop, convergence test, failure report). The phase is a record of functions: setPressure, h, u, s, cp, cv of temperature and density, finite at positive temperature. Not modelled: phases that override these functions (`PureFluidPhase`, `SingleSpeciesTP`), rounding, incompressible phases, the text of the messages apart from pressure and volume.
* **Transport** (C65, `Transport/*.v`): all of `MixTransport.cpp` except getMobilities and getThermalDiffCoeffs; in `GasTransport.cpp` update_T, viscosity, updateViscosity_T, updateSpeciesViscosities, updateDiff_T, the three mixture diffusion functions, getBinaryDiffCoeffs, init, invalidateCache, the polynomial getters and setters, with what happens to stored vectors and matrices on resizing. Not modelled: how the polynomials are fitted (an arbitrary function of the species), collision integrals, MultiTransport, HighPressureGasTransport, rounding, modifySpecies.
* **Excess** (C66, `Excess/*.v`): the activity coefficient, derivative and partial molar property functions of `MargulesVPSSTP.cpp` and `RedlichKisterVPSSTP.cpp`, calcDensity. The array updates are modelled as sums over the interactions. Not modelled: reading the parameters from input, getActivities and the clipping in getActivityCoefficients, the standard states (arbitrary functions), Redlich-Kister getdlnActCoeffdlnN_diag, the `electrochem` potentials, interactions of a species with itself (excluded by hypothesis `proper`).
* **Cubic** (C67, `Cubic/*.v`): the thermodynamic queries of `PengRobinson.cpp` and `RedlichKwongMFTP.cpp` (pressure, dpdV, dpdT, compressibility, expansion, cp, cv, enthalpy, entropy, chemical potentials, activity coefficients, partial molar properties), updateMixingExpressions, setSpeciesCoeffs (Peng-Robinson), setBinaryCoeffs, the cubic polynomial handed to the solver. Reference-state functions are arbitrary with h0, s0 differentiable as their heat capacity says. `MixtureFugacityTP::solveCubic`, densityCalc and setPressure are in RootSolve. Not modelled: phase selection, critical conditions, spinodals, reading coefficients from input, the addition of species after initialisation.
* **RootSolve** (C68, `RootSolve/*.v`): `MixtureFugacityTP::solveCubic` (nearly ideal shortcut, classification by tolerances, trigonometric and Cardano branches, Newton polish, acceptance test), `MixtureFugacityTP::setPressure`, densityCalc and liquidVolEst of `PengRobinson.cpp` and `RedlichKwongMFTP.cpp`. A division by zero in the polish gives an undefined value; a density over a zero volume is infinite. The phase classification after the density is set is an arbitrary function, the estimate of the saturation pressure an arbitrary number, the loop of liquidVolEst has fuel (C68_liquid_search shows enough exists). Not modelled: phaseState, psatEst, calculatePsat, critical conditions, the base-class densityCalc, rounding.
* **Interface** (C69, C70; `Interface/`): InterfaceRate.cpp/.h (coverage dependencies, indices, voltage correction, exchange current factor, StickingCoverage::setContext, StickingRate), InterfaceData::update with the phase counters, Reaction::usesElectrochemistry, and of InterfaceKinetics.cpp updateMu0, updateKc, updateROP, the phase marks, interfaceCurrent and the derivative settings. Not modelled: YAML parsing and unit conversion of the dependencies, Blowers-Masel enthalpy use, solveSurfaceProblem and advanceCoverages, Jacobians.
* **SetState** (C71; `SetState/`): ThermoPhase::setState(const AnyMap&), SurfPhase::setState, MolalityVPSSTP::setState as the sequence of setters called. Not modelled: unit conversion of values, values of a wrong type, exceptions thrown by the setters.
* **Plasma** (C72, PlasmaPhase.cpp:47-211 and 387-413): the electron energy distribution. Not modelled: collisions, cross sections and power loss, the YAML reader and writer, the warning about the last value. boost's tgamma is a parameter. A call that would store NaN or infinities ends in NotNumber.
* **Plasma/Thermo** (C73, PlasmaPhase.cpp:482-588 over IdealGasPhase.cpp): the two-temperature functions; species functions h/RT and s/R, molar density and mole fractions are parameters. cp, entropy, Gibbs energy and internal energy per mole are not implemented in the code.
* **Kinetics duplicates** (C20, `Kinetics/Dup*.v`): `Kinetics::checkDuplicates` with its four treatments of explicit third bodies, `checkDuplicateStoich` on maps whose look-ups create
  entries, the messages, and which efficiencies `BulkKinetics::addThirdBody` had copied before. Reactions are lists of names and coefficients; the order in which the hash set of keys is walked is arbitrary.
  Not modelled: overflow of the sum of k (k + 1), species found under another capitalisation.
* **SpThermo** (C35, C60): the factory by type number (`newSpeciesThermoInterpType(int, ...)`), for every class it makes the constructor, `updateTemperaturePoly`,
  `updateProperties`, `updatePropertiesTemp`, `reportParameters`, `nCoeffs`, `reportHf298`, `modifyOneHf298`, `resetHf298`; `MultiSpeciesThermo::install_STIT`,
  `modifySpecies`, `update`, `update_single`, `minTemp`, `maxTemp`, heats of formation; `LatticeSolidPhase::modifyOneHf298SS`, `resetHf298`; `ThermoPhase::resetHf298`.
  Real arithmetic: `ShomatePoly2` compares 1000 * (T / 1000) with the middle temperature, which rounding could change. Arrays shorter than a constructor reads are
  undefined behaviour. Sharing of one object by two phases is not modelled (each species has its own). Not modelled: construction from YAML nodes and CTML
  (`setupSpeciesThermo` and so on), `validate` warnings, the PDSS adapters.
* **Cache** (C04): `CachedValue::validate` (all overloads), `ValueCache`; the memoisation in `IdealGasPhase` and `PlasmaPhase::updateThermo`, the `m_tlast` scheme of `SurfPhase`,
  `LatticePhase`, `IdealSolidSolnPhase`, `SingleSpeciesTP` and `MixtureFugacityTP`, `VPStandardStateTP::updateStandardStateThermo`, `CoverageDependentSurfPhase`,
  `HMWSoln::A_Debye_TP`, the composition counter (with `Phase/CompModel.v`), `BulkKinetics::updateROP` with rate evaluators keyed as `ArrheniusData` and `FalloffData`.
  What is memoised is an arbitrary function of the state. Overflow of the counters is not modelled. Not modelled: interface kinetics, transport caches, the caches of real-gas
  solutions, rate types keyed otherwise.
* **Surf** (C41): all of `SurfPhase` but `setState`, `getParameters` and memoisation (C04), over reals with a flag for compositions that are not numbers; for one surface, the
  coverage equations of `Reactor::evalSurfaces`; the site balance of `Reaction::checkBalance`.
* **IdealGas** (C36): `IdealGasPhase` (`setPressure`, `setState_DP`, molar, partial molar, standard-state and derived properties, `setToEquilState`) with `mean_X`, `sum_xlogx`,
  `molarDensity`, `setTemperature`, `setDensity`, `setMoleFractions` of `Phase` and `gibbs_mole`, `intEnergy_mole` of `ThermoPhase`. Species functions are arbitrary functions of
  temperature (their consistency is C35). Memoisation is C04. Not modelled: `getActivityCoefficients` (constant 1), saving and restoring, `addSpecies`.
* **Equil** (C40): of `MultiPhase`: `addPhase`, `init`, `updatePhases`, `uploadMoleFractionsFromPhases`, `setMoles`, `getMoles`, `setMolesByName` (map form), `addSpeciesMoles`, `setPhaseMoles`,
  `setTemperature`, `setPressure`, `setState_TP`, `setState_TPMoles`, `setPhaseMoleFractions`, `speciesMoles`, `elementMoles`, `calcElemAbundances`, `charge`, `nAtoms`, the sums of extensive properties,
  and of `equilibrate` the save/restore around a solver given as an arbitrary sequence of public calls, the TP branch and the TV loop with solver gibbs. Phases are records of names, atom counts and charges with a
  current temperature, pressure and composition; changes of a phase object behind the mixture's back are an operation of their own. Of `MultiPhaseEquil`: the selection of elements and species, `getComponents`
  (Gaussian elimination with pivoting, back substitution), `computeReactionSteps`, `setInitialMoles`, the limited step of `stepComposition`, `unsort`, `error`, `finish`, for arbitrary chemical potentials. Not modelled: how chemical potentials are
  computed (any values are allowed), the HP and SP loops (root finding over temperature), and the `vcs` and element-potential solvers.


## Claims found false of the code (`_refuted` theorems)

* C08: an alias may stop resolving / C09: `modifySpecies` may leave the charge inconsistent (see the theorems).
* C13: `"H2:"` throws `std::out_of_range`; `"A:0,A:1"` is accepted; names with colons fail when names are supplied.
* C14: `"."` and `"e5"` are accepted as zero.
* C10: `(Pa*K)^1` converts differently from `Pa*K` in a system with its own pressure unit.
* C11: `g/m/s^2` as default pressure is not what pressures are converted with; `kK` as activation energy unit counts as `K`;
  a throwing `setDefaultActivationEnergy` changes the reported default; undefined rate units ignore the default time unit.
* C12: `k` is accepted as 1000 and `m//s` as m/s. C50: an explicit activation energy unit of the other system survives.

* C15: the derivative of `log(c t)` is returned as `c/t`; a linear table's derivative before the first time is the first
  slope; the derivative of a composite with a non-integer power of a power is wrong at negative arguments.
* C16: `0*g + g` evaluates to NaN; `(t^2)^(1/2)` becomes `t`. C51: `tabulated-previous` returns the old value at an interior
  tabulated time; `periodic` is not periodic across zero.

* C23: after an evaluation, `setRates` keeps the cached interval: evaluating at the same pressure reads stale positions, even
  outside the new table. C25: the same for `setData`. (C23: tabulated values carry an offset of 1e-300.)
* C24: a Troe factor with T2 can exceed one; a Troe rate does not tend to its high-pressure limit; three SRI coefficients
  come back as five. C52: the constructor with coefficients skips the sign test.
* C26: an `update` between perturbing and restoring is undone by `restore`.
* C28: `linearInterp(NaN)` and empty tables are undefined; Simpson with an even number of points is not exact for quadratics.
* C39: `appendColumn` writes to wrong entries or outside the storage; `resize` with another row count moves entries; reading
  outside the band of a non-const band matrix returns the last value written there. C53: writes through `ptrColumn` leave
  stale factors in use.
* C33: methods with signature `double(void*)` lose their original implementation; delegates of methods with a result do not
  stack. C34: `exists` is false for deprecated names.
* C29: a wall moved by a pressure difference destroys internal energy; an outlet of a mole reactor to a reactor or reservoir
  with another species list removes the wrong species (possibly nothing).
* C31: `setMassFlowRate` after `setTimeFunction` uses a deleted functor; a pressure controller whose primary is a valve
  elsewhere uses the valve's previous flow (C56: so a repeated evaluation differs).
* C30: the index of an unknown component in a reactor other than the first is the last slot of the previous reactor; two
  surfaces with the same phase share names; a reactor added after initialisation gets slots outside the vector; the range
  check of `setAdvanceLimit` is off by one.
* C32: a reaction registered twice (or through two surfaces sharing a `Kinetics`) stays perturbed; so does everything when
  an evaluation throws; a heat of formation set by the user is replaced by the input value, or ignored if set after
  registration; of two parameters of a species only the last counts; a failed registration takes a place.
* C55: mole reactors divide surface rates by the species size, mass reactors multiply: they differ for sizes other than 1.
* C56: `setChemistry(false)` after an evaluation leaves the last production rates in use; reactors sharing a `ThermoPhase`
  with the energy equation off depend on the previous evaluation.
* C38: a domain without components hides the component after it from `component(i)`; a computed bandwidth can wrap around;
  a bandwidth set by the user is not checked; values after a resize of one domain are read at stale places.
* C37: after a failed solve `x1` is the last accepted iterate, not the start; with logging `step1` is the residual.
* C27: a point requested after a point that is removed is not inserted, though it is counted; `refine` returns only 0 or 1, not
  the number of points; after a refinement that throws, `restoreSteadySolution` reads past the end of the saved grids.
* C35: resetting the heat of formation of constant-cp data sets its base enthalpy to 0 (`m_h0_R_orig` is never set); this also means that in C32 the value that a
  constant-cp enthalpy sensitivity returns to is whatever was there before, not the original.
* C35: a single-range Shomate polynomial reports the type of the two-range one, which needs 15 coefficients, with its own 7.
* C35: setting the parameters of piecewise Gibbs data again appends to the old arrays and then writes outside those sized for the new ones.
  (Also found while reading: the name `nasa9` is mapped to a type number that the factory rejects.)
* C61: the internal steps taken to obtain derivatives for the limits may pass the requested time; then `advance` with limits throws although plain `advance` works.
* C62: giving its own state back to a mole reactor whose mass fractions do not add up to one changes its mass.
* C63: an oxidizer with zero net oxygen (say N2) is not rejected: every mass fraction becomes NaN and the exception comes from setPressure afterwards; phi = 0 with an inert fuel does the same; equivalenceRatio() without arguments is not the ratio set when the fuel contains oxygen.
* C64: setState_SP/SV can step to a negative temperature (only the H/U search limits the step to two thirds of the temperature): a gas at 90 K asked for the entropy it has at 12 K throws and is left at the lower temperature bound; the range of validity does not limit the temperature that is set; the "no convergence" message of setState_UV reports the specific volume 0, because `double v = p` declares a second variable.
* C65: a species added between two queries at one temperature is not noticed by the viscosity flags: getSpeciesViscosities returns 0 for it, viscosity() uses a scrambled table; if it has no transport data the first query throws with the species count already changed and the next one writes beyond the end of a vector; mixture diffusion coefficients of a pure species are 0 although mole fractions are floored to avoid that state (the mean weight is not); adding a species discards polynomials set by the user.
* C66: Margules getdlnActCoeffds adds the temperature term once per interaction; getdlnActCoeffdlnX_diag has `2*g1*-2*g0` for `2*g1-2*g0` and returns 0 for every regular solution; the density of a Margules phase ignores its excess volumes, so that mean molecular weight / density is not the sum of the partial molar volumes. Redlich-Kister: s_update_dlnActCoeff_dX_ does not divide by RT, repeats the first species' terms in the second species' row, and its matrix is sized by the number of polynomial terms of the last interaction (out-of-bounds access when that is below the number of species); getdlnActCoeffdlnN returns a matrix nothing computes.
* C67: setBinaryCoeffs does not update the mixture parameters, so the pressure keeps its old value until the state is set again (Redlich-Kwong stores the constant part without the temperature part besides); Redlich-Kwong's mixing rule takes sqrt(a1_i a1_j), which loses the common sign of two negative temperature coefficients. Read but not proved: Peng-Robinson's setSpeciesCoeffs multiplies species j's alpha by the new species' a (overwritten by the next update); densityCalc ignores its guess; derivatives divide by alpha, which is 0 at sqrt(T/Tc) = 1 + 1/kappa.
* C68: the solver's tolerances are absolute, in (m^3/kmol)^n. A Peng-Robinson fluid with R T/p = 10 b, a = 56 b^2 p has the single molar volume 3 b and solveCubic throws; at the liquid spinodal a request for the gas returns an infinite density that setPressure stores; at the gas spinodal every request fails though the liquid has the pressure. The nearly ideal shortcut omits sqrt(T) for Redlich-Kwong and uses the linear ratio in place of b. setPressure with the liquid or supercritical branch forced does nothing and reports nothing. Without a guess the liquid density does not depend on the pressure asked for below the saturation estimate. Read but not proved: a zero derivative during the polish gives NaN, which the acceptance test lets through; Peng-Robinson's densityCalc replaces the caller's guess.
* C69: `getDerivativeSettings` returns skip-coverage-dependence and skip-electrochemistry exchanged; `addCoverageDependence` does not extend `m_lindep`, so the next evaluation reads out of bounds; `setCoverageDependencies` with an empty map keeps the old indices and the rate becomes NaN; sticking rates with coverage dependence are not marked composition dependent and composition derivatives are silently accepted; a `sticking-species` that is not a reactant is accepted and the wall flux factor is left out; Motz-Wise with a coefficient above 2 gives a negative rate; with `exchange-current-density-formulation` the documented exchange current at unit activities is n i0 times the ratio of the reactants' to the products' standard concentrations; a change of pressure only (or of the temperature of another phase only) does not refresh enthalpies, standard potentials and standard concentrations.
* C70: `setPhaseStability` has no effect while all phases exist (only `m_phaseExistsCheck` guards the check); negative rates of progress escape the check, so that a missing phase can be consumed.
* C71: keys that are not understood, and properties beyond a pair, are ignored without notice, so a misspelled `pressure` sets one atmosphere; `X` and `Y` together fail after `X` was set, or ignore `Y`; `D` with `H`, `U` or `S` is rejected though `V` is accepted; `{coverages: ...}` or `{molalities: ...}` alone throws after setting them, although a composition alone is documented to set 298.15 K and 1 atm, because the key is still counted.
* C72: normalizeElectronEnergyDistribution tests norm < 0 only, so a zero distribution gives NaN; Simpson's weights are negative on grids that grow by more than a factor two, so good distributions are refused; the isotropic constants use Gamma(3x/2), Gamma(5x/2) where Gamma(3/(2x)), Gamma(5/(2x)) are needed, so for the default x = 2 the total probability is below 3/4; setElectronTemperature, setMeanElectronEnergy, setIsotropicShapeFactor, setElectronEnergyLevels and setDiscretizedElectronEnergyDist change the phase before they throw; setElectronEnergyDistributionType does not recompute.
* C73: getPartialMolarEntropies and getChemPotentials of electrons use log(electronPressure) and log(X_e), although electronPressure already contains X_e, so with Te = T the plasma phase is not the ideal gas; pressure() counts electrons at T.
* C60: `modifySpecies` and a first species with reference pressure 0 escape the check of a common reference pressure.
* C60: in `LatticeSolidPhase` the search for the lattice of a species has the comparison the wrong way round, so changing and resetting heats of formation do nothing.
* C36: with mole fractions set without normalisation g differs from h - T s; `setToEquilState` with an exponent above 300 sets other chemical potentials than asked for.
* C40: negative amounts are accepted by `setMoles` but the composition clips them, so they do not read back; `setMolesByName` before `init` reads past the species names; fractions that do not sum to one (set through
  `setPhaseMoleFractions` on a phase that keeps them) and phases changed from outside make readers disagree; `volume` may use stale pressures; a failing solver before `init` is undefined behaviour in the restore step;
  at constant volume with solver gibbs running out of iterations counts as success; a solution species of at most 1e-12 mol is multiplied by its own factor, so elements drift; atom counts below 1e-10 are taken for zero;
  the comment that formation reactions of trace species are ignored by `error()` is not what happens.
* C41: the documented relation concentration = coverage * site density / size, and activity = coverage, fail as soon as a species takes more than one site: concentrations are
  site density times mole fraction; without a site density in the input, `m_logn0` is read uninitialised by `getChemPotentials`, `getPartialMolarEntropies` and `logStandardConc`.
* C04: after an evaluation that throws, the next read in the same state returns the value of another state (value cache, Debye-Hueckel coefficient, rates with a throwing rate type);
  a change of species data followed by a temperature change of 0.1234 K is not noticed by phases that use `m_tlast`; on coverage-dependent surfaces, reading a reference-state
  property after a temperature change leaves the coverage-dependent part at the old temperature; `setA_Debye(-1)` is not noticed at the state last read, and without `A_Debye` in
  the input the coefficient is uninitialised; `setConcentrations` that throws changes the composition under the same number; in incompressible phases rates of progress do not
  see pressure changes.
* C20: an irreversible reaction and its copy go unnoticed if a reverse reaction precedes them and has the last species as a reactant (the comparison leaves zero entries that the next one starts from);
  A => B and B <=> A + X are reported as duplicates if X is the first species; declared duplicates count as matched when their sums of k (k + 1) agree, whatever the reactions are; the message exchanges the
  two equations and numbers unmatched reactions from zero; two reactions without species are undefined behaviour; `modify-efficiency` does not change the rates, whose efficiencies were copied before.
* C59: a temperature that the profile does not reach is ignored without an error.
* C57: the size returned is that of the next step, not of the last one taken.

## Trusted base

Coq 8.16.1 kernel; the faithfulness of the transcription described above; and the axioms listed by
`Print Assumptions` (all from Coq's standard library: the constructive reals' `sig_forall_dec` and `sig_not_dec`,
`functional_extensionality_dep`, and `classic`). Coquelicot is used in proofs; it adds no axiom. Per theorem:

<!-- axioms begin -->
* closed under the global context (no axioms):
  C01_cabinet_refines_spec, C01_handle_stable, C01_deleted_stays_dead, C01_handles_fresh, C01_null_object_refuted, C02_index_correct, C03_clear_total_partial, C03_clear_refuted, C03_del_twice_refuted, C04_ids_distinct, C33_order, C33_result, C33_accepted, C33_accepted_result, C33_rejected, C33_rejected_result, C33_result_double, C33_double_refuted, C33_result_stacking_refuted, C34_create, C34_total, C34_alias_accepted, C34_frame, C34_frame_alias, C34_exists, C34_exists_refuted, C34_created_exists, C38_partition, C38_tables, C38_lookup, C38_lookup_none, C38_component, C38_names, C38_bandwidth, C38_bandwidth_bound, C38_component_refuted, C38_bandwidth_overflow_refuted, C38_bandwidth_given_refuted, C38_stale_refuted, C69_sticking_species, C69_order, C70_marks
* `sig_forall_dec`:
  C11_initial, C20_message_refuted, C32_register, C32_refused, C39_resize_rows_refuted, C39_append_refuted, C39_out_of_band_refuted, C53_current_factors, C53_failure, C53_column_pointer_refuted, C69_roundtrip, C69_marked
* `functional_extensionality_dep`, `sig_forall_dec`:
  C04_value_cache, C04_after_exception_refuted, C04_ideal_gas, C04_plasma, C04_last_temperature, C04_same_temperature, C04_last_temperature_refuted, C04_standard_states, C04_standard_states_reference, C04_coverage, C04_coverage_refuted, C04_debye, C04_debye_refuted, C04_counter, C04_counter_refuted, C04_rates_after_exception_refuted, C05_set_mole_fractions, C05_set_mass_fractions, C05_set_concentrations, C05_set_moles, C05_always_consistent, C05_by_name, C05_unknown_name_rejected, C05_zero_composition_rejected_refuted, C06_set_what_was_read, C06_conversions_inverse, C06_zero_rejected, C07_restore_saved, C07_restore_saved_incompressible, C07_short_vector_rejected, C07_rejected_restore_changes_nothing_refuted, C07_unnormalised_state_refuted, C08_species_name_index, C08_element_name_index, C08_indices_stable, C08_inexact_lookup, C08_alias, C08_alias_kept_refuted, C09_atoms, C09_molecular_weight, C09_stable, C09_added_species, C09_modify_charge_refuted, C10_convertible, C10_round_trip, C10_transitive, C10_mul_assoc, C10_conversion_multiplicative, C11_activation_rejects, C12_catalogue, C13_round_trip, C13_duplicate, C13_unknown_name, C13_bad_value, C13_trailing_text, C13_no_colon, C13_every_string, C13_error_type_refuted, C13_duplicate_rejected_refuted, C13_colon_names_refuted, C14_numbers_accepted, C14_accepted_language, C14_value, C14_only_numbers_refuted, C15_no_derivative, C16_no_zero_factor, C17_declarations_accepted, C17_bad_lengths_refused, C17_species_matrix, C17_reactions_matrix, C17_coefficient_matrix, C17_scale, C17_negative_coefficient_refuted, C19_charge_balance_unchecked_refuted, C20_reported, C20_accepts, C20_found_partial, C20_lonely_found, C20_effects, C20_warned, C20_missed_refuted, C20_false_duplicate_refuted, C20_declared_unrelated_refuted, C20_empty_refuted, C20_modify_rates_refuted, C21_third_body_concentration, C21_efficiency_matrix, C24_roundtrip, C24_roundtrip_troe, C24_roundtrip_sri_tsang, C24_sri_three_refuted, C26_factors, C27_points, C27_refine, C27_total, C27_succeeds, C27_kept, C27_done, C27_restore, C27_lost_insertion_refuted, C27_result_refuted, C27_restore_refuted, C28_interp_between, C28_interp_node, C28_interp_below, C28_interp_above, C28_interp_nan_refuted, C28_rejects, C28_dispatch, C28_empty_refuted, C29_reactor_mass, C29_mass, C29_closed_mass, C29_fractions, C29_amount, C29_elements, C29_volume, C29_energy, C29_coverages, C29_energy_refuted, C29_mole_outlet_refuted, C30_components, C30_partition, C30_net_names, C30_index, C30_found, C30_unknown, C30_slices, C30_limits, C30_unknown_component_refuted, C30_twice_refuted, C30_late_reactor_refuted, C30_late_surface_refuted, C30_all_limits, C30_renumbered, C31_nonneg, C31_law, C31_wall_law, C31_rate_refuted, C31_primary_refuted, C32_restored, C32_multipliers, C32_enthalpies, C32_seen, C32_nominal, C32_null, C32_total, C32_positions, C32_twice_refuted, C32_shared_refuted, C32_modified_refuted, C32_stale_refuted, C32_throw_refuted, C32_enthalpy_twice_refuted, C32_failed_refuted, C36_setters, C36_reached, C37_bound_factor, C37_no_worse, C38_jacobian, C38_jacobian_full, C38_jacobian_linear, C38_transient, C39_array, C39_band, C40_set_moles, C40_readers_agree, C40_by_name, C40_add_species, C40_total_property, C40_failed_solver_restores, C40_reaction_vectors, C40_convergence, C40_negative_moles_refuted, C40_by_name_before_init_refuted, C40_unnormalised_fractions_refuted, C40_stale_volume_refuted, C40_failed_before_init_refuted, C40_constant_volume_refuted, C40_tolerance_refuted, C40_trace_species_refuted, C42_set_temperature, C42_set_density, C42_always_positive, C42_failed_set_concentrations_refuted, C42_failed_setState_TD_refuted, C44_add_reaction_atomic, C45_reaction_delta, C47_elemental_mass_fractions, C47_elemental_mole_fractions, C48_locked_species_fixed, C48_unlocked_accepts, C49_standard_units_fixed, C52_signs, C54_one_norm, C54_weakest, C54_zero_row, C55_energy, C55_enthalpy, C55_species, C55_surfaces, C55_surfaces_refuted, C56_history, C56_configuration, C56_primary_refuted, C56_chemistry_refuted, C56_phase_refuted, C57_terminates, C57_result, C57_sizes, C57_solution, C57_attempt, C57_last_step_refuted, C58_solve, C58_criteria, C58_steps, C59_fixed, C59_silent_refuted, C61_advance, C61_advance_succeeds, C61_unlimited, C61_limited, C61_terminates, C61_first_step_fails, C61_first_step_refuted, C62_read_back, C62_network, C62_put_back, C62_sizes_kept, C62_unnormalised_refuted, C63_stoich, C63_phi_round_trip, C63_z_round_trip, C63_phi_and_z, C63_proportions, C63_reaction_invariant, C63_range, C63_rejected, C63_global_phi, C63_inert_oxidizer, C63_failure_keeps_state_refuted, C63_global_phi_refuted, C63_zero_phi_refuted, C64_result, C64_accurate, C64_converges, C64_energy_no_throw, C64_fixed, C64_rejected, C64_TP, C64_message, C64_volume_message_refuted, C66_gibbs_duhem, C66_rk_memory_refuted, C67_pr_critical, C68_liquid_search, C68_forced_refuted, C68_liquid_request_refuted, C68_forced, C69_sticking_marked_refuted, C69_settings, C69_settings_refuted, C69_transfer, C69_motz_wise, C69_current_data, C69_pressure_refuted, C70_missing, C70_unstable, C70_unstable_refuted, C70_negative_refuted, C70_untouched, C70_both_missing, C70_currents, C71_pair, C71_saturated, C71_single, C71_default, C71_throws, C71_order, C71_coverages, C71_molalities, C71_extra_refuted, C71_misspelled_refuted, C71_both_refuted, C71_density_refuted, C71_coverages_refuted, C73_current, C73_last, C73_last_electron, C73_enthalpy, C73_pressure_refuted
* `functional_extensionality_dep`, `sig_forall_dec`, `sig_not_dec`:
  C22_equilibrium_constant, C22_rate_constant_ratio, C25_cosines, C37_damp, C37_solve, C37_converged, C37_failure_refuted, C37_step1_refuted, C40_solver_conserves, C40_minor_species_drift, C40_solver_nonnegative, C40_equilibrium_conserves, C41_reactor, C67_pr_cubic, C67_rk_cubic, C67_pr_species, C67_pr_binary_refuted, C67_rk_binary_refuted, C67_rk_mixing_refuted, C70_kc
* `classic`, `functional_extensionality_dep`, `sig_forall_dec`, `sig_not_dec`:
  C04_gas_rates, C04_pressure_refuted, C10_algebra, C10_power_of_product, C10_system_coherent, C10_power_loses_pressure_refuted, C11_defaults_hold, C11_default_is_one, C11_default_is_one_refuted, C11_to_from_inverse, C11_set_and_reported, C11_activation_inverse, C11_activation_explicit, C11_activation_default, C11_activation_kelvin_refuted, C11_failed_call_refuted, C11_explicit_units, C11_bare_number, C11_undefined_rate_units_refuted, C12_parses, C12_unknown_rejected, C12_total, C12_names_required_refuted, C15_derivative, C15_log_refuted, C15_table_before_refuted, C15_composite_refuted, C16_sum, C16_difference, C16_product, C16_ratio, C16_composite, C16_times_plus, C16_sum_zero_factor_refuted, C16_composite_refuted, C17_multiply_mass_action, C17_derivatives, C18_net_is_creation_minus_destruction, C18_net_formula, C19_conserved, C19_mass, C19_accepted_bound_partial, C19_third_body_balance_unchecked_refuted, C22_detailed_balance, C22_sign_of_net_rate, C23_value, C23_at_tabulated, C23_between, C23_outside, C23_continuous, C23_order, C23_get_rates, C23_set_rates_refuted, C24_factor_range, C24_factor_range_t2_refuted, C24_falloff_bounds, C24_lindemann_monotone, C24_lindemann_limits, C24_troe_high_pressure_refuted, C25_value, C25_range, C25_set_data_refuted, C26_restore, C26_restore_third_bodies, C26_rounds, C26_twice_rejected, C26_restore_harmless, C26_perturb, C26_derivative_P, C26_derivative_T, C26_update_between_refuted, C28_trapezoidal, C28_simpson_odd, C28_simpson_even, C28_simpson_even_refuted, C35_derivatives, C35_defined, C35_poly, C35_formula, C35_formula9, C35_formula_cp, C35_report, C35_modify, C35_reset, C35_reset_refuted, C35_unsupported, C35_roundtrip, C35_roundtrip_refuted, C35_count, C35_mu0, C35_mu0_again_refuted, C36_molar, C36_unnormalised_refuted, C36_derivatives, C36_constant_volume, C36_partial_molar, C36_standard_states, C36_equilibrium, C36_equilibrium_refuted, C40_minor_species_refuted, C41_set_coverages, C41_no_norm, C41_by_name, C41_consistent, C41_site_density, C41_log_site_density_refuted, C41_concentrations, C41_concentrations_refuted, C41_molar, C41_derivatives, C41_partial_molar, C43_forward_rate_law, C46_modify_reaction, C46_modify_reversibility_refuted, C49_product, C49_pseudo, C50_delta_reproduces, C50_delta_refuted, C51_constructors, C51_elementary, C51_polynomial, C51_fourier, C51_gaussian, C51_arrhenius, C51_table_segments, C51_table_outside, C51_table_nodes, C51_periodic, C51_table_previous_refuted, C51_periodic_negative_refuted, C52_nonnegative, C52_constructor_refuted, C60_effect, C60_accept, C60_update, C60_limits, C60_limits_attained, C60_pressure, C60_pressure_refuted, C60_reset_all, C60_lattice_refuted, C64_entropy_refuted, C64_range_refuted, C65_values, C65_polynomials, C65_fresh, C65_fluxes_sum, C65_bounds, C65_binary, C65_two_species, C65_pure_species_refuted, C65_added_species_refuted, C65_missing_data_refuted, C66_margules, C66_redlich_kister, C66_volumes, C66_margules_moles, C66_temperature, C66_temperature_rk, C66_relations, C66_relations_rk, C66_potential_value, C66_margules_path, C66_margules_path_refuted, C66_margules_dlnX_refuted, C66_density_refuted, C66_rk_dlnX, C66_rk_matrix, C66_rk_path_refuted, C66_rk_path_row_refuted, C66_rk_moles_refuted, C67_pr_helmholtz, C67_pr_pressure, C67_pr_heat, C67_pr_partial, C67_pr_sums, C67_pr_activity, C67_rk_helmholtz, C67_rk_pressure, C67_rk_heat, C67_rk_partial, C67_rk_sums, C67_rk_activity, C68_three, C68_one, C68_double, C68_triple, C68_accepted, C68_pr_set_pressure, C68_rk_set_pressure, C68_pr_gas, C68_single_root_refuted, C68_spinodal_refuted, C68_gas_spinodal_refuted, C68_rk_nearly_ideal_refuted, C68_branches, C68_rk_branches, C68_single, C68_temperature, C69_coverage, C69_removed_refuted, C69_added_refuted, C69_voltage, C69_sticking, C69_motz_wise_refuted, C69_sticking_species_refuted, C69_exchange_refuted, C70_ratio, C70_direction, C72_trapezoidal, C72_accepted, C72_scale, C72_temperature, C72_maxwell, C72_history, C72_zero_refuted, C72_simpson_refuted, C72_druyvesteyn_refuted, C72_refused_refuted, C72_grid_refuted, C72_type_refuted, C72_accepts, C72_mean, C72_settings, C73_gibbs, C73_heavy, C73_electron_refuted
<!-- axioms end -->
