{"id": "C01", "title": "Handles are stable and never reused", "statement": "A handle returned by the C library's object table keeps resolving to exactly the object it was issued for until that handle is deleted or the table is reset; after deletion it resolves to nothing (an error), no later creation ever returns it again, and every other handle is unaffected by creations and deletions.", "quantifier": "every finite sequence of add / delete / clear / reset / lookup operations on the handle table, every handle and every object", "why_tests_cant": "Tests exercise a few short create/delete sequences; reuse or corruption could need a particular interleaving of creations and deletions of the same object.", "anchors": ["src/clib/Cabinet.h: Cabinet::add, Cabinet::del, Cabinet::at, Cabinet::as, Cabinet::reset"]}
{"id": "C02", "title": "Reverse lookup of handles agrees with forward lookup", "statement": "index(obj, parent) returns -1 exactly when no live handle refers to obj, otherwise it returns the most recently issued live handle of obj with the requested parent, or -2 if none has that parent; parent(n) is the parent given at creation.", "quantifier": "every finite history of the handle table, every object and parent", "why_tests_cant": "The reverse table and the forward table are updated by different code in every operation; their agreement is an invariant over histories.", "anchors": ["src/clib/Cabinet.h: Cabinet::index, Cabinet::parent, m_lookup"]}
{"id": "C03", "title": "Clearing and deleting handles are total", "statement": "Deleting a handle that was already deleted does nothing, and clearing the table succeeds whatever was deleted before (as the header documents: 'if it is deleted again inadvertently nothing happens').", "quantifier": "every reachable table state, every handle", "why_tests_cant": "Needs the combination delete-then-clear or delete-then-delete for a reachable state.", "anchors": ["src/clib/Cabinet.h: Cabinet::del, Cabinet::clear"]}
{"id": "C04", "title": "Memoised properties are never stale", "statement": "A memoised property always equals the value recomputed from the current state, for whatever sequence of state changes, changes of species data or reactions, reads and cache clears: values kept in the value cache, reference-state properties of gases, plasmas, surfaces and variable-pressure phases, the Debye-Hueckel coefficient, and rates of progress of gases. An entry whose keys are NaN or that was never filled is never returned as a hit, and equal composition numbers mean equal compositions.", "quantifier": "every sequence of state changes, reads through any number of cache entries, and cache clears; every state value including NaN", "why_tests_cant": "Staleness appears only for particular histories, for example returning to an earlier state between reads.", "anchors": ["include/cantera/base/ValueCache.h: CachedValue::validate, ValueCache", "src/base/ValueCache.cpp", "src/thermo/Phase.cpp: stateMFNumber, compositionChanged", "src/thermo/IdealGasPhase.cpp: updateThermo", "src/thermo/PlasmaPhase.cpp: updateThermo", "src/thermo/ThermoPhase.cpp: invalidateCache", "src/thermo/VPStandardStateTP.cpp: updateStandardStateThermo", "src/thermo/CoverageDependentSurfPhase.cpp: _updateCovDepThermo", "src/thermo/HMWSoln.cpp: A_Debye_TP", "src/kinetics/BulkKinetics.cpp: updateROP"]}
{"id": "C05", "title": "Composition setters normalise and agree", "statement": "After setting mole fractions, mass fractions or concentrations, the reported mole fractions sum to one, mass fractions sum to one, each equals the (clipped) input divided by its sum, X and Y are related by X_k = Y_k Mbar / M_k, and the mean molecular weight equals sum X_k M_k and 1/sum(Y_k/M_k).", "quantifier": "every number of species, every positive molecular-weight vector and every input vector with at least one positive entry", "why_tests_cant": "Tests use particular mixtures; the identity must hold for every composition vector and every number of species.", "anchors": ["src/thermo/Phase.cpp: setMoleFractions, setMassFractions, setConcentrations, getMoleFractions, meanMolecularWeight"]}
{"id": "C06", "title": "Mole/mass fraction conversion round-trips", "statement": "Setting mole fractions and reading them back returns the normalised input; setting Y from the Y read after setting X, or X from the X read after setting Y, leaves the composition unchanged; moleFractionsToMassFractions and massFractionsToMoleFractions are mutually inverse on normalised vectors.", "quantifier": "every composition and molecular weight vector", "why_tests_cant": "Algebraic identity over all vectors.", "anchors": ["src/thermo/Phase.cpp: setMoleFractions, setMassFractions, moleFractionsToMassFractions, massFractionsToMoleFractions"]}
{"id": "C07", "title": "Saved state restores exactly", "statement": "restoreState applied to what saveState returned reproduces temperature, density (or pressure) and composition exactly, whatever state changes happened in between, and a state vector that is too short is rejected without changing the phase.", "quantifier": "every reachable phase state, every sequence of intermediate changes", "why_tests_cant": "Holds over all histories between save and restore.", "anchors": ["src/thermo/Phase.cpp: saveState, restoreState, nativeState, stateSize"]}
{"id": "C08", "title": "Species and element names index consistently", "statement": "After any sequence of species/element/alias additions names are unique, speciesIndex(speciesName(k)) = k, indexes of earlier species never change, a lookup that differs only by case succeeds exactly when the lower-case match is unique and case-sensitivity is off, and an unknown name yields the documented 'not found' result.", "quantifier": "every sequence of addElement / addSpecies / alias operations, every name", "why_tests_cant": "An invariant over construction histories and all strings.", "anchors": ["src/thermo/Phase.cpp: addElement, addSpecies, addSpeciesAlias, findSpeciesLower, speciesIndex, speciesName"]}
{"id": "C09", "title": "Atom counts and molecular weights survive additions", "statement": "After any sequence of addElement/addSpecies calls, nAtoms(k,m) equals the amount of element m in the composition with which species k was added (zero if absent), also for elements added after the species, and the molecular weight of each species is the composition-weighted sum of atomic weights.", "quantifier": "every sequence of element and species additions", "why_tests_cant": "The atom-count matrix is re-laid out on each new element; correctness is an invariant over histories.", "anchors": ["src/thermo/Phase.cpp: addElement, addSpecies, nAtoms, getAtoms"]}
{"id": "C10", "title": "Units form a consistent algebra", "statement": "Multiplying, dividing and raising units to powers combines dimensions and factors as in dimensional analysis; conversion between two units is possible exactly when their dimensions agree; converting there and back is the identity and conversions compose transitively.", "quantifier": "all units, all exponents, all values", "why_tests_cant": "Ranges over all unit expressions and values.", "anchors": ["src/base/Units.cpp: Units::operator*, Units::pow, Units::convertible, UnitSystem::convert, convertTo, convertFrom"]}
{"id": "C11", "title": "Default unit systems convert both ways", "statement": "For every choice of default units convertTo and convertFrom are mutually inverse, also for activation energies in every supported form (per quantity, K, eV), and the defaults reported are those that were set.", "quantifier": "every sequence of setDefaults / setDefaultActivationEnergy calls, every unit, every value", "why_tests_cant": "History-dependent defaults and all values.", "anchors": ["src/base/Units.cpp: UnitSystem::setDefaults, setDefaultActivationEnergy, convertActivationEnergy*, convertTo, convertFrom"]}
{"id": "C12", "title": "Unit strings parse compositionally", "statement": "A unit string that is a product/quotient of prefixed units with integer or fractional exponents parses to the product of the powers of its parts; unknown unit names are rejected.", "quantifier": "every unit string of the documented grammar", "why_tests_cant": "Infinite grammar.", "anchors": ["src/base/Units.cpp: Units::Units(const string&)"]}
{"id": "C13", "title": "Composition strings round-trip and reject garbage", "statement": "parseCompString of a string of name:value pairs with distinct names returns exactly those pairs (and zero for the other names supplied); a repeated name whose first value is not zero, a name outside the supplied list and a malformed value are reported as errors; every string yields a composition or an exception, and the exception is Cantera's documented error type unless a colon is followed only by blanks.", "quantifier": "every string; every list of pairs with admissible names and values; every list of supplied names", "why_tests_cant": "All strings.", "anchors": ["src/base/stringUtils.cpp: parseCompString, fpValueCheck"]}
{"id": "C14", "title": "Checked number parsing accepts exactly numbers", "statement": "fpValueCheck accepts every decimal floating point literal (optional sign, digits with at most one point, optional exponent with digits; white space around it) with its value, and rejects with Cantera's error every other string, except that a mantissa without digits is also accepted and read as zero.", "quantifier": "every string", "why_tests_cant": "All strings.", "anchors": ["src/base/stringUtils.cpp: fpValueCheck, fpValue"]}
{"id": "C15", "title": "Functor derivatives are derivatives", "statement": "derivative() of a functor is the derivative of the function eval() computes, at every point where that function is differentiable, for every functor built from the basic functors by the composite operations.", "quantifier": "every functor expression, every argument", "why_tests_cant": "Ranges over all expression trees and all real arguments.", "anchors": ["src/numerics/Func1.cpp", "include/cantera/numerics/Func1.h"]}
{"id": "C16", "title": "Functor simplification preserves values", "statement": "newSumFunction, newDiffFunction, newProdFunction, newRatioFunction, newCompositeFunction, newTimesConstFunction and newPlusConstFunction return a functor whose value at every argument is the sum, difference, product, ... of the arguments' values, whatever simplification is applied.", "quantifier": "every pair of functors, every argument", "why_tests_cant": "Simplification fires on particular shapes only.", "anchors": ["src/numerics/Func1.cpp: newSumFunction, newDiffFunction, newProdFunction, newRatioFunction, newCompositeFunction, isProportional, isConstant"]}
{"id": "C17", "title": "Stoichiometry managers compute the matrix product", "statement": "After adding any list of reactions, the specialised one-, two-, three- and many-species managers increment, decrement and multiply exactly as the dense stoichiometric matrix: species rate += sum_i nu_ki R_i, reaction property += sum_k nu_ki S_k, rate *= prod_k C_k^order.", "quantifier": "every list of reactions, with any number of participants and any stoichiometric coefficients and orders; every input vector", "why_tests_cant": "Dispatch on number and value of coefficients gives many cases over unbounded lists.", "anchors": ["include/cantera/kinetics/StoichManager.h: C1, C2, C3, C_AnyN, StoichManagerN::add/multiply/incrementSpecies/incrementReactions"]}
{"id": "C18", "title": "Net production is creation minus destruction", "statement": "For every species, net production rate equals creation rate minus destruction rate, computed from forward and reverse rates of progress, for every set of reversible and irreversible reactions.", "quantifier": "every mechanism and every rate-of-progress vector in which irreversible reactions have zero reverse rate", "why_tests_cant": "All mechanisms.", "anchors": ["src/kinetics/Kinetics.cpp: getCreationRates, getDestructionRates, getNetProductionRates"]}
{"id": "C19", "title": "Elements, charge and mass are conserved by balanced reactions", "statement": "If every accepted reaction passes checkReactionBalance exactly then the net production rates of all species, weighted with the number of atoms of any element (or with molecular weight), sum to zero at every state.", "quantifier": "every mechanism of balanced reactions and every rates-of-progress vector", "why_tests_cant": "All mechanisms, all states.", "anchors": ["src/kinetics/Kinetics.cpp: checkReactionBalance, getNetProductionRates", "src/kinetics/Reaction.cpp: checkBalance"]}
{"id": "C20", "title": "Duplicate-reaction check reports undeclared duplicates and unmatched declared ones", "statement": "checkDuplicates always ends with an answer. It reports only pairs of reactions, not both declared duplicates, with proportional stoichiometry (within 1e-8, in the same direction, or opposite with one of them reversible), equal type and rate type and overlapping third bodies, and declared duplicates no other declared reaction of equal participant sum exists for; a mechanism with neither is accepted. Exact multiples are reported. The reactions are changed only as explicit_third_body_duplicates says: not at all with warn and error, otherwise by a flag or by efficiencies of M, and only for such pairs.", "quantifier": "every list of reactions, every species list, every order in which hash sets are walked, every treatment of explicit third bodies", "why_tests_cant": "Hash-bucket based search over unbounded lists.", "anchors": ["src/kinetics/Kinetics.cpp: checkDuplicates, checkDuplicateStoich"]}
{"id": "C21", "title": "Third-body concentrations are efficiency-weighted sums", "statement": "The effective third-body concentration of every three-body or falloff reaction equals sum_k eff_k C_k with eff_k the stated efficiency or the default.", "quantifier": "every list of third-body reactions installed in any order, every concentration vector", "why_tests_cant": "Index bookkeeping over unbounded lists.", "anchors": ["include/cantera/kinetics/ThirdBodyCalc.h: install, update, multiply"]}
{"id": "C22", "title": "Reverse rates satisfy detailed balance", "statement": "For a reversible reaction kf/kr equals the concentration equilibrium constant, and the net rate of progress vanishes whenever the reaction is at equilibrium (equal chemical potentials weighted with stoichiometry) and its sign agrees with the affinity.", "quantifier": "every reversible elementary reaction and every state", "why_tests_cant": "All states and mechanisms.", "anchors": ["src/kinetics/BulkKinetics.cpp: getEquilibriumConstants, updateROP, getRevReactionDelta", "src/kinetics/Kinetics.cpp: getReactionDelta"]}
{"id": "C23", "title": "Pressure-dependent Arrhenius rates interpolate the table", "statement": "A P-log rate at a tabulated pressure equals the (summed) Arrhenius rate given there; between two tabulated pressures it lies between the two rates and varies continuously (log k linear in log P); outside the table it equals the nearest end value; the result does not depend on the order in which the data were given.", "quantifier": "every valid table with any number of pressures and repeats, every T and P", "why_tests_cant": "All tables and pressures, including exactly on the breakpoints.", "anchors": ["src/kinetics/PlogRate.cpp", "include/cantera/kinetics/PlogRate.h: setContext, updateFromStruct, evalFromStruct"]}
{"id": "C24", "title": "Falloff functions stay in range and have the right limits", "statement": "The falloff broadening factor is positive and (Lindemann, Troe with coefficient in (0,1]) at most one, so a falloff rate lies between zero and the smaller of its low- and high-pressure limits, tends to those limits and is monotone in third-body concentration for Lindemann; setting then getting falloff coefficients reproduces them.", "quantifier": "every coefficient set, temperature and reduced pressure", "why_tests_cant": "All real parameters.", "anchors": ["src/kinetics/Falloff.cpp", "include/cantera/kinetics/Falloff.h"]}
{"id": "C25", "title": "Chebyshev rates equal their polynomial", "statement": "The Chebyshev rate evaluates log10 k = sum a_ij T_i(Tr) T_j(Pr) with T_n the Chebyshev polynomials and reduced coordinates mapping the validity range onto [-1,1].", "quantifier": "every coefficient matrix, all T and P in range", "why_tests_cant": "All matrix sizes.", "anchors": ["src/kinetics/ChebyshevRate.cpp", "include/cantera/kinetics/ChebyshevRate.h: updateFromStruct, evalFromStruct"]}
{"id": "C26", "title": "Perturbing and restoring shared rate data is exact", "statement": "perturbTemperature/perturbPressure/perturbThirdBodies followed by restore gives back the data exactly; perturbing twice without restoring and restoring without perturbing are rejected or harmless, so numerical derivatives never change the state.", "quantifier": "every sequence of perturb, restore and update calls", "why_tests_cant": "Histories of calls.", "anchors": ["src/kinetics/ReactionData.h", "src/kinetics/PlogRate.cpp", "src/kinetics/Falloff.cpp", "src/kinetics/ChebyshevRate.cpp"]}
{"id": "C27", "title": "Grid refinement only inserts midpoints, keeps end points and respects limits", "statement": "Refinement analysis never removes an end point or a point marked keep, never removes two adjacent points, inserts new points only at interval midpoints, and the refined grid is strictly increasing with interpolated values at new points.", "quantifier": "every grid, every solution, every criteria", "why_tests_cant": "All grids and profiles.", "anchors": ["src/oneD/refine.cpp: Refiner::analyze, getNewGrid", "src/oneD/Sim1D.cpp: refine"]}
{"id": "C28", "title": "One-dimensional interpolation and quadrature are correct", "statement": "linearInterp returns the tabulated value at table points, lies between neighbouring values in between and clamps outside; trapezoidal integration is exact for piecewise linear data and Simpson's rule for quadratics.", "quantifier": "every table and argument", "why_tests_cant": "All sizes and values.", "anchors": ["src/numerics/funcs.cpp: linearInterp, trapezoidal, basicSimpson, simpson"]}
{"id": "C29", "title": "Reactor networks conserve mass, volume and energy", "statement": "For every network and state, the time derivatives of a reactor's mass, species masses, volume and energy are exactly what arrives through its flow devices and walls minus what leaves, plus what reactions and surfaces produce. Summed over the network, only devices and walls that cross its border contribute: what leaves one reactor enters the other, so a closed network keeps its mass, its elements and its volume; mass fractions keep summing to one. The internal energy changes by enthalpy and heat crossing the border and by the wall work computed with each side's own pressure.", "quantifier": "every network of any number of reactors, walls and flow devices; every state", "why_tests_cant": "All topologies.", "anchors": ["src/zeroD/Reactor.cpp: eval, evalWalls, evalSurfaces, evalSpecies", "src/zeroD/Wall.cpp", "src/zeroD/FlowDevice.cpp", "src/zeroD/ReactorNet.cpp"]}
{"id": "C30", "title": "Reactor network state indexing is a partition", "statement": "The global state vector is the concatenation of the reactors' state vectors; component names and indexes are mutually inverse and distinct components never share a slot.", "quantifier": "every network, every component", "why_tests_cant": "All network sizes.", "anchors": ["src/zeroD/ReactorNet.cpp: initialize, globalComponentIndex, componentName", "src/zeroD/Reactor.cpp: componentIndex, componentName, speciesIndex"]}
{"id": "C31", "title": "Flow devices never run backwards", "statement": "Mass flow through valves, controllers and pressure controllers is never negative, for any functors and pressures, whatever calls were made before; after an evaluation of the network it equals the device's law (coefficient times time factor times pressure function, plus the primary's flow) at the evaluated time and state.", "quantifier": "every coefficient, functor and state", "why_tests_cant": "All functors and states.", "anchors": ["src/zeroD/flowControllers.cpp: MassFlowController::updateMassFlowRate, PressureController::updateMassFlowRate, Valve::updateMassFlowRate"]}
{"id": "C32", "title": "Sensitivity perturbations are undone", "statement": "Applying sensitivity parameters and then resetting restores every reaction rate multiplier and species enthalpy of the reactors, if no reaction is registered twice for a reactor and registered species have their input data; during the evaluation each registered multiplier is multiplied by, and each registered heat of formation shifted by, its own parameter and nothing else changes; nominal parameters change nothing.", "quantifier": "every history of registrations, user changes and evaluations, every parameter vector, every evaluation function", "why_tests_cant": "Particular lists (for example repeated registrations) are needed to break it.", "anchors": ["src/zeroD/Reactor.cpp: addSensitivityReaction, addSensitivitySpeciesEnthalpy, applySensitivity, resetSensitivity", "src/zeroD/ReactorSurface.cpp: addSensitivityReaction, setSensitivityParameters, resetSensitivityParameters", "src/zeroD/ReactorNet.cpp: registerSensitivityParameter, eval", "src/thermo/MultiSpeciesThermo.cpp: modifyOneHf298, resetHf298"]}
{"id": "C33", "title": "Delegates run in the documented order", "statement": "A 'before' delegate runs before, an 'after' delegate after and a 'replace' delegate instead of the original method; for value-returning methods the documented combination (sum, override) is returned; delegating an unknown method is rejected.", "quantifier": "every sequence of setDelegate calls and method invocations", "why_tests_cant": "Sequences of calls.", "anchors": ["include/cantera/base/Delegator.h: makeDelegate, setDelegate, install"]}
{"id": "C34", "title": "Factories resolve names deterministically", "statement": "create(name) calls the most recently registered creator for the name or for the name its alias points to; unknown names are rejected; registering one name never changes another.", "quantifier": "every sequence of reg / addAlias / addDeprecatedAlias calls, every name", "why_tests_cant": "All registration histories.", "anchors": ["include/cantera/base/FactoryBase.h: reg, create, addAlias, canonicalize, exists"]}
{"id": "C35", "title": "Species thermodynamic functions are consistent", "statement": "For NASA 7, NASA 9, Shomate, constant-cp and piecewise-Gibbs parameterisations the reported enthalpy and entropy satisfy dH/dT = Cp and dS/dT = Cp/T inside each temperature range; setting and reporting the 298 K enthalpy of formation round-trips and resetting restores it.", "quantifier": "every coefficient vector and every temperature in range", "why_tests_cant": "All coefficients and temperatures.", "anchors": ["include/cantera/thermo/NasaPoly1.h", "include/cantera/thermo/NasaPoly2.h", "include/cantera/thermo/Nasa9Poly1.h", "include/cantera/thermo/ShomatePoly.h", "src/thermo/ConstCpPoly.cpp", "src/thermo/Mu0Poly.cpp"]}
{"id": "C36", "title": "Ideal-gas relations hold", "statement": "Setting pressure, density or both on an ideal gas and reading back gives the values set, with composition unchanged and invalid values refused without effect. p V = n R T; u = h - pv; g = h - Ts; cp - cv = R; molar properties equal mole-fraction-weighted partial molar properties; partial molar properties are the derivatives of the property of the whole with respect to the amount of the species at fixed T and p; dh/dT = cp, ds/dT = cp/T, dg/dT = -s, dg/dp = v, du/dT at constant volume = cv, the compressibility, expansion coefficient and speed of sound are the derivatives they name; setToEquilState gives the chemical potentials asked for.", "quantifier": "every number of species, composition, temperature, pressure and species thermodynamic functions that are integrals of their heat capacities", "why_tests_cant": "Derivative identities and sums over all states and all species data; a test compares finite differences at a few states of a few mechanisms.", "anchors": ["src/thermo/IdealGasPhase.cpp", "include/cantera/thermo/IdealGasPhase.h"]}
{"id": "C37", "title": "Newton steps stay in bounds", "statement": "From a solution within the component bounds the damping factor is exactly the largest fraction in [0,1] of the Newton step that stays within them; the solver started in bounds ends in bounds, converged or not; from any start no unknown is taken further outside; status 1 means that the next step is small in every unknown.", "quantifier": "every simulation, solution, step, bounds, tolerances, residual, Jacobian, damping factor of at least one and number of iterations", "why_tests_cant": "All vectors and all solver histories.", "anchors": ["src/oneD/MultiNewton.cpp: bound_step, boundStep, norm2, dampStep, solve"]}
{"id": "C38", "title": "1D domain indexing is a partition", "statement": "After any calls that add domains or change their components and points, every element of the solution vector belongs to exactly one domain, grid point and component, and looking it up gives these back (component(i), provided every domain to its right has components; otherwise component(i) fails). Coupling between the same or neighbouring points stays inside the declared Jacobian bandwidth. Evaluating the Jacobian leaves the solution unchanged and gives the difference quotient of the residual at every such position and zero elsewhere; adding a transient term any number of times only changes the diagonal, by the last time step.", "quantifier": "every history of domain additions and grid changes, every index, every residual, every solution", "why_tests_cant": "All domain lists.", "anchors": ["src/oneD/OneDim.cpp: resize, component, pointDomain, evalJacobian", "src/oneD/Domain1D.cpp: locate, resize", "src/oneD/MultiNewton.cpp: step", "src/oneD/MultiJac.cpp: setValue, updateTransient"]}
{"id": "C39", "title": "Dense and banded matrices address entries correctly", "statement": "Reading an entry after writing it returns the written value and leaves all other in-band entries unchanged; mult/leftMult equal the mathematical products of the matrix whose out-of-band entries are zero; columns can be appended.", "quantifier": "every matrix size, bandwidth, entry and vector", "why_tests_cant": "All sizes.", "anchors": ["src/numerics/BandMatrix.cpp", "src/base/Array.cpp", "include/cantera/base/Array.h"]}
{"id": "C40", "title": "Multiphase mixtures keep their books straight and equilibrium steps conserve elements", "statement": "After any history of calls, setting the species amounts of a mixture (by vector, by name, or by adding to one species) makes every reader report them: getMoles, speciesMoles, the phase amounts, element amounts (both ways of computing them) and charge are the sums over the species, and the phases take the composition; sums of extensive properties are the phase-weighted sums. A solver that fails leaves the state as it was. The formation reactions built by the equilibrium solver conserve every element and form one mole of one species each; every sequence of solver steps keeps the element amounts (up to the drift of species with at most 1e-12 mol, which is computed), never makes a species negative, and a run of equilibrate at constant temperature and pressure returns a mixture with the element amounts it started with.", "quantifier": "every mixture reached by any sequence of calls, every mole vector, every sequence of solver steps and every chemical potential", "why_tests_cant": "All mixtures, histories and solver trajectories; a test sees only the mechanisms and convergence paths it runs.", "anchors": ["src/equil/MultiPhase.cpp: init, setMoles, getMoles, setMolesByName, addSpeciesMoles, elementMoles, speciesMoles, calcElemAbundances, charge, updatePhases, equilibrate", "src/equil/MultiPhaseEquil.cpp: MultiPhaseEquil, getComponents, stepComposition, computeReactionSteps, error, finish"]}
{"id": "C41", "title": "Surface coverages are normalised and site-conserving", "statement": "Coverages set on a surface phase are read back normalised (or exactly, without normalisation), by position or by name, vectors without positive sum are refused without effect, and the surface density always follows the site density. Concentration is coverage * site density / size and activity is coverage when every species present takes one site. Changing the site density keeps mole fractions and coverages. g = h - T s, molar properties are sums of partial molar ones, which are derivatives of the property of the whole surface. In reactors the coverages keep their sum whatever the production rates, and the coverage computed by difference follows its own production rate up to the tolerance of the site balance.", "quantifier": "every number of species, coverage vector, site density, sizes, species functions, mechanism, trajectory and history of calls", "why_tests_cant": "All vectors, sizes and histories; tests use unit sizes and a few coverages.", "anchors": ["src/thermo/SurfPhase.cpp: setCoverages, getCoverages, setCoveragesNoNorm", "src/zeroD/ReactorSurface.cpp", "src/zeroD/Reactor.cpp: evalSurfaces"]}
{"id": "C42", "title": "Invalid temperature and density are rejected", "statement": "setTemperature and setDensity accept exactly positive values; anything else, including NaN, is rejected and leaves the phase unchanged.", "quantifier": "every floating point value including NaN and infinities", "why_tests_cant": "All values including special ones.", "anchors": ["include/cantera/thermo/Phase.h: setTemperature", "src/thermo/Phase.cpp: setDensity, assignDensity"]}
{"id": "C43", "title": "Forward rates of progress follow the mass-action law", "statement": "The forward rate of progress of every reaction equals rate constant times multiplier times effective third-body concentration (for third-body reactions of mass-action type) times the product over species of activity concentration raised to the reaction order, where the order is the overriding order if stated and the stoichiometric coefficient otherwise.", "quantifier": "every mechanism built by any sequence of addReaction calls, every reaction in it, every nonnegative activity vector", "why_tests_cant": "Five handler classes chosen by participant count and integrality, override lists, unbounded mechanisms.", "anchors": ["src/kinetics/Kinetics.cpp: addReaction", "src/kinetics/BulkKinetics.cpp: addReaction, updateROP", "include/cantera/kinetics/StoichManager.h"]}
{"id": "C44", "title": "addReaction is atomic", "statement": "A call of addReaction either appends exactly the given reaction, or leaves the kinetics object unchanged (reaction skipped or exception); it never reaches undefined behaviour once a phase has been added.", "quantifier": "every mechanism history, every reaction, every setting of the skip flags", "why_tests_cant": "All failing inputs at all points of a history.", "anchors": ["src/kinetics/Kinetics.cpp: addReaction", "src/kinetics/BulkKinetics.cpp: addReaction, addThirdBody"]}
{"id": "C45", "title": "Reaction property changes", "statement": "getReactionDelta returns, for each reaction, products minus reactants of the species property weighted with the stoichiometric coefficients; for reversible reactions getRevReactionDelta returns the same.", "quantifier": "every mechanism, every property vector, every reaction", "why_tests_cant": "Unbounded mechanisms.", "anchors": ["src/kinetics/Kinetics.cpp: getReactionDelta, getRevReactionDelta"]}
{"id": "C46", "title": "modifyReaction keeps the mechanism consistent", "statement": "modifyReaction either throws and changes nothing, or replaces exactly reaction i by one with the same participants, after which the object computes the rates of a mechanism built from its reaction list.", "quantifier": "every mechanism, every replacement reaction", "why_tests_cant": "All replacements differing in any field.", "anchors": ["src/kinetics/Kinetics.cpp: modifyReaction", "src/kinetics/BulkKinetics.cpp: modifyReaction"]}
{"id": "C47", "title": "Elemental fractions", "statement": "For every composition whose mass fractions sum to one the elemental mass fractions over all elements sum to one (if every species has at least the minimum molecular weight), and the elemental mole fractions sum to one whenever some species with atoms is present.", "quantifier": "every phase construction history and every composition", "why_tests_cant": "Needs all element tables and compositions.", "anchors": ["src/thermo/Phase.cpp: elementalMassFraction, elementalMoleFraction"]}
{"id": "C48", "title": "Species locks", "statement": "While at least one species lock is held, no call adds a species and addSpecies throws without changing the phase; when all locks are released, a new neutral species made of known elements is accepted under the next index.", "quantifier": "every interleaving of lock, unlock and table operations", "why_tests_cant": "Histories of calls.", "anchors": ["src/thermo/Phase.cpp: addSpecies, removeSpeciesLock", "include/cantera/thermo/Phase.h: addSpeciesLock"]}
{"id": "C49", "title": "Unit stacks give the product of everything joined", "statement": "After any sequence of joins to the standard units and updates with further units, the product of a UnitStack has the factor and dimensions of the product of all the powers joined, in whatever order and however often a unit recurs; the standard units are unaffected and cannot be replaced once used.", "quantifier": "every standard unit, every sequence of join and update calls with every exponent", "why_tests_cant": "Histories of unbounded length with recurring units.", "anchors": ["src/base/Units.cpp: UnitStack::join, update, product, setStandardUnits"]}
{"id": "C50", "title": "The difference of two unit systems reproduces the first", "statement": "Applying the map returned by getDelta(other) as defaults on top of the other unit system gives a system that converts every value, including activation energies, as this system does.", "quantifier": "every two histories of default-setting calls, every value and unit", "why_tests_cant": "Pairs of histories.", "anchors": ["src/base/Units.cpp: UnitSystem::getDelta, setDefaults"]}
{"id": "C51", "title": "Basic functors compute their documented formulas", "statement": "Creating a functor by type and parameter vector succeeds exactly for the documented parameter vectors and throws otherwise; the functor then evaluates its documented formula: sine, cosine, exponential, logarithm, power, polynomial with coefficients from the highest power, Fourier series, Gaussian of given height and full width at half maximum, sum of Arrhenius terms, linear or step-wise table, and periodic repetition.", "quantifier": "every parameter vector, every argument", "why_tests_cant": "Polynomials, Fourier series, tables and Arrhenius sums have any number of terms; arguments are all reals.", "anchors": ["src/numerics/Func1.cpp: constructors, Tabulated1::eval", "include/cantera/numerics/Func1.h: Poly1, Fourier1, Gaussian1, Arrhenius1, Periodic1", "src/numerics/Func1Factory.cpp"]}
{"id": "C52", "title": "Falloff limits have consistent signs", "statement": "Whatever sequence of setLowRate/setHighRate calls is made on a falloff rate, accepted or rejected, its two pre-exponential factors never have opposite signs; if negative factors were never allowed both are non-negative, the rate passes its own check and evaluates to a non-negative number.", "quantifier": "every sequence of setter calls, every temperature and concentration", "why_tests_cant": "Histories of accepted and rejected calls; all real parameters.", "anchors": ["src/kinetics/Falloff.cpp: setLowRate, setHighRate, check", "include/cantera/kinetics/Falloff.h"]}
{"id": "C53", "title": "A band matrix solve uses the factors of the current entries", "statement": "After any sequence of writes, fills, resizes, factorisations and solves, a successful solve uses the LU factors of the matrix as it stands at that moment, and it fails only if factorising that matrix fails.", "quantifier": "every sequence of calls on a band matrix", "why_tests_cant": "All interleavings of modifying calls and solves.", "anchors": ["src/numerics/BandMatrix.cpp: value, bfill, resize, factor, solve", "include/cantera/numerics/GeneralMatrix.h: m_factored"]}
{"id": "C54", "title": "Norm and weakest-line diagnostics of band matrices are exact", "statement": "oneNorm is the largest column sum of magnitudes; checkRows and checkColumns return the first row/column whose largest magnitude is smallest, with that magnitude, so zero is reported exactly when there is a zero line.", "quantifier": "every band matrix size, bandwidth and content", "why_tests_cant": "All sizes, bandwidths and values.", "anchors": ["src/numerics/BandMatrix.cpp: oneNorm, checkRows, checkColumns"]}
{"id": "C55", "title": "Mass and mole formulations of a reactor agree", "statement": "For every reactor kind the derivative of the internal energy (enthalpy at constant pressure) implied by the returned right-hand side, whether the unknown is energy, enthalpy or temperature, is the same balance of wall work, heat and inlet and outlet enthalpies; and the derivative of the mass of each species is the same whether the unknowns are mass fractions or moles.", "quantifier": "every network, reactor kind, time and state", "why_tests_cant": "All networks, thermodynamic models and states; the eight classes implement the equations separately.", "anchors": ["src/zeroD/Reactor.cpp: eval", "src/zeroD/IdealGasReactor.cpp: eval", "src/zeroD/ConstPressureReactor.cpp: eval", "src/zeroD/IdealGasConstPressureReactor.cpp: eval", "src/zeroD/MoleReactor.cpp: eval, evalSurfaces", "src/zeroD/IdealGasMoleReactor.cpp: eval", "src/zeroD/ConstPressureMoleReactor.cpp: eval", "src/zeroD/IdealGasConstPressureMoleReactor.cpp: eval"]}
{"id": "C56", "title": "Evaluating a network has no memory", "statement": "The right-hand side of a network at a time and state does not depend on the evaluations made before (an integrator may evaluate at any times and states in any order), and evaluations change neither the configuration of the network nor the reactors and reservoirs outside it.", "quantifier": "every network, every sequence of earlier evaluations, including failing ones", "why_tests_cant": "All histories of evaluations.", "anchors": ["src/zeroD/ReactorNet.cpp: eval, updateState", "src/zeroD/Reactor.cpp: updateState, updateConnected"]}
{"id": "C57", "title": "Time stepping ends and keeps its promises", "statement": "Time stepping towards a steady state ends whatever the solver does; if it returns, exactly the requested number of steps has been taken and the step size respects its limit; if it throws, the step size is below the smallest or the step count is reached; all sizes tried stay within the limits; the solution changes only by successful solves and by resetting bad values.", "quantifier": "every behaviour of the nonlinear solver on every call, all step sizes, limits, counts and solutions", "why_tests_cant": "Every sequence of successes and failures of the solver; termination.", "anchors": ["src/oneD/OneDim.cpp: timeStep, setMinTimeStep, setMaxTimeStep, setTimeStepFactor, setMaxTimeStepCount"]}
{"id": "C58", "title": "A solution returned by the hybrid solver is a converged one that meets the refinement criteria", "statement": "When solving a 1D problem with Newton iteration, time stepping and refinement returns normally, the solution is the result of a successful steady Newton solve on the returned grid, and (with refinement on) refining once more would change nothing. It throws only if time stepping throws or the limit on grid points is reached, and time stepping is only called with step counts from the configured list and sizes within the limit.", "quantifier": "every behaviour of the Newton solver and of the time stepper, every simulation, every number of iterations", "why_tests_cant": "The sequence of failures, time steps and refinements is unbounded and solver dependent.", "anchors": ["src/oneD/Sim1D.cpp: Sim1D::solve, Sim1D::newtonSolve"]}
{"id": "C59", "title": "Fixing the flame temperature inserts at most one interpolated point per flame", "statement": "Setting the fixed temperature of a free flame either takes an existing point close to that temperature, or inserts exactly one point between two neighbours, with linear interpolation of all components and exactly that temperature, or changes nothing; grids stay ordered, other domains are untouched and the result is the number of points added.", "quantifier": "every simulation, grid, solution and temperature", "why_tests_cant": "All temperature profiles and grids.", "anchors": ["src/oneD/Sim1D.cpp: Sim1D::setFixedTemperature"]}
{"id": "C60", "title": "The thermo data of a phase is a table of its species, with one temperature range and one reference pressure", "statement": "After any sequence of installing, replacing, changing and resetting species data, an operation succeeds exactly when it may (new species, same reference pressure; same kind of data that covers the temperature range), and then changes the data of its species only; evaluating all species at once gives each species exactly what evaluating it alone gives; the reported temperature limits hold for every species and are those of some species; all species have the same reference pressure; resetting all heats of formation resets each.", "quantifier": "every sequence of operations, every kind and mixture of parameterisations, every temperature", "why_tests_cant": "All histories and mixtures of parameterisations.", "anchors": ["src/thermo/MultiSpeciesThermo.cpp", "src/thermo/LatticeSolidPhase.cpp", "src/thermo/ThermoPhase.cpp: ThermoPhase::resetHf298"]}
{"id": "C61", "title": "Advancing a reactor network reaches exactly the requested time, or the advance limits hold", "statement": "A successful advance to a time ends at exactly that time, with the reactors in the state the solver has there, after no more than the allowed number of internal steps; with advance limits, it ends at a time not after the requested one, at which no limited component has changed by more than its limit according to the solver's own prediction, and this terminates; without limits the full step is taken.", "quantifier": "every integrator (any steps, times, orders, derivatives), every state, limit vector, requested time and step bound", "why_tests_cant": "All solver behaviours and all requested times.", "anchors": ["src/zeroD/ReactorNet.cpp: ReactorNet::advance, ReactorNet::step, ReactorNet::getEstimate", "src/numerics/CVodesIntegrator.cpp: CVodesIntegrator::integrate, CVodesIntegrator::step"]}
{"id": "C62", "title": "The state vector of a reactor or network can be read back and put back", "statement": "After a state vector has been given to a reactor or network, reading its state returns that vector (with the energy equation off, excepting the energy or enthalpy component); reading the state of a reactor and giving it back leaves the reactor as it was. This holds for every kind of reactor, with any number of surfaces.", "quantifier": "every network, reactor kind, phase, surface list and state vector", "why_tests_cant": "All kinds of reactors with all layouts of state vectors and surfaces.", "anchors": ["src/zeroD/Reactor.cpp: getState, updateState", "src/zeroD/MoleReactor.cpp", "src/zeroD/ConstPressureReactor.cpp", "src/zeroD/ReactorNet.cpp: getState, updateState"]}
{"id": "C63", "title": "Equivalence ratio and mixture fraction round trips", "statement": "For every fuel and oxidizer composition, given by mole or by mass, setting an equivalence ratio or a mixture fraction gives a composition from which the same equivalence ratio and mixture fraction (oxygen-demand based or of any element in which fuel and oxidizer differ) are read back, with temperature and pressure kept; the stoichiometric air-fuel ratio is exactly the oxidizer mass at which oxygen demand and supply balance; only the proportions of fuel and oxidizer matter; the answers depend only on the elements in the mixture; and a call that throws changes nothing.", "quantifier": "all phases (elements, species, molecular weights), all states, all fuel and oxidizer compositions, both bases, all phi >= 0 and z in [0,1]", "why_tests_cant": "Tests check a few fuels with air; the round trip must hold for every fuel blend, scale, basis and value, including degenerate ones.", "anchors": ["src/thermo/ThermoPhase.cpp:o2Required", "src/thermo/ThermoPhase.cpp:o2Present", "src/thermo/ThermoPhase.cpp:stoichAirFuelRatio", "src/thermo/ThermoPhase.cpp:setEquivalenceRatio", "src/thermo/ThermoPhase.cpp:equivalenceRatio", "src/thermo/ThermoPhase.cpp:setMixtureFraction", "src/thermo/ThermoPhase.cpp:mixtureFraction"]}
{"id": "C64", "title": "Setting the state by enthalpy, energy or entropy", "statement": "setState_HP, UV, SP and SV, when they return, leave the phase at the pressure or specific volume asked for, at a positive temperature, with the property equal to the target within the tolerance; for a phase whose heat capacity varies by less than a factor of two they find the temperature from every start in reach of 500 iterations; a state that already has the property keeps its temperature; invalid pressures are rejected without change; setState_TP either sets temperature and pressure or changes nothing; a failed search reports the values it was called with.", "quantifier": "all phases (property functions of temperature and density), all targets, pressures, tolerances and starting states; for accuracy and convergence all enthalpy curves with bounded positive heat capacity", "why_tests_cant": "The search is an iteration with limits, brackets and bounds that interact; tests start it from a few states of a few gases and cannot show that every return is accurate or that it converges from every start.", "anchors": ["src/thermo/ThermoPhase.cpp:setState_TP", "src/thermo/ThermoPhase.cpp:setState_HPorUV", "src/thermo/ThermoPhase.cpp:setState_SPorSV", "src/thermo/ThermoPhase.cpp:setState_conditional_TP"]}
{"id": "C65", "title": "Transport properties are those of the present state", "statement": "After any sequence of state changes, queries, polynomial changes and species additions, the viscosity, species viscosities, thermal conductivity, binary and mixture-averaged diffusion coefficients and species fluxes that a mixture-averaged transport object returns are the values given by the published formulas (Wilke's rule, the conductivity average, the mixture-diffusion formulas) for the current temperature, pressure, composition and the polynomials last fitted or set, the same as those of a newly created object; the fluxes sum to zero, the conductivity lies between those of the species, binary coefficients are symmetric, and in a two-species mixture the mixture coefficients reduce to the binary one.", "quantifier": "all polynomial fits, both fit modes, all phases and all finite sequences of calls on the phase and its transport object", "why_tests_cant": "The object keeps six up-to-date flags, cleared by different calls; whether a stale value can be returned depends on the whole history of calls, and tests try only a few orders.", "anchors": ["src/transport/GasTransport.cpp: GasTransport::update_T, viscosity, updateViscosity_T, updateSpeciesViscosities, updateDiff_T, getBinaryDiffCoeffs, getMixDiffCoeffs, getMixDiffCoeffsMole, getMixDiffCoeffsMass, init, invalidateCache, setViscosityPolynomial, setConductivityPolynomial, setBinDiffusivityPolynomial", "src/transport/MixTransport.cpp: MixTransport::thermalConductivity, getSpeciesFluxes, update_T, update_C, updateCond_T"]}
{"id": "C66", "title": "Excess Gibbs energy models are thermodynamically consistent", "statement": "For the Margules and Redlich-Kister solution models the reported activity coefficients, their temperature and composition derivatives, chemical potentials, partial molar enthalpies, entropies, heat capacities and volumes all follow from one excess Gibbs energy (and excess volume): R T ln gamma_k is its derivative by the moles of k, the weighted sum is the excess energy, Gibbs-Duhem holds, mu = h - T s, dmu/dT = -s, dh/dT = cp; density, path derivatives and the other derivative queries agree with them.", "quantifier": "every list of binary interactions (any number of Redlich-Kister terms), every number of species, every temperature, every composition, every direction of change", "why_tests_cant": "consistency is an identity between functions; tests compare a few numbers at a few compositions, mostly with one interaction and two species", "anchors": ["src/thermo/MargulesVPSSTP.cpp: MargulesVPSSTP", "src/thermo/RedlichKisterVPSSTP.cpp: RedlichKisterVPSSTP", "src/thermo/GibbsExcessVPSSTP.cpp: calcDensity"]}
{"id": "C67", "title": "Real-gas equations of state are thermodynamically consistent", "statement": "For the Peng-Robinson and Redlich-Kwong phases every reported property follows from one Helmholtz energy A(T, v, x): p = -dA/dv, s = -dA/dT, h - T s - p v = A, dp/dT and dp/dv are the derivatives of the pressure, cv and cp are those of the energy and enthalpy, chemical potentials are the derivatives of the total Helmholtz energy by the moles, partial molar enthalpy, entropy, volume and energy are derivatives at constant T and p and sum to the molar values, activity coefficients agree with the chemical potentials; a molar volume solves the polynomial given to the root finder exactly if it has the requested pressure; stored coefficients are those given.", "quantifier": "every number of species, every set of interaction coefficients, every temperature, molar volume above the covolume and composition, every reference-state function", "why_tests_cant": "consistency is an identity between functions of all states; tests compare a few numbers for a few substances", "anchors": ["src/thermo/PengRobinson.cpp: PengRobinson", "src/thermo/RedlichKwongMFTP.cpp: RedlichKwongMFTP"]}
{"id": "C68", "title": "Setting the pressure of a real gas finds a density that has it", "statement": "For the Peng-Robinson and Redlich-Kwong phases the root finder reports exactly the real roots of the volume polynomial, in order, with their number; whatever it reports satisfies the polynomial to its tolerance; if setting the pressure succeeds the phase then has that pressure, and a request for the supercritical fluid or the hot gas yields the largest molar volume with the pressure, above the covolume; the search for a liquid volume ends.", "quantifier": "every temperature, pressure, covolume and attraction parameter, every cubic polynomial whose roots are clear of the solver's absolute tolerances, every previous density and phase", "why_tests_cant": "the roots are found by trigonometric and Cardano formulas with case distinctions on tolerances, so every region of the (T, p, a, b) space counts; failures sit on thin sets that sampled tests miss", "anchors": ["src/thermo/MixtureFugacityTP.cpp: solveCubic, setPressure", "src/thermo/PengRobinson.cpp: densityCalc, liquidVolEst, solveCubic", "src/thermo/RedlichKwongMFTP.cpp: densityCalc, liquidVolEst, solveCubic"]}
{"id": "C69", "title": "Reaction rates at an interface are the documented functions of the present state", "statement": "For an interface reaction with coverage dependencies the rate constant is the base rate times 10^(a theta) theta^m exp(-E(theta)/RT) for each named species, whatever was set before; reading the dependencies back and setting them again reproduces them. For charge transfer the factor is exp(-beta F sum(nu z phi)/RT), applied only if charge moves between phases. A sticking reaction proceeds at the sticking coefficient times the flux onto the wall times the activities of the other reactants, with the Motz-Wise correction if asked for. An exchange current density given in the input is the exchange current density. After any history of changes the rates are computed from the temperature, site density, coverages, potentials and thermodynamic properties of the moment; derivative settings read back are those that were set.", "quantifier": "Every list of coverage dependencies (linear or polynomial), surface species and coverages, temperature, stoichiometry, charges, potentials, sticking reactants, orders and sizes, and every finite history of state changes, site density changes and evaluations", "why_tests_cant": "Tests check a few mechanisms at a few states, the properties are about all dependencies, all states, and all orders in which the state may change between evaluations", "anchors": ["src/kinetics/InterfaceRate.cpp: InterfaceData::update, InterfaceRateBase::setCoverageDependencies, addCoverageDependence, getCoverageDependencies, setSpecies, updateFromStruct, setContext, StickingCoverage::setContext", "include/cantera/kinetics/InterfaceRate.h: InterfaceRate, StickingRate, voltageCorrection", "src/kinetics/Reaction.cpp: usesElectrochemistry", "src/kinetics/InterfaceKinetics.cpp: setDerivativeSettings, getDerivativeSettings, assertDerivativesValid"]}
{"id": "C70", "title": "Interface reactions run down the electrochemical potential and never consume a phase that does not exist", "statement": "A reversible interface reaction has a positive, zero or negative net rate of progress exactly as its electrochemical Gibbs energy change is negative, zero or positive, and forward and reverse rates differ by exp(dG/RT). After any history of marking phases as existing or missing, a missing phase is not consumed by any reaction in either direction, net rates remain the difference of forward and reverse rates, reactions among existing stable phases are untouched, and species of a phase marked as unstable have no positive rate of formation. If every reaction conserves charge the interface currents of all phases add up to zero.", "quantifier": "Every stoichiometry, temperature, potentials, charges, activities, standard concentrations, rate coefficients, and every finite history of adding phases and setting their existence and stability", "why_tests_cant": "A test fixes one mechanism and one marking of phases; the claims range over all of them and over all orders of calls", "anchors": ["src/kinetics/InterfaceKinetics.cpp: updateROP, updateKc, updateMu0, getEquilibriumConstants, setPhaseExistence, setPhaseStability, addThermo, interfaceCurrent"]}
{"id": "C71", "title": "Setting a state from named properties sets exactly what was named", "statement": "A map with a pair of properties that fixes a state, under any accepted names, in any order, with or without a composition, sets the composition and then calls the setter of that pair with the given values. Temperature or pressure alone are completed by one atmosphere or 298.15 K, a composition alone by both. Anything else is rejected, without effect; nothing that is given is ignored. Coverages of a surface and molalities of a solution are accepted like other compositions.", "quantifier": "Every map from keys to values", "why_tests_cant": "The number of combinations of keys, synonyms and orders is large and unbounded for unknown keys; tests cover a few pairs", "anchors": ["src/thermo/ThermoPhase.cpp: setState(const AnyMap&)", "src/thermo/SurfPhase.cpp: setState", "src/thermo/MolalityVPSSTP.cpp: setState", "include/cantera/thermo/ThermoPhase.h: setState documentation"]}
{"id": "C72", "title": "A plasma's electron energy distribution, its normalisation and its electron temperature agree", "statement": "Setting a tabulated electron energy distribution on a plasma phase accepts every increasing grid of energies >= 0 with values that are nowhere negative and not all zero. With normalisation the stored distribution is the given one times a positive factor, its total probability is one by the chosen quadrature, it does not depend on the scale of the input, and the electron temperature is two thirds of the distribution's mean energy. For an isotropic distribution a temperature or mean energy that is set reads back and the distribution is the documented one for it, with total probability one. After any sequence of accepted calls the grid increases and the distribution has its length and is nowhere negative; a refused call changes nothing.", "quantifier": "all grids, distributions, electron temperatures, quadrature rules and sequences of calls", "why_tests_cant": "the grids, distributions and call sequences are unbounded, and normalisation is a statement about integrals; tests look at a few grids and one shape factor", "anchors": ["src/thermo/PlasmaPhase.cpp: setDiscretizedElectronEnergyDist, normalizeElectronEnergyDistribution, updateElectronTemperatureFromEnergyDist, setIsotropicElectronEnergyDistribution, setElectronTemperature, setMeanElectronEnergy, setElectronEnergyLevels, updateElectronEnergyDistDifference", "src/numerics/funcs.cpp: numericalQuadrature"]}
{"id": "C73", "title": "A plasma's thermodynamic functions use each species' own temperature and fit together", "statement": "In a plasma phase electrons have the electron temperature and all other species the gas temperature. Whatever the history of setting temperatures, reading properties and invalidating caches, properties are those for the temperatures set last. The molar enthalpy is the sum of mole fractions times partial molar enthalpies, each at the species' own temperature; the chemical potential equals partial molar enthalpy minus own temperature times partial molar entropy; standard-state functions agree. With equal temperatures the plasma is the ideal gas, and its pressure is the sum of the partial pressures.", "quantifier": "all species data, temperatures, densities, compositions and histories", "why_tests_cant": "ranges over all species functions, real states and unbounded histories; tests look at one mechanism and few states", "anchors": ["src/thermo/PlasmaPhase.cpp: updateThermo, enthalpy_mole, getGibbs_ref, getPartialMolarEnthalpies, getPartialMolarEntropies, getPartialMolarIntEnergies, getChemPotentials, getStandardChemPotentials, getEntropy_R, getGibbs_RT", "src/thermo/IdealGasPhase.cpp: updateThermo"]}
