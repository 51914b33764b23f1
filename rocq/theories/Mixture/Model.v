(** Model of the fuel/oxidizer functions of class ThermoPhase (src/thermo/ThermoPhase.cpp:637-978):
    oxygen required and present, stoichiometric air-fuel ratio, equivalence ratio and mixture
    fraction, for an ideal gas (the setters end with setPressure, include/cantera/thermo/
    IdealGasPhase.h:352-354).

    The temperature, density and composition of the phase, with setMassFractions,
    setMassFractions_NoNorm, setDensity and moleFractionsToMassFractions, are those of
    Phase/CompModel.v.  Doubles are [fp]: exact reals plus infinities and NaN.  An input pointer is a
    list of m_kk numbers.  The overloads that take strings or maps build such a vector with
    getCompositionFromMap (CompModel.v) and are not repeated here. *)
From Coq Require Import String.
From Coq Require Import Reals List Bool Arith.
From Verif Require Import Base.Fp Base.Outcome Base.Map2 Units.Model Phase.CompModel.
Import ListNotations.
Open Scope R_scope.

(** One species: molecular weight (m_molwts[k]) and number of atoms of the m-th element
    (m_speciesComp[m_mm * k + m]). *)
Record species := mk_species { sp_w : R; sp_at : nat -> R }.

(** ThermoBasis, include/cantera/thermo/ThermoPhase.h:152-158. *)
Inductive basis := MassBasis | MolarBasis.

Section Mixture.
  (** m_elementNames and the species. *)
  Context (els : list string) (sps : list species).

  Definition mw : list R := map sp_w sps.

  (** Phase::elementIndex, Phase.cpp:55-63; [None] is npos. *)
  Fixpoint find_name (l : list string) (s : string) : option nat :=
    match l with
    | [] => None
    | x :: l' => if String.eqb x s then Some O else option_map S (find_name l' s)
    end.
  Definition elementIndex (s : string) : option nat := find_name els s.

  (** One pass of a conditional "o2req += x * c * nAtoms(k, i)", ThermoPhase.cpp:649-657. *)
  Definition add_atoms (i : option nat) (s : species) (x : fp) (c : fp) (acc : fp) : fp :=
    match i with
    | Some m => fadd acc (fmul (fmul x c) (Fin (sp_at s m)))
    | None => acc
    end.

  (** ThermoPhase::o2Required, ThermoPhase.cpp:637-663.  (The C and S terms have no factor; 1 is
      written for it here.) *)
  Definition o2Required (y : list fp) : outcome fp :=
    let iC := elementIndex "C" in
    let iS := elementIndex "S" in
    let iH := elementIndex "H" in
    let '(o2req, sum) :=
      fold_left (fun (a : fp * fp) (p : species * fp) =>
        let '(o2req, sum) := a in
        let '(s, yk) := p in
        let x := fdiv yk (Fin (sp_w s)) in
        (add_atoms iH s x (Fin (1/4)) (add_atoms iS s x (Fin 1) (add_atoms iC s x (Fin 1) o2req)),
         fadd sum yk)) (combine sps y) (Fin 0, Fin 0) in
    if feqb sum (Fin 0) then Err else Ok (fdiv o2req sum).

  (** ThermoPhase::o2Present, ThermoPhase.cpp:665-679.  Without an element "O", nAtoms throws
      (checkElementIndex, Phase.cpp:103-108); without species the sum is zero and it throws too. *)
  Definition o2Present (y : list fp) : outcome fp :=
    match elementIndex "O" with
    | None => Err
    | Some iO =>
        let '(o2pres, sum) :=
          fold_left (fun (a : fp * fp) (p : species * fp) =>
            let '(o2pres, sum) := a in
            let '(s, yk) := p in
            (fadd o2pres (fmul (fdiv yk (Fin (sp_w s))) (Fin (sp_at s iO))), fadd sum yk))
            (combine sps y) (Fin 0, Fin 0) in
        if feqb sum (Fin 0) then Err else Ok (fdiv (fmul (Fin (1/2)) o2pres) sum)
    end.

  (** "o2Required(y) - o2Present(y)", ThermoPhase.cpp:713-714, 927-929. *)
  Definition o2Net (y : list fp) : outcome fp :=
    obind (o2Required y) (fun a => obind (o2Present y) (fun b => Ok (fsub a b))).

  (** "convert input compositions to mass fractions", ThermoPhase.cpp:702-711 and the same lines in
      the other functions. *)
  Definition toMass (b : basis) (v : list fp) : outcome (list fp) :=
    match b with
    | MassBasis => Ok v
    | MolarBasis =>
        match moleFractionsToMassFractions mw v with Some y => Ok y | None => Err end
    end.

  (** ThermoPhase::stoichAirFuelRatio(const double*, const double*, ThermoBasis),
      ThermoPhase.cpp:698-728. *)
  Definition stoichAirFuelRatio (fuel ox : list fp) (b : basis) : outcome fp :=
    obind (toMass b fuel) (fun fuel =>
    obind (toMass b ox) (fun ox =>
    obind (o2Net fuel) (fun rf =>
    obind (o2Net ox) (fun ro =>
    if fltb rf (Fin 0) || fltb (Fin 0) ro then Err
    else if feqb ro (Fin 0) then Ok PInf
    else Ok (fdiv rf (fopp ro)))))).

  (** Phase::setMassFractions and _NoNorm of a compressible phase (CompModel.v). *)
  Definition setY (c : st) (y : list fp) : res := setMassFractions mw Compressible c y.
  Definition setY_NoNorm (c : st) (y : list fp) : res := setMassFractions_NoNorm mw Compressible c y.

  (** ThermoPhase::RT, ThermoPhase.h:1124-1126: temperature() * GasConstant.
      IdealGasPhase::pressure, IdealGasPhase.h:338-340: GasConstant * molarDensity() * temperature(). *)
  Definition RT (c : st) : fp := fmul (s_T c) (Fin GasConstant).
  Definition pressure (c : st) : fp := fmul (fmul (Fin GasConstant) (molarDensity c)) (s_T c).
  (** IdealGasPhase::setPressure, IdealGasPhase.h:352-354. *)
  Definition setPressure (c : st) (p : fp) : res :=
    setDensity Compressible c (fdiv (fmul p (s_mmw c)) (RT c)).

  (** A call that has not touched the state yet: its exception leaves the state alone. *)
  Definition before {A} (m : outcome A) (c : st) (f : A -> res) : res :=
    match m with Ok a => f a | Err => (Err, c) | Exn => (Exn, c) | UB => (UB, c) end.

  (** The loops of ThermoPhase.cpp:757-759 and 883-885:
      y[k] = a * fuelComp[k]/sum_f + b * oxComp[k]/sum_o. *)
  Definition blend (a b : fp) (fuel ox : list fp) : list fp :=
    map2 (fun f o => fadd (fdiv (fmul a f) (fsum fuel)) (fdiv (fmul b o) (fsum ox))) fuel ox.

  (** ThermoPhase::setEquivalenceRatio(double, const double*, const double*, ThermoBasis),
      ThermoPhase.cpp:730-763. *)
  Definition setEquivalenceRatio (c : st) (phi : fp) (fuel ox : list fp) (b : basis) : res :=
    if fltb phi (Fin 0) then (Err, c) else
    let p := pressure c in
    before (toMass b fuel) c (fun fuel =>
    before (toMass b ox) c (fun ox =>
    before (stoichAirFuelRatio fuel ox MassBasis) c (fun AFR_st =>
    andthen (setY c (blend phi AFR_st fuel ox)) (fun c => setPressure c p)))).

  (** ThermoPhase::equivalenceRatio() const, ThermoPhase.cpp:782-792. *)
  Definition globalEquivalenceRatio (c : st) : outcome fp :=
    obind (o2Required (s_Y c)) (fun req =>
    obind (o2Present (s_Y c)) (fun pres =>
    if feqb pres (Fin 0) then Ok PInf else Ok (fdiv req pres))).

  (** The element argument of mixtureFraction: "Bilger" or an element name. *)
  Inductive progress := Bilger | Element (name : string).

  (** The lambda elementalFraction, ThermoPhase.cpp:958-964: with m = npos the first nAtoms throws. *)
  Definition elementalFraction (m : option nat) (y : list fp) : outcome fp :=
    match m with
    | None => match sps with [] => Ok (Fin 0) | _ => Err end
    | Some i =>
        Ok (fold_left (fun z (p : species * fp) =>
              fadd z (fmul (fdiv (snd p) (Fin (sp_w (fst p)))) (Fin (sp_at (fst p) i))))
            (combine sps y) (Fin 0))
    end.

  (** ThermoPhase::mixtureFraction(const double*, const double*, ThermoBasis, const string&),
      ThermoPhase.cpp:911-978. *)
  Definition mixtureFraction (c : st) (fuel ox : list fp) (b : basis) (el : progress) : outcome fp :=
    obind (toMass b fuel) (fun fuel =>
    obind (toMass b ox) (fun ox =>
    match el with
    | Bilger =>
        obind (o2Net fuel) (fun rf =>
        obind (o2Net ox) (fun ro =>
        obind (o2Net (s_Y c)) (fun rm =>
        if fltb rf (Fin 0) || fltb (Fin 0) ro then Err else
        let denominator := fsub rf ro in
        if feqb denominator (Fin 0) then Err else
        let Z := fdiv (fsub rm ro) denominator in
        Ok (fmin (fmax Z (Fin 0)) (Fin 1)))))
    | Element name =>
        let sum_yf := fsum fuel in
        let sum_yo := fsum ox in
        if feqb sum_yf (Fin 0) || feqb sum_yo (Fin 0) then Err else
        let m := elementIndex name in
        obind (elementalFraction m fuel) (fun ef =>
        obind (elementalFraction m ox) (fun eo =>
        obind (elementalFraction m (s_Y c)) (fun em =>
        let Zf := fdiv ef sum_yf in
        let Zo := fdiv eo sum_yo in
        if feqb Zf Zo then Err else
        let Z := fdiv (fsub em Zo) (fsub Zf Zo) in
        Ok (fmin (fmax Z (Fin 0)) (Fin 1)))))
    end)).

  (** ThermoPhase::equivalenceRatio(const double*, const double*, ThermoBasis) const,
      ThermoPhase.cpp:812-839. *)
  Definition equivalenceRatio (c : st) (fuel ox : list fp) (b : basis) : outcome fp :=
    obind (mixtureFraction c fuel ox b Bilger) (fun Z =>
    if feqb Z (Fin 0) then Ok (Fin 0)
    else if feqb Z (Fin 1) then Ok PInf
    else
      obind (toMass b fuel) (fun fuel =>
      obind (toMass b ox) (fun ox =>
      obind (stoichAirFuelRatio fuel ox MassBasis) (fun AFR_st =>
      Ok (fmax (fmul (fdiv Z (fsub (Fin 1) Z)) AFR_st) (Fin 0)))))).

  (** ThermoPhase::setMixtureFraction(double, const double*, const double*, ThermoBasis),
      ThermoPhase.cpp:858-892. *)
  Definition setMixtureFraction (c : st) (z : fp) (fuel ox : list fp) (b : basis) : res :=
    if fltb z (Fin 0) || fltb (Fin 1) z then (Err, c) else
    before (toMass b fuel) c (fun fuel =>
    before (toMass b ox) c (fun ox =>
    if feqb (fsum fuel) (Fin 0) || feqb (fsum ox) (Fin 0) then (Err, c) else
    let p := pressure c in
    andthen (setY_NoNorm c (blend z (fsub (Fin 1) z) fuel ox)) (fun c => setPressure c p))).
End Mixture.
