(** Model of the thermodynamic-state half of class Phase: temperature, density and composition
    (src/thermo/Phase.cpp, include/cantera/thermo/Phase.h), for the two kinds of phase Cantera
    distinguishes: compressible ones (density is an independent variable) and incompressible ones,
    for which the concrete class modelled is IdealSolidSolnPhase (density follows from composition).

    Doubles are [fp]: exact reals plus infinities and NaN.  An input pointer [const double* x] is a
    list of m_kk numbers; passing a shorter array is undefined behaviour and excluded by the
    hypotheses [length x = length mw]. *)
From Coq Require Import Reals List Bool Arith.
From Verif Require Import Base.Fp Base.Outcome Base.Map2.
Import ListNotations.
Open Scope R_scope.

(** include/cantera/base/utilities.h: scale(begin, end, out, scale_factor) (129-136):
    out = *begin * scale_factor. *)
Definition scale (x : list fp) (f : fp) : list fp := map (fun v => fmul v f) x.

(** What Phase::isCompressible() says (Phase.h), and for an incompressible phase the molar volumes
    m_speciesMolarVolume of IdealSolidSolnPhase. *)
Inductive kind := Compressible | SolidSoln (v : list R).
Definition is_compressible (k : kind) : bool :=
  match k with Compressible => true | SolidSoln _ => false end.

(** The state-dependent members of Phase (Phase.h:892-914): m_temp, m_dens, m_y, m_ym, m_mmw,
    m_stateNum; [s_P] is IdealSolidSolnPhase::m_Pcurrent (unused by compressible phases). *)
Record st := mk_st {
  s_T : fp; s_D : fp; s_P : fp;
  s_Y : list fp; s_YM : list fp; s_mmw : fp;
  s_num : nat }.

Definition with_T c t := mk_st t (s_D c) (s_P c) (s_Y c) (s_YM c) (s_mmw c) (s_num c).
Definition with_D c d := mk_st (s_T c) d (s_P c) (s_Y c) (s_YM c) (s_mmw c) (s_num c).
Definition with_P c p := mk_st (s_T c) (s_D c) p (s_Y c) (s_YM c) (s_mmw c) (s_num c).
Definition with_comp c y ym mmw := mk_st (s_T c) (s_D c) (s_P c) y ym mmw (s_num c).
Definition bump c := mk_st (s_T c) (s_D c) (s_P c) (s_Y c) (s_YM c) (s_mmw c) (S (s_num c)).

(** A call leaves a state behind whether it returns or throws. *)
Definition res := (outcome unit * st)%type.
Definition andthen (r : res) (f : st -> res) : res :=
  match fst r with Ok _ => f (snd r) | _ => r end.

Section Phase.
  (** m_molwts, and isCompressible(). *)
  Variable mw : list R.
  Variable kd : kind.

  (** m_rmolwts (Phase.cpp:758: m_rmolwts.push_back(1.0/wt)). *)
  Definition rmw : list R := map (fun m => 1 / m) mw.

  (** Phase::setTemperature, Phase.h:624-631. *)
  Definition setTemperature (c : st) (t : fp) : res :=
    if fltb (Fin 0) t then (Ok tt, with_T c t) else (Err, c).

  (** Phase::assignDensity, Phase.cpp:597-605. *)
  Definition assignDensity (c : st) (d : fp) : res :=
    if fltb (Fin 0) d then (Ok tt, with_D c d) else (Err, c).

  (** Phase::setDensity, Phase.cpp:586-595, with assertCompressible, Phase.h:815-822. *)
  Definition setDensity (c : st) (d : fp) : res :=
    if negb (is_compressible kd) then (Err, c)
    else if fltb (Fin 0) d then (Ok tt, with_D c d) else (Err, c).

  (** Phase::setState_TD, Phase.cpp:377-381. *)
  Definition setState_TD (c : st) (t d : fp) : res :=
    andthen (setTemperature c t) (fun c => setDensity c d).

  (** Phase::mean_X, Phase.cpp:616-624. *)
  Definition mean_X (c : st) (q : list fp) : fp :=
    fmul (s_mmw c) (fsum (map2 fmul (s_YM c) q)).

  (** IdealSolidSolnPhase::calcDensity, IdealSolidSolnPhase.cpp:45-53. *)
  Definition calcDensity (c : st) (v : list R) : res :=
    assignDensity c (fdiv (s_mmw c) (mean_X c (map Fin v))).

  (** Phase::compositionChanged, Phase.cpp:923-925; IdealSolidSolnPhase::compositionChanged,
      IdealSolidSolnPhase.cpp:61-65. *)
  Definition compositionChanged (c : st) : res :=
    match kd with
    | Compressible => (Ok tt, bump c)
    | SolidSoln v => calcDensity (bump c) v
    end.

  (** IdealSolidSolnPhase::setPressure, IdealSolidSolnPhase.cpp:55-59. (setPressure of compressible
      phases is modelled with the equations of state, not here.) *)
  Definition setPressure (c : st) (p : fp) : res :=
    match kd with
    | Compressible => (Err, c)
    | SolidSoln v => calcDensity (with_P c p) v
    end.

  (** Phase::setMoleFractions, Phase.cpp:289-319. *)
  Definition setMoleFractions (c : st) (x : list fp) : res :=
    let xk := map (fun v => fmax v (Fin 0)) x in
    let norm := fsum xk in
    let sum := fsum (map2 (fun m v => fmul (Fin m) v) mw xk) in
    let invSum := fdiv (Fin 1) sum in
    let ym := scale xk invSum in
    let y := map2 (fun v m => fmul v (Fin m)) ym mw in
    compositionChanged (with_comp c y ym (fdiv sum norm)).

  (** Phase::setMoleFractions_NoNorm, Phase.cpp:321-328. *)
  Definition setMoleFractions_NoNorm (c : st) (x : list fp) : res :=
    let mmw := fsum (map2 (fun v m => fmul v (Fin m)) x mw) in
    let ym := scale x (fdiv (Fin 1) mmw) in
    let y := map2 (fun v m => fmul v (Fin m)) ym mw in
    compositionChanged (with_comp c y ym mmw).

  (** Phase::setMassFractions, Phase.cpp:341-353. *)
  Definition setMassFractions (c : st) (y : list fp) : res :=
    let y0 := map (fun v => fmax v (Fin 0)) y in
    let norm := fsum y0 in
    let y1 := scale y0 (fdiv (Fin 1) norm) in
    let ym := map2 (fun v m => fmul v (Fin m)) y1 rmw in
    compositionChanged (with_comp c y1 ym (fdiv (Fin 1) (fsum ym))).

  (** Phase::setMassFractions_NoNorm, Phase.cpp:355-364. *)
  Definition setMassFractions_NoNorm (c : st) (y : list fp) : res :=
    let ym := map2 (fun v m => fmul v (Fin m)) y rmw in
    compositionChanged (with_comp c y ym (fdiv (Fin 1) (fsum ym))).

  (** Phase::setConcentrations, Phase.cpp:487-507.  m_y is used as scratch space before setDensity,
      which may throw. *)
  Definition setConcentrations (c : st) (conc : list fp) : res :=
    if negb (is_compressible kd) then (Err, c) else
    let ck := map (fun v => fmax v (Fin 0)) conc in
    let sum := fsum (map2 (fun v m => fmul v (Fin m)) ck mw) in
    let norm := fsum ck in
    andthen (setDensity (with_comp c ck (s_YM c) (fdiv sum norm)) sum) (fun c1 =>
    let rsum := fdiv (Fin 1) sum in
    let ym := scale ck rsum in
    let y := map2 (fun v m => fmul v (Fin m)) ym mw in
    compositionChanged (with_comp c1 y ym (s_mmw c1))).

  (** Phase::setConcentrationsNoNorm, Phase.cpp:509-526. *)
  Definition setConcentrationsNoNorm (c : st) (conc : list fp) : res :=
    if negb (is_compressible kd) then (Err, c) else
    let sum := fsum (map2 (fun v m => fmul v (Fin m)) conc mw) in
    let norm := fsum conc in
    andthen (setDensity (with_comp c (s_Y c) (s_YM c) (fdiv sum norm)) sum) (fun c1 =>
    let rsum := fdiv (Fin 1) sum in
    let ym := scale conc rsum in
    let y := map2 (fun v m => fmul v (Fin m)) ym mw in
    compositionChanged (with_comp c1 y ym (s_mmw c1))).

  (** Phase::setMolesNoTruncate, Phase.cpp:528-545. *)
  Definition setMolesNoTruncate (c : st) (n : list fp) : res :=
    let totalMoles := fsum n in
    let y0 := map2 (fun v m => fmul v (Fin m)) n mw in
    let totalMass := fsum y0 in
    let mmw := fdiv totalMass totalMoles in
    let y := scale y0 (fdiv (Fin 1) totalMass) in
    let ym := scale n (fdiv (Fin 1) (fmul mmw totalMoles)) in
    compositionChanged (with_comp c y ym mmw).

  (** Phase::getCompositionFromMap, Phase.cpp:927-939.  The map is given as the list of its entries
      in iteration order; [sidx] is Phase::speciesIndex (modelled in Phase/Model.v), with [None] for
      npos.  [lset] writes X[loc]. *)
  Fixpoint lset {A} (l : list A) (i : nat) (a : A) : list A :=
    match l, i with
    | [], _ => []
    | _ :: l', O => a :: l'
    | b :: l', S i' => b :: lset l' i' a
    end.
  Section ByName.
    Context {name : Type} (sidx : name -> option nat).
    Fixpoint comp_from_map_aux (m : list (name * fp)) (x : list fp) : option (list fp) :=
      match m with
      | [] => Some x
      | (nm, v) :: m' =>
          match sidx nm with
          | None => None
          | Some loc => comp_from_map_aux m' (lset x loc v)
          end
      end.
    Definition getCompositionFromMap (m : list (name * fp)) : option (list fp) :=
      comp_from_map_aux m (repeat (Fin 0) (length mw)).
    (** Phase::setMoleFractionsByName / setMassFractionsByName, Phase.cpp:330-334, 366-370. *)
    Definition setMoleFractionsByName (c : st) (m : list (name * fp)) : res :=
      match getCompositionFromMap m with
      | None => (Err, c)
      | Some x => setMoleFractions c x
      end.
    Definition setMassFractionsByName (c : st) (m : list (name * fp)) : res :=
      match getCompositionFromMap m with
      | None => (Err, c)
      | Some y => setMassFractions c y
      end.
  End ByName.

  (** Phase::getMoleFractions, Phase.cpp:434-437. *)
  Definition getMoleFractions (c : st) : list fp := scale (s_YM c) (s_mmw c).
  (** Phase::getMassFractions, Phase.cpp:471-474. *)
  Definition getMassFractions (c : st) : list fp := s_Y c.
  (** Phase::getConcentrations, Phase.cpp:482-485. *)
  Definition getConcentrations (c : st) : list fp := scale (s_YM c) (s_D c).
  (** Phase::concentration(k), Phase.cpp:476-480, for every k in range. *)
  Definition concentrations1 (c : st) : list fp :=
    map2 (fun v m => fmul (fmul v (s_D c)) (Fin m)) (s_Y c) rmw.
  (** Phase::meanMolecularWeight, Phase.h:656-658; temperature, density: Phase.h:566-580. *)
  Definition meanMolecularWeight (c : st) : fp := s_mmw c.
  Definition temperature (c : st) : fp := s_T c.
  Definition density (c : st) : fp := s_D c.
  Definition pressure (c : st) : fp := s_P c.
  (** Phase::molarDensity, Phase.cpp:576-579. *)
  Definition molarDensity (c : st) : fp := fdiv (s_D c) (s_mmw c).

  (** Phase::massFractionsToMoleFractions, Phase.cpp:941-954. [None]: throws. *)
  Definition massFractionsToMoleFractions (y : list fp) : option (list fp) :=
    let rmmw := fsum (map2 (fun v m => fdiv v (Fin m)) y mw) in
    if feqb rmmw (Fin 0) then None
    else Some (map2 (fun v m => fdiv v (fmul rmmw (Fin m))) y mw).
  (** Phase::moleFractionsToMassFractions, Phase.cpp:956-968. *)
  Definition moleFractionsToMassFractions (x : list fp) : option (list fp) :=
    let mmw := fsum (map2 (fun v m => fmul v (Fin m)) x mw) in
    if feqb mmw (Fin 0) then None
    else let rmmw := fdiv (Fin 1) mmw in
         Some (map2 (fun v m => fmul (fmul v (Fin m)) rmmw) x mw).

  (** Phase::stateSize, Phase.cpp:228-234, for a phase that is not pure. *)
  Definition stateSize : nat := length mw + 2.
  (** Phase::saveState, Phase.cpp:236-258: T, then D or P, then Y. *)
  Definition saveState (c : st) : list fp :=
    temperature c :: (if is_compressible kd then density c else pressure c) :: getMassFractions c.
  (** Phase::restoreState, Phase.cpp:260-287. *)
  Definition restoreState (c : st) (state : list fp) : res :=
    if (length state <? stateSize)%nat then (Err, c) else
    let y := firstn (length mw) (skipn 2 state) in
    andthen (setTemperature c (nth 0 state NaN)) (fun c =>
    andthen (if is_compressible kd then setDensity c (nth 1 state NaN)
             else setPressure c (nth 1 state NaN)) (fun c =>
    andthen (setMassFractions_NoNorm c y) compositionChanged)).

  (** The state a phase is in after its species have been added (Phase.cpp:787-798 with the member
      initialisers of Phase.h:892-900): pure first species, T = 0.001, density = 0.001.  For an
      IdealSolidSolnPhase addSpecies also calls calcDensity (IdealSolidSolnPhase.cpp:322), and
      m_Pcurrent = OneAtm. *)
  Definition init_state : st :=
    match mw with
    | [] => mk_st (Fin (1/1000)) (Fin (1/1000)) (Fin 101325) [] [] (Fin 0) 0
    | m :: ms =>
        mk_st (Fin (1/1000))
              (match kd with
               | SolidSoln (v :: _) => Fin (m / v)
               | _ => Fin (1/1000) end)
              (Fin 101325)
              (Fin 1 :: map (fun _ => Fin 0) ms)
              (Fin (1/m) :: map (fun _ => Fin 0) ms)
              (fdiv (Fin 1) (Fin (1/m))) 0
    end.

  (** The public mutators, as operations of a history. *)
  Inductive op :=
  | SetT (t : fp) | SetD (d : fp) | SetP (p : fp) | SetTD (t d : fp)
  | SetX (x : list fp) | SetXNoNorm (x : list fp)
  | SetY (y : list fp) | SetYNoNorm (y : list fp)
  | SetC (x : list fp) | SetCNoNorm (x : list fp) | SetN (n : list fp)
  | Restore (s : list fp).
  Definition step (c : st) (o : op) : res :=
    match o with
    | SetT t => setTemperature c t
    | SetD d => setDensity c d
    | SetP p => setPressure c p
    | SetTD t d => setState_TD c t d
    | SetX x => setMoleFractions c x
    | SetXNoNorm x => setMoleFractions_NoNorm c x
    | SetY y => setMassFractions c y
    | SetYNoNorm y => setMassFractions_NoNorm c y
    | SetC x => setConcentrations c x
    | SetCNoNorm x => setConcentrationsNoNorm c x
    | SetN n => setMolesNoTruncate c n
    | Restore s => restoreState c s
    end.
  (** The caller carries on after a C++ exception with whatever state it left behind. *)
  Definition run (c : st) (ops : list op) : st := fold_left (fun c o => snd (step c o)) ops c.
End Phase.
