(** Model of class MultiPhase (src/equil/MultiPhase.cpp, include/cantera/equil/MultiPhase.h): a
    mixture of phases, its bookkeeping of species, elements and mole numbers, and the wrapper that
    restores the mixture when an equilibrium solver fails.

    Doubles are exact reals.  A phase object is what MultiPhase uses of it: fixed data (names, atoms,
    charges, temperature limits, which pressures its equation of state accepts) and a state
    (temperature, pressure, mole fractions).  Arrays passed by pointer are lists; reading or writing
    past the end of an array is [UB]. *)
From Coq Require Import Reals String List Bool Arith.
From Verif Require Import Base.Fp Base.Outcome Base.Map2 Base.RSum.
Import ListNotations.
Local Open Scope R_scope.
Local Open Scope list_scope.

(** What MultiPhase reads of a ThermoPhase: name(), speciesName(k) and nSpecies(), elementName(m) and
    nElements(), nAtoms(k, m), charge(k), minTemp(), maxTemp(), compatibleWithMultiPhase(), and the
    pressures setPressure accepts. *)
Record ph := PH {
  p_name : string; p_species : list string; p_elems : list string;
  p_atoms : nat -> nat -> R; p_charge : nat -> R;
  p_minT : R; p_maxT : R; p_compat : bool; p_pok : R -> bool }.
Definition nsp (p : ph) : nat := List.length (p_species p).

(** Temperature, pressure and mole fractions of a phase object. *)
Record pst := PST { qT : R; qP : R; qX : list R }.

(** Phase::setMoleFractions, Phase.cpp:289-319 (proved equal to this normalisation in C05): negative
    entries count as zero, the rest is divided by its sum. *)
Definition clip (x : list R) : list R := map (fun v => Rmax v 0) x.
Definition normalised (x : list R) : list R := map (fun v => v / rsum (clip x)) (clip x).

(** ThermoPhase::setState_TPX, ThermoPhase.cpp:85-89, with setState_TP, 121-132: the mole fractions
    are set first; a refused temperature or pressure leaves them set.  A vector without a positive
    entry is divided by zero: the NaNs that follow are not modelled, the outcome is [UB].
    Simplification: after a refusal the old density is restored, so the pressure of a compressible
    phase may differ from the old one; the model keeps the old value and no theorem uses it. *)
Definition setTPX (p : ph) (q : pst) (T P : R) (x : list R) : outcome unit * pst :=
  if reqb (rsum (clip x)) 0 then (UB, q)
  else if rltb 0 T && p_pok p P then (Ok tt, PST T P (normalised x))
  else (Err, PST (qT q) (qP q) (normalised x)).

(** The data members of MultiPhase, MultiPhase.h:586-690: m_phase (with the state of each phase
    object), m_moles, m_temp_OK, m_enames (m_nel is its length), m_nsp, m_temp, m_press, m_Tmin,
    m_Tmax, m_init, m_atoms (one list per element), m_snames, m_spstart, m_spphase, m_moleFractions.
    Not kept: m_enamemap (index lookup in m_enames), m_atomicNumber, m_eloc, the species locks (C48),
    m_elemAbundances (a scratch array recomputed before every read). *)
Record mix := MIX {
  x_ph : list ph; x_st : list pst;
  x_moles : list R; x_tok : list bool; x_enames : list string; x_nsp : nat;
  x_T : R; x_P : R; x_Tmin : R; x_Tmax : R;
  x_init : bool; x_atoms : list (list R); x_snames : list string;
  x_spstart : list nat; x_spphase : list nat; x_mf : list R }.

Definition with_st (m : mix) st := MIX (x_ph m) st (x_moles m) (x_tok m) (x_enames m) (x_nsp m)
  (x_T m) (x_P m) (x_Tmin m) (x_Tmax m) (x_init m) (x_atoms m) (x_snames m) (x_spstart m) (x_spphase m) (x_mf m).
Definition with_st_tok (m : mix) st tok := MIX (x_ph m) st (x_moles m) tok (x_enames m) (x_nsp m)
  (x_T m) (x_P m) (x_Tmin m) (x_Tmax m) (x_init m) (x_atoms m) (x_snames m) (x_spstart m) (x_spphase m) (x_mf m).
Definition with_TP (m : mix) T P := MIX (x_ph m) (x_st m) (x_moles m) (x_tok m) (x_enames m) (x_nsp m)
  T P (x_Tmin m) (x_Tmax m) (x_init m) (x_atoms m) (x_snames m) (x_spstart m) (x_spphase m) (x_mf m).
Definition with_moles (m : mix) n := MIX (x_ph m) (x_st m) n (x_tok m) (x_enames m) (x_nsp m)
  (x_T m) (x_P m) (x_Tmin m) (x_Tmax m) (x_init m) (x_atoms m) (x_snames m) (x_spstart m) (x_spphase m) (x_mf m).
Definition with_mf (m : mix) mf := MIX (x_ph m) (x_st m) (x_moles m) (x_tok m) (x_enames m) (x_nsp m)
  (x_T m) (x_P m) (x_Tmin m) (x_Tmax m) (x_init m) (x_atoms m) (x_snames m) (x_spstart m) (x_spphase m) mf.

Definition res := (outcome unit * mix)%type.
Definition andthen (r : res) (f : mix -> res) : res :=
  match fst r with Ok _ => f (snd r) | _ => r end.

(** The empty mixture: m_temp = 298.15, m_press = OneBar, m_Tmin = 1, m_Tmax = 100000
    (MultiPhase.h:639-672). *)
Definition empty : mix :=
  MIX [] [] [] [] [] 0 (29815 / 100) 100000 1 100000 false [] [] [] [] [].

(** m_enamemap lookups of addPhase, Phase::elementIndex and MultiPhase::elementIndex: position of a
    name in a list. *)
Fixpoint index (e : string) (l : list string) : option nat :=
  match l with
  | [] => None
  | x :: l => if string_dec x e then Some 0%nat else option_map S (index e l)
  end.
(** addPhase, 72-92: names not yet listed are appended. *)
Fixpoint add_names (l new : list string) : list string :=
  match new with
  | [] => l
  | e :: new => add_names (match index e l with None => l ++ [e] | Some _ => l end) new
  end.

(** MultiPhase::addPhase, 52-121. *)
Definition addPhase (m : mix) (p : ph) (q : pst) (moles : R) : res :=
  if x_init m then (Err, m)
  else if negb (p_compat p) then (Err, m)
  else
    let tp := if reqb (x_T m) (29815 / 100) && rltb (2 / 1000) (qT q) then (qT q, qP q)
              else (x_T m, x_P m) in
    let lim := if (1 <? nsp p)%nat then (Rmax (p_minT p) (x_Tmin m), Rmin (p_maxT p) (x_Tmax m))
               else (x_Tmin m, x_Tmax m) in
    (Ok tt, MIX (x_ph m ++ [p]) (x_st m ++ [q]) (x_moles m ++ [moles]) (x_tok m ++ [true])
       (add_names (x_enames m) (p_elems p)) (x_nsp m + nsp p)
       (fst tp) (snd tp) (fst lim) (snd lim)
       (x_init m) (x_atoms m) (x_snames m) (x_spstart m) (x_spphase m) (x_mf m)).

(** MultiPhase::updatePhases, 829-841: every phase gets the mixture's temperature, pressure and its
    block of m_moleFractions. *)
Fixpoint update_loop (T P : R) (ps : list ph) (qs : list pst) (tok : list bool) (mf : list R)
  : outcome unit * (list pst * list bool) :=
  match ps, qs, tok with
  | p :: ps, q :: qs, t :: tok =>
      if (List.length mf <? nsp p)%nat then (UB, (q :: qs, t :: tok)) else
      match setTPX p q T P (firstn (nsp p) mf) with
      | (Ok _, q') =>
          let t' := negb (rltb T (p_minT p) || rltb (p_maxT p) T) in
          let r := update_loop T P ps qs tok (skipn (nsp p) mf) in
          (fst r, (q' :: fst (snd r), t' :: snd (snd r)))
      | (o, q') => (o, (q' :: qs, t :: tok))
      end
  | _, _, _ => (Ok tt, (qs, tok))
  end.
Definition updatePhases (m : mix) : res :=
  let r := update_loop (x_T m) (x_P m) (x_ph m) (x_st m) (x_tok m) (x_mf m) in
  (fst r, with_st_tok m (fst (snd r)) (snd (snd r))).

(** MultiPhase::uploadMoleFractionsFromPhases, 818-827 (calcElemAbundances only fills the scratch
    array m_elemAbundances). *)
Definition upload (m : mix) : mix := with_mf m (concat (map qX (x_st m))).

(** MultiPhase::init, 123-175.  The inner loops for element m fill row m of m_atoms; those for
    element 0 also list the species names, phase starts and owners. *)
Definition atoms_row (ps : list ph) (e : string) : list R :=
  flat_map (fun p => map (fun kp => match index e (p_elems p) with
                                    | Some ml => p_atoms p kp ml
                                    | None => 0
                                    end) (seq 0 (nsp p))) ps.
Fixpoint starts (ps : list ph) (at_ : nat) : list nat :=
  match ps with
  | [] => []
  | p :: ps => if (nsp p =? 0)%nat then starts ps at_ else at_ :: starts ps (at_ + nsp p)
  end.
Fixpoint owners (ps : list ph) (ip : nat) : list nat :=
  match ps with
  | [] => []
  | p :: ps => repeat ip (nsp p) ++ owners ps (S ip)
  end.
Definition init (m : mix) : res :=
  if x_init m then (Ok tt, m) else
  let some := match x_enames m with [] => false | _ => true end in
  updatePhases (upload
    (MIX (x_ph m) (x_st m) (x_moles m) (x_tok m) (x_enames m) (x_nsp m)
       (x_T m) (x_P m) (x_Tmin m) (x_Tmax m) true
       (map (atoms_row (x_ph m)) (x_enames m))
       (if some then flat_map p_species (x_ph m) else [])
       (if some then starts (x_ph m) 0 else [])
       (if some then owners (x_ph m) 0 else [])
       (repeat 0 (x_nsp m)))).

(** MultiPhase::setMoles, 391-419: blocks of [n], one per phase; m_moles gets their sums; phases with
    more than one species and a positive amount take the block as composition; the mole fraction of
    the only species of a phase is set to 1 — also for a phase without species, where that slot
    belongs to the next phase or lies past the end of the array. *)
Definition write_first (mf : list R) : outcome (list R) :=
  match mf with [] => UB | _ :: t => Ok (1 :: t) end.
Fixpoint moles_loop (T P : R) (ps : list ph) (qs : list pst) (nm : list R) (n mf : list R)
  : outcome unit * (list pst * list R * list R) :=
  match ps, qs, nm with
  | p :: ps, q :: qs, v :: nm =>
      let k := nsp p in
      let b := firstn k n in
      let phasemoles := rsum b in
      if (1 <? k)%nat then
        let r := if rltb 0 phasemoles then setTPX p q T P b else (Ok tt, q) in
        match r with
        | (Ok _, q') =>
            let s := moles_loop T P ps qs nm (skipn k n) (skipn k mf) in
            (fst s, (q' :: fst (fst (snd s)), phasemoles :: snd (fst (snd s)),
                     qX q' ++ snd (snd s)))
        | (o, q') => (o, (q' :: qs, phasemoles :: nm, mf))
        end
      else
        match write_first mf with
        | Ok mf' =>
            let s := moles_loop T P ps qs nm (skipn k n) (skipn k mf') in
            (fst s, (q :: fst (fst (snd s)), phasemoles :: snd (fst (snd s)),
                     firstn k mf' ++ snd (snd s)))
        | _ => (UB, (q :: qs, phasemoles :: nm, mf))
        end
  | _, _, _ => (Ok tt, (qs, nm, mf))
  end.
Definition setMoles (m : mix) (n : list R) : res :=
  andthen (init m) (fun m =>
    if (List.length n <? x_nsp m)%nat then (UB, m) else
    let r := moles_loop (x_T m) (x_P m) (x_ph m) (x_st m) (x_moles m) n (x_mf m) in
    (fst r, with_mf (with_moles (with_st m (fst (fst (snd r)))) (snd (fst (snd r)))) (snd (snd r)))).

(** MultiPhase::getMoles, 376-389: the mole fractions, block by block times the phase moles. *)
Fixpoint scale_blocks (ps : list ph) (nm mf : list R) : list R :=
  match ps, nm with
  | p :: ps, v :: nm => map (fun x => x * v) (firstn (nsp p) mf) ++ scale_blocks ps nm (skipn (nsp p) mf)
  | _, _ => mf
  end.
Definition getMoles (m : mix) : list R := scale_blocks (x_ph m) (x_moles m) (x_mf m).

Definition rd {A} (l : list A) (k : nat) : outcome A :=
  match nth_error l k with Some v => Ok v | None => UB end.

(** MultiPhase::speciesMoles, 191-195. *)
Definition speciesMoles (m : mix) (k : nat) : outcome R :=
  obind (rd (x_spphase m) k) (fun ip =>
  obind (rd (x_moles m) ip) (fun v =>
  obind (rd (x_mf m) k) (fun x => Ok (v * x)))).
(** MultiPhase::nAtoms, 768-771. *)
Definition nAtoms (m : mix) (k e : nat) : outcome R := obind (rd (x_atoms m) e) (fun r => rd r k).
(** MultiPhase::speciesIndex(k, p), MultiPhase.h:242-244. *)
Definition speciesIndex (m : mix) (k p : nat) : outcome nat :=
  obind (rd (x_spstart m) p) (fun s => Ok (s + k)%nat).

(** A C++ loop summing terms that may be undefined. *)
Fixpoint osum (l : list (outcome R)) : outcome R :=
  match l with
  | [] => Ok 0
  | a :: l => obind a (fun v => obind (osum l) (fun s => Ok (v + s)))
  end.
(** MultiPhase::elementMoles, 197-210. *)
Definition elementMoles (m : mix) (e : nat) : outcome R :=
  osum (map (fun i =>
    match nth_error (x_ph m) i with
    | None => UB
    | Some p =>
        obind (osum (map (fun ik =>
          obind (speciesIndex m ik i) (fun k =>
          obind (nAtoms m k e) (fun a =>
          obind (rd (x_mf m) k) (fun x => Ok (a * x))))) (seq 0 (nsp p)))) (fun s =>
        obind (rd (x_moles m) i) (fun v => Ok (s * v)))
    end) (seq 0 (List.length (x_ph m)))).
(** MultiPhase::phaseCharge, 237-246, and charge, 212-219, in units of the Faraday constant. *)
Definition phaseCharge (m : mix) (i : nat) : outcome R :=
  match nth_error (x_ph m) i with
  | None => UB
  | Some p =>
      obind (osum (map (fun ik =>
        obind (speciesIndex m ik i) (fun k =>
        obind (rd (x_mf m) k) (fun x => Ok (p_charge p ik * x)))) (seq 0 (nsp p)))) (fun s =>
      obind (rd (x_moles m) i) (fun v => Ok (s * v)))
  end.
Definition charge (m : mix) : outcome R :=
  osum (map (phaseCharge m) (seq 0 (List.length (x_ph m)))).

(** MultiPhase::getElemAbundances, 447-453, and calcElemAbundances, 455-475: here the running index
    [loc + ik] is used instead of m_spstart. *)
Fixpoint abund_loop (row : list R) (ps : list ph) (nm mf : list R) : R :=
  match ps, nm with
  | p :: ps, v :: nm =>
      rsum (map2 (fun a x => a * (x * v)) (firstn (nsp p) row) (firstn (nsp p) mf))
      + abund_loop (skipn (nsp p) row) ps nm (skipn (nsp p) mf)
  | _, _ => 0
  end.
Definition getElemAbundances (m : mix) : list R :=
  map (fun row => abund_loop row (x_ph m) (x_moles m) (x_mf m)) (x_atoms m).

(** MultiPhase::setPhaseMoles, 798-801. *)
Fixpoint set_nth {A} (l : list A) (i : nat) (v : A) : list A :=
  match l, i with
  | [], _ => []
  | _ :: t, O => v :: t
  | h :: t, S i => h :: set_nth t i v
  end.
Definition setPhaseMoles (m : mix) (i : nat) (v : R) : res :=
  if (i <? List.length (x_moles m))%nat then (Ok tt, with_moles m (set_nth (x_moles m) i v)) else (UB, m).

(** MultiPhase::setPhaseMoleFractions, 346-357: the phase normalises [x], m_moleFractions keeps it as
    given. *)
Definition put (l : list R) (at_ : nat) (v : list R) : list R :=
  firstn at_ l ++ v ++ skipn (at_ + List.length v) l.
Definition setPhaseMoleFractions (m : mix) (i : nat) (x : list R) : res :=
  andthen (init m) (fun m =>
    match nth_error (x_ph m) i, nth_error (x_st m) i with
    | Some p, Some q =>
        if (List.length x <? nsp p)%nat then (UB, m) else
        let x := firstn (nsp p) x in
        match setTPX p q (x_T m) (x_P m) x with
        | (Ok _, q') =>
            let m' := with_st m (set_nth (x_st m) i q') in
            match nth_error (x_spstart m) i with
            | Some s => if (s + List.length x <=? List.length (x_mf m))%nat
                        then (Ok tt, with_mf m' (put (x_mf m) s x)) else (UB, m')
            | None => (UB, m')
            end
        | (o, q') => (o, with_st m (set_nth (x_st m) i q'))
        end
    | _, _ => (UB, m)
    end).

(** MultiPhase::setMolesByName, 359-367: getValue looks the species' name up (default 0). *)
Fixpoint getValue (c : list (string * R)) (name : string) : R :=
  match c with
  | [] => 0
  | (s, v) :: c => if string_dec s name then v else getValue c name
  end.
Definition setMolesByName (m : mix) (c : list (string * R)) : res :=
  if (List.length (x_snames m) <? x_nsp m)%nat then (UB, m) else
  setMoles m (map (fun s => Rmax (getValue c s) 0) (firstn (x_nsp m) (x_snames m))).

(** MultiPhase::addSpeciesMoles, 421-428. *)
Definition addSpeciesMoles (m : mix) (k : nat) (dn : R) : res :=
  if (List.length (x_mf m) <=? x_nsp m)%nat && (k <? x_nsp m)%nat then
    let tmp := getMoles m ++ repeat 0 (x_nsp m - List.length (x_mf m)) in
    setMoles m (set_nth tmp k (Rmax (nth k tmp 0 + dn) 0))
  else (UB, m).

(** MultiPhase::setTemperature, 711-718; setPressure, MultiPhase.h:419-422 (which does not call
    init); setState_TP, 430-438; setState_TPMoles, 440-444. *)
Definition setTemperature (m : mix) (T : R) : res :=
  andthen (init m) (fun m => updatePhases (with_TP m T (x_P m))).
Definition setPressure (m : mix) (P : R) : res := updatePhases (with_TP m (x_T m) P).
Definition setState_TP (m : mix) (T P : R) : res :=
  andthen (init m) (fun m => updatePhases (with_TP m T P)).
Definition setState_TPMoles (m : mix) (T P : R) (n : list R) : res := setMoles (with_TP m T P) n.

(** A phase object changed by its owner behind the mixture's back (phases are shared pointers):
    setState_TPX on phase [i]. *)
Definition external (m : mix) (i : nat) (T P : R) (x : list R) : res :=
  match nth_error (x_ph m) i, nth_error (x_st m) i with
  | Some p, Some q =>
      if (List.length x =? nsp p)%nat then
        let r := setTPX p q T P x in (fst r, with_st m (set_nth (x_st m) i (snd r)))
      else (UB, m)
  | _, _ => (UB, m)
  end.
(** The public uploadMoleFractionsFromPhases() before init() writes past the end of an empty array. *)
Definition uploadMoleFractionsFromPhases (m : mix) : res :=
  if (List.length (x_mf m) <? x_nsp m)%nat then (UB, m) else (Ok tt, upload m).

(** MultiPhase::gibbs, enthalpy, IntEnergy, entropy, cp, 286-344: updatePhases, then the molar values
    [f] of the phases with a positive amount, weighted by the amounts.  [updatePhases] may throw. *)
Fixpoint weighted (f : ph -> pst -> R) (ps : list ph) (qs : list pst) (nm : list R) : R :=
  match ps, qs, nm with
  | p :: ps, q :: qs, v :: nm => (if rltb 0 v then f p q * v else 0) + weighted f ps qs nm
  | _, _, _ => 0
  end.
Definition extensive (f : ph -> pst -> R) (m : mix) : outcome R * mix :=
  let r := updatePhases m in
  (omap (fun _ => weighted f (x_ph m) (x_st (snd r)) (x_moles m)) (fst r), snd r).
(** MultiPhase::volume, 477-485: the phases are read as they are. *)
Fixpoint volume_sum (f : ph -> pst -> R) (ps : list ph) (qs : list pst) (nm : list R) : R :=
  match ps, qs, nm with
  | p :: ps, q :: qs, v :: nm => v * f p q + volume_sum f ps qs nm
  | _, _, _ => 0
  end.
Definition volume (f : ph -> pst -> R) (m : mix) : R := volume_sum f (x_ph m) (x_st m) (x_moles m).

(** MultiPhase::equilibrate, 647-709.  A solver is any function from mixtures to an outcome and the
    mixture it leaves behind. *)
Inductive solver := Auto | Vcs | Gibbs | Other.
Definition restore (m0 m : mix) : res :=
  updatePhases (with_TP (with_moles (with_mf m (x_mf m0)) (x_moles m0)) (x_T m0) (x_P m0)).
Definition rethrow (o : outcome unit) (r : res) : res :=
  match fst r with Ok _ => (o, snd r) | _ => r end.
Definition equilibrate (vcs gibbs : mix -> res) (xy_ok : bool) (s : solver) (m0 : mix) : res :=
  if negb xy_ok then (Err, m0) else
  let try_gibbs m :=
    match gibbs m with
    | (Ok _, m') => (Ok tt, m')
    | (UB, m') => (UB, m')
    | (o, m') => rethrow o (restore m0 m')
    end in
  match s with
  | Other => (Err, m0)
  | Gibbs => try_gibbs m0
  | Vcs => match vcs m0 with
           | (Ok _, m') => (Ok tt, m')
           | (UB, m') => (UB, m')
           | (o, m') => rethrow o (restore m0 m')
           end
  | Auto => match vcs m0 with
            | (Ok _, m') => (Ok tt, m')
            | (UB, m') => (UB, m')
            | (_, m') => andthen (restore m0 m') try_gibbs
            end
  end.

(** The TV branch of equilibrate_MultiPhaseEquil, 620-644: [inner] is the fixed-TP calculation,
    [vol] the molar volumes.  The number returned is -1 when the iterations are used up. *)
Fixpoint tv_loop (inner : mix -> res) (vol : ph -> pst -> R) (err v0 : R) (maxiter : nat) (m : mix)
  : outcome R * mix :=
  match maxiter with
  | O => (Ok (-1), m)
  | S n =>
      let pnow := x_P m in
      match inner m with
      | (Ok _, m1) =>
          let vnow := volume vol m1 in
          if rltb (Rabs ((v0 - vnow) / v0)) err then (Ok err, m1) else
          match setPressure m1 (pnow * (101 / 100)) with
          | (Ok _, m2) =>
              let dVdP := (volume vol m2 - vnow) / (1 / 100 * pnow) in
              match setPressure m2 (pnow + 1 / 2 * (v0 - vnow) / dVdP) with
              | (Ok _, m3) => tv_loop inner vol err v0 n m3
              | (o, m3) => (omap (fun _ => 0) o, m3)
              end
          | (o, m2) => (omap (fun _ => 0) o, m2)
          end
      | (o, m1) => (omap (fun _ => 0) o, m1)
      end
  end.
(** As equilibrate sees it (the number is ignored, 686-691). *)
Definition gibbs_TV (inner : mix -> res) (vol : ph -> pst -> R) (err : R) (maxiter : nat) (m : mix) : res :=
  andthen (init m) (fun m =>
    let r := tv_loop inner vol err (volume vol m) maxiter m in (omap (fun _ => tt) (fst r), snd r)).

(** Histories: phases are added, then the mixture is initialised and used. *)
Inductive op :=
| AddPhase (p : ph) (q : pst) (moles : R)
| Init
| SetMoles (n : list R)
| SetMolesByName (c : list (string * R))
| AddSpeciesMoles (k : nat) (dn : R)
| SetPhaseMoles (i : nat) (v : R)
| SetPhaseMoleFractions (i : nat) (x : list R)
| SetTemperature (T : R)
| SetPressure (P : R)
| SetTP (T P : R)
| SetTPMoles (T P : R) (n : list R)
| Upload
| External (i : nat) (T P : R) (x : list R).
Definition run_op (m : mix) (o : op) : res :=
  match o with
  | AddPhase p q v => addPhase m p q v
  | Init => init m
  | SetMoles n => setMoles m n
  | SetMolesByName c => setMolesByName m c
  | AddSpeciesMoles k dn => addSpeciesMoles m k dn
  | SetPhaseMoles i v => setPhaseMoles m i v
  | SetPhaseMoleFractions i x => setPhaseMoleFractions m i x
  | SetTemperature T => setTemperature m T
  | SetPressure P => setPressure m P
  | SetTP T P => setState_TP m T P
  | SetTPMoles T P n => setState_TPMoles m T P n
  | Upload => uploadMoleFractionsFromPhases m
  | External i T P x => external m i T P x
  end.
(** A program goes on after an exception; undefined behaviour ends it. *)
Fixpoint run (m : mix) (ops : list op) : option mix :=
  match ops with
  | [] => Some m
  | o :: ops => match run_op m o with
                | (UB, _) => None
                | (_, m') => run m' ops
                end
  end.
