(** Model of the connection between MultiPhaseEquil and the mixture it works on
    (src/equil/MultiPhaseEquil.cpp): the constructor's choice of elements and species, and the
    mole numbers handed back to the mixture. *)
From Coq Require Import Reals String List Bool Arith.
From Verif Require Import Base.Fp Base.Outcome Base.RSum Equil.MixModel Equil.ReactModel.
Import ListNotations.
Local Open Scope R_scope.
Local Open Scope list_scope.

(** Constructor, 32. *)
Definition electron (e : string) : bool := String.eqb e "E" || String.eqb e "e".
(** 28-47: m_incl_element.  (An element called "E" or "e" is never excluded: m_eloc is set just
    before the test.)  Values read from the mixture that it does not have count as 0; the theorems
    are about initialised mixtures, where every read is inside its array. *)
Definition val {A} (d : A) (o : outcome A) : A := match o with Ok v => v | _ => d end.
Definition incl_element (m : mix) (e : nat) : bool :=
  negb (negb (rltb 0 (val 0 (elementMoles m e))) && negb (electron (nth e (x_enames m) EmptyString))).
(** MultiPhase::solutionSpecies, MultiPhase.cpp:277-284; tempOK, 813-816. *)
Definition solutionSpecies (m : mix) (k : nat) : bool :=
  match nth_error (x_spphase m) k with
  | Some i => match nth_error (x_ph m) i with Some p => (1 <? nsp p)%nat | None => false end
  | None => false
  end.
Definition temp_ok (m : mix) (k : nat) : bool :=
  match nth_error (x_spphase m) k with Some i => nth i (x_tok m) false | None => false end.
(** 40-46 and 72-76: m_incl_species. *)
Definition incl_species (m : mix) (k : nat) : bool :=
  forallb (fun e => incl_element m e || reqb (val 0 (nAtoms m k e)) 0) (seq 0 (List.length (x_enames m)))
  && (solutionSpecies m k || temp_ok m k).
(** 77-83: an excluded condensed species must not be present. *)
Definition refused (m : mix) (k : nat) : bool :=
  negb (solutionSpecies m k) && negb (temp_ok m k) && rltb 0 (val 0 (speciesMoles m k)).
(** 49-61: m_element, the electron first (m_eloc is the last element so called). *)
Fixpoint find_last (f : nat -> bool) (n : nat) : option nat :=
  match n with O => None | S n => if f n then Some n else find_last f n end.
Definition elements (m : mix) : list nat :=
  let eloc := find_last (fun e => electron (nth e (x_enames m) EmptyString)) (List.length (x_enames m)) in
  (match eloc with Some e => [e] | None => [] end) ++
  filter (fun e => incl_element m e && negb (match eloc with Some e' => (e =? e')%nat | None => false end))
         (seq 0 (List.length (x_enames m))).
(** 87-93: m_species. *)
Definition species (m : mix) : list nat := filter (incl_species m) (seq 0 (x_nsp m)).

(** 106-109: the initial mole numbers; m_mix->nAtoms(m_species[k], m_element[e]); m_dsoln, 141-145. *)
Definition initial_moles (m : mix) : vec := fun ik => val 0 (speciesMoles m (nth ik (species m) 0%nat)).
Definition solver_atoms (m : mix) : nat -> nat -> R :=
  fun k e => val 0 (nAtoms m (nth k (species m) 0%nat) (nth e (elements m) 0%nat)).
Definition dsoln (m : mix) : nat -> bool := fun k => solutionSpecies m (nth k (species m) 0%nat).

(** updateMixMoles, 174-181, and finish, 183-190: the array passed to setMoles. *)
Definition spread (size : nat) (sps : list nat) (moles : vec) : list R :=
  fold_left (fun l k => set_nth l (nth k sps 0%nat) (moles k)) (seq 0 (List.length sps)) (repeat 0 size).

(** Actions on the solver's mole numbers, each followed by updateMixMoles except getComponents
    (stepComposition also stores the point of its first attempt, which the second overwrites). *)
Fixpoint solve_acts (nel nsp : nat) (at_ : nat -> nat -> R) (ds : nat -> bool) (sps : list nat)
    (s : est) (m : mix) (l : list act) : outcome est * mix :=
  match l with
  | [] => (Ok s, m)
  | a :: l =>
      match act_step nel nsp at_ ds s a with
      | None => (Err, m)
      | Some s' =>
          match (match a with
                 | Components _ => (Ok tt, m)
                 | _ => setMoles m (spread (x_nsp m) sps (e_moles s'))
                 end) with
          | (Ok _, m') => solve_acts nel nsp at_ ds sps s' m' l
          | (o, m') => (omap (fun _ => s') o, m')
          end
      end
  end.
(** A complete calculation at fixed temperature and pressure: constructor, steps, finish.  The list
    of actions is arbitrary: it depends on chemical potentials, which are not modelled. *)
Definition gibbs_TP (m : mix) (l : list act) : res :=
  if existsb (refused m) (seq 0 (x_nsp m)) then (Err, m) else
  let sps := species m in
  match solve_acts (List.length (elements m)) (List.length sps) (solver_atoms m) (dsoln m) sps
          (EST (initial_moles m) (fun _ _ => 0) (fun k => k)) m l with
  | (Ok s, m') => setMoles m' (spread (x_nsp m) sps (finish (e_moles s)))
  | (o, m') => (omap (fun _ => tt) o, m')
  end.
