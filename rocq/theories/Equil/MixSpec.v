(** Specification vocabulary for mixtures of phases, independent of the bookkeeping of
    Equil/MixModel.v (only the data types of phases and mixtures are used). *)
From Coq Require Import Reals String List Arith.
From Verif Require Import Base.RSum Base.Map2 Equil.MixModel.
Import ListNotations.
Local Open Scope R_scope.

(** The species of a list of phases in order, each as its phase and its index there. *)
Definition all_species (ps : list ph) : list (ph * nat) :=
  flat_map (fun p => map (fun k => (p, k)) (seq 0 (List.length (p_species p)))) ps.
(** Atoms of the element called [e] in a species: none if its phase does not know the element. *)
Definition atoms_of (e : string) (s : ph * nat) : R :=
  match index e (p_elems (fst s)) with
  | Some m => p_atoms (fst s) (snd s) m
  | None => 0
  end.
Definition charge_of (s : ph * nat) : R := p_charge (fst s) (snd s).
(** A quantity per mole of species, totalled over species amounts [n]. *)
Definition tally (f : ph * nat -> R) (ps : list ph) (n : list R) : R :=
  rsum (map2 (fun s v => f s * v) (all_species ps) n).
(** The part of [n] that belongs to phase [i]. *)
Definition before (ps : list ph) (i : nat) : nat :=
  fold_right (fun p s => (List.length (p_species p) + s)%nat) 0%nat (firstn i ps).
Definition block (ps : list ph) (n : list R) (i : nat) : list R :=
  firstn (match nth_error ps i with Some p => List.length (p_species p) | None => 0%nat end)
         (skipn (before ps i) n).
(** The amount given for a name: that of the first entry with it, none otherwise. *)
Definition given (c : list (string * R)) (name : string) : R :=
  match find (fun e => String.eqb (fst e) name) c with Some e => snd e | None => 0 end.
(** Phases that can be used in a mixture: at least one species, and a composition with something in
    it. *)
Definition usable (p : ph) (q : pst) : Prop :=
  (0 < List.length (p_species p))%nat /\ List.length (qX q) = List.length (p_species p) /\
  (forall x, In x (qX q) -> 0 <= x) /\ rsum (qX q) = 1.
Definition wf_op (o : op) : Prop := match o with AddPhase p q _ => usable p q | _ => True end.
(** Mixtures reached from the empty one by any sequence of calls, refused ones included. *)
Definition reached (m : mix) : Prop :=
  exists ops, Forall wf_op ops /\ run empty ops = Some m.
(** A temperature and pressure that every phase of the mixture takes. *)
Definition accepts (m : mix) (T P : R) : Prop := 0 < T /\ Forall (fun p => p_pok p P = true) (x_ph m).
(** Every phase object has the mixture's temperature and pressure and its own part of the mixture's
    mole fractions (negative ones taken as zero, scaled to sum to one). *)
Definition synced (m : mix) : Prop :=
  forall i p, nth_error (x_ph m) i = Some p ->
    nth_error (x_st m) i = Some (PST (x_T m) (x_P m) (normalised (block (x_ph m) (x_mf m) i))).
