(** Specification vocabulary for runs of the equilibrium solver. *)
From Coq Require Import Reals List Arith.
From Verif Require Import Base.RSum Equil.ReactModel Equil.ReactSpec.
Import ListNotations.
Local Open Scope R_scope.

Section Runs.
Context (nel nsp : nat) (at_ : nat -> nat -> R) (ds : nat -> bool).
(** No species of a solution phase outside the components (the first [nel] species of the solver's
    order) has 1e-12 mol or less. *)
Definition no_minor (s : est) : Prop :=
  forall ik, (nel <= ik < nsp)%nat -> ds (e_order s ik) = true -> / 10 ^ 12 < e_moles s (e_order s ik).
(** Component searches get a list of all the species; composition steps are taken with no minor
    species around. *)
Definition good_act (s : est) (a : act) : Prop :=
  match a with
  | Components pref => ordering nsp pref
  | Compose _ _ _ _ => no_minor s
  | _ => True
  end.
Fixpoint good (s : est) (l : list act) : Prop :=
  match l with
  | [] => True
  | a :: l => good_act s a /\ forall s', act_step nel nsp at_ ds s a = Some s' -> good s' l
  end.
(** A species vector that changes no element total: column [j] of [N], in the order [o]. *)
Definition conserving (N : nat -> nat -> R) (o : nat -> nat) : Prop :=
  forall m j, (m < nel)%nat -> (j < nsp - nel)%nat -> sum_n (fun k => at_ (o k) m * N k j) nsp = 0.
(** Reaction [j] forms one mole of the [j]-th species outside the components, and no other of them. *)
Definition forming (N : nat -> nat -> R) : Prop :=
  forall n j, (nel <= n < nsp)%nat -> N n j = if (n =? j + nel)%nat then 1 else 0.
End Runs.
