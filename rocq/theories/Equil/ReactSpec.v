(** Specification vocabulary for the equilibrium solver, independent of its model. *)
From Coq Require Import Reals List Arith.
From Verif Require Import Base.RSum.
Local Open Scope R_scope.

(** Amount of element [m] when the species amounts are [n]. *)
Definition total (nsp : nat) (atoms : nat -> nat -> R) (n : nat -> R) (m : nat) : R :=
  sum_n (fun k => atoms k m * n k) nsp.

(** No element's row of atom counts comes closer than 1e-10 to a combination of the other elements'
    rows without being that combination.  (True in particular whenever the rows are independent and
    not absurdly close to being dependent.) *)
Definition separated (nel nsp : nat) (atoms : nat -> nat -> R) : Prop :=
  forall (i : nat) (c : nat -> R), (i < nel)%nat -> c i = 0 ->
  (forall k, (k < nsp)%nat -> Rabs (atoms k i + sum_n (fun j => c j * atoms k j) nel) <= / 10 ^ 10) ->
  forall k, (k < nsp)%nat -> atoms k i + sum_n (fun j => c j * atoms k j) nel = 0.

(** A list of the numbers below [n], each once, as a function of the position. *)
Definition ordering (n : nat) (o : nat -> nat) : Prop :=
  (forall k, (k < n)%nat -> (o k < n)%nat) /\
  (forall i j, (i < n)%nat -> (j < n)%nat -> o i = o j -> i = j).
