(** Specification of a stoichiometry manager: the dense matrix of one side of the reactions. *)
From Coq Require Import Reals List Arith.
From Verif Require Import Base.RSum Base.Vec.
Import ListNotations.
Open Scope R_scope.

(** One side of a reaction as declared: reaction number, species numbers, orders, coefficients. *)
Definition decl : Type := (nat * list nat * list R * list R)%type.
Definition d_rxn (d : decl) : nat := fst (fst (fst d)).
Definition d_sp (d : decl) : list nat := snd (fst (fst d)).
Definition d_order (d : decl) : list R := snd (fst d).
Definition d_stoich (d : decl) : list R := snd d.

(** Total of [x_n] over the positions n of [ks] at which species [k] stands. *)
Fixpoint amount (k : nat) (ks : list nat) (xs : list R) : R :=
  match ks, xs with
  | k' :: ks', x :: xs' => (if Nat.eqb k' k then x else 0) + amount k ks' xs'
  | _, _ => 0
  end.

(** Stoichiometric coefficient of species k in reaction i. *)
Definition nu (ds : list decl) (k i : nat) : R :=
  sum_of (fun d => if Nat.eqb (d_rxn d) i then amount k (d_sp d) (d_stoich d) else 0) ds.

(** Mass-action factor of a species with concentration c and reaction order o. *)
Definition factor (c o : R) : R :=
  if Req_EM_T o 0 then 1 else if Rlt_dec 0 c then Rpower c o else 0.

Fixpoint factors (c : vec) (ks : list nat) (os : list R) : R :=
  match ks, os with
  | k :: ks', o :: os' => factor (c k) o * factors c ks' os'
  | _, _ => 1
  end.

(** Mass-action product of the declarations of reaction i. *)
Definition mass_action (ds : list decl) (c : vec) (i : nat) : R :=
  prod_of (fun d => if Nat.eqb (d_rxn d) i then factors c (d_sp d) (d_order d) else 1) ds.

(** Overall order of a declaration. *)
Definition total_order (d : decl) : R := rsum (d_order d).

(** Declarations accepted by the theorems: parallel vectors of equal length, nonnegative
    coefficients, indexes below the number of species and reactions. *)
Definition well_formed (nsp nrxn : nat) (d : decl) : Prop :=
  length (d_order d) = length (d_sp d) /\ length (d_stoich d) = length (d_sp d) /\
  Forall (fun s => 0 <= s) (d_stoich d) /\
  Forall (fun k => (k < nsp)%nat) (d_sp d) /\ (d_rxn d < nrxn)%nat.
