(** C arrays of double, as total functions from the index to the value.  The modelled code receives
    raw pointers and performs no bounds checks, so that the property theorems quantify over all
    contents; lengths are stated where the code uses them. *)
From Coq Require Import Reals Arith.
Open Scope R_scope.

Definition vec := nat -> R.

Definition upd (v : vec) (i : nat) (x : R) : vec :=
  fun j => if Nat.eqb j i then x else v j.

Definition zeros : vec := fun _ => 0.

Lemma upd_same v i x : upd v i x i = x.
Proof. unfold upd. now rewrite Nat.eqb_refl. Qed.

Lemma upd_other v i x j : j <> i -> upd v i x j = v j.
Proof. intros H. unfold upd. destruct (Nat.eqb_spec j i); [contradiction|reflexivity]. Qed.
