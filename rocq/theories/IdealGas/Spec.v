(* What is meant by a gas mixture, and by properties of amounts of it. *)
From Coq Require Import Reals List Bool Arith.
From Verif Require Import Base.RSum Units.Model IdealGas.Model.
Import ListNotations.
Local Open Scope R_scope.
Local Open Scope list_scope.

(* Positive temperature, density and mean weight; mole fractions add up to one; each species absent
   or present in more than a trace (SmallNumber = 1e-300 of a mole fraction, or of a specific mole
   number). *)
Definition trace_free (s : gst) (k : nat) : Prop :=
  moleFraction s k = 0 \/ (SmallNumber <= moleFraction s k /\ SmallNumber <= nth k (gYM s) 0).
Record mixture (s : gst) : Prop := MIX {
  m_T : 0 < gT s; m_D : 0 < gD s; m_W : 0 < gW s;
  m_sum : sum_n (moleFraction s) (kk s) = 1;
  m_pure : forall k, (k < kk s)%nat -> trace_free s k }.
(* The mole-fraction-weighted sum of values q of the species. *)
Definition mixed (s : gst) (q : list R) : R := sum_n (fun k => moleFraction s k * nth k q 0) (kk s).

(* The same composition at another temperature and pressure. *)
Definition at_Tp (s : gst) (T p : R) : gst := GST T (p * gW s / (T * GasConstant)) (gYM s) (gW s).
(* Amounts n_0, n_1, ... in kmol of the species, whose molecular weights are mw. *)
Definition moles (mw : list R) (n : nat -> R) : list R := map n (seq 0 (length mw)).
Definition at_moles (mw : list R) (T p : R) (n : nat -> R) : gst := at_Tp (setMoleFractions mw (GST T 1 [] 1) (moles mw n)) T p.
Definition total (mw : list R) (n : nat -> R) : R := sum_n n (length mw).
(* n with another amount of species k. *)
Definition with_amount (n : nat -> R) (k : nat) (x : R) : nat -> R := fun j => if Nat.eqb j k then x else n j.
