(** What the solution models with an excess Gibbs energy must report: everything follows from the
    total excess Gibbs energy as a function of temperature and the mole numbers of the species. *)
From Coquelicot Require Import Coquelicot.
From Coq Require Import Reals List Arith.
From Verif Require Import Base.RSum Base.Vec Units.Model Excess.Model.
Import ListNotations.
Open Scope R_scope.

(** Moles in the phase, and the mole fractions, for the mole numbers m of n species. *)
Definition total (m : vec) (n : nat) : R := sum_n m n.
Definition fractions (m : vec) (n : nat) : vec := fun k => m k / total m n.
(** The mole fractions of a mixture sum to one. *)
Definition mixture (x : vec) (n : nat) : Prop := sum_n x n = 1.

(** Total excess Gibbs energy and volume of the Margules model (MargulesVPSSTP.h documentation):
    N X_A X_B (b + c X_B) for each interaction. *)
Definition margules_G (L : list inter) (n : nat) (T : R) (m : vec) : R :=
  total m n * sum_of (fun i => let X := fractions m n in
    X (iA i) * X (iB i) * ((h0 i - T * s0 i) + (h1 i - T * s1 i) * X (iB i))) L.
Definition margules_V (L : list inter) (n : nat) (T : R) (m : vec) : R :=
  total m n * sum_of (fun i => let X := fractions m n in
    X (iA i) * X (iB i) * ((vh0 i - T * vs0 i) + (vh1 i - T * vs1 i) * X (iB i))) L.
(** Total excess Gibbs energy of the Redlich-Kister model (RedlichKisterVPSSTP.h):
    N X_A X_B sum_m (h_m - T s_m) (X_A - X_B)^m for each interaction. *)
Definition rk_G (L : list rki) (n : nat) (T : R) (m : vec) : R :=
  total m n * sum_of (fun i => let X := fractions m n in
    X (rA i) * X (rB i) *
    sum_n (fun j => let hs := nth j (rhs i) (0, 0) in
                    (fst hs - T * snd hs) * (X (rA i) - X (rB i)) ^ j) (length (rhs i))) L.

(** Interactions between two different species of the phase. *)
Definition proper (L : list inter) (n : nat) : Prop :=
  forall i, In i L -> (iA i < n /\ iB i < n /\ iA i <> iB i)%nat.
Definition rk_proper (L : list rki) (n : nat) : Prop :=
  forall i, In i L -> (rA i < n /\ rB i < n /\ rA i <> rB i)%nat.

(** v is the derivative of f at x with respect to the k-th variable. *)
Definition partial_at (f : vec -> R) (x : vec) (k : nat) (v : R) : Prop :=
  is_derive (fun t => f (upd x k t)) (x k) v.

(** Standard states whose properties fit together. *)
Definition consistent (st : std) (T : R) (k : nat) : Prop :=
  st_mu st T k = st_h st T k - T * st_s st T k
  /\ is_derive (fun t => st_mu st t k) T (- st_s st T k)
  /\ is_derive (fun t => st_h st t k) T (st_cp st T k).
