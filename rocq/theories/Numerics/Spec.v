(* What the numerical helpers are documented to do, independently of storage. *)
From Coq Require Import Reals List Bool Arith.
From Verif Require Import Base.Outcome Base.RSum Numerics.Model.
Import ListNotations.
Local Open Scope R_scope.

(** ** Tables *)

(* x-coordinates increase strictly. *)
Definition increasing (x : list R) : Prop :=
  forall i, (S i < length x)%nat -> nth i x 0 < nth (S i) x 0.
(* ... or weakly. *)
Definition nondecreasing (x : list R) : Prop :=
  forall i, (S i < length x)%nat -> nth i x 0 <= nth (S i) x 0.

(* g has the tabulated values and is affine between neighbours. *)
Definition piecewise_linear (g : R -> R) (x f : list R) : Prop :=
  forall i t, (S i < length x)%nat -> nth i x 0 <= t <= nth (S i) x 0 ->
    g t = nth i f 0 + (t - nth i x 0) * (nth (S i) f 0 - nth i f 0) / (nth (S i) x 0 - nth i x 0).

(* g has the tabulated values and agrees with a polynomial of degree at most two
   on every second interval pair [x(2k), x(2k+2)], k < n. *)
Definition piecewise_quadratic (g : R -> R) (x f : list R) (n : nat) : Prop :=
  forall k, (k < n)%nat -> exists a b c,
    (forall t, nth (2 * k) x 0 <= t <= nth (2 * k + 2) x 0 -> g t = a * t ^ 2 + b * t + c) /\
    (forall i, (2 * k <= i <= 2 * k + 2)%nat -> nth i f 0 = g (nth i x 0)).

(** ** Matrices: a size and a function of the two indices *)

Record matrix := Matrix { M_nr : nat; M_nc : nat; M_at : nat -> nat -> R }.

Definition arr_step (m : matrix) (o : aop) : matrix :=
  match o with
  | ASet i j v =>
      Matrix (M_nr m) (M_nc m) (fun a b => if Nat.eqb a i && Nat.eqb b j then v else M_at m a b)
  | AResize n c v =>
      Matrix n c (fun a b => if Nat.ltb b (M_nc m) then M_at m a b else v)
  | ASetRow n rw => Matrix (M_nr m) (M_nc m) (fun a b => if Nat.eqb a n then rw b else M_at m a b)
  | ASetColumn c col => Matrix (M_nr m) (M_nc m) (fun a b => if Nat.eqb b c then col a else M_at m a b)
  | AZero => Matrix (M_nr m) (M_nc m) (fun _ _ => 0)
  | AScale c => Matrix (M_nr m) (M_nc m) (fun a b => M_at m a b * c)
  end.
(* Indices in range; resizing keeps the number of rows. *)
Definition arr_pre (m : matrix) (o : aop) : Prop :=
  match o with
  | ASet i j _ => (i < M_nr m)%nat /\ (j < M_nc m)%nat
  | AResize n _ _ => n = M_nr m
  | ASetRow n _ => (n < M_nr m)%nat
  | ASetColumn c _ => (c < M_nc m)%nat
  | AZero | AScale _ => True
  end.
Fixpoint arr_ok (ops : list aop) (m : matrix) : Prop :=
  match ops with [] => True | o :: ops' => arr_pre m o /\ arr_ok ops' (arr_step m o) end.

(* A band matrix: n by n, entries outside the band are zero. *)
Record bmatrix := BMatrix { B_n : nat; B_kl : nat; B_ku : nat; B_at : nat -> nat -> R }.
Definition in_band (kl ku i j : nat) : Prop := (j <= i + ku)%nat /\ (i <= j + kl)%nat.
Definition in_bandb (kl ku i j : nat) : bool := Nat.leb j (i + ku) && Nat.leb i (j + kl).
Definition constant_band (n kl ku : nat) (v : R) : bmatrix :=
  BMatrix n kl ku (fun i j => if in_bandb kl ku i j then v else 0).

Definition band_step (m : bmatrix) (o : bop) : bmatrix :=
  match o with
  | BSet i j v =>
      BMatrix (B_n m) (B_kl m) (B_ku m)
        (fun a b => if Nat.eqb a i && Nat.eqb b j && in_bandb (B_kl m) (B_ku m) i j then v
                    else B_at m a b)
  | BRef _ _ | BFactor | BSolve => m
  | BFill v => constant_band (B_n m) (B_kl m) (B_ku m) v
  | BResize n kl ku v => constant_band n kl ku v
  end.
Definition band_pre (m : bmatrix) (o : bop) : Prop :=
  match o with
  | BSet i j _ | BRef i j => (i < B_n m)%nat /\ (j < B_n m)%nat
  | _ => True
  end.
Fixpoint band_ok (ops : list bop) (m : bmatrix) : Prop :=
  match ops with [] => True | o :: ops' => band_pre m o /\ band_ok ops' (band_step m o) end.

(* The largest magnitude in a line of length n. *)
Definition line_max (a : nat -> R) (n : nat) (v : R) : Prop :=
  (forall k, (k < n)%nat -> Rabs (a k) <= v) /\ exists k, (k < n)%nat /\ Rabs (a k) = v.

(* The first of the n lines whose largest magnitude is smallest, with that
   magnitude; none if all are 1e300 or more. *)
Definition weakest (a : nat -> nat -> R) (n : nat) (r : option nat * R) : Prop :=
  match r with
  | (Some i, v) => (i < n)%nat /\ line_max (a i) n v /\ v < huge300 /\
      (forall k, (k < i)%nat -> exists w, line_max (a k) n w /\ v < w) /\
      (forall k, (i < k < n)%nat -> exists w, line_max (a k) n w /\ v <= w)
  | (None, v) => v = huge300 /\ forall k, (k < n)%nat -> exists w, line_max (a k) n w /\ huge300 <= w
  end.
