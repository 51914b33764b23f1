(** What a cubic equation of state must report: everything follows from one function, the Helmholtz
    energy as a function of temperature, volume and the mole numbers of the species. *)
From Coquelicot Require Import Coquelicot.
From Coq Require Import Reals List Arith.
From Verif Require Import Base.RSum Base.Vec Units.Model Excess.Spec Cubic.Model.
Open Scope R_scope.

(** Covolume and attraction of the mole numbers m: linear and quadratic mixing rules. *)
Definition covolume (n : nat) (b m : vec) : R := sum_n (fun i => m i * b i) n.
Definition attraction (n : nat) (q : nat -> nat -> R) (m : vec) : R :=
  sum_n (fun i => sum_n (fun j => q i j * m i * m j) n) n.

(** Helmholtz energy of the ideal gas mixture. *)
Definition ideal_A (r : refdata) (T V : R) (m : vec) : R :=
  sum_n (fun k => m k * (gibbs_ref r T k - GasConstant * T
                         + GasConstant * T * ln (m k * (GasConstant * T) / (V * rp0 r)))) (rn r).

(** Peng and Robinson's temperature dependence of the attraction of species i and j. *)
Definition pr_alpha (s : pr) (T : R) (i : nat) : R :=
  (1 + p_kappa s i * (1 - sqrt (T / pr_crit (p_a s i i) (p_b s i)))) ^ 2.
Definition pr_attr (s : pr) (T : R) (i j : nat) : R :=
  sqrt (pr_alpha s T i * pr_alpha s T j) * p_a s i j.
(** Helmholtz energy of Peng and Robinson's equation of state. *)
Definition pr_A (s : pr) (T V : R) (m : vec) : R :=
  let n := rn (p_ref s) in
  let B := covolume n (p_b s) m in
  ideal_A (p_ref s) T V m - total m n * (GasConstant * T) * ln (1 - B / V)
  - attraction n (pr_attr s T) m / (2 * sqrt 2 * B)
    * ln ((V + (1 + sqrt 2) * B) / (V + (1 - sqrt 2) * B)).

(** Helmholtz energy of Redlich and Kwong's equation of state. *)
Definition rk_attr (s : rk) (T : R) (i j : nat) : R := k_a0 s i j + k_a1 s i j * T.
Definition rk_A (s : rk) (T V : R) (m : vec) : R :=
  let n := rn (k_ref s) in
  let B := covolume n (k_b s) m in
  ideal_A (k_ref s) T V m - total m n * (GasConstant * T) * ln (1 - B / V)
  - attraction n (rk_attr s T) m / (sqrt T * B) * ln (1 + B / V).

(** A state in which the formulas are defined: positive temperature, mole fractions that sum to one,
    none of them below the cut-offs that the code uses inside logarithms, and a molar volume larger
    than the positive covolume. *)
Definition state_ok (r : refdata) (b : vec) (T v : R) (x : vec) : Prop :=
  let n := rn r in
  0 < T /\ 0 < rp0 r /\ mixture x n
  /\ (forall k, (k < n)%nat -> SmallNumber <= x k)
  /\ (forall k, (k < n)%nat -> 0 < rw r k /\ SmallNumber * sum_n (fun i => x i * rw r i) n <= x k)
  /\ 0 < covolume n b x < v.
(** Reference state data that fit together: d(h0)/dT = cp0, d(s0)/dT = cp0/T. *)
Definition ref_ok (r : refdata) (T : R) : Prop :=
  forall k, (k < rn r)%nat ->
    is_derive (fun t => t * rh r t k) T (rcp r T k)
    /\ is_derive (fun t => rs r t k) T (rcp r T k / T).
(** Coefficients: the matrix of attractions is symmetric; for Peng and Robinson every species has a
    positive critical temperature and an attraction that does not vanish at T. *)
Definition pr_ok (s : pr) (T : R) : Prop :=
  let n := rn (p_ref s) in
  (forall i j, (i < n)%nat -> (j < n)%nat -> p_a s i j = p_a s j i)
  /\ (forall i, (i < n)%nat -> 0 < pr_crit (p_a s i i) (p_b s i)
                               /\ pr_alpha s T i <> 0).
(** For Redlich and Kwong: without the flag for temperature-dependent coefficients there are none,
    and the coefficients in use are the ones given. *)
Definition rk_ok (s : rk) : Prop :=
  let n := rn (k_ref s) in
  (forall i j, (i < n)%nat -> (j < n)%nat ->
     k_a0 s i j = k_a0 s j i /\ k_a1 s i j = k_a1 s j i)
  /\ (k_form s = false -> forall i j, (i < n)%nat -> (j < n)%nat ->
        k_a1 s i j = 0 /\ k_a s i j = k_a0 s i j).

(** The phase holding the mole numbers m in the volume V at temperature T. *)
Definition pr_holding (s : pr) (T V : R) (m : vec) : pr :=
  let n := rn (p_ref s) in pr_set s T (V / total m n) (fractions m n).
Definition rk_holding (s : rk) (T V : R) (m : vec) : rk :=
  let n := rn (k_ref s) in rk_set s T (V / total m n) (fractions m n).

(** Value of a cubic polynomial given by its coefficients. *)
Definition cubic_at (p : R * R * R * R) (v : R) : R :=
  let '(a, b, c, d) := p in a * v ^ 3 + b * v ^ 2 + c * v + d.
