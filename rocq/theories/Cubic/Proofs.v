(** Lemmas common to both equations of state: sums, and scalar derivatives for an attraction of the
    form D phi(B/V)/B. *)
From Coquelicot Require Import Coquelicot.
From Coq Require Import Reals List Arith Lra Lia.
From Verif Require Import Base.RSum Base.Vec Base.Fp Units.Model Excess.Spec Excess.Proofs
  Cubic.Model Cubic.Spec.
Open Scope R_scope.

Lemma is_derive_sum_n (f : nat -> R -> R) (d : nat -> R) n t :
  (forall i, (i < n)%nat -> is_derive (f i) t (d i)) ->
  is_derive (fun t => sum_n (fun i => f i t) n) t (sum_n d n).
Proof.
  intros H. unfold sum_n. apply is_derive_sum_of. intros i Hi. apply H.
  apply in_seq in Hi. lia.
Qed.

Definition pair_row (n : nat) (q : nat -> nat -> R) (x : vec) (k : nat) : R :=
  sum_n (fun i => x i * q k i) n.
Definition symm (n : nat) (q : nat -> nat -> R) : Prop :=
  forall i j, (i < n)%nat -> (j < n)%nat -> q i j = q j i.

Lemma sum_n_swap (f : nat -> nat -> R) n m :
  sum_n (fun i => sum_n (fun j => f i j) m) n = sum_n (fun j => sum_n (fun i => f i j) n) m.
Proof. unfold sum_n. apply sum_of_swap. Qed.

Lemma attraction_upd n q x k t : symm n q -> (k < n)%nat ->
  attraction n q (upd x k t) =
  attraction n q x + 2 * pair_row n q x k * (t - x k) + q k k * (t - x k) * (t - x k).
Proof.
  intros Hs Hk. unfold attraction, pair_row.
  rewrite (sum_n_ext _ (fun i => sum_n (fun j => q i j * x i * x j) n
     + (x i * q i k * (t - x k)
     + dl k i * ((t - x k) * sum_n (fun j => x j * q i j) n + q i k * (t - x k) * (t - x k))))).
  2:{ intros i Hi.
      rewrite (sum_n_ext _ (fun j => q i j * x i * x j + (q i j * x i * (t - x k) * dl k j
          + (dl k i * (t - x k) * (x j * q i j) + dl k i * (t - x k) * (t - x k) * q i j * dl k j)))).
      2:{ intros j Hj. rewrite !upd_dl. unfold dl. rewrite (Nat.eqb_sym i k), (Nat.eqb_sym j k). ring. }
      rewrite !sum_n_plus.
      rewrite (sum_n_dl k n (fun j => q i j * x i * (t - x k))) by assumption.
      rewrite (sum_n_dl k n (fun j => dl k i * (t - x k) * (t - x k) * q i j)) by assumption.
      rewrite sum_n_scal. ring. }
  rewrite !sum_n_plus.
  rewrite (sum_n_ext (fun i => dl k i * _)
    (fun i => ((t - x k) * sum_n (fun j => x j * q i j) n + q i k * (t - x k) * (t - x k)) * dl k i))
    by (intros; ring).
  rewrite (sum_n_dl k n (fun i => (t - x k) * sum_n (fun j => x j * q i j) n + q i k * (t - x k) * (t - x k)))
    by assumption.
  rewrite sum_n_scal_r.
  rewrite (sum_n_ext (fun i => x i * q i k) (fun i => x i * q k i)).
  2:{ intros i Hi. rewrite (Hs i k Hi Hk). reflexivity. }
  ring.
Qed.

Lemma covolume_upd n b x k t : (k < n)%nat ->
  covolume n b (upd x k t) = covolume n b x + b k * (t - x k).
Proof.
  intros Hk. unfold covolume.
  rewrite (sum_n_ext _ (fun i => x i * b i + b i * (t - x k) * dl k i)).
  2:{ intros i Hi. rewrite upd_dl. unfold dl. rewrite (Nat.eqb_sym i k). ring. }
  rewrite sum_n_plus, (sum_n_dl k n (fun i => b i * (t - x k))) by assumption. ring.
Qed.

Lemma covolume_frac n b m : covolume n b (fractions m n) = covolume n b m / total m n.
Proof.
  unfold covolume, fractions. rewrite (sum_n_ext _ (fun i => m i * b i * / total m n)) by (intros; unfold Rdiv; ring).
  now rewrite sum_n_scal_r.
Qed.
Lemma attraction_frac n q m :
  attraction n q (fractions m n) = attraction n q m / (total m n * total m n).
Proof.
  unfold attraction, fractions.
  rewrite (sum_n_ext _ (fun i => sum_n (fun j => q i j * m i * m j) n * (/ total m n * / total m n))).
  2:{ intros i Hi. rewrite <- sum_n_scal_r. apply sum_n_ext. intros; unfold Rdiv; ring. }
  rewrite sum_n_scal_r. unfold Rdiv. now rewrite Rinv_mult.
Qed.
Lemma mean_frac n f m : mean_X n (fractions m n) f = mean_X n m f / total m n.
Proof.
  unfold mean_X, fractions. rewrite (sum_n_ext _ (fun i => m i * f i * / total m n)) by (intros; unfold Rdiv; ring).
  now rewrite sum_n_scal_r.
Qed.
Lemma attraction_row n q x : sum_n (fun k => x k * pair_row n q x k) n = attraction n q x.
Proof.
  unfold attraction, pair_row. apply sum_n_ext. intros i _. rewrite <- sum_n_scal.
  apply sum_n_ext. intros; ring.
Qed.
Lemma attraction_ext n q q' x :
  (forall i j, (i < n)%nat -> (j < n)%nat -> q i j = q' i j) -> attraction n q x = attraction n q' x.
Proof.
  intros H. unfold attraction. apply sum_n_ext. intros i Hi. apply sum_n_ext. intros j Hj.
  now rewrite H.
Qed.
Lemma pair_row_ext n q q' x k : (k < n)%nat ->
  (forall i j, (i < n)%nat -> (j < n)%nat -> q i j = q' i j) -> pair_row n q x k = pair_row n q' x k.
Proof. intros Hk H. unfold pair_row. apply sum_n_ext. intros i Hi. now rewrite H. Qed.

Lemma is_derive_attraction n (q : R -> nat -> nat -> R) q1 x T :
  (forall i j, (i < n)%nat -> (j < n)%nat -> is_derive (fun t => q t i j) T (q1 i j)) ->
  is_derive (fun t => attraction n (q t) x) T (attraction n q1 x).
Proof.
  intros H. unfold attraction.
  apply (is_derive_sum_n (fun i t => sum_n (fun j => q t i j * x i * x j) n)). intros i Hi.
  apply (is_derive_sum_n (fun j t => q t i j * x i * x j)). intros j Hj.
  specialize (H i j Hi Hj). set (f := fun t => q t i j) in *.
  change (is_derive (fun t => f t * x i * x j) T (q1 i j * x i * x j)).
  auto_derive; [exists (q1 i j); exact H|].
  replace (Derive (fun x0 => f x0) T) with (q1 i j) by (symmetry; apply is_derive_unique; exact H). ring.
Qed.

(** The ideal gas part. *)
Lemma small_pos : 0 < SmallNumber.
Proof. unfold SmallNumber. apply powerRZ_lt. lra. Qed.

Lemma xlogx_ok r b T v x : state_ok r b T v x ->
  sum_xlogx (rn r) (rw r) x = sum_n (fun k => x k * ln (x k)) (rn r).
Proof.
  intros (HT & Hp & Hx & Hs & Hw & Hb). unfold sum_xlogx.
  set (mmw := sum_n (fun k => x k * rw r k) (rn r)). fold mmw in Hw.
  pose proof small_pos as Sp.
  assert (Hn : (0 < rn r)%nat).
  { destruct (rn r); [|lia]. exfalso. unfold mixture in Hx. rewrite sum_n_0 in Hx. lra. }
  assert (Hm : 0 < mmw).
  { unfold mmw, sum_n. apply (sum_of_pos _ _ 0%nat).
    - intros i Hi. apply in_seq in Hi. destruct (Hw i) as [H1 _]; [lia|]. specialize (Hs i).
      assert (SmallNumber <= x i) by (apply Hs; lia). apply Rmult_le_pos; lra.
    - apply in_seq. lia.
    - destruct (Hw 0%nat Hn) as [H1 _]. specialize (Hs 0%nat Hn). apply Rmult_lt_0_compat; lra. }
  rewrite (sum_n_ext _ (fun k => x k * ln (x k) * / mmw + x k * (- ln mmw * / mmw))).
  2:{ intros k Hk. destruct (Hw k Hk) as [_ H2]. specialize (Hs k Hk).
      rewrite Rmax_left.
      - unfold Rdiv. rewrite ln_mult by (try apply Rinv_0_lt_compat; lra).
        rewrite ln_Rinv by assumption. ring.
      - apply Rmult_le_reg_r with mmw; [assumption|]. unfold Rdiv. rewrite Rmult_assoc, Rinv_l by lra. lra. }
  rewrite sum_n_plus, !sum_n_scal_r. unfold mixture in Hx. rewrite Hx. field. lra.
Qed.

Lemma total1 x n : mixture x n -> total x n = 1.
Proof. intro H. exact H. Qed.

Lemma x_pos r b T v x k : state_ok r b T v x -> (k < rn r)%nat -> 0 < x k.
Proof.
  intros (HT & Hp & Hx & Hs & Hw & Hb) Hk. pose proof small_pos. specialize (Hs k Hk). lra.
Qed.

(** ideal_A along V, n_k and T. *)
Lemma ideal_V r T v x : 0 < T -> 0 < v -> 0 < rp0 r -> mixture x (rn r) ->
  (forall k, (k < rn r)%nat -> 0 < x k) ->
  is_derive (fun V => ideal_A r T V x) v (- (GasConstant * T / v)).
Proof.
  intros HT Hv Hp Hx Hk. unfold ideal_A. pose proof R_pos as HR.
  apply (is_derive_val _ _ (sum_n (fun k => x k * (- (GasConstant * T / v))) (rn r))).
  2:{ rewrite sum_n_scal_r. unfold mixture in Hx. rewrite Hx. ring. }
  apply (is_derive_sum_n (fun k V => x k * (gibbs_ref r T k - GasConstant * T
                         + GasConstant * T * ln (x k * (GasConstant * T) / (V * rp0 r))))).
  intros k Hkn. specialize (Hk k Hkn).
  assert (0 < x k * (GasConstant * T)) by (apply Rmult_lt_0_compat; [assumption|apply Rmult_lt_0_compat; assumption]).
  assert (0 < v * rp0 r) by (apply Rmult_lt_0_compat; assumption).
  auto_derive.
  - split; [lra|]. split; [|exact I]. apply Rdiv_lt_0_compat; assumption.
  - field. repeat split; lra.
Qed.

Lemma ideal_k r T v x k : 0 < T -> 0 < v -> 0 < rp0 r -> (k < rn r)%nat -> 0 < x k ->
  is_derive (fun t => ideal_A r T v (upd x k t)) (x k)
    (gibbs_ref r T k + GasConstant * T * ln (x k * (GasConstant * T) / (v * rp0 r))).
Proof.
  intros HT Hv Hp Hk Hx. unfold ideal_A. pose proof R_pos as HR.
  set (d := gibbs_ref r T k + GasConstant * T * ln (x k * (GasConstant * T) / (v * rp0 r))).
  apply (is_derive_val _ _ (sum_n (fun i => d * dl k i) (rn r))).
  2:{ apply (sum_n_dl k (rn r) (fun _ => d)). assumption. }
  apply (is_derive_sum_n (fun i t => upd x k t i * (gibbs_ref r T i - GasConstant * T
                         + GasConstant * T * ln (upd x k t i * (GasConstant * T) / (v * rp0 r))))).
  intros i Hi. unfold upd, dl. rewrite (Nat.eqb_sym i k). destruct (Nat.eqb_spec k i) as [<-|Hne].
  - assert (0 < x k * (GasConstant * T)) by (apply Rmult_lt_0_compat; [assumption|apply Rmult_lt_0_compat; assumption]).
    assert (0 < v * rp0 r) by (apply Rmult_lt_0_compat; assumption).
    unfold d. auto_derive.
    + apply Rdiv_lt_0_compat; assumption.
    + unfold Rdiv. field. repeat split; lra.
  - apply (is_derive_val _ _ 0); [|ring]. auto_derive; [exact I|reflexivity].
Qed.

Lemma ideal_T r T v x : 0 < T -> 0 < v -> 0 < rp0 r -> mixture x (rn r) ->
  (forall k, (k < rn r)%nat -> 0 < x k) -> ref_ok r T ->
  is_derive (fun t => ideal_A r t v x) T
    (- (GasConstant * (mean_X (rn r) x (rs r T) - sum_n (fun k => x k * ln (x k)) (rn r)
                       - ln (GasConstant * T / (v * rp0 r))))).
Proof.
  intros HT Hv Hp Hx Hk Hr. unfold ideal_A, mean_X. pose proof R_pos as HR.
  apply (is_derive_val _ _ (sum_n (fun k => (- GasConstant * (x k * rs r T k) + GasConstant * (x k * ln (x k)))
          + x k * (GasConstant * ln (GasConstant * T / (v * rp0 r)))) (rn r))).
  2:{ rewrite !sum_n_plus, sum_n_scal_r, !sum_n_scal. unfold mixture in Hx. rewrite Hx. ring. }
  apply (is_derive_sum_n (fun k t => x k * (gibbs_ref r t k - GasConstant * t
                         + GasConstant * t * ln (x k * (GasConstant * t) / (v * rp0 r))))).
  intros k Hkn. specialize (Hk k Hkn). destruct (Hr k Hkn) as [H1 H2].
  unfold gibbs_ref.
  assert (HRT : 0 < GasConstant * T) by (apply Rmult_lt_0_compat; assumption).
  assert (0 < x k * (GasConstant * T)) by (apply Rmult_lt_0_compat; assumption).
  assert (Hvp : 0 < v * rp0 r) by (apply Rmult_lt_0_compat; assumption).
  set (hh := fun t => t * rh r t k) in *. set (ss := fun t => rs r t k) in *.
  apply (is_derive_ext (fun t => x k * (GasConstant * (hh t - t * ss t) - GasConstant * t
     + GasConstant * t * ln (x k * (GasConstant * t) / (v * rp0 r))))).
  { intros t. unfold hh, ss.
    match goal with |- ?a = ?b => change (@eq R a b) end. ring. }
  assert (E1 : Derive (fun x => hh x) T = rcp r T k) by (apply is_derive_unique; exact H1).
  assert (E2 : Derive (fun x => ss x) T = rcp r T k / T) by (apply is_derive_unique; exact H2).
  auto_derive.
  - repeat match goal with |- _ /\ _ => split | |- True => exact I end.
    + exists (rcp r T k); exact H1.
    + exists (rcp r T k / T); exact H2.
    + apply Rdiv_lt_0_compat; assumption.
  - rewrite E1, E2.
    assert (Hq : 0 < GasConstant * T / (v * rp0 r)) by (apply Rdiv_lt_0_compat; assumption).
    assert (El : ln (x k * (GasConstant * T) * / (v * rp0 r)) = ln (x k) + ln (GasConstant * T / (v * rp0 r))).
    { rewrite <- ln_mult by assumption. f_equal. unfold Rdiv. ring. }
    rewrite El. unfold ss. field. repeat split; lra.
Qed.

(** ** Scalar derivatives for a residual Helmholtz energy - N R T ln(1 - B/V) - D phi(B/V)/B *)
Section Scalar.
Context (phi phi1 phi2 : R -> R).
Context (Hphi : forall r, 0 < r < 1 -> is_derive phi r (phi1 r)).
Context (Hphi1 : forall r, 0 < r < 1 -> is_derive phi1 r (phi2 r)).

Definition res_A (N T V B D : R) : R :=
  - (N * (GasConstant * T) * ln (1 - B / V)) - D * phi (B / V) / B.
Definition res_P (N T V B D : R) : R :=
  N * GasConstant * T / (V - B) - D * phi1 (B / V) / (V * V).

Lemma ratio_dom B V : 0 < B < V -> 0 < B / V < 1.
Proof.
  intros [H1 H2]. split; [apply Rdiv_lt_0_compat; lra|].
  apply Rmult_lt_reg_r with V; [lra|]. unfold Rdiv. rewrite Rmult_assoc, Rinv_l by lra. lra.
Qed.

(** The residual along a curve in (N, V, B, D). *)
Lemma res_A_path (fN fV fB fD : R -> R) (t N V B D N' V' B' D' T : R) :
  is_derive fN t N' -> is_derive fV t V' -> is_derive fB t B' -> is_derive fD t D' ->
  fN t = N -> fV t = V -> fB t = B -> fD t = D -> 0 < B < V ->
  is_derive (fun u => res_A (fN u) T (fV u) (fB u) (fD u)) t
    (- (N' * GasConstant * T * ln (1 - B / V))
     - N * GasConstant * T * (- (B' / V - B * V' / (V * V))) / (1 - B / V)
     - D' * phi (B / V) / B
     - D * (phi1 (B / V) * (B' / V - B * V' / (V * V))) / B
     + D * phi (B / V) * B' / (B * B)).
Proof.
  intros HN HV HB HD EN EV EB ED Hdom. destruct (ratio_dom B V Hdom) as [R1 R2].
  unfold res_A.
  assert (Dp := Hphi (B / V) (conj R1 R2)).
  auto_derive.
  - repeat match goal with |- _ /\ _ => split | |- True => exact I end.
    + exists N'; exact HN.
    + exists B'; exact HB.
    + exists V'; exact HV.
    + rewrite EV; lra.
    + rewrite EB, EV. change (0 < 1 + - (B / V)). lra.
    + exists D'; exact HD.
    + rewrite EB, EV. exists (phi1 (B / V)); exact Dp.
    + exists B'; exact HB.
    + exists V'; exact HV.
    + rewrite EV; lra.
    + exists B'; exact HB.
    + rewrite EB; lra.
  - replace (Derive (fun x => fN x) t) with N' by (symmetry; apply is_derive_unique; exact HN).
    replace (Derive (fun x => fV x) t) with V' by (symmetry; apply is_derive_unique; exact HV).
    replace (Derive (fun x => fB x) t) with B' by (symmetry; apply is_derive_unique; exact HB).
    replace (Derive (fun x => fD x) t) with D' by (symmetry; apply is_derive_unique; exact HD).
    rewrite ?EN, ?EV, ?EB, ?ED.
    change (B * / V) with (B / V).
    replace (Derive (fun x => phi x) (B / V)) with (phi1 (B / V)) by (symmetry; apply is_derive_unique; exact Dp).
    change (1 + - (B / V)) with (1 - B / V).
    generalize (ln (1 - B / V)) as l. generalize (phi1 (B / V)) as p1. generalize (phi (B / V)) as p0.
    intros. field. repeat split; lra.
Qed.

Lemma res_P_path (fN fV fB fD : R -> R) (t N V B D N' V' B' D' T : R) :
  is_derive fN t N' -> is_derive fV t V' -> is_derive fB t B' -> is_derive fD t D' ->
  fN t = N -> fV t = V -> fB t = B -> fD t = D -> 0 < B < V ->
  is_derive (fun u => res_P (fN u) T (fV u) (fB u) (fD u)) t
    (N' * GasConstant * T / (V - B) - N * GasConstant * T * (V' - B') / ((V - B) * (V - B))
     - D' * phi1 (B / V) / (V * V)
     - D * (phi2 (B / V) * (B' / V - B * V' / (V * V))) / (V * V)
     + 2 * D * phi1 (B / V) * V' / (V * V * V)).
Proof.
  intros HN HV HB HD EN EV EB ED Hdom. destruct (ratio_dom B V Hdom) as [R1 R2].
  unfold res_P.
  assert (Dp := Hphi1 (B / V) (conj R1 R2)).
  auto_derive.
  - repeat match goal with |- _ /\ _ => split | |- True => exact I end.
    all: rewrite ?EB, ?EV; try (apply Rgt_not_eq; try apply Rmult_lt_0_compat; lra).
    all: try (exists N'; exact HN); try (exists B'; exact HB); try (exists V'; exact HV);
      try (exists D'; exact HD); try (exists (phi2 (B / V)); exact Dp).
  - replace (Derive (fun x => fN x) t) with N' by (symmetry; apply is_derive_unique; exact HN).
    replace (Derive (fun x => fV x) t) with V' by (symmetry; apply is_derive_unique; exact HV).
    replace (Derive (fun x => fB x) t) with B' by (symmetry; apply is_derive_unique; exact HB).
    replace (Derive (fun x => fD x) t) with D' by (symmetry; apply is_derive_unique; exact HD).
    rewrite ?EN, ?EV, ?EB, ?ED.
    change (B * / V) with (B / V).
    replace (Derive (fun x => phi1 x) (B / V)) with (phi2 (B / V)) by (symmetry; apply is_derive_unique; exact Dp).
    generalize (phi1 (B / V)) as p1. generalize (phi2 (B / V)) as p2.
    intros. field. repeat split; lra.
Qed.

(** The internal energy H0 - N R T + E phi(B/V)/B, E = T dD/dT - D, along a curve. *)
Definition res_U (N T V B E : R) : R := - (N * GasConstant * T) + E * phi (B / V) / B.

Lemma res_U_path (fN fT fV fB fE : R -> R) (t N T V B E N' T' V' B' E' : R) :
  is_derive fN t N' -> is_derive fT t T' -> is_derive fV t V' -> is_derive fB t B' -> is_derive fE t E' ->
  fN t = N -> fT t = T -> fV t = V -> fB t = B -> fE t = E -> 0 < B < V ->
  is_derive (fun u => res_U (fN u) (fT u) (fV u) (fB u) (fE u)) t
    (- (N' * GasConstant * T + N * GasConstant * T') + E' * phi (B / V) / B
     + E * (phi1 (B / V) * (B' / V - B * V' / (V * V))) / B
     - E * phi (B / V) * B' / (B * B)).
Proof.
  intros HN HT HV HB HD EN ET EV EB ED Hdom. destruct (ratio_dom B V Hdom) as [R1 R2].
  unfold res_U.
  assert (Dp := Hphi (B / V) (conj R1 R2)).
  auto_derive.
  - repeat match goal with |- _ /\ _ => split | |- True => exact I end.
    all: rewrite ?EB, ?EV; try (apply Rgt_not_eq; try apply Rmult_lt_0_compat; lra).
    all: try (exists N'; exact HN); try (exists B'; exact HB); try (exists V'; exact HV);
      try (exists E'; exact HD); try (exists T'; exact HT); try (exists (phi1 (B / V)); exact Dp).
  - replace (Derive (fun x => fN x) t) with N' by (symmetry; apply is_derive_unique; exact HN).
    replace (Derive (fun x => fT x) t) with T' by (symmetry; apply is_derive_unique; exact HT).
    replace (Derive (fun x => fV x) t) with V' by (symmetry; apply is_derive_unique; exact HV).
    replace (Derive (fun x => fB x) t) with B' by (symmetry; apply is_derive_unique; exact HB).
    replace (Derive (fun x => fE x) t) with E' by (symmetry; apply is_derive_unique; exact HD).
    rewrite ?EN, ?ET, ?EV, ?EB, ?ED.
    change (B * / V) with (B / V).
    replace (Derive (fun x => phi x) (B / V)) with (phi1 (B / V)) by (symmetry; apply is_derive_unique; exact Dp).
    generalize (phi1 (B / V)) as p1. generalize (phi (B / V)) as p2.
    intros. field. repeat split; lra.
Qed.

(** The residual along T alone. *)
Lemma res_A_T (fD : R -> R) (T N V B D1 : R) :
  is_derive fD T D1 -> 0 < B < V ->
  is_derive (fun t => res_A N t V B (fD t)) T
    (- (N * GasConstant * ln (1 - B / V)) - D1 * phi (B / V) / B).
Proof.
  intros HD Hdom. unfold res_A. auto_derive.
  - exists D1; exact HD.
  - replace (Derive (fun x => fD x) T) with D1 by (symmetry; apply is_derive_unique; exact HD).
    unfold Rdiv, Rminus. ring.
Qed.
Lemma res_P_T (fD fV : R -> R) (T N V B D1 V' : R) :
  is_derive fD T D1 -> is_derive fV T V' -> fV T = V -> 0 < B < V ->
  is_derive (fun t => res_P N t (fV t) B (fD t)) T
    (N * GasConstant / (V - B) - D1 * phi1 (B / V) / (V * V)
     + V' * (- (N * GasConstant * T) / ((V - B) * (V - B))
             + fD T * (phi2 (B / V) * B / (V * V) / (V * V) + 2 * phi1 (B / V) / (V * V * V)))).
Proof.
  intros HD HV EV Hdom. destruct (ratio_dom B V Hdom) as [R1 R2].
  unfold res_P.
  assert (Dp := Hphi1 (B / V) (conj R1 R2)).
  auto_derive.
  - repeat match goal with |- _ /\ _ => split | |- True => exact I end.
    all: rewrite ?EV; try (apply Rgt_not_eq; try apply Rmult_lt_0_compat; lra).
    all: try (exists V'; exact HV); try (exists D1; exact HD); try (exists (phi2 (B / V)); exact Dp).
  - replace (Derive (fun x => fV x) T) with V' by (symmetry; apply is_derive_unique; exact HV).
    replace (Derive (fun x => fD x) T) with D1 by (symmetry; apply is_derive_unique; exact HD).
    rewrite ?EV.
    change (B * / V) with (B / V).
    replace (Derive (fun x => phi1 x) (B / V)) with (phi2 (B / V)) by (symmetry; apply is_derive_unique; exact Dp).
    generalize (phi1 (B / V)) as p1. generalize (phi2 (B / V)) as p2.
    intros. field. repeat split; lra.
Qed.
End Scalar.
