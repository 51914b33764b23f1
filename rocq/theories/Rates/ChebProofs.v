(* Chebyshev rates. *)
From Coq Require Import Reals List Lra Lia Bool.
From Verif Require Import Base.Outcome Base.Fp Base.RSum Rates.Model Rates.Spec.
Import ListNotations.
Local Open Scope R_scope.

Lemma chebT_SS n x : chebT (S (S n)) x = 2 * x * chebT (S n) x - chebT n x.
Proof. reflexivity. Qed.

Lemma chebT_step j x : (1 <= j)%nat -> 2 * x * chebT j x - chebT (j - 1) x = chebT (S j) x.
Proof.
  intros H. destruct j as [|j]; [lia|]. rewrite chebT_SS.
  replace (S j - 1)%nat with j by lia. reflexivity.
Qed.

Lemma chebT_cos n theta : chebT n (cos theta) = cos (INR n * theta).
Proof.
  cut (chebT n (cos theta) = cos (INR n * theta) /\
       chebT (S n) (cos theta) = cos (INR (S n) * theta)); [tauto|].
  induction n as [|n [IH1 IH2]].
  - split.
    + cbn [chebT INR]. rewrite Rmult_0_l, cos_0. reflexivity.
    + cbn [chebT INR]. rewrite Rmult_1_l. reflexivity.
  - split; [exact IH2|]. rewrite chebT_SS, IH1, IH2. rewrite !S_INR.
    replace ((INR n + 1 + 1) * theta) with ((INR n + 1) * theta + theta) by ring.
    replace (INR n * theta) with ((INR n + 1) * theta - theta) by ring.
    rewrite cos_plus, cos_minus. ring.
Qed.

Lemma nth_map_seq (f : nat -> R) n i : (i < n)%nat -> nth i (map f (seq 0 n)) 0 = f i.
Proof.
  intros H. rewrite (nth_indep _ 0 (f 0%nat)) by (rewrite map_length, seq_length; exact H).
  rewrite map_nth, seq_nth by exact H. reflexivity.
Qed.

Lemma dot_loop_spec c x n : forall j Cn Cnm1 dot i,
  (1 <= j)%nat -> Cn = chebT (j - 1) x -> 2 * x * Cn - Cnm1 = chebT j x ->
  (i < m_nr c)%nat ->
  nth i (dot_loop c x j n Cn Cnm1 dot) 0 =
  nth i dot 0 + sum_n (fun k => chebT (j + k) x * m_at c i (j + k)) n.
Proof.
  induction n as [|n IH]; intros j Cn Cnm1 dot i Hj H1 H2 Hi; cbn [dot_loop].
  - rewrite sum_n_0. ring.
  - rewrite H2. rewrite (IH (S j)).
    + rewrite nth_map_seq by exact Hi. rewrite sum_n_shift, Nat.add_0_r.
      rewrite Rplus_assoc. do 2 f_equal.
      apply sum_n_ext. intros k _. replace (j + S k)%nat with (S j + k)%nat by lia. reflexivity.
    + lia.
    + replace (S j - 1)%nat with j by lia. reflexivity.
    + rewrite H1. apply chebT_step, Hj.
    + exact Hi.
Qed.

Lemma sum_loop_spec dot x n : forall i Cn Cnm1 acc,
  (1 <= i)%nat -> Cn = chebT (i - 1) x -> 2 * x * Cn - Cnm1 = chebT i x ->
  sum_loop dot x i n Cn Cnm1 acc = acc + sum_n (fun k => chebT (i + k) x * nth (i + k) dot 0) n.
Proof.
  induction n as [|n IH]; intros i Cn Cnm1 acc Hi H1 H2; cbn [sum_loop].
  - rewrite sum_n_0. ring.
  - rewrite H2, (IH (S i)).
    + rewrite sum_n_shift, Nat.add_0_r, Rplus_assoc. do 2 f_equal.
      apply sum_n_ext. intros k _. replace (i + S k)%nat with (S i + k)%nat by lia. reflexivity.
    + lia.
    + replace (S i - 1)%nat with i by lia. reflexivity.
    + rewrite H1. apply chebT_step, Hi.
Qed.

Definition col_sum (c : mat) (Pr : R) (i : nat) : R :=
  sum_n (fun j => m_at c i j * chebT j Pr) (m_nc c).

Lemma dots_value c Pr i :
  (1 <= m_nc c)%nat -> (i < m_nr c)%nat ->
  nth i (dot_loop c Pr 1 (m_nc c - 1) 1 Pr (map (fun i => m_at c i 0) (seq 0 (m_nr c)))) 0
  = col_sum c Pr i.
Proof.
  intros Hc Hi. rewrite dot_loop_spec; [|lia|reflexivity|cbn [chebT]; ring|exact Hi].
  rewrite nth_map_seq by exact Hi. unfold col_sum.
  replace (m_nc c) with (S (m_nc c - 1)) at 2 by lia. rewrite sum_n_shift.
  f_equal; [cbn [chebT]; ring|]. apply sum_n_ext. intros k _.
  replace (1 + k)%nat with (S k) by lia. apply Rmult_comm.
Qed.


Lemma total_value c dot Tr Pr :
  (1 <= m_nr c)%nat -> (forall i, (i < m_nr c)%nat -> nth i dot 0 = col_sum c Pr i) ->
  sum_loop dot Tr 1 (m_nr c - 1) 1 Tr (nth 0 dot 0) = double_sum c Tr Pr.
Proof.
  intros Hr Hd. rewrite sum_loop_spec; [|lia|reflexivity|cbn [chebT]; ring].
  unfold double_sum. replace (m_nr c) with (S (m_nr c - 1)) at 2 by lia.
  rewrite sum_n_shift. rewrite Hd by lia. f_equal.
  - unfold col_sum. apply sum_n_ext. intros j _. cbn [chebT]. ring.
  - apply sum_n_ext. intros k Hk. replace (1 + k)%nat with (S k) by lia.
    rewrite Hd by lia. unfold col_sum. unfold sum_n. rewrite <- sum_of_scal.
    apply sum_of_ext. intros j _. ring.
Qed.

Section Cheb.
Variables (Tmin Tmax Pmin Pmax : R) (c : mat).
Hypothesis Hnr : (1 <= m_nr c)%nat.
Hypothesis Hnc : (1 <= m_nc c)%nat.

Let lims := Some (- / Tmin - / Tmax, / (/ Tmax - / Tmin),
                  - log10 Pmin - log10 Pmax, / (log10 Pmax - log10 Pmin)).

Definition cheb_inv (s : cheb) : Prop :=
  ch_lims s = lims /\ ch_coeffs s = Some c /\
  (forall p, ch_log10P s = Some p ->
     forall i, (i < m_nr c)%nat ->
       nth i (ch_dot s) 0 = col_sum c (reduced p (log10 Pmin) (log10 Pmax)) i).

Lemma cheb_of_inv : cheb_inv (cheb_of Tmin Tmax Pmin Pmax c).
Proof.
  unfold cheb_of, setData. replace (Nat.eqb (m_nr c * m_nc c) 0) with false.
  - split; [reflexivity|]. split; [reflexivity|]. intros p E. discriminate.
  - symmetry. apply Nat.eqb_neq. nia.
Qed.

Lemma cheb_update_inv s x :
  cheb_inv s -> exists s', cheb_update x s = Ok s' /\ cheb_inv s' /\ ch_log10P s' = Some x.
Proof.
  intros (H1 & H2 & H3).
  assert (Re : exists s', cheb_recompute x s = Ok s' /\ cheb_inv s' /\ ch_log10P s' = Some x).
  { unfold cheb_recompute. rewrite H1, H2. unfold lims.
    eexists. split; [reflexivity|]. split; [|reflexivity].
    split; [reflexivity|]. split; [reflexivity|].
    cbn [ch_log10P ch_dot]. intros p E i Hi. injection E as <-.
    rewrite dots_value by assumption. f_equal. unfold reduced, Rdiv. ring. }
  unfold cheb_update. destruct (ch_log10P s) as [p|] eqn:E; [|exact Re].
  destruct (reqb x p) eqn:Eq; [|exact Re].
  apply reqb_true in Eq. subst p. exists s. split; [reflexivity|]. split; [|exact E].
  split; [exact H1|]. split; [exact H2|]. intros p Ep. apply H3. congruence.
Qed.

Lemma cheb_eval_inv s T P :
  cheb_inv s -> ch_log10P s = Some P ->
  cheb_eval (/ T) s = Ok (Some (Rpower 10 (double_sum c
    (reduced (/ T) (/ Tmin) (/ Tmax)) (reduced P (log10 Pmin) (log10 Pmax))))).
Proof.
  intros (H1 & H2 & H3) HP. unfold cheb_eval. rewrite H1, H2. unfold lims.
  rewrite (total_value c (ch_dot s) _ (reduced P (log10 Pmin) (log10 Pmax)) Hnr (H3 P HP)).
  do 4 f_equal. unfold reduced, Rdiv. ring.
Qed.

Lemma cheb_hist_inv h s :
  cheb_inv s -> exists s', cheb_hist h s = Ok s' /\ cheb_inv s'.
Proof.
  revert s. induction h as [|[T P] h IH]; intros s Hs; cbn [cheb_hist].
  - exists s. split; [reflexivity|exact Hs].
  - unfold cheb_at. destruct (cheb_update_inv s (log10 P) Hs) as (s' & U1 & U2 & U3).
    rewrite U1. cbn [obind]. rewrite (cheb_eval_inv s' T (log10 P) U2 U3).
    cbn [obind fst]. apply IH, U2.
Qed.

Lemma cheb_computes h T P :
  cheb_value Tmin Tmax Pmin Pmax c h T P =
  Ok (Some (Rpower 10 (double_sum c (reduced (/ T) (/ Tmin) (/ Tmax))
                         (reduced (log10 P) (log10 Pmin) (log10 Pmax))))).
Proof.
  unfold cheb_value. destruct (cheb_hist_inv h _ cheb_of_inv) as (s & E1 & E2).
  rewrite E1. cbn [obind]. unfold cheb_at.
  destruct (cheb_update_inv s (log10 P) E2) as (s' & U1 & U2 & U3).
  rewrite U1. cbn [obind]. rewrite (cheb_eval_inv s' T (log10 P) U2 U3). reflexivity.
Qed.
End Cheb.

Lemma reduced_ends y1 y2 : y1 <> y2 -> reduced y1 y1 y2 = -1 /\ reduced y2 y1 y2 = 1.
Proof. intros H. unfold reduced. split; field; lra. Qed.

Lemma reduced_range y y1 y2 :
  y1 < y2 -> y1 <= y <= y2 -> -1 <= reduced y y1 y2 <= 1.
Proof.
  intros H1 H2. unfold reduced, Rdiv. split.
  - apply (Rmult_le_reg_r (y2 - y1)); [lra|]. rewrite Rmult_assoc, Rinv_l by lra. lra.
  - apply (Rmult_le_reg_r (y2 - y1)); [lra|]. rewrite Rmult_assoc, Rinv_l by lra. lra.
Qed.
Lemma reduced_range' y y1 y2 :
  y2 < y1 -> y2 <= y <= y1 -> -1 <= reduced y y1 y2 <= 1.
Proof.
  intros H1 H2. replace (reduced y y1 y2) with (- reduced y y2 y1).
  - pose proof (reduced_range y y2 y1 H1 H2). lra.
  - unfold reduced. field. lra.
Qed.

Lemma log10_increasing x y : 0 < x -> x < y -> log10 x < log10 y.
Proof.
  intros H1 H2. unfold log10, Rdiv.
  assert (0 < ln 10) by (rewrite <- ln_1; apply ln_increasing; lra).
  apply Rmult_lt_compat_r; [apply Rinv_0_lt_compat; assumption|]. apply ln_increasing; assumption.
Qed.
