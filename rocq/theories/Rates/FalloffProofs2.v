(* Falloff coefficients: round trips, and where the factor leaves (0, 1]. *)
From Coq Require Import Reals List Lra Lia Bool.
From Verif Require Import Base.Outcome Base.Fp Rates.Model Rates.Spec Rates.PlogProofs Rates.FalloffProofs.
Import ListNotations.
Local Open Scope R_scope.

Lemma inv_inv x : x <> 0 -> / / x = x.
Proof. intros H. field. exact H. Qed.

Lemma recip_inv x : inv_or_inf (recip_opt (inv_or_inf x)) = inv_or_inf x.
Proof.
  unfold inv_or_inf. pose proof small_pos as S0. destruct (rltb (Rabs x) SmallNumber) eqn:E; cbn [recip_opt].
  - rewrite Rabs_R0. rewrite (proj2 (rltb_true 0 SmallNumber)) by exact S0. reflexivity.
  - apply rltb_false in E.
    assert (x <> 0). { intros ->. rewrite Rabs_R0 in E. lra. }
    rewrite inv_inv by assumption. rewrite (proj2 (rltb_false (Rabs x) SmallNumber)) by exact E. reflexivity.
Qed.

Lemma recip_repr x : (x = 0 \/ SmallNumber <= Rabs x) -> recip_opt (inv_or_inf x) = x.
Proof.
  intros H. unfold inv_or_inf. pose proof small_pos as S0.
  destruct (rltb (Rabs x) SmallNumber) eqn:E; cbn [recip_opt].
  - apply rltb_true in E. destruct H as [->|H]; [reflexivity|lra].
  - apply rltb_false in E. apply inv_inv. intros ->. rewrite Rabs_R0 in E. lra.
Qed.

Lemma sri_never e : rltb e SmallNumber && rltb (Rabs (e - 1)) SmallNumber = false.
Proof.
  pose proof small_pos. pose proof small_lt1.
  assert (SmallNumber < / 2).
  { unfold SmallNumber, tiny300. apply Rinv_lt_contravar.
    - apply Rmult_lt_0_compat; [lra|]. apply pow_lt. lra.
    - replace 2 with (2 ^ 1) by ring. apply Rlt_le_trans with (10 ^ 1); [lra|]. apply Rle_pow; [lra|lia]. }
  apply andb_false_iff. destruct (Rle_or_lt SmallNumber e) as [Q1|Q1].
  - left. apply rltb_false. exact Q1.
  - right. apply rltb_false. unfold Rabs. destruct (Rcase_abs (e - 1)); lra.
Qed.

Lemma rltb_neg x : 0 <= x -> rltb x 0 = false.
Proof. intros. apply rltb_false. assumption. Qed.

(* Troe with T2: centre value up to 2 *)
Lemma troe_F_above pr0 work : 0 < work < 1 / 2 -> pr0 = 1 -> exists F, troe_F pr0 work = Some F /\ 1 < F.
Proof.
  intros [W1 W2] ->. unfold troe_F.
  replace (Rmax 1 SmallNumber) with 1.
  2:{ rewrite Rmax_left; [reflexivity|]. pose proof small_lt1. lra. }
  rewrite log10_1.
  rewrite (proj2 (reqb_false _ 0)).
  2:{ lra. }
  eexists. split; [reflexivity|].
  replace 1 with (Rpower 10 0) at 1 by (apply Rpower_O; lra).
  apply Rpower_lt; [lra|]. apply Rdiv_lt_0_compat; [exact W1|].
  pose proof (Rle_0_sqr ((0 + (- 0.4 - 0.67 * work)) / (0.75 - 1.27 * work - 0.14 * (0 + (- 0.4 - 0.67 * work))))) as Q.
  unfold Rsqr in Q. lra.
Qed.

Lemma log10_bound x : 1 < x -> x <= 2 -> 0 < log10 x < 1 / 2.
Proof.
  intros H1 H2. unfold log10. pose proof ln10_pos as L.
  assert (0 < ln x) by (rewrite <- ln_1; apply ln_increasing; lra).
  assert (ln x <= ln 2) by (apply ln_le'; lra).
  assert (2 * ln 2 < ln 10).
  { replace (2 * ln 2) with (ln (2 * 2)) by (rewrite ln_mult by lra; ring). apply ln_increasing; lra. }
  split; [apply Rdiv_lt_0_compat; assumption|].
  apply Rmult_lt_reg_r with (ln 10); [assumption|]. unfold Rdiv. rewrite Rmult_assoc, Rinv_l by lra. lra.
Qed.

Lemma troe_fcent_lt1 a c1 c2 T :
  0 <= a <= 1 -> 0 < c1 -> 0 < c2 -> SmallNumber <= c1 -> SmallNumber <= c2 -> 0 < T ->
  0 < troe_fcent a (inv_or_inf c1) (inv_or_inf c2) 0 T < 1.
Proof.
  intros Ha P1 P2 S1 S2 HT. unfold troe_fcent, inv_or_inf.
  rewrite !Rabs_right by lra.
  rewrite !(proj2 (rltb_false _ SmallNumber)) by assumption. cbn [exp_neg].
  rewrite (proj2 (reqb_true 0 0)) by reflexivity.
  assert (E : forall c, 0 < c -> 0 < exp (- T * / c) < 1).
  { intros c Hc. split; [apply exp_pos|]. rewrite <- exp_0. apply exp_increasing.
    assert (0 < T * / c) by (apply Rmult_lt_0_compat; [exact HT|apply Rinv_0_lt_compat; exact Hc]). lra. }
  pose proof (E c1 P1). pose proof (E c2 P2).
  set (x := exp (- T * / c1)) in *. set (y := exp (- T * / c2)) in *.
  split.
  - destruct (Rle_or_lt a (1/2)).
    + assert (0 < (1 - a) * x) by (apply Rmult_lt_0_compat; lra).
      assert (0 <= a * y) by (apply Rmult_le_pos; lra). lra.
    + assert (0 <= (1 - a) * x) by (apply Rmult_le_pos; lra).
      assert (0 < a * y) by (apply Rmult_lt_0_compat; lra). lra.
  - assert ((1 - a) * x <= (1 - a)) by (rewrite <- (Rmult_1_r (1 - a)) at 2; apply Rmult_le_compat_l; lra).
    assert (a * y <= a) by (rewrite <- (Rmult_1_r a) at 2; apply Rmult_le_compat_l; lra).
    destruct (Rle_or_lt a (1/2)).
    + assert ((1 - a) * x < (1 - a) * 1) by (apply Rmult_lt_compat_l; lra). lra.
    + assert (a * y < a * 1) by (apply Rmult_lt_compat_l; lra). lra.
Qed.

Lemma log10_neg x : x < 1 -> log10 (Rmax x SmallNumber) < 0.
Proof.
  intros H. unfold log10. pose proof ln10_pos. pose proof small_pos. pose proof small_lt1.
  assert (0 < Rmax x SmallNumber) by (eapply Rlt_le_trans; [|apply Rmax_r]; assumption).
  assert (Rmax x SmallNumber < 1) by (apply Rmax_lub_lt; assumption).
  assert (ln (Rmax x SmallNumber) < 0) by (rewrite <- ln_1; apply ln_increasing; assumption).
  unfold Rdiv. apply Rmult_lt_reg_r with (ln 10); [assumption|].
  rewrite Rmult_assoc, Rinv_l by lra. lra.
Qed.

Lemma troe_high a c1 c2 lo hi nA T :
  0 <= a <= 1 -> 0 < c1 -> 0 < c2 -> SmallNumber <= c1 -> SmallNumber <= c2 -> 0 < T ->
  0 < arrhenius lo T -> 0 < arrhenius hi T ->
  exists c M0, c < 1 /\ forall M, M0 <= M -> exists k,
    falloff_eval (Falloff (Some lo) (Some hi) false nA (Troe a (inv_or_inf c1) (inv_or_inf c2) 0)) T M
      = Some k /\ k <= c * arrhenius hi T.
Proof.
  intros Ha P1 P2 S1 S2 HT Hl Hh.
  pose proof (troe_fcent_lt1 a c1 c2 T Ha P1 P2 S1 S2 HT) as [F0 F1].
  pose proof (log10_neg _ F1) as W.
  destruct (troe_F_high _ W) as (c & pr0 & Hc & Hpr & Hb).
  pose proof small_pos as Sp.
  exists c, (pr0 * (arrhenius hi T + SmallNumber) / arrhenius lo T). split; [lra|].
  intros M HM. unfold falloff_eval. cbn [fo_low fo_high fo_act fo_blend].
  rewrite !evalRate_arrhenius.
  set (kl := arrhenius lo T) in *. set (kh := arrhenius hi T) in *.
  rewrite (proj2 (reqb_false (kh + SmallNumber) 0)) by lra.
  set (pr := M * kl / (kh + SmallNumber)).
  assert (Hp : pr0 <= pr).
  { unfold pr. apply Rmult_le_reg_r with (kh + SmallNumber); [lra|].
    unfold Rdiv at 1. rewrite Rmult_assoc, Rinv_l, Rmult_1_r by lra.
    apply Rmult_le_compat_r with (r := kl) in HM; [|lra].
    unfold Rdiv in HM. rewrite Rmult_assoc, Rinv_l, Rmult_1_r in HM by lra. exact HM. }
  rewrite (proj2 (reqb_false (1 + pr) 0)) by lra.
  unfold blendF.
  destruct (troe_F_range pr (log10 (Rmax (troe_fcent a (inv_or_inf c1) (inv_or_inf c2) 0 T) SmallNumber)))
    as (F & EF & F2); [lra|].
  rewrite EF. eexists. split; [reflexivity|].
  pose proof (Hb pr F Hp EF) as Fc.
  apply Rmult_le_compat_r; [lra|].
  assert (pr * (F / (1 + pr)) = F * (pr / (1 + pr))) as -> by (field; lra).
  assert (0 <= pr / (1 + pr) <= 1).
  { split.
    - apply Rmult_le_pos; [lra|]. apply Rlt_le, Rinv_0_lt_compat. lra.
    - apply Rmult_le_reg_r with (1 + pr); [lra|]. unfold Rdiv. rewrite Rmult_assoc, Rinv_l by lra. lra. }
  apply Rle_trans with (F * 1); [apply Rmult_le_compat_l; lra|lra].
Qed.
