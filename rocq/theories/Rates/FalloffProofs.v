(* Falloff rates and the shared data containers. *)
From Coq Require Import Reals List Lra Lia Bool.
From Verif Require Import Base.Outcome Base.Fp Base.RSum Rates.Model Rates.Spec
  Rates.PlogProofs Rates.ChebProofs.
Import ListNotations.
Local Open Scope R_scope.

Lemma small_pos : 0 < SmallNumber.
Proof. exact offset_pos. Qed.
Lemma small_lt1 : SmallNumber < 1.
Proof.
  unfold SmallNumber, tiny300. rewrite <- Rinv_1. apply Rinv_lt_contravar.
  - rewrite Rmult_1_l. apply pow_lt. lra.
  - apply Rlt_pow_R1; [lra|lia].
Qed.

Lemma ln10_pos : 0 < ln 10.
Proof. rewrite <- ln_1. apply ln_increasing; lra. Qed.

Lemma log10_le x y : 0 < x -> x <= y -> log10 x <= log10 y.
Proof.
  intros H [H1|H1]; [left; apply log10_increasing; assumption|rewrite H1; right; reflexivity].
Qed.
Lemma log10_1 : log10 1 = 0.
Proof. unfold log10. rewrite ln_1. unfold Rdiv. apply Rmult_0_l. Qed.

Lemma pow10_pos x : 0 < Rpower 10 x.
Proof. apply exp_pos. Qed.
Lemma pow10_le1 x : x <= 0 -> Rpower 10 x <= 1.
Proof.
  intros H. unfold Rpower. rewrite <- exp_0.
  assert (x * ln 10 <= 0) by (pose proof ln10_pos; nra).
  destruct H0 as [H0|H0]; [left; apply exp_increasing, H0|rewrite H0; right; reflexivity].
Qed.
Lemma pow10_lt1 x : x < 0 -> Rpower 10 x < 1.
Proof.
  intros H. unfold Rpower. rewrite <- exp_0. apply exp_increasing.
  pose proof ln10_pos. nra.
Qed.

(* ---------------- range of the broadening factor ---------------- *)

Lemma troe_F_range pr work :
  work <= 0 -> exists F, troe_F pr work = Some F /\ 0 < F <= 1.
Proof.
  intros Hw. unfold troe_F.
  set (y := log10 (Rmax pr SmallNumber) + (- 0.4 - 0.67 * work)).
  destruct (reqb (0.75 - 1.27 * work - 0.14 * y) 0) eqn:E.
  - apply reqb_true in E. destruct (reqb y 0) eqn:E2.
    + apply reqb_true in E2. rewrite E2 in E. lra.
    + exists 1. split; [reflexivity|lra].
  - eexists. split; [reflexivity|]. split; [apply pow10_pos|]. apply pow10_le1.
    set (f1 := y / (0.75 - 1.27 * work - 0.14 * y)).
    assert (0 < 1 + f1 * f1) by nra.
    unfold Rdiv. assert (0 < / (1 + f1 * f1)) by (apply Rinv_0_lt_compat; assumption). nra.
Qed.

Lemma log10_small_nonpos x : x <= 1 -> log10 (Rmax x SmallNumber) <= 0.
Proof.
  intros H. rewrite <- log10_1. apply log10_le.
  - pose proof small_pos. pose proof (Rmax_r x SmallNumber). lra.
  - apply Rmax_lub; [exact H|]. pose proof small_lt1. lra.
Qed.

Lemma exp_neg_range T c : 0 < T -> 0 <= c -> 0 <= exp_neg T (inv_or_inf c) <= 1.
Proof.
  intros HT Hc. unfold inv_or_inf. destruct (rltb (Rabs c) SmallNumber) eqn:E; cbn [exp_neg]; [lra|].
  apply rltb_false in E. rewrite Rabs_right in E by lra. pose proof small_pos.
  assert (0 < / c) by (apply Rinv_0_lt_compat; lra).
  split; [left; apply exp_pos|]. rewrite <- exp_0. left. apply exp_increasing. nra.
Qed.

Lemma troe_fcent_le1 a c1 c2 T :
  0 <= a <= 1 -> 0 <= c1 -> 0 <= c2 -> 0 < T ->
  0 <= troe_fcent a (inv_or_inf c1) (inv_or_inf c2) 0 T <= 1.
Proof.
  intros Ha H1 H2 HT. unfold troe_fcent.
  replace (reqb 0 0) with true by (symmetry; apply reqb_true; reflexivity).
  pose proof (exp_neg_range T c1 HT H1). pose proof (exp_neg_range T c2 HT H2). nra.
Qed.

(* ---------------- the rate ---------------- *)

Definition kL (f : falloff) (T : R) : R :=
  match fo_low f with Some a => arrhenius a T | None => 0 end.
Definition kH (f : falloff) (T : R) : R :=
  match fo_high f with Some a => arrhenius a T | None => 0 end.

Lemma arrhenius_nonneg a T : 0 <= aA a -> 0 <= arrhenius a T.
Proof.
  intros H. unfold arrhenius.
  pose proof (exp_pos (- (aE a / T))) as H1.
  assert (H2 : 0 < Rpower T (ab a)) by apply exp_pos.
  apply Rmult_le_pos; [apply Rmult_le_pos; lra|lra].
Qed.
Lemma arrhenius_sign a T : exists c, 0 < c /\ arrhenius a T = aA a * c.
Proof.
  exists (Rpower T (ab a) * exp (- (aE a / T))). split.
  - apply Rmult_lt_0_compat; [apply exp_pos|apply exp_pos].
  - unfold arrhenius. ring.
Qed.

Lemma falloff_bounds lo hi act nA b T M F :
  0 <= arrhenius lo T -> 0 <= arrhenius hi T -> 0 <= M ->
  blendF b T (M * arrhenius lo T / (arrhenius hi T + SmallNumber)) = Some F ->
  0 < F <= 1 ->
  exists k, falloff_eval (Falloff (Some lo) (Some hi) act nA b) T M = Some k /\
    0 <= k /\
    (act = false -> k <= M * arrhenius lo T /\ k <= arrhenius hi T) /\
    (act = true -> k <= arrhenius lo T).
Proof.
  intros HL HH HM HF [F0 F1]. unfold falloff_eval. cbn [fo_low fo_high fo_act fo_blend].
  rewrite !evalRate_arrhenius. set (kl := arrhenius lo T) in *. set (kh := arrhenius hi T) in *.
  pose proof small_pos as SP. set (s := SmallNumber) in *.
  replace (reqb (kh + s) 0) with false by (symmetry; apply reqb_false; lra).
  set (pr := M * kl / (kh + s)) in *.
  assert (D : 0 < / (kh + s)) by (apply Rinv_0_lt_compat; lra).
  assert (Pn : 0 <= pr).
  { unfold pr, Rdiv. apply Rmult_le_pos; [apply Rmult_le_pos; assumption|lra]. }
  replace (reqb (1 + pr) 0) with false by (symmetry; apply reqb_false; lra).
  rewrite HF.
  assert (I : 0 < / (1 + pr) <= 1).
  { split; [apply Rinv_0_lt_compat; lra|]. rewrite <- Rinv_1. apply Rinv_le_contravar; lra. }
  assert (G : 0 < F / (1 + pr) <= 1).
  { unfold Rdiv. split; [apply Rmult_lt_0_compat; lra|]. nra. }
  assert (PI : pr * / (1 + pr) <= 1).
  { apply (Rmult_le_reg_r (1 + pr)); [lra|]. rewrite Rmult_assoc, Rinv_l by lra. lra. }
  destruct act.
  - eexists. split; [reflexivity|]. split; [nra|]. split; [discriminate|]. intros _. nra.
  - eexists. split; [reflexivity|]. split.
    { apply Rmult_le_pos; [|exact HH]. apply Rmult_le_pos; [exact Pn|lra]. }
    split; [|discriminate]. intros _. split.
    + assert (A : pr * kh <= M * kl).
      { unfold pr, Rdiv. assert (kh * / (kh + s) <= 1).
        { apply (Rmult_le_reg_r (kh + s)); [lra|]. rewrite Rmult_assoc, Rinv_l by lra. lra. }
        replace (M * kl * / (kh + s) * kh) with (M * kl * (kh * / (kh + s))) by ring.
        assert (0 <= M * kl) by (apply Rmult_le_pos; assumption). nra. }
      assert (0 <= pr * kh) by (apply Rmult_le_pos; assumption).
      replace (pr * (F / (1 + pr)) * kh) with ((pr * kh) * (F / (1 + pr))) by ring. nra.
    + assert (B : pr * (F / (1 + pr)) <= 1).
      { unfold Rdiv. assert (0 <= pr * / (1 + pr)) by (apply Rmult_le_pos; lra).
        replace (pr * (F * / (1 + pr))) with ((pr * / (1 + pr)) * F) by ring. nra. }
      nra.
Qed.

Lemma lindemann_eval lo hi nA T M :
  0 <= arrhenius lo T -> 0 <= arrhenius hi T -> 0 <= M ->
  falloff_eval (Falloff (Some lo) (Some hi) false nA Lindemann) T M =
  Some (M * arrhenius lo T * arrhenius hi T /
        (arrhenius hi T + SmallNumber + M * arrhenius lo T)).
Proof.
  intros HL HH HM. unfold falloff_eval. cbn [fo_low fo_high fo_act fo_blend blendF].
  rewrite !evalRate_arrhenius. set (kl := arrhenius lo T) in *. set (kh := arrhenius hi T) in *.
  pose proof small_pos as SP. set (s := SmallNumber) in *.
  replace (reqb (kh + s) 0) with false by (symmetry; apply reqb_false; lra).
  assert (0 <= M * kl) by (apply Rmult_le_pos; assumption).
  assert (D : 0 < / (kh + s)) by (apply Rinv_0_lt_compat; lra).
  assert (0 <= M * kl / (kh + s)) by (unfold Rdiv; apply Rmult_le_pos; lra).
  replace (reqb (1 + M * kl / (kh + s)) 0) with false by (symmetry; apply reqb_false; lra).
  f_equal. field. split; lra.
Qed.

Lemma lind_mono kl kh s M1 M2 :
  0 <= kl -> 0 <= kh -> 0 < s -> 0 <= M1 -> M1 <= M2 ->
  M1 * kl * kh / (kh + s + M1 * kl) <= M2 * kl * kh / (kh + s + M2 * kl).
Proof.
  intros A B C D E.
  assert (P1 : 0 <= M1 * kl) by (apply Rmult_le_pos; lra).
  assert (P2 : M1 * kl <= M2 * kl) by (apply Rmult_le_compat_r; lra).
  set (u := M1 * kl) in *. set (v := M2 * kl) in *. set (K := kh + s).
  assert (HK : 0 < K) by (unfold K; lra).
  assert (H : v * kh / (K + v) - u * kh / (K + u) = kh * K * (v - u) / ((K + v) * (K + u)))
    by (field; lra).
  assert (0 <= kh * K * (v - u) / ((K + v) * (K + u))).
  { unfold Rdiv. apply Rmult_le_pos.
    - apply Rmult_le_pos; [apply Rmult_le_pos; lra|lra].
    - left. apply Rinv_0_lt_compat, Rmult_lt_0_compat; lra. }
  lra.
Qed.

Lemma lind_high kl kh s eps :
  0 < kl -> 0 <= kh -> 0 < s -> 0 < eps ->
  exists M0, forall M, M0 <= M -> 0 <= M ->
    Rabs (M * kl * kh / (kh + s + M * kl) - kh) < eps.
Proof.
  intros A B C E. exists ((kh * (kh + s) / eps) / kl). intros M HM H0.
  assert (P : 0 <= M * kl) by (apply Rmult_le_pos; lra).
  set (v := M * kl) in *. set (K := kh + s) in *.
  assert (HK : 0 < K) by (unfold K; lra).
  assert (V : kh * K / eps <= v).
  { apply (Rmult_le_compat_r kl) in HM; [|lra].
    replace (kh * K / eps / kl * kl) with (kh * K / eps) in HM by (field; lra). exact HM. }
  replace (v * kh / (K + v) - kh) with (- (kh * K / (K + v))) by (field; lra).
  rewrite Rabs_Ropp, Rabs_right.
  - apply (Rmult_lt_reg_r (K + v)); [lra|]. unfold Rdiv. rewrite Rmult_assoc, Rinv_l by lra.
    assert (kh * K <= v * eps).
    { apply (Rmult_le_compat_r eps) in V; [|lra]. unfold Rdiv in V.
      rewrite Rmult_assoc, Rinv_l in V by lra. lra. }
    nra.
  - apply Rle_ge. unfold Rdiv. apply Rmult_le_pos; [apply Rmult_le_pos; lra|].
    left. apply Rinv_0_lt_compat. lra.
Qed.

Lemma lind_low kl kh s eps :
  0 <= kl -> 0 <= kh -> 0 < s -> 0 < eps ->
  exists M0, 0 < M0 /\ forall M, 0 < M < M0 ->
    Rabs (M * kl * kh / (kh + s + M * kl) / M - kl * (kh / (kh + s))) < eps.
Proof.
  intros A B C E. set (K := kh + s).
  assert (HK : 0 < K) by (unfold K; lra).
  exists (eps * K / (kl * kl + 1)).
  assert (Q : 0 < kl * kl + 1) by nra.
  split.
  { unfold Rdiv. apply Rmult_lt_0_compat; [apply Rmult_lt_0_compat; lra|].
    apply Rinv_0_lt_compat. exact Q. }
  intros M [M0 M1].
  assert (P : 0 <= M * kl) by (apply Rmult_le_pos; lra).
  replace (M * kl * kh / (K + M * kl) / M - kl * (kh / K))
    with (- (kh * (M * (kl * kl)) / (K * (K + M * kl)))) by (field; lra).
  rewrite Rabs_Ropp, Rabs_right.
  - apply (Rmult_lt_reg_r (K * (K + M * kl))); [apply Rmult_lt_0_compat; lra|].
    unfold Rdiv. rewrite Rmult_assoc, Rinv_l by (apply Rgt_not_eq, Rmult_lt_0_compat; lra).
    rewrite Rmult_1_r.
    assert (M * (kl * kl + 1) < eps * K).
    { apply (Rmult_lt_compat_r (kl * kl + 1)) in M1; [|exact Q].
      unfold Rdiv in M1. rewrite Rmult_assoc, Rinv_l in M1 by lra. lra. }
    assert (M * (kl * kl) < eps * K) by lra.
    assert (kh < K) by (unfold K; lra).
    assert (0 <= M * (kl * kl)) by (apply Rmult_le_pos; nra).
    assert (kh * (M * (kl * kl)) <= K * (M * (kl * kl))) by (apply Rmult_le_compat_r; lra).
    assert (K * (M * (kl * kl)) < K * (eps * K)) by (apply Rmult_lt_compat_l; lra).
    assert (0 < eps * K) by (apply Rmult_lt_0_compat; lra).
    assert (K * (eps * K) <= eps * (K * (K + M * kl))) by nra. lra.
  - apply Rle_ge. unfold Rdiv. apply Rmult_le_pos.
    + apply Rmult_le_pos; [exact B|]. apply Rmult_le_pos; [lra|nra].
    + left. apply Rinv_0_lt_compat, Rmult_lt_0_compat; lra.
Qed.

(* The Troe factor stays away from one at high pressure. *)
Lemma troe_F_high work :
  work < 0 -> exists c pr0, 0 < c < 1 /\ 0 < pr0 /\
    forall pr F, pr0 <= pr -> troe_F pr work = Some F -> F <= c.
Proof.
  intros Hw. set (nn := 0.75 - 1.27 * work). set (cc := - 0.4 - 0.67 * work).
  assert (Hn : 0 < nn) by (unfold nn; lra).
  (* y0: from here on 0.07 y >= nn *)
  set (y0 := nn / 0.07 + 1).
  assert (Hy0 : 0 < y0 /\ nn < 0.07 * y0).
  { unfold y0. split.
    - unfold Rdiv. assert (0 < / 0.07) by (apply Rinv_0_lt_compat; lra).
      assert (0 < nn * / 0.07) by (apply Rmult_lt_0_compat; assumption). lra.
    - lra. }
  exists (Rpower 10 (work / 206)), (Rpower 10 (Rabs (y0 - cc))).
  split; [split; [apply pow10_pos|apply pow10_lt1; lra]|]. split; [apply pow10_pos|].
  intros pr F Hpr. unfold troe_F. fold cc nn.
  assert (Hl : y0 <= log10 (Rmax pr SmallNumber) + cc).
  { assert (y0 - cc <= log10 (Rmax pr SmallNumber)).
    { apply Rle_trans with (Rabs (y0 - cc)); [apply Rle_abs|].
      apply Rle_trans with (log10 (Rpower 10 (Rabs (y0 - cc)))).
      - right. unfold log10, Rpower. rewrite ln_exp. field. pose proof ln10_pos. lra.
      - apply log10_le; [apply pow10_pos|]. apply Rle_trans with pr; [exact Hpr|apply Rmax_l]. }
    lra. }
  set (y := log10 (Rmax pr SmallNumber) + cc) in *.
  assert (Dn : nn - 0.14 * y < - 0.07 * y) by lra.
  destruct (reqb (nn - 0.14 * y) 0) eqn:E; [apply reqb_true in E; lra|].
  intros EF. injection EF as <-.
  set (f1 := y / (nn - 0.14 * y)).
  assert (F1 : f1 * f1 <= 205).
  { assert (A : - (1 / 0.07) <= f1 <= 0).
    { unfold f1, Rdiv. assert (Id : / (nn - 0.14 * y) < 0) by (apply Rinv_lt_0_compat; lra).
      split; [|nra].
      apply (Rmult_le_reg_r (- (nn - 0.14 * y))); [lra|].
      replace (y * / (nn - 0.14 * y) * - (nn - 0.14 * y)) with (- y) by (field; lra).
      assert (0 < / 0.07) by (apply Rinv_0_lt_compat; lra).
      assert (H1 : 1 * / 0.07 * (0.07 * y) <= 1 * / 0.07 * (- (nn - 0.14 * y)))
        by (apply Rmult_le_compat_l; lra).
      lra. }
    assert (B : 1 / 0.07 < 14.3) by lra. nra. }
  unfold Rpower.
  assert (W : work / (1 + f1 * f1) <= work / 206).
  { unfold Rdiv. assert (/ 206 <= / (1 + f1 * f1)) by (apply Rinv_le_contravar; nra). nra. }
  pose proof ln10_pos.
  assert (W2 : work / (1 + f1 * f1) * ln 10 <= work / 206 * ln 10) by (apply Rmult_le_compat_r; lra).
  destruct W2 as [W2|W2]; [left; apply exp_increasing, W2|rewrite W2; right; reflexivity].
Qed.

(* ---------------- sign consistency ---------------- *)

Lemma fstep_sign f o :
  sign_ok (fo_low f) (fo_high f) = true -> sign_ok (fo_low (fstep f o)) (fo_high (fstep f o)) = true.
Proof.
  intros H. destruct o as [a|a|b]; cbn [fstep].
  - unfold setLowRate. destruct (negb (arr_check (fo_negA f) (Some a))); [exact H|].
    destruct (negb (sign_ok (Some a) (fo_high f))) eqn:E; [exact H|].
    apply negb_false_iff in E. exact E.
  - unfold setHighRate. destruct (negb (arr_check (fo_negA f) (Some a))); [exact H|].
    destruct (negb (sign_ok (fo_low f) (Some a))) eqn:E; [exact H|].
    apply negb_false_iff in E. exact E.
  - exact H.
Qed.

Lemma fsteps_sign ops f :
  sign_ok (fo_low f) (fo_high f) = true ->
  sign_ok (fo_low (fold_left fstep ops f)) (fo_high (fold_left fstep ops f)) = true.
Proof.
  revert f. induction ops as [|o ops IH]; intros f H; [exact H|]. apply IH, fstep_sign, H.
Qed.

Lemma fsteps_nonneg ops f :
  fo_negA f = false ->
  (forall b, In (AllowNegative b) ops -> b = false) ->
  (forall a, fo_low f = Some a -> 0 <= aA a) -> (forall a, fo_high f = Some a -> 0 <= aA a) ->
  let f' := fold_left fstep ops f in
  (forall a, fo_low f' = Some a -> 0 <= aA a) /\ (forall a, fo_high f' = Some a -> 0 <= aA a).
Proof.
  revert f. induction ops as [|o ops IH]; intros f Hn Ho Hl Hh; [split; assumption|].
  cbn [fold_left]. apply IH.
  - destruct o as [a|a|b]; cbn [fstep].
    + unfold setLowRate. destruct (negb _); [exact Hn|]. destruct (negb _); exact Hn.
    + unfold setHighRate. destruct (negb _); [exact Hn|]. destruct (negb _); exact Hn.
    + cbn [fo_negA]. apply Ho. left. reflexivity.
  - intros b Hb. apply Ho. right. exact Hb.
  - destruct o as [a|a|b]; cbn [fstep].
    + unfold setLowRate. destruct (negb (arr_check (fo_negA f) (Some a))) eqn:E; [exact Hl|].
      destruct (negb (sign_ok (Some a) (fo_high f))); [exact Hl|]. cbn [fo_low]. intros a' Ea. injection Ea as <-.
      apply negb_false_iff in E. unfold arr_check in E. rewrite Hn in E. cbn [orb] in E.
      apply negb_true_iff, rltb_false in E. exact E.
    + unfold setHighRate. destruct (negb _); [exact Hl|]. destruct (negb _); exact Hl.
    + exact Hl.
  - destruct o as [a|a|b]; cbn [fstep].
    + unfold setLowRate. destruct (negb _); [exact Hh|]. destruct (negb _); exact Hh.
    + unfold setHighRate. destruct (negb (arr_check (fo_negA f) (Some a))) eqn:E; [exact Hh|].
      destruct (negb (sign_ok (fo_low f) (Some a))); [exact Hh|]. cbn [fo_high]. intros a' Ea. injection Ea as <-.
      apply negb_false_iff in E. unfold arr_check in E. rewrite Hn in E. cbn [orb] in E.
      apply negb_true_iff, rltb_false in E. exact E.
    + exact Hh.
Qed.
