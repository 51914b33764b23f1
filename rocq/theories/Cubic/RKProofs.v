(** Redlich-Kwong as an instance of the mixtures of Mix.v. *)
From Coquelicot Require Import Coquelicot.
From Coq Require Import Reals List Arith Lra Lia.
From Verif Require Import Base.RSum Base.Vec Base.Fp Units.Model Excess.Spec Excess.Proofs
  Cubic.Model Cubic.Spec Cubic.Proofs Cubic.Mix Cubic.PRProofs.
Open Scope R_scope.

Definition rph (r : R) : R := ln (1 + r).
Definition rph1 (r : R) : R := 1 / (1 + r).
Definition rph2 (r : R) : R := - 1 / ((1 + r) * (1 + r)).

Lemma rph_d r : 0 < r < 1 -> is_derive rph r (rph1 r).
Proof. intros H. unfold rph, rph1. auto_derive; [lra|]. field. lra. Qed.
Lemma rph1_d r : 0 < r < 1 -> is_derive rph1 r (rph2 r).
Proof. intros H. unfold rph1, rph2. auto_derive; [lra|]. field. lra. Qed.

Lemma attraction_scal n q c x : attraction n (fun i j => q i j * c) x = attraction n q x * c.
Proof.
  unfold attraction. rewrite <- sum_n_scal_r. apply sum_n_ext. intros i _.
  rewrite <- sum_n_scal_r. apply sum_n_ext. intros; ring.
Qed.
Lemma attraction_lin n q q' c d x :
  attraction n (fun i j => q i j * c + q' i j * d) x = attraction n q x * c + attraction n q' x * d.
Proof.
  unfold attraction. rewrite <- !sum_n_scal_r, <- sum_n_plus. apply sum_n_ext. intros i _.
  rewrite <- !sum_n_scal_r, <- sum_n_plus. apply sum_n_ext. intros; ring.
Qed.
Lemma pair_row_lin n q q' c d x k :
  pair_row n (fun i j => q i j * c + q' i j * d) x k = pair_row n q x k * c + pair_row n q' x k * d.
Proof.
  unfold pair_row. rewrite <- !sum_n_scal_r, <- sum_n_plus. apply sum_n_ext. intros; ring.
Qed.
Lemma pair_row_scal n q c x k :
  pair_row n (fun i j => q i j * c) x k = pair_row n q x k * c.
Proof. unfold pair_row. rewrite <- !sum_n_scal_r. apply sum_n_ext. intros; ring. Qed.

(** Attraction of a pair over sqrt T, and its temperature derivatives. *)
Definition kq (s : rk) (t : R) (i j : nat) : R := rk_attr s t i j * / sqrt t.
Definition kq1 (s : rk) (t : R) (i j : nat) : R :=
  k_a1 s i j * / sqrt t + rk_attr s t i j * (- / (2 * t * sqrt t)).
Definition kq2 (s : rk) (t : R) (i j : nat) : R :=
  k_a1 s i j * (- / (t * sqrt t)) + rk_attr s t i j * (3 / (4 * t * t * sqrt t)).

Lemma kq1_d s T i j : 0 < T -> is_derive (fun t => kq s t i j) T (kq1 s T i j).
Proof.
  intros HT. unfold kq, kq1, rk_attr. assert (Hs : 0 < sqrt T) by (now apply sqrt_lt_R0).
  assert (E : sqrt T * sqrt T = T) by (apply sqrt_sqrt; lra).
  auto_derive; [split; [assumption|split; [lra|exact I]]|].
  set (z := sqrt T) in *. clearbody z. rewrite <- E. field. lra.
Qed.
Lemma kq2_d s T i j : 0 < T -> is_derive (fun t => kq1 s t i j) T (kq2 s T i j).
Proof.
  intros HT. unfold kq1, kq2, rk_attr. assert (Hs : 0 < sqrt T) by (now apply sqrt_lt_R0).
  assert (E : sqrt T * sqrt T = T) by (apply sqrt_sqrt; lra).
  assert (2 * T * sqrt T <> 0) by (apply Rgt_not_eq; apply Rmult_lt_0_compat; lra).
  auto_derive.
  - repeat match goal with |- _ /\ _ => split | |- True => exact I end; try assumption; lra.
  - set (z := sqrt T) in *. clearbody z. subst T. field. lra.
Qed.

Section RKI.
Context (s : rk) (T v : R) (x : vec).
Local Notation r := (k_ref s).
Local Notation n := (rn (k_ref s)).
Local Notation b := (k_b s).
Context (Hw : weak_ok r b T v x) (Hok : state_ok r b T v x) (Hrk : rk_ok s).
Local Notation S := (rk_set s T v x).
Local Notation Rg := GasConstant.
Local Notation B := (covolume n b x).
Local Notation D := (attraction n (rk_attr s T) x).
Local Notation D1 := (attraction n (k_a1 s) x).
Local Notation L := (rph (B / v)).

Lemma K_a t i j : (i < n)%nat -> (j < n)%nat -> k_a (rk_set s t v x) i j = rk_attr s t i j.
Proof.
  intros Hi Hj. destruct Hrk as [_ H]. unfold rk_set, rk_update, rk_attr. simpl.
  destruct (k_form s); [reflexivity|]. destruct (H eq_refl i j Hi Hj) as [E1 E2].
  rewrite E1, E2. ring.
Qed.
Lemma K_am : k_am S = D.
Proof. transitivity (attraction n (k_a S) x); [reflexivity|]. apply attraction_ext. intros; now apply K_a. Qed.
Lemma K_bm : k_bm S = B.
Proof. reflexivity. Qed.
Lemma K_dadT t : rk_dadT (rk_set s t v x) = D1.
Proof.
  destruct Hrk as [_ H]. unfold rk_dadT. change (k_form (rk_set s t v x)) with (k_form s).
  destruct (k_form s); [reflexivity|].
  unfold attraction. symmetry. unfold sum_n at 1. apply sum_of_0. intros i Hi. apply in_seq in Hi.
  unfold sum_n. apply sum_of_0. intros j Hj. apply in_seq in Hj.
  destruct (H eq_refl i j) as [E _]; [lia|lia|]. rewrite E. ring.
Qed.
Lemma K_pp k : (k < n)%nat -> rk_pp S k = pair_row n (rk_attr s T) x k.
Proof.
  intros Hk. unfold rk_pp, pair_row. apply sum_n_ext. intros i Hi. now rewrite K_a.
Qed.

Lemma kq_sym t : symm n (kq s t).
Proof.
  intros i j Hi Hj. destruct Hrk as [H _]. destruct (H i j Hi Hj) as [E0 E1].
  unfold kq, rk_attr. now rewrite E0, E1.
Qed.
Lemma kq1_sym t : symm n (kq1 s t).
Proof.
  intros i j Hi Hj. destruct Hrk as [H _]. destruct (H i j Hi Hj) as [E0 E1].
  unfold kq1, rk_attr. now rewrite E0, E1.
Qed.

Lemma A_kq : attraction n (kq s T) x = D * / sqrt T.
Proof. apply attraction_scal. Qed.
Lemma A_kq1 : attraction n (kq1 s T) x = D1 * / sqrt T + D * (- / (2 * T * sqrt T)).
Proof. apply attraction_lin. Qed.
Lemma A_kq2 : attraction n (kq2 s T) x = D1 * (- / (T * sqrt T)) + D * (3 / (4 * T * T * sqrt T)).
Proof. apply attraction_lin. Qed.
Lemma P_kq k : pair_row n (kq s T) x k = pair_row n (rk_attr s T) x k * / sqrt T.
Proof. apply pair_row_scal. Qed.
Lemma P_kq1 k : pair_row n (kq1 s T) x k
  = pair_row n (k_a1 s) x k * / sqrt T + pair_row n (rk_attr s T) x k * (- / (2 * T * sqrt T)).
Proof. apply pair_row_lin. Qed.

Lemma K_log : rk_log S = L.
Proof.
  destruct (wdom _ _ _ _ _ Hw) as (HT & Hx & Hb & Hv).
  unfold rk_log, rph. rewrite K_bm. change (k_v S) with v. f_equal. field. lra.
Qed.
Lemma K_sq : 0 < T /\ 0 < sqrt T /\ 0 < v /\ 0 < v - B /\ 0 < B /\ 0 < v + B /\ sqrt T * sqrt T = T.
Proof.
  destruct (wdom _ _ _ _ _ Hw) as (HT & Hx & Hb & Hv).
  repeat split; try lra; [now apply sqrt_lt_R0|apply sqrt_sqrt; lra].
Qed.
Lemma rph1_den : rph1 (B / v) = v / (v + B).
Proof. destruct K_sq as (HT & Hs & Hv & Hvb & HB & Hp & _). unfold rph1. field. repeat split; lra. Qed.
Lemma rph2_den : rph2 (B / v) = - (v * v) / ((v + B) * (v + B)).
Proof. destruct K_sq as (HT & Hs & Hv & Hvb & HB & Hp & _). unfold rph2. field. repeat split; lra. Qed.

Ltac fin := set (z := sqrt T) in *; field; repeat split; lra.

Lemma F_pressure : rk_pressure S = gP rph1 r b (kq s) T v x.
Proof.
  destruct K_sq as (HT & Hs & Hv & Hvb & HB & Hp & _).
  destruct (wdom _ _ _ _ _ Hw) as (_ & Hx & _).
  unfold rk_pressure, gP, res_P. rewrite K_bm, K_am, rph1_den, A_kq, (total1 x _ Hx).
  change (k_v S) with v. change (k_T S) with T. set (DD := D). fin.
Qed.
Lemma F_dpdV : rk_dpdV S = gPV rph1 rph2 r b (kq s) T v x.
Proof.
  destruct K_sq as (HT & Hs & Hv & Hvb & HB & Hp & _).
  unfold rk_dpdV, gPV. rewrite K_bm, K_am, rph1_den, rph2_den, A_kq.
  change (k_v S) with v. change (k_T S) with T. set (DD := D). fin.
Qed.
Lemma F_dpdT : rk_dpdT S = gPT rph1 r b (kq1 s T) v x.
Proof.
  destruct K_sq as (HT & Hs & Hv & Hvb & HB & Hp & _).
  unfold rk_dpdT, gPT. rewrite K_bm, K_am, K_dadT, rph1_den, A_kq1.
  change (k_v S) with v. change (k_T S) with T. set (DD := D). set (DD1 := D1). fin.
Qed.
Lemma F_dpdni k : (k < n)%nat -> rk_dpdni S k = gPk rph1 rph2 r b (kq s) T v x k.
Proof.
  intros Hk. destruct K_sq as (HT & Hs & Hv & Hvb & HB & Hp & _).
  unfold rk_dpdni, gPk. rewrite K_bm, K_am, (K_pp k Hk), rph1_den, rph2_den, A_kq, P_kq.
  change (k_v S) with v. change (k_T S) with T. change (k_b S k) with (b k).
  set (DD := D). set (w := pair_row n (rk_attr s T) x k). fin.
Qed.
Lemma F_vbar k : (k < n)%nat -> gPV rph1 rph2 r b (kq s) T v x <> 0 ->
  rk_vbar S k = - gPk rph1 rph2 r b (kq s) T v x k / gPV rph1 rph2 r b (kq s) T v x.
Proof.
  intros Hk HPV. rewrite <- F_dpdV in *. rewrite <- (F_dpdni k Hk).
  destruct K_sq as (HT & Hs & Hv & Hvb & HB & Hp & _).
  unfold rk_vbar. cbv zeta.
  match goal with |- ?a / ?b = _ => assert (EN : a = v * rk_dpdni S k);
     [|assert (ED : b = - v * rk_dpdV S); [|rewrite EN, ED; field; split; lra]] end.
  - unfold rk_dpdni. rewrite K_bm, K_am, (K_pp k Hk).
    change (k_v S) with v. change (k_T S) with T. change (k_b S k) with (b k).
    set (DD := D). set (w := pair_row n (rk_attr s T) x k). fin.
  - unfold rk_dpdV, rk_pressure. rewrite K_bm, K_am.
    change (k_v S) with v. change (k_T S) with T. set (DD := D). fin.
Qed.

Lemma F_enthalpy : rk_enthalpy S = gU rph r b (kq s) (kq1 s T) T v x + gP rph1 r b (kq s) T v x * v.
Proof.
  rewrite <- F_pressure. pose proof R_pos as HR.
  destruct K_sq as (HT & Hs & Hv & Hvb & HB & Hp & _).
  destruct (wdom _ _ _ _ _ Hw) as (_ & Hx & _).
  unfold rk_enthalpy, rk_hresid, rk_z, gU, res_U. rewrite K_bm, K_am, K_dadT, A_kq, A_kq1, (total1 x _ Hx).
  change (k_T S) with T. change (k_x S) with x. change (k_ref S) with r. change (k_v S) with v.
  change (ln (1 + B / v)) with L.
  set (P := rk_pressure S). set (f := L). set (DD := D). set (DD1 := D1). fin.
Qed.

Lemma F_entropy : 0 < rk_pressure S -> rk_entropy S = gS rph r b (kq1 s T) T v x.
Proof.
  intros HP. pose proof R_pos as HR.
  destruct (dom _ _ _ _ _ Hok) as (HT & Hp & Hx & Hkx & Hb & Hv).
  assert (HRT : 0 < Rg * T) by (apply Rmult_lt_0_compat; assumption).
  destruct (ratio_dom B v Hb) as [R1 R2].
  destruct K_sq as (_ & Hs & _ & Hvb & HB & Hvp & _).
  unfold rk_entropy, rk_sresid, rk_z, gS. rewrite K_bm, K_am, K_dadT, A_kq1.
  change (k_T S) with T. change (k_x S) with x. change (k_ref S) with r. change (k_v S) with v.
  change (ln (1 + B / v)) with L.
  rewrite (xlogx_ok _ _ _ _ _ Hok).
  set (P := rk_pressure S) in *. set (f := L). set (DD := D). set (DD1 := D1).
  assert (Hz : 0 < P * v / (Rg * T)) by (apply Rdiv_lt_0_compat; [apply Rmult_lt_0_compat|]; assumption).
  assert (E1 : ln (P * v / (Rg * T) * (1 - B / v)) = ln P + ln v - ln (Rg * T) + ln (1 - B / v)).
  { rewrite ln_mult by lra. rewrite ln_quot by (try apply Rmult_lt_0_compat; assumption).
    now rewrite ln_mult by assumption. }
  assert (E2 : ln (P / rp0 r) = ln P - ln (rp0 r)) by (now apply ln_quot).
  assert (E3 : ln (Rg * T / (v * rp0 r)) = ln (Rg * T) - (ln v + ln (rp0 r))).
  { rewrite ln_quot by (try apply Rmult_lt_0_compat; assumption). now rewrite (ln_mult v) by assumption. }
  rewrite E1, E2, E3. set (l1 := ln (1 - B / v)). fin.
Qed.

Lemma F_mu k : (k < n)%nat -> 0 < rk_pressure S -> rk_mu S k = gMu rph rph1 r b (kq s) T v x k.
Proof.
  intros Hk HP. pose proof R_pos as HR.
  destruct (dom _ _ _ _ _ Hok) as (HT & Hp & Hx & Hkx & Hb & Hv).
  assert (Hsm : SmallNumber <= x k) by (destruct Hok as (_ & _ & _ & H & _); now apply H).
  specialize (Hkx k Hk).
  assert (HRT : 0 < Rg * T) by (apply Rmult_lt_0_compat; assumption).
  destruct (ratio_dom B v Hb) as [R1 R2].
  destruct K_sq as (_ & Hs & _ & Hvb & HB & Hvp & _).
  unfold rk_mu, gMu. rewrite K_bm, K_am, (K_pp k Hk), K_log, rph1_den, A_kq, P_kq.
  change (k_T S) with T. change (k_x S) with x. change (k_ref S) with r. change (k_v S) with v.
  change (k_b S k) with (b k).
  set (P := rk_pressure S) in *. set (f := L). set (DD := D). set (w := pair_row n (rk_attr s T) x k).
  rewrite Rmax_right by assumption.
  assert (E1 : ln (P * v / (Rg * T)) = ln P + ln v - ln (Rg * T)).
  { rewrite ln_quot by (try apply Rmult_lt_0_compat; assumption). now rewrite ln_mult by assumption. }
  assert (E2 : ln (P / rp0 r) = ln P - ln (rp0 r)) by (now apply ln_quot).
  assert (E3 : ln (x k * (Rg * T) / (v * rp0 r)) = ln (x k) + ln (Rg * T) - (ln v + ln (rp0 r))).
  { rewrite ln_quot by (apply Rmult_lt_0_compat; assumption).
    rewrite (ln_mult (x k) (Rg * T)) by assumption. rewrite (ln_mult v) by assumption. reflexivity. }
  assert (E4 : ln (v / (v - B)) = - ln (1 - B / v)).
  { rewrite ln_quot by lra. replace (1 - B / v) with ((v - B) / v) by (field; lra).
    rewrite ln_quot by lra. ring. }
  rewrite E1, E2, E3, E4. set (l1 := ln (1 - B / v)). fin.
Qed.

Lemma F_hbar k : (k < n)%nat ->
  gPV rph1 rph2 r b (kq s) T v x <> 0 ->
  rk_hbar S k = gUk rph rph1 r b (kq s) (kq1 s T) T v x k
    + T * gPT rph1 r b (kq1 s T) v x * (- gPk rph1 rph2 r b (kq s) T v x k / gPV rph1 rph2 r b (kq s) T v x).
Proof.
  intros Hk HPV. rewrite <- F_dpdV in *. rewrite <- (F_dpdni k Hk), <- F_dpdT.
  destruct K_sq as (HT & Hs & Hv & Hvb & HB & Hp & _).
  unfold rk_hbar, gUk. cbv zeta.
  replace (sum_n (fun i => 2 * k_x S i * k_T S * k_a1 S k i - 3 * k_x S i * k_a S k i) (rn (k_ref S)))
    with (2 * T * pair_row n (k_a1 s) x k - 3 * pair_row n (rk_attr s T) x k).
  2:{ unfold pair_row. rewrite <- !sum_n_scal.
      transitivity (sum_n (fun i => 2 * T * (x i * k_a1 s k i) + (- 3) * (x i * rk_attr s T k i)) n).
      { rewrite sum_n_plus, !sum_n_scal. ring. }
      apply sum_n_ext. intros i Hi. rewrite K_a by assumption.
      change (k_x S) with x. change (k_T S) with T. change (k_a1 S) with (k_a1 s). ring. }
  rewrite K_bm, K_am, K_log, K_dadT, rph1_den, A_kq, A_kq1, P_kq, P_kq1.
  change (k_T S) with T. change (k_ref S) with r. change (k_v S) with v. change (k_b S k) with (b k).
  set (PV := rk_dpdV S) in *. set (PT := rk_dpdT S). set (Pk := rk_dpdni S k).
  set (f := L). set (DD := D). set (DD1 := D1).
  set (w1 := pair_row n (k_a1 s) x k). set (w0 := pair_row n (rk_attr s T) x k).
  fin.
Qed.

Lemma F_sbar k : (k < n)%nat ->
  gPV rph1 rph2 r b (kq s) T v x <> 0 ->
  rk_sbar S k = gSk rph rph1 r b (kq1 s T) T v x k
    + gPT rph1 r b (kq1 s T) v x * (- gPk rph1 rph2 r b (kq s) T v x k / gPV rph1 rph2 r b (kq s) T v x).
Proof.
  intros Hk HPV. rewrite <- (F_vbar k Hk HPV), <- F_dpdT.
  destruct (dom _ _ _ _ _ Hok) as (HT & Hp & Hx & Hkx & Hb & Hv).
  assert (Hsm : SmallNumber <= x k) by (destruct Hok as (_ & _ & _ & H & _); now apply H).
  destruct K_sq as (_ & Hs & _ & Hvb & HB & Hvp & _).
  unfold rk_sbar, gSk. cbv zeta.
  change (sum_n (fun i => k_x S i * k_a1 S k i) (rn (k_ref S))) with (pair_row n (k_a1 s) x k).
  rewrite K_bm, K_am, K_log, K_dadT, (K_pp k Hk), rph1_den, A_kq1, P_kq1.
  change (k_T S) with T. change (k_ref S) with r. change (k_v S) with v. change (k_b S k) with (b k).
  change (k_x S) with x.
  rewrite Rmax_right by assumption.
  replace (v * rp0 r) with (rp0 r * v) by ring.
  assert (E4 : ln (v / (v - B)) = - ln (1 - B / v)).
  { rewrite ln_quot by lra. replace (1 - B / v) with ((v - B) / v) by (field; lra).
    rewrite ln_quot by lra. ring. }
  rewrite E4. set (l1 := ln (1 - B / v)). set (l2 := ln (Rg * T / (rp0 r * v))).
  set (vb := rk_vbar S k). set (PT := rk_dpdT S).
  set (f := L). set (DD := D). set (DD1 := D1).
  set (w1 := pair_row n (k_a1 s) x k). set (w0 := pair_row n (rk_attr s T) x k).
  fin.
Qed.

Lemma F_cv : rk_cv S = Rg * mean_X n x (rcp r T) - Rg + T * attraction n (kq2 s T) x * L / B.
Proof.
  destruct K_sq as (HT & Hs & Hv & Hvb & HB & Hp & _).
  unfold rk_cv. cbv zeta. rewrite K_bm, K_am, K_log, K_dadT, A_kq2.
  change (k_T S) with T. change (k_ref S) with r. change (k_x S) with x.
  set (f := L). set (DD := D). set (DD1 := D1). set (M := mean_X _ _ _). fin.
Qed.
Lemma F_cp : gPV rph1 rph2 r b (kq s) T v x <> 0 ->
  rk_cp S = Rg * mean_X n x (rcp r T) - Rg + T * attraction n (kq2 s T) x * L / B
    - T * gPT rph1 r b (kq1 s T) v x * gPT rph1 r b (kq1 s T) v x / gPV rph1 rph2 r b (kq s) T v x.
Proof.
  intros HPV. rewrite <- F_cv. rewrite <- F_dpdV in *. rewrite <- F_dpdT.
  destruct K_sq as (HT & Hs & Hv & Hvb & HB & Hp & _).
  unfold rk_cp, rk_cv. cbv zeta. rewrite K_bm.
  change (k_T S) with T. change (k_v S) with v.
  set (PV := rk_dpdV S) in *. set (PT := rk_dpdT S). set (f := rk_log S). set (d := rk_dadT S).
  set (M := mean_X _ _ _). set (a := k_am S). fin.
Qed.

End RKI.

Lemma F_A s T V m : 0 < T -> 0 < covolume (rn (k_ref s)) (k_b s) m < V ->
  rk_A s T V m = gA rph (k_ref s) (k_b s) (kq s) T V m.
Proof.
  intros HT Hb. unfold rk_A, gA, res_A, rph. cbv zeta.
  rewrite (attraction_scal (rn (k_ref s)) (rk_attr s T) (/ sqrt T) m : attraction _ (kq s T) m = _).
  assert (Hs : 0 < sqrt T) by (now apply sqrt_lt_R0).
  set (B := covolume (rn (k_ref s)) (k_b s) m) in *.
  set (l := ln (1 + B / V)). set (l1 := ln (1 - B / V)). set (z := sqrt T) in *. field. repeat split; lra.
Qed.
