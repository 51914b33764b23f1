(** Peng-Robinson as an instance of the mixtures of Mix.v. *)
From Coquelicot Require Import Coquelicot.
From Coq Require Import Reals List Arith Lra Lia.
From Verif Require Import Base.RSum Base.Vec Base.Fp Units.Model Excess.Spec Excess.Proofs
  Cubic.Model Cubic.Spec Cubic.Proofs Cubic.Mix.
Open Scope R_scope.

Lemma ln_quot a b : 0 < a -> 0 < b -> ln (a / b) = ln a - ln b.
Proof.
  intros Ha Hb. unfold Rdiv. rewrite ln_mult by (try apply Rinv_0_lt_compat; lra).
  rewrite ln_Rinv by assumption. ring.
Qed.

Lemma sqrt2_facts : 0 < sqrt 2 /\ sqrt 2 * sqrt 2 = 2 /\ 1 < sqrt 2 < 2.
Proof.
  assert (H0 : 0 < sqrt 2) by (apply sqrt_lt_R0; lra).
  assert (H1 : sqrt 2 * sqrt 2 = 2) by (apply sqrt_sqrt; lra).
  repeat split; try assumption; nra.
Qed.

Definition ph (r : R) : R := ln ((1 + (1 + sqrt 2) * r) / (1 + (1 - sqrt 2) * r)) / (2 * sqrt 2).
Definition ph1 (r : R) : R := 1 / (1 + 2 * r - r * r).
Definition ph2 (r : R) : R := - (2 - 2 * r) / ((1 + 2 * r - r * r) * (1 + 2 * r - r * r)).

Lemma ph_pos r : 0 < r < 1 -> 0 < 1 + (1 + sqrt 2) * r /\ 0 < 1 + (1 - sqrt 2) * r
   /\ 0 < 1 + 2 * r - r * r.
Proof. intros [H1 H2]. destruct sqrt2_facts as (A & A2 & A3 & A4). repeat split; nra. Qed.

Lemma ph_d r : 0 < r < 1 -> is_derive ph r (ph1 r).
Proof.
  intros H. destruct (ph_pos r H) as (P1 & P2 & P3). destruct sqrt2_facts as (A & A2 & A3).
  unfold ph, ph1. set (c := sqrt 2) in *. clearbody c. auto_derive.
  - split; [lra|]. split; [|exact I]. apply Rdiv_lt_0_compat; lra.
  - assert (E : 1 + 2 * r - r * r = (1 + (1 + c) * r) * (1 + (1 - c) * r)) by nra.
    rewrite E. field. repeat split; lra.
Qed.
Lemma ph1_d r : 0 < r < 1 -> is_derive ph1 r (ph2 r).
Proof.
  intros H. destruct (ph_pos r H) as (P1 & P2 & P3). unfold ph1, ph2. auto_derive.
  - lra.
  - field. lra.
Qed.

Section PRI.
Context (s : pr) (T v : R) (x : vec).
Local Notation r := (p_ref s).
Local Notation n := (rn (p_ref s)).
Local Notation b := (p_b s).
Context (Hw : weak_ok r b T v x) (Hok : state_ok r b T v x) (Hpr : pr_ok s T).
Local Notation S := (pr_set s T v x).
Local Notation Rg := GasConstant.
Local Notation B := (covolume n b x).
Local Notation D := (attraction n (pr_attr s T) x).

Lemma S_alpha i : p_alpha S i = pr_alpha s T i.
Proof. unfold pr_set, pr_update, pr_alpha, pr_sqt_alpha. simpl. ring. Qed.
Lemma S_aA i j : p_aA S i j = pr_attr s T i j.
Proof.
  unfold pr_attr. rewrite <- !S_alpha. reflexivity.
Qed.
Lemma S_am : p_am S = D.
Proof.
  transitivity (attraction n (p_aA S) x); [reflexivity|]. apply attraction_ext. intros; apply S_aA.
Qed.
Lemma S_bm : p_bm S = B.
Proof. reflexivity. Qed.

(** First and second temperature derivative of the attraction of a pair. *)
Definition pq1 (t : R) (i j : nat) : R :=
  (1/2) * pr_attr s t i j * (pr_dalpha (pr_set s t v x) i / pr_alpha s t i
                             + pr_dalpha (pr_set s t v x) j / pr_alpha s t j).
Definition pq2 (i j : nat) : R :=
  let ai := pr_alpha s T i in
  let aj := pr_alpha s T j in
  let term1 := pr_d2alpha S i / ai + pr_d2alpha S j / aj in
  let term2 := 2 * pr_dalpha S i * pr_dalpha S j / (ai * aj) in
  let term3 := pr_dalpha S i / ai + pr_dalpha S j / aj in
  (1/2) * pr_attr s T i j * (term1 + term2 - (1/2) * term3 * term3).

Lemma alpha_d i : (i < n)%nat ->
  is_derive (fun t => pr_alpha s t i) T (pr_dalpha S i).
Proof.
  intros Hi. destruct Hok as (HT & _). destruct Hpr as [_ H]. destruct (H i Hi) as [Hc Ha].
  unfold pr_alpha, pr_dalpha, pr_set, pr_update; simpl.
  set (Tc := pr_crit (p_a s i i) (p_b s i)) in *. set (k := p_kappa s i).
  assert (Hq : 0 < T / Tc) by (apply Rdiv_lt_0_compat; assumption).
  assert (Hs : 0 < sqrt (T / Tc)) by (apply sqrt_lt_R0; assumption).
  auto_derive; [repeat split; exact Hq|].
  change (T * / Tc) with (T / Tc). field. split; lra.
Qed.
Lemma dalpha_d i : (i < n)%nat ->
  is_derive (fun t => pr_dalpha (pr_set s t v x) i) T (pr_d2alpha S i).
Proof.
  intros Hi. destruct Hok as (HT & _). destruct Hpr as [_ H]. destruct (H i Hi) as [Hc Ha].
  unfold pr_dalpha, pr_d2alpha, pr_set, pr_update; simpl.
  set (Tc := pr_crit (p_a s i i) (p_b s i)) in *. set (k := p_kappa s i).
  assert (Hq : 0 < T / Tc) by (apply Rdiv_lt_0_compat; assumption).
  assert (Hs : 0 < sqrt (T / Tc)) by (apply sqrt_lt_R0; assumption).
  assert (Hne : Tc * sqrt (T / Tc) <> 0) by (apply Rgt_not_eq; apply Rmult_lt_0_compat; lra).
  auto_derive.
  - change (T * / Tc) with (T / Tc). repeat split; assumption.
  - change (T * / Tc) with (T / Tc).
    set (q := sqrt (T / Tc)) in *. clearbody q. field. split; lra.
Qed.

Lemma alpha_pos t i : pr_alpha s t i <> 0 -> 0 < pr_alpha s t i.
Proof.
  intros H. unfold pr_alpha in *.
  set (z := 1 + p_kappa s i * (1 - sqrt (t / pr_crit (p_a s i i) (p_b s i)))) in *.
  assert (0 <= z ^ 2) by (replace (z ^ 2) with (Rsqr z) by (unfold Rsqr; ring); apply Rle_0_sqr).
  lra.
Qed.

Lemma pq1_d i j : (i < n)%nat -> (j < n)%nat ->
  is_derive (fun t => pr_attr s t i j) T (pq1 T i j).
Proof.
  intros Hi Hj. destruct Hpr as [_ H].
  destruct (H i Hi) as [_ Ai]. destruct (H j Hj) as [_ Aj].
  apply alpha_pos in Ai. apply alpha_pos in Aj.
  assert (Di := alpha_d i Hi). assert (Dj := alpha_d j Hj).
  unfold pq1. set (di := pr_dalpha S i) in *. set (dj := pr_dalpha S j) in *.
  unfold pr_attr.
  set (fi := fun t => pr_alpha s t i) in *. set (fj := fun t => pr_alpha s t j) in *.
  change (pr_alpha s T i) with (fi T) in *. change (pr_alpha s T j) with (fj T) in *.
  change (is_derive (fun t => sqrt (fi t * fj t) * p_a s i j) T
    (1/2 * (sqrt (fi T * fj T) * p_a s i j) * (di / fi T + dj / fj T))).
  assert (Hp : 0 < fi T * fj T) by (apply Rmult_lt_0_compat; assumption).
  assert (Hs : 0 < sqrt (fi T * fj T)) by (apply sqrt_lt_R0; assumption).
  assert (Hsq : sqrt (fi T * fj T) * sqrt (fi T * fj T) = fi T * fj T) by (apply sqrt_sqrt; lra).
  auto_derive.
  - split; [eexists; exact Di|]. split; [eexists; exact Dj|]. split; [exact Hp|exact I].
  - replace (Derive (fun x => fi x) T) with di by (symmetry; apply is_derive_unique; exact Di).
    replace (Derive (fun x => fj x) T) with dj by (symmetry; apply is_derive_unique; exact Dj).
    set (z := sqrt (fi T * fj T)) in *. clearbody z.
    set (p := fi T) in *. set (p' := fj T) in *. clearbody p p'.
    transitivity ((1 / 2) * ((p' * di + p * dj) * / z) * p_a s i j); [field; lra|].
    replace (1 / 2 * (z * p_a s i j) * (di / p + dj / p'))
      with ((1 / 2) * ((p' * di + p * dj) * (z / (p * p'))) * p_a s i j) by (field; lra).
    do 2 f_equal. f_equal. rewrite <- Hsq. field. lra.
Qed.

Lemma pq2_d i j : (i < n)%nat -> (j < n)%nat ->
  is_derive (fun t => pq1 t i j) T (pq2 i j).
Proof.
  intros Hi Hj. destruct Hpr as [_ H].
  destruct (H i Hi) as [_ Ai]. destruct (H j Hj) as [_ Aj].
  apply alpha_pos in Ai. apply alpha_pos in Aj.
  assert (Di := alpha_d i Hi). assert (Dj := alpha_d j Hj).
  assert (Ei := dalpha_d i Hi). assert (Ej := dalpha_d j Hj).
  assert (Q := pq1_d i j Hi Hj).
  unfold pq2. unfold pq1 in Q |- *.
  set (fi := fun t => pr_alpha s t i) in *. set (fj := fun t => pr_alpha s t j) in *.
  set (gi := fun t => pr_dalpha (pr_set s t v x) i) in *.
  set (gj := fun t => pr_dalpha (pr_set s t v x) j) in *.
  set (qq := fun t => pr_attr s t i j) in *.
  change (pr_alpha s T i) with (fi T) in *. change (pr_alpha s T j) with (fj T) in *.
  change (pr_dalpha S i) with (gi T) in *. change (pr_dalpha S j) with (gj T) in *.
  change (pr_attr s T i j) with (qq T) in *.
  change (is_derive (fun t => 1 / 2 * qq t * (gi t / fi t + gj t / fj t)) T
    (let ai := fi T in let aj := fj T in
     let term1 := pr_d2alpha S i / ai + pr_d2alpha S j / aj in
     let term2 := 2 * gi T * gj T / (ai * aj) in
     let term3 := gi T / ai + gj T / aj in
     1 / 2 * qq T * (term1 + term2 - 1 / 2 * term3 * term3))).
  cbv zeta.
  auto_derive.
  - split; [eexists; exact Q|]. split; [eexists; exact Ei|]. split; [eexists; exact Di|].
    split; [lra|]. split; [eexists; exact Ej|]. split; [eexists; exact Dj|]. split; [lra|exact I].
  - replace (Derive (fun x => qq x) T) with (1 / 2 * qq T * (gi T / fi T + gj T / fj T))
      by (symmetry; apply is_derive_unique; exact Q).
    replace (Derive (fun x => fi x) T) with (gi T) by (symmetry; apply is_derive_unique; exact Di).
    replace (Derive (fun x => fj x) T) with (gj T) by (symmetry; apply is_derive_unique; exact Dj).
    replace (Derive (fun x => gi x) T) with (pr_d2alpha S i) by (symmetry; apply is_derive_unique; exact Ei).
    replace (Derive (fun x => gj x) T) with (pr_d2alpha S j) by (symmetry; apply is_derive_unique; exact Ej).
    field. lra.
Qed.

Lemma S_daAlpha t : pr_daAlpha (pr_set s t v x) = attraction n (pq1 t) x.
Proof.
  unfold pr_daAlpha, attraction. apply sum_n_ext. intros i Hi. apply sum_n_ext. intros j Hj.
  change (p_x (pr_set s t v x)) with x.
  assert (E : forall i, p_alpha (pr_set s t v x) i = pr_alpha s t i)
    by (intros; unfold pr_set, pr_update, pr_alpha, pr_sqt_alpha; simpl; ring).
  assert (E2 : p_aA (pr_set s t v x) i j = pr_attr s t i j) by (unfold pr_attr; now rewrite <- !E).
  rewrite !E, E2. unfold pq1. ring.
Qed.
Lemma S_d2aAlpha : pr_d2aAlpha S = attraction n pq2 x.
Proof.
  unfold pr_d2aAlpha, attraction. apply sum_n_ext. intros i Hi. apply sum_n_ext. intros j Hj.
  change (p_x S) with x. rewrite !S_alpha, S_aA. unfold pq2. cbv zeta. ring.
Qed.
Lemma attr_sym t : symm n (pr_attr s t).
Proof.
  intros i j Hi Hj. destruct Hpr as [H _]. unfold pr_attr. rewrite (H i j Hi Hj).
  now rewrite (Rmult_comm (pr_alpha s t i)).
Qed.
Lemma pq1_sym : symm n (pq1 T).
Proof. intros i j Hi Hj. unfold pq1. rewrite (attr_sym T i j Hi Hj). ring. Qed.

Lemma S_pp k : (k < n)%nat -> pr_pp S k = pair_row n (pr_attr s T) x k.
Proof.
  intros Hk. unfold pr_pp, pair_row. apply sum_n_ext. intros i Hi. change (p_x S) with x.
  now rewrite S_aA.
Qed.

Lemma S_log : pr_log S = 2 * sqrt 2 * ph (B / v).
Proof.
  destruct (wdom _ _ _ _ _ Hw) as (HT & Hx & Hb & Hv).
  unfold pr_log, ph. rewrite S_bm. change (p_v S) with v.
  destruct sqrt2_facts as (A & A2 & A3).
  destruct (ratio_dom B v Hb) as [R1 R2]. destruct (ph_pos (B / v) (conj R1 R2)) as (P1 & P2 & P3).
  assert (0 < v + (1 - sqrt 2) * B).
  { replace (v + (1 - sqrt 2) * B) with (v * (1 + (1 - sqrt 2) * (B / v))) by (field; lra).
    apply Rmult_lt_0_compat; assumption. }
  transitivity (ln ((1 + (1 + sqrt 2) * (B / v)) / (1 + (1 - sqrt 2) * (B / v)))); [|field; lra].
  f_equal. field. repeat split; try lra.
Qed.

Lemma den_pos : 0 < v * v + 2 * v * B - B * B.
Proof. destruct (wdom _ _ _ _ _ Hw) as (HT & Hx & Hb & Hv). nra. Qed.
Lemma ph1_den : ph1 (B / v) = v * v / (v * v + 2 * v * B - B * B).
Proof.
  destruct (wdom _ _ _ _ _ Hw) as (HT & Hx & Hb & Hv). pose proof den_pos.
  unfold ph1. field. repeat split; nra.
Qed.
Lemma ph2_den : ph2 (B / v) = - (2 * v * v * v * (v - B)) / ((v * v + 2 * v * B - B * B) * (v * v + 2 * v * B - B * B)).
Proof.
  destruct (wdom _ _ _ _ _ Hw) as (HT & Hx & Hb & Hv). pose proof den_pos.
  unfold ph2. field. repeat split; nra.
Qed.

Lemma E_pressure : pr_pressure S = gP ph1 r b (pr_attr s) T v x.
Proof.
  destruct (wdom _ _ _ _ _ Hw) as (HT & Hx & Hb & Hv). pose proof den_pos as Hd.
  unfold pr_pressure, gP, res_P. rewrite S_bm, S_am, ph1_den, (total1 x _ Hx).
  change (p_v S) with v. change (p_T S) with T.
  set (DD := D). field. repeat split; lra.
Qed.
Lemma E_dpdV : pr_dpdV S = gPV ph1 ph2 r b (pr_attr s) T v x.
Proof.
  destruct (wdom _ _ _ _ _ Hw) as (HT & Hx & Hb & Hv). pose proof den_pos as Hd.
  unfold pr_dpdV, gPV. rewrite S_bm, S_am, ph1_den, ph2_den.
  change (p_v S) with v. change (p_T S) with T.
  set (DD := D). field. repeat split; lra.
Qed.
Lemma E_dpdT : pr_dpdT S = gPT ph1 r b (pq1 T) v x.
Proof.
  destruct (wdom _ _ _ _ _ Hw) as (HT & Hx & Hb & Hv). pose proof den_pos as Hd.
  unfold pr_dpdT, gPT. rewrite S_bm, S_daAlpha, ph1_den.
  change (p_v S) with v. change (p_T S) with T.
  set (DD := attraction n (pq1 T) x). field. repeat split; lra.
Qed.
Lemma E_dpdni k : (k < n)%nat -> pr_dpdni S k = gPk ph1 ph2 r b (pr_attr s) T v x k.
Proof.
  intros Hk. destruct (wdom _ _ _ _ _ Hw) as (HT & Hx & Hb & Hv). pose proof den_pos as Hd.
  unfold pr_dpdni, gPk. rewrite S_bm, S_am, ph1_den, ph2_den, (S_pp k Hk).
  change (p_v S) with v. change (p_T S) with T. change (p_b S k) with (b k).
  set (DD := D). field. repeat split; lra.
Qed.
Lemma E_vbar k : (k < n)%nat -> gPV ph1 ph2 r b (pr_attr s) T v x <> 0 ->
  pr_vbar S k = - gPk ph1 ph2 r b (pr_attr s) T v x k / gPV ph1 ph2 r b (pr_attr s) T v x.
Proof.
  intros Hk HPV. rewrite <- E_dpdV in *. rewrite <- (E_dpdni k Hk).
  destruct (wdom _ _ _ _ _ Hw) as (HT & Hx & Hb & Hv). pose proof den_pos as Hd.
  unfold pr_vbar. cbv zeta.
  match goal with |- ?a / ?b = _ => assert (EN : a = v * pr_dpdni S k);
     [|assert (ED : b = - v * pr_dpdV S); [|rewrite EN, ED; field; split; lra]] end.
  - unfold pr_dpdni. rewrite S_bm, S_am, (S_pp k Hk).
    change (p_v S) with v. change (p_T S) with T. change (p_b S k) with (b k).
    set (DD := D). field. repeat split; lra.
  - unfold pr_dpdV, pr_pressure. rewrite S_bm, S_am.
    change (p_v S) with v. change (p_T S) with T.
    set (DD := D). field. repeat split; lra.
Qed.

Lemma E_z : pr_z S = pr_pressure S * v / (Rg * T).
Proof. reflexivity. Qed.

Lemma E_enthalpy : pr_enthalpy S = gU ph r b (pr_attr s) (pq1 T) T v x + gP ph1 r b (pr_attr s) T v x * v.
Proof.
  rewrite <- E_pressure.
  destruct (wdom _ _ _ _ _ Hw) as (HT & Hx & Hb & Hv). pose proof R_pos as HR.
  destruct sqrt2_facts as (A & A2 & A3).
  unfold pr_enthalpy, pr_hresid, gU, res_U. rewrite E_z, S_bm, S_am, S_daAlpha, S_log, (total1 x _ Hx).
  change (p_T S) with T. change (p_x S) with x. change (p_ref S) with r.
  set (P := pr_pressure S). set (f := ph (B / v)). set (DD := D). field. repeat split; lra.
Qed.

Lemma E_entropy : 0 < pr_pressure S -> pr_entropy S = gS ph r b (pq1 T) T v x.
Proof.
  intros HP.
  destruct (dom _ _ _ _ _ Hok) as (HT & Hp & Hx & Hkx & Hb & Hv). pose proof R_pos as HR.
  destruct sqrt2_facts as (A & A2 & A3).
  assert (HRT : 0 < Rg * T) by (apply Rmult_lt_0_compat; assumption).
  destruct (ratio_dom B v Hb) as [R1 R2].
  unfold pr_entropy, pr_sresid, gS. rewrite E_z, S_bm, S_daAlpha, S_log.
  change (p_T S) with T. change (p_x S) with x. change (p_ref S) with r. change (p_v S) with v.
  rewrite (xlogx_ok _ _ _ _ _ Hok).
  set (P := pr_pressure S) in *. set (f := ph (B / v)). set (DD := attraction n (pq1 T) x).
  assert (Hz : 0 < P * v / (Rg * T)) by (apply Rdiv_lt_0_compat; [apply Rmult_lt_0_compat|]; assumption).
  assert (E1 : ln (P * v / (Rg * T) * (1 - B / v)) = ln P + ln v - ln (Rg * T) + ln (1 - B / v)).
  { rewrite ln_mult by lra. rewrite ln_quot by (try apply Rmult_lt_0_compat; assumption).
    now rewrite ln_mult by assumption. }
  assert (E2 : ln (P / rp0 r) = ln P - ln (rp0 r)) by (now apply ln_quot).
  assert (E3 : ln (Rg * T / (v * rp0 r)) = ln (Rg * T) - (ln v + ln (rp0 r))).
  { rewrite ln_quot by (try apply Rmult_lt_0_compat; assumption). now rewrite (ln_mult v) by assumption. }
  rewrite E1, E2, E3. field. repeat split; lra.
Qed.

Lemma E_mu k : (k < n)%nat -> 0 < pr_pressure S -> pr_mu S k = gMu ph ph1 r b (pr_attr s) T v x k.
Proof.
  intros Hk HP.
  destruct (dom _ _ _ _ _ Hok) as (HT & Hp & Hx & Hkx & Hb & Hv). pose proof R_pos as HR.
  assert (Hsm : SmallNumber <= x k) by (destruct Hok as (_ & _ & _ & H & _); now apply H).
  specialize (Hkx k Hk).
  destruct sqrt2_facts as (A & A2 & A3).
  assert (HRT : 0 < Rg * T) by (apply Rmult_lt_0_compat; assumption).
  destruct (ratio_dom B v Hb) as [R1 R2]. pose proof den_pos as Hd.
  unfold pr_mu, gMu. rewrite S_bm, S_am, (S_pp k Hk), S_log, ph1_den.
  change (p_T S) with T. change (p_x S) with x. change (p_ref S) with r. change (p_v S) with v.
  change (p_b S k) with (b k).
  set (P := pr_pressure S) in *. set (f := ph (B / v)). set (DD := D).
  rewrite Rmax_right by assumption.
  assert (E1 : ln (P * v / (Rg * T)) = ln P + ln v - ln (Rg * T)).
  { rewrite ln_quot by (try apply Rmult_lt_0_compat; assumption). now rewrite ln_mult by assumption. }
  assert (E2 : ln (P / rp0 r) = ln P - ln (rp0 r)) by (now apply ln_quot).
  assert (E3 : ln (x k * (Rg * T) / (v * rp0 r)) = ln (x k) + ln (Rg * T) - (ln v + ln (rp0 r))).
  { rewrite ln_quot by (apply Rmult_lt_0_compat; assumption).
    rewrite (ln_mult (x k) (Rg * T)) by assumption. rewrite (ln_mult v) by assumption. reflexivity. }
  assert (E4 : ln (v / (v - B)) = - ln (1 - B / v)).
  { rewrite ln_quot by lra. replace (1 - B / v) with ((v - B) / v) by (field; lra).
    rewrite ln_quot by lra. ring. }
  rewrite E1, E2, E3, E4. field. repeat split; lra.
Qed.

Lemma E_hbar k : (k < n)%nat ->
  gPV ph1 ph2 r b (pr_attr s) T v x <> 0 ->
  pr_hbar S k = gUk ph ph1 r b (pr_attr s) (pq1 T) T v x k
    + T * gPT ph1 r b (pq1 T) v x * (- gPk ph1 ph2 r b (pr_attr s) T v x k / gPV ph1 ph2 r b (pr_attr s) T v x).
Proof.
  intros Hk HPV. rewrite <- E_dpdV in *. rewrite <- (E_dpdni k Hk), <- E_dpdT.
  destruct (wdom _ _ _ _ _ Hw) as (HT & Hx & Hb & Hv). pose proof den_pos as Hd.
  destruct sqrt2_facts as (A & A2 & A3).
  unfold pr_hbar, gUk. cbv zeta.
  replace (sum_n (fun i => p_x S i * p_aA S k i * (pr_dalpha S i / p_alpha S i + pr_dalpha S k / p_alpha S k)) (rn (p_ref S)))
    with (2 * pair_row n (pq1 T) x k).
  2:{ unfold pair_row. rewrite <- sum_n_scal. apply sum_n_ext. intros i Hi.
      rewrite !S_alpha, S_aA. change (p_x S) with x. unfold pq1.
      set (u := pr_dalpha S i / pr_alpha s T i). set (w := pr_dalpha S k / pr_alpha s T k). field. }
  rewrite S_bm, S_am, (S_pp k Hk), S_log, S_daAlpha, ph1_den.
  change (p_T S) with T. change (p_ref S) with r. change (p_v S) with v. change (p_b S k) with (b k).
  set (PV := pr_dpdV S) in *. set (PT := pr_dpdT S). set (Pk := pr_dpdni S k).
  set (f := ph (B / v)). set (DD := D). set (DD1 := attraction n (pq1 T) x).
  set (w1 := pair_row n (pq1 T) x k). set (w0 := pair_row n (pr_attr s T) x k).
  field. repeat split; lra.
Qed.

Lemma E_cp : gPV ph1 ph2 r b (pr_attr s) T v x <> 0 ->
  pr_cp S = Rg * mean_X n x (rcp r T) - Rg + T * attraction n pq2 x * ph (B / v) / B
    - T * gPT ph1 r b (pq1 T) v x * gPT ph1 r b (pq1 T) v x / gPV ph1 ph2 r b (pr_attr s) T v x.
Proof.
  intros HPV. rewrite <- E_dpdV in *. rewrite <- E_dpdT.
  destruct (wdom _ _ _ _ _ Hw) as (HT & Hx & Hb & Hv).
  destruct sqrt2_facts as (A & A2 & A3).
  unfold pr_cp. cbv zeta. rewrite S_bm, S_log, S_d2aAlpha.
  change (p_T S) with T. change (p_ref S) with r. change (p_v S) with v. change (p_x S) with x.
  set (PV := pr_dpdV S) in *. set (PT := pr_dpdT S). set (f := ph (B / v)).
  set (D2 := attraction n pq2 x). set (M := mean_X _ _ _). field. repeat split; lra.
Qed.

End PRI.

Lemma E_A s T V m : (0 < covolume (rn (p_ref s)) (p_b s) m < V) ->
  pr_A s T V m = gA ph (p_ref s) (p_b s) (pr_attr s) T V m.
Proof.
  intros Hb. unfold pr_A, gA, res_A, ph.
  set (B := covolume (rn (p_ref s)) (p_b s) m) in *.
  destruct sqrt2_facts as (A & A2 & A3).
  assert (Hv : 0 < V) by lra.
  destruct (ratio_dom B V Hb) as [R1 R2]. destruct (ph_pos (B / V) (conj R1 R2)) as (P1 & P2 & P3).
  assert (0 < V + (1 - sqrt 2) * B).
  { replace (V + (1 - sqrt 2) * B) with (V * (1 + (1 - sqrt 2) * (B / V))) by (field; lra).
    apply Rmult_lt_0_compat; assumption. }
  replace ((V + (1 + sqrt 2) * B) / (V + (1 - sqrt 2) * B))
    with ((1 + (1 + sqrt 2) * (B / V)) / (1 + (1 - sqrt 2) * (B / V))) by (field; repeat split; lra).
  set (l := ln ((1 + (1 + sqrt 2) * (B / V)) / (1 + (1 - sqrt 2) * (B / V)))).
  set (l1 := ln (1 - B / V)). field. repeat split; lra.
Qed.
