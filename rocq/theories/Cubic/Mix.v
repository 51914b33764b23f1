(** A mixture whose residual Helmholtz energy is - N R T ln(1 - B/V) - D(T,n) phi(B/V)/B, with B linear
    and D quadratic in the mole numbers: its pressure, potentials, entropy, energy, their derivatives
    and their sums over the species.  Both equations of state are instances. *)
From Coquelicot Require Import Coquelicot.
From Coq Require Import Reals List Arith Lra Lia.
From Verif Require Import Base.RSum Base.Vec Base.Fp Units.Model Excess.Spec Excess.Proofs
  Cubic.Model Cubic.Spec Cubic.Proofs.
Open Scope R_scope.

Lemma d_const (c t : R) : is_derive (fun _ : R => c) t 0.
Proof. auto_derive; [exact I|reflexivity]. Qed.
Lemma d_id (t : R) : is_derive (fun u : R => u) t 1.
Proof. auto_derive; [exact I|reflexivity]. Qed.

(** The part of state_ok that the pressure and the enthalpy need. *)
Definition weak_ok (r : refdata) (b : vec) (T v : R) (x : vec) : Prop :=
  0 < T /\ mixture x (rn r) /\ 0 < covolume (rn r) b x < v.
Lemma ok_weak r b T v x : state_ok r b T v x -> weak_ok r b T v x.
Proof. intros (HT & Hp & Hx & Hs & Hw & Hb). repeat split; try assumption; lra. Qed.
Lemma wdom r b T v x : weak_ok r b T v x ->
  0 < T /\ mixture x (rn r) /\ 0 < covolume (rn r) b x < v /\ 0 < v.
Proof. intros (HT & Hx & Hb). repeat split; try assumption; lra. Qed.

Section Mix.
Context (phi phi1 phi2 : R -> R).
Context (Hphi : forall r, 0 < r < 1 -> is_derive phi r (phi1 r)).
Context (Hphi1 : forall r, 0 < r < 1 -> is_derive phi1 r (phi2 r)).
Context (r : refdata) (b : vec).
Context (q : R -> nat -> nat -> R) (q1 q2 : nat -> nat -> R) (T : R).
Local Notation n := (rn r).
Local Notation Rg := GasConstant.
Context (Hsym : symm n (q T)).
Context (Hsym1 : symm n q1).
Context (Hq1 : forall i j, (i < n)%nat -> (j < n)%nat -> is_derive (fun t => q t i j) T (q1 i j)).

Definition gA (t V : R) (m : vec) : R :=
  ideal_A r t V m + res_A phi (total m n) t V (covolume n b m) (attraction n (q t) m).
Definition gP (t V : R) (m : vec) : R :=
  res_P phi1 (total m n) t V (covolume n b m) (attraction n (q t) m).
Definition gU (V : R) (m : vec) : R :=
  Rg * T * mean_X n m (rh r T)
  + res_U phi (total m n) T V (covolume n b m) (T * attraction n q1 m - attraction n (q T) m).

Context (v : R) (x : vec).
Context (Hok : state_ok r b T v x).
Local Notation B := (covolume n b x).
Local Notation D := (attraction n (q T) x).
Local Notation D1 := (attraction n q1 x).
Local Notation F := (phi (B / v)).
Local Notation F1 := (phi1 (B / v)).
Local Notation F2 := (phi2 (B / v)).

Definition gMu (k : nat) : R :=
  gibbs_ref r T k + Rg * T * ln (x k * (Rg * T) / (v * rp0 r)) - Rg * T * ln (1 - B / v)
  + Rg * T * b k / (v - B) - 2 * pair_row n (q T) x k * F / B
  - D * F1 * b k / (v * B) + D * F * b k / (B * B).
Definition gS : R :=
  Rg * (mean_X n x (rs r T) - sum_n (fun k => x k * ln (x k)) n - ln (Rg * T / (v * rp0 r)))
  + Rg * ln (1 - B / v) + D1 * F / B.
Definition gPV : R := - (Rg * T) / ((v - B) * (v - B)) + D * (F2 * B / (v * v) / (v * v) + 2 * F1 / (v * v * v)).
Definition gPT : R := Rg / (v - B) - D1 * F1 / (v * v).
Definition gPk (k : nat) : R :=
  Rg * T / (v - B) + Rg * T * b k / ((v - B) * (v - B)) - 2 * pair_row n (q T) x k * F1 / (v * v)
  - D * F2 * b k / (v * v * v).
Definition gUk (k : nat) : R :=
  Rg * T * rh r T k - Rg * T
  + (T * (2 * pair_row n q1 x k) - 2 * pair_row n (q T) x k) * F / B
  + (T * D1 - D) * (F1 * b k / (v * B) - F * b k / (B * B)).

Lemma dom : 0 < T /\ 0 < rp0 r /\ mixture x n /\ (forall k, (k < n)%nat -> 0 < x k) /\ 0 < B < v /\ 0 < v.
Proof.
  assert (H := Hok). destruct H as (HT & Hp & Hx & Hs & Hw & Hb).
  repeat split; try assumption; try lra.
  intros k Hk. now apply (x_pos _ _ _ _ _ k Hok).
Qed.

Lemma gA_V : is_derive (fun V => gA T V x) v (- gP T v x).
Proof.
  destruct dom as (HT & Hp & Hx & Hk & Hb & Hv). unfold gA, gP.
  assert (Ht := total1 x n Hx). rewrite Ht.
  assert (H1 := ideal_V r T v x HT Hv Hp Hx Hk).
  assert (H2 := res_A_path phi phi1 Hphi (fun _ => 1) (fun V => V) (fun _ => B) (fun _ => D) v 1 v B D 0 1 0 0 T
    (d_const _ _) (d_id _) (d_const _ _) (d_const _ _) eq_refl eq_refl eq_refl eq_refl Hb).
  eapply is_derive_val; [exact (is_derive_plus _ _ v _ _ H1 H2)|].
  unfold plus; simpl. unfold res_P.
  set (p0 := F). set (p1 := F1). field. repeat split; lra.
Qed.

Lemma derive_line (a c x0 : R) : is_derive (fun t => a + c * (t - x0)) x0 c.
Proof. auto_derive; [exact I|ring]. Qed.
Lemma derive_quad (a c d x0 : R) :
  is_derive (fun t => a + c * (t - x0) + d * (t - x0) * (t - x0)) x0 c.
Proof. auto_derive; [exact I|ring]. Qed.

Lemma d_total k : (k < n)%nat -> is_derive (fun t => total (upd x k t) n) (x k) 1.
Proof.
  intros Hk. destruct dom as (_ & _ & Hx & _).
  apply (is_derive_ext (fun t => 1 + 1 * (t - x k))).
  { intros t. rewrite (total_upd x n k t Hk Hx). match goal with |- ?a = ?b => change (@eq R a b) end. ring. }
  apply derive_line.
Qed.
Lemma d_cov k : (k < n)%nat -> is_derive (fun t => covolume n b (upd x k t)) (x k) (b k).
Proof.
  intros Hk.
  apply (is_derive_ext (fun t => B + b k * (t - x k))).
  { intros t. now rewrite covolume_upd. }
  apply derive_line.
Qed.
Lemma d_att p k : symm n p -> (k < n)%nat ->
  is_derive (fun t => attraction n p (upd x k t)) (x k) (2 * pair_row n p x k).
Proof.
  intros Hs Hk.
  apply (is_derive_ext (fun t => attraction n p x + (2 * pair_row n p x k) * (t - x k) + p k k * (t - x k) * (t - x k))).
  { intros t. now rewrite attraction_upd. }
  apply derive_quad.
Qed.
Lemma upd_id k (f : vec -> R) : (forall y z : vec, (forall i, y i = z i) -> f y = f z) ->
  f (upd x k (x k)) = f x.
Proof.
  intros H. apply H. intros i. unfold upd. destruct (Nat.eqb_spec i k); [now subst|reflexivity].
Qed.
Lemma total_id k : total (upd x k (x k)) n = 1.
Proof.
  destruct dom as (_ & _ & Hx & _).
  rewrite (upd_id k (fun y => total y n)); [exact Hx|].
  intros y z H. unfold total. apply sum_n_ext. intros; apply H.
Qed.
Lemma cov_id k : covolume n b (upd x k (x k)) = B.
Proof.
  apply (upd_id k (fun y => covolume n b y)).
  intros y z H. unfold covolume. apply sum_n_ext. intros; now rewrite H.
Qed.
Lemma att_id p k : attraction n p (upd x k (x k)) = attraction n p x.
Proof.
  apply (upd_id k (fun y => attraction n p y)).
  intros y z H. unfold attraction. apply sum_n_ext. intros. apply sum_n_ext. intros. now rewrite !H.
Qed.

Lemma gA_k k : (k < n)%nat -> is_derive (fun t => gA T v (upd x k t)) (x k) (gMu k).
Proof.
  intros Hk. destruct dom as (HT & Hp & Hx & Hkx & Hb & Hv). unfold gA.
  assert (H1 := ideal_k r T v x k HT Hv Hp Hk (Hkx k Hk)).
  assert (H2 := res_A_path phi phi1 Hphi (fun t => total (upd x k t) n) (fun _ => v)
      (fun t => covolume n b (upd x k t)) (fun t => attraction n (q T) (upd x k t)) (x k)
      1 v B D 1 0 (b k) (2 * pair_row n (q T) x k) T
      (d_total k Hk) (d_const v (x k)) (d_cov k Hk) (d_att (q T) k Hsym Hk)
      (total_id k) eq_refl (cov_id k) (att_id (q T) k) Hb).
  eapply is_derive_val; [exact (is_derive_plus _ _ (x k) _ _ H1 H2)|].
  unfold plus; simpl. unfold gMu.
  set (p0 := F). set (p1 := F1). set (l1 := ln (1 - B / v)).
  set (l2 := ln (x k * (Rg * T) / (v * rp0 r))). field. repeat split; lra.
Qed.

Context (Href : ref_ok r T).

Lemma gA_T : is_derive (fun t => gA t v x) T (- gS).
Proof.
  destruct dom as (HT & Hp & Hx & Hk & Hb & Hv). unfold gA.
  assert (H1 := ideal_T r T v x HT Hv Hp Hx Hk Href).
  assert (H2 := res_A_T phi (fun t => attraction n (q t) x) T (total x n) v B D1
     (is_derive_attraction n q q1 x T Hq1) Hb).
  eapply is_derive_val; [exact (is_derive_plus _ _ T _ _ H1 H2)|].
  unfold plus; simpl. unfold gS. assert (Ht := total1 x n Hx). rewrite Ht.
  set (p0 := F). field. lra.
Qed.

Lemma gA_relation : gA T v x = gU v x - T * gS.
Proof.
  destruct dom as (HT & Hp & Hx & Hk & Hb & Hv). pose proof R_pos as HR.
  unfold gA, gU, gS, ideal_A, res_A, res_U, mean_X. assert (Ht := total1 x n Hx). rewrite Ht.
  rewrite (sum_n_ext _ (fun k => (Rg * T * (x k * rh r T k) + (- (Rg * T)) * (x k * rs r T k))
     + (Rg * T * (x k * ln (x k)) + x k * (Rg * T * ln (Rg * T / (v * rp0 r)) - Rg * T)))).
  2:{ intros k Hkn. unfold gibbs_ref. specialize (Hk k Hkn).
      replace (x k * (Rg * T) / (v * rp0 r)) with (x k * (Rg * T / (v * rp0 r))) by (unfold Rdiv; ring).
      rewrite ln_mult; [ring|assumption|].
      apply Rdiv_lt_0_compat; apply Rmult_lt_0_compat; assumption. }
  rewrite !sum_n_plus, !sum_n_scal, sum_n_scal_r. unfold mixture in Hx. rewrite Hx.
  set (p0 := F). field. lra.
Qed.

(** Pressure: derivatives. *)
Lemma gP_path k (fV : R -> R) V' : (k < n)%nat -> is_derive fV (x k) V' -> fV (x k) = v ->
  is_derive (fun t => gP T (fV t) (upd x k t)) (x k) (gPk k + gPV * V').
Proof.
  intros Hk HV EV. destruct dom as (HT & Hp & Hx & Hkx & Hb & Hv). unfold gP.
  eapply is_derive_val.
  { exact (res_P_path phi1 phi2 Hphi1 (fun t => total (upd x k t) n) fV
      (fun t => covolume n b (upd x k t)) (fun t => attraction n (q T) (upd x k t)) (x k)
      1 v B D 1 V' (b k) (2 * pair_row n (q T) x k) T
      (d_total k Hk) HV (d_cov k Hk) (d_att (q T) k Hsym Hk)
      (total_id k) EV (cov_id k) (att_id (q T) k) Hb). }
  unfold gPk, gPV. set (p1 := F1). set (p2 := F2). field. repeat split; lra.
Qed.

Lemma gP_V : is_derive (fun V => gP T V x) v gPV.
Proof.
  destruct dom as (HT & Hp & Hx & Hkx & Hb & Hv). unfold gP.
  eapply is_derive_val.
  { exact (res_P_path phi1 phi2 Hphi1 (fun _ => total x n) (fun V => V)
      (fun _ => B) (fun _ => D) v 1 v B D 0 1 0 0 T
      (d_const _ _) (d_id _) (d_const _ _) (d_const _ _) (total1 x n Hx) eq_refl eq_refl eq_refl Hb). }
  unfold gPV. set (p1 := F1). set (p2 := F2). field. repeat split; lra.
Qed.

Lemma gP_T (fV : R -> R) V' : is_derive fV T V' -> fV T = v ->
  is_derive (fun t => gP t (fV t) x) T (gPT + gPV * V').
Proof.
  intros HV EV. destruct dom as (HT & Hp & Hx & Hkx & Hb & Hv). unfold gP.
  eapply is_derive_val.
  { exact (res_P_T phi1 phi2 Hphi1 (fun t => attraction n (q t) x) fV T (total x n) v B D1 V'
      (is_derive_attraction n q q1 x T Hq1) HV EV Hb). }
  unfold gPT, gPV. assert (Ht := total1 x n Hx). rewrite Ht.
  set (p1 := F1). set (p2 := F2). field. repeat split; lra.
Qed.

(** Energy along a curve in (V, n_k). *)
Definition gUV : R := - (T * D1 - D) * F1 / (v * v).
Lemma gU_path k (fV : R -> R) V' : (k < n)%nat -> is_derive fV (x k) V' -> fV (x k) = v ->
  is_derive (fun t => gU (fV t) (upd x k t)) (x k) (gUk k + gUV * V').
Proof.
  intros Hk HV EV. destruct dom as (HT & Hp & Hx & Hkx & Hb & Hv). unfold gU.
  assert (H1 : is_derive (fun t => Rg * T * mean_X n (upd x k t) (rh r T)) (x k) (Rg * T * rh r T k)).
  { apply (is_derive_ext (fun t => Rg * T * covolume n (rh r T) x + Rg * T * rh r T k * (t - x k))).
    { intros t. change (mean_X n (upd x k t) (rh r T)) with (covolume n (rh r T) (upd x k t)).
      rewrite covolume_upd by assumption. match goal with |- ?a = ?b => change (@eq R a b) end. ring. }
    apply derive_line. }
  assert (H3 : is_derive (fun t => T * attraction n q1 (upd x k t) - attraction n (q T) (upd x k t)) (x k)
     (T * (2 * pair_row n q1 x k) - 2 * pair_row n (q T) x k)).
  { assert (Ha := d_att q1 k Hsym1 Hk). assert (Hb' := d_att (q T) k Hsym Hk).
    set (f1 := fun t => attraction n q1 (upd x k t)) in *. set (f0 := fun t => attraction n (q T) (upd x k t)) in *.
    change (is_derive (fun t => T * f1 t - f0 t) (x k) (T * (2 * pair_row n q1 x k) - 2 * pair_row n (q T) x k)).
    auto_derive.
    - split; [eexists; exact Ha|]. split; [eexists; exact Hb'|exact I].
    - replace (Derive (fun x => f1 x) (x k)) with (2 * pair_row n q1 x k) by (symmetry; apply is_derive_unique; exact Ha).
      replace (Derive (fun x => f0 x) (x k)) with (2 * pair_row n (q T) x k) by (symmetry; apply is_derive_unique; exact Hb').
      ring. }
  assert (H2 := res_U_path phi phi1 Hphi (fun t => total (upd x k t) n) (fun _ => T) fV
      (fun t => covolume n b (upd x k t))
      (fun t => T * attraction n q1 (upd x k t) - attraction n (q T) (upd x k t)) (x k)
      1 T v B (T * D1 - D) 1 0 V' (b k) (T * (2 * pair_row n q1 x k) - 2 * pair_row n (q T) x k)
      (d_total k Hk) (d_const T (x k)) HV (d_cov k Hk) H3
      (total_id k) eq_refl EV (cov_id k)).
  assert (EE : T * attraction n q1 (upd x k (x k)) - attraction n (q T) (upd x k (x k)) = T * D1 - D)
    by (now rewrite !att_id).
  specialize (H2 EE Hb).
  eapply is_derive_val; [exact (is_derive_plus _ _ (x k) _ _ H1 H2)|].
  unfold plus; simpl. unfold gUk, gUV.
  set (p0 := F). set (p1 := F1). field. repeat split; lra.
Qed.

Lemma maxwell : gUV + gP T v x = T * gPT.
Proof.
  destruct dom as (HT & Hp & Hx & Hkx & Hb & Hv). unfold gUV, gP, gPT, res_P.
  assert (Ht := total1 x n Hx). rewrite Ht. set (p1 := F1). field. repeat split; lra.
Qed.

(** Sums over the species. *)
Lemma sum_gPk : sum_n (fun k => x k * gPk k) n = - v * gPV.
Proof.
  destruct dom as (HT & Hp & Hx & Hkx & Hb & Hv).
  set (c1 := Rg * T / (v - B)). set (c2 := Rg * T / ((v - B) * (v - B)) - D * F2 / (v * v * v)).
  set (c3 := - 2 * F1 / (v * v)).
  rewrite (sum_n_ext _ (fun k => x k * c1 + (x k * b k * c2 + x k * pair_row n (q T) x k * c3))).
  2:{ intros k _. unfold gPk, c1, c2, c3. set (p1 := F1). set (p2 := F2). field. repeat split; lra. }
  rewrite !sum_n_plus, !sum_n_scal_r. unfold mixture in Hx. rewrite Hx.
  fold (covolume n b x). rewrite attraction_row. unfold c1, c2, c3, gPV.
  set (p1 := F1). set (p2 := F2). field. repeat split; lra.
Qed.

Lemma sum_gUk : sum_n (fun k => x k * gUk k) n = gU v x - v * gUV.
Proof.
  destruct dom as (HT & Hp & Hx & Hkx & Hb & Hv).
  set (c2 := (T * D1 - D) * (F1 / (v * B) - F / (B * B))).
  set (c3 := 2 * T * F / B). set (c4 := - 2 * F / B).
  rewrite (sum_n_ext _ (fun k => Rg * T * (x k * rh r T k) + (x k * (- (Rg * T))
     + (x k * b k * c2 + (x k * pair_row n q1 x k * c3 + x k * pair_row n (q T) x k * c4))))).
  2:{ intros k _. unfold gUk, c2, c3, c4. set (p0 := F). set (p1 := F1). field. repeat split; lra. }
  rewrite !sum_n_plus, !sum_n_scal, !sum_n_scal_r. assert (Ht := total1 x n Hx).
  unfold mixture in Hx. rewrite Hx.
  fold (covolume n b x). rewrite !attraction_row. unfold c2, c3, c4, gU, gUV, res_U, mean_X.
  rewrite Ht. set (p0 := F). set (p1 := F1). field. repeat split; lra.
Qed.

Lemma sum_gMu : sum_n (fun k => x k * gMu k) n = gU v x + gP T v x * v - T * gS.
Proof.
  destruct dom as (HT & Hp & Hx & Hk & Hb & Hv). pose proof R_pos as HR.
  set (L := ln (Rg * T / (v * rp0 r))).
  set (c1 := Rg * T * L - Rg * T * ln (1 - B / v)).
  set (c2 := Rg * T / (v - B) - D * F1 / (v * B) + D * F / (B * B)).
  set (c3 := - 2 * F / B).
  rewrite (sum_n_ext _ (fun k => Rg * T * (x k * rh r T k) + ((- (Rg * T)) * (x k * rs r T k)
     + (Rg * T * (x k * ln (x k)) + (x k * c1 + (x k * b k * c2 + x k * pair_row n (q T) x k * c3)))))).
  2:{ intros k Hkn. specialize (Hk k Hkn). unfold gMu, gibbs_ref, c1, c2, c3.
      replace (x k * (Rg * T) / (v * rp0 r)) with (x k * (Rg * T / (v * rp0 r))) by (unfold Rdiv; ring).
      rewrite ln_mult; [|assumption|apply Rdiv_lt_0_compat; apply Rmult_lt_0_compat; assumption].
      fold L. set (p0 := F). set (p1 := F1). set (l1 := ln (1 - B / v)). field. repeat split; lra. }
  rewrite !sum_n_plus, !sum_n_scal, !sum_n_scal_r. assert (Ht := total1 x n Hx).
  unfold mixture in Hx. rewrite Hx.
  fold (covolume n b x). rewrite !attraction_row. unfold c1, c2, c3, gU, gP, gS, res_U, res_P, mean_X.
  rewrite Ht. fold L. set (p0 := F). set (p1 := F1). set (l1 := ln (1 - B / v)). field. repeat split; lra.
Qed.

(** h_k - T s_k = mu_k with s_k the entropy derivative plus v_k dp/dT. *)
Definition gSk (k : nat) : R :=
  Rg * rs r T k - Rg * ln (x k) - Rg * ln (Rg * T / (v * rp0 r)) - Rg + Rg * ln (1 - B / v)
  - Rg * b k / (v - B) + 2 * pair_row n q1 x k * F / B
  + D1 * (F1 * b k / (v * B) - F * b k / (B * B)).
Lemma gUk_Sk k : (k < n)%nat -> gUk k - T * gSk k = gMu k.
Proof.
  intros Hkn. destruct dom as (HT & Hp & Hx & Hk & Hb & Hv). pose proof R_pos as HR.
  specialize (Hk k Hkn). unfold gUk, gSk, gMu, gibbs_ref.
  replace (x k * (Rg * T) / (v * rp0 r)) with (x k * (Rg * T / (v * rp0 r))) by (unfold Rdiv; ring).
  rewrite ln_mult; [|assumption|apply Rdiv_lt_0_compat; apply Rmult_lt_0_compat; assumption].
  set (p0 := F). set (p1 := F1). set (l1 := ln (1 - B / v)). field. repeat split; lra.
Qed.

End Mix.

(** ** Scaling: volume V and mole numbers m against molar volume and mole fractions *)
Lemma total_frac_one m n : total m n <> 0 -> total (fractions m n) n = 1.
Proof.
  intros H. unfold total, fractions.
  rewrite (sum_n_ext _ (fun k => m k * / total m n)) by (intros; reflexivity).
  rewrite sum_n_scal_r. now apply Rinv_r.
Qed.

Lemma gP_scale phi1 r b q t V m : total m (rn r) <> 0 ->
  gP phi1 r b q t (V / total m (rn r)) (fractions m (rn r)) = gP phi1 r b q t V m.
Proof.
  intros HN. unfold gP, res_P. rewrite total_frac_one by assumption.
  rewrite covolume_frac, attraction_frac. set (N := total m (rn r)) in *.
  set (B := covolume (rn r) b m). set (D := attraction (rn r) (q t) m).
  replace (B / N / (V / N)) with (B / V).
  2:{ unfold Rdiv. rewrite Rinv_mult, Rinv_inv. rewrite <- (Rmult_1_r (B * / V)), <- (Rinv_l N HN). ring. }
  replace (V / N - B / N) with ((V - B) / N) by (unfold Rdiv; ring).
  unfold Rdiv. rewrite !Rinv_mult, !Rinv_inv.
  replace (/ V * N * (/ V * N)) with (/ V * / V * (N * N)) by ring.
  replace (D * (/ N * / N) * phi1 (B * / V) * (/ V * / V * (N * N)))
    with (D * phi1 (B * / V) * (/ V * / V) * ((/ N * N) * (/ N * N))) by ring.
  rewrite (Rinv_l N HN). ring.
Qed.

Lemma gU_scale phi r b q q1 T V m : total m (rn r) <> 0 ->
  total m (rn r) * gU phi r b q q1 T (V / total m (rn r)) (fractions m (rn r))
  = gU phi r b q q1 T V m.
Proof.
  intros HN. unfold gU, res_U. rewrite total_frac_one by assumption.
  rewrite covolume_frac, !attraction_frac, mean_frac. set (N := total m (rn r)) in *.
  set (B := covolume (rn r) b m). set (D := attraction (rn r) (q T) m). set (D1 := attraction (rn r) q1 m).
  replace (B / N / (V / N)) with (B / V).
  2:{ unfold Rdiv. rewrite Rinv_mult, Rinv_inv. rewrite <- (Rmult_1_r (B * / V)), <- (Rinv_l N HN). ring. }
  unfold Rdiv. rewrite !Rinv_mult, !Rinv_inv. set (M := mean_X _ _ _).
  transitivity (GasConstant * T * M * (N * / N) + (- (N * GasConstant * T)
     + (T * D1 - D) * phi (B * / V) * / B * ((N * / N) * (N * / N)))); [ring|].
  rewrite (Rinv_r N HN). ring.
Qed.

(** Energy along a curve in (T, V). *)
Lemma gU_T phi phi1 (Hphi : forall r, 0 < r < 1 -> is_derive phi r (phi1 r)) r b q q1f q2 T v x
    (fV : R -> R) V' :
  state_ok r b T v x -> ref_ok r T ->
  (forall i j, (i < rn r)%nat -> (j < rn r)%nat -> is_derive (fun t => q t i j) T (q1f T i j)) ->
  (forall i j, (i < rn r)%nat -> (j < rn r)%nat -> is_derive (fun t => q1f t i j) T (q2 i j)) ->
  is_derive fV T V' -> fV T = v ->
  is_derive (fun t => gU phi r b q (q1f t) t (fV t) x) T
    (GasConstant * mean_X (rn r) x (rcp r T) - GasConstant
     + T * attraction (rn r) q2 x * phi (covolume (rn r) b x / v) / covolume (rn r) b x
     + gUV phi1 r b q (q1f T) T v x * V').
Proof.
  intros Hok Href Hq1 Hq2 HV EV.
  destruct (dom r b T v x Hok) as (HT & Hp & Hx & Hkx & Hb & Hv).
  unfold gU.
  set (B := covolume (rn r) b x) in *.
  assert (H1 : is_derive (fun t => GasConstant * t * mean_X (rn r) x (rh r t)) T
                 (GasConstant * mean_X (rn r) x (rcp r T))).
  { apply (is_derive_ext (fun t => sum_n (fun k => GasConstant * x k * (t * rh r t k)) (rn r))).
    { intros t. unfold mean_X. rewrite <- sum_n_scal. apply sum_n_ext. intros k _. ring. }
    apply (is_derive_val _ _ (sum_n (fun k => GasConstant * x k * rcp r T k) (rn r))).
    2:{ unfold mean_X. rewrite <- sum_n_scal. apply sum_n_ext. intros; ring. }
    apply (is_derive_sum_n (fun k t => GasConstant * x k * (t * rh r t k))). intros k Hk.
    destruct (Href k Hk) as [H _]. set (f := fun t => t * rh r t k) in *.
    change (is_derive (fun t => GasConstant * x k * f t) T (GasConstant * x k * rcp r T k)).
    auto_derive; [eexists; exact H|].
    replace (Derive (fun x => f x) T) with (rcp r T k) by (symmetry; apply is_derive_unique; exact H). ring. }
  assert (HD := is_derive_attraction (rn r) q (q1f T) x T Hq1).
  assert (HD1 := is_derive_attraction (rn r) q1f q2 x T Hq2).
  set (f0 := fun t => attraction (rn r) (q t) x) in *.
  set (f1 := fun t => attraction (rn r) (q1f t) x) in *.
  assert (H3 : is_derive (fun t => t * f1 t - f0 t) T (T * attraction (rn r) q2 x)).
  { auto_derive.
    - split; [eexists; exact HD1|]. split; [eexists; exact HD|exact I].
    - replace (Derive (fun x => f1 x) T) with (attraction (rn r) q2 x) by (symmetry; apply is_derive_unique; exact HD1).
      replace (Derive (fun x => f0 x) T) with (attraction (rn r) (q1f T) x) by (symmetry; apply is_derive_unique; exact HD).
      unfold f1. ring. }
  assert (H2 := res_U_path phi phi1 Hphi (fun _ => total x (rn r)) (fun t => t) fV (fun _ => B)
     (fun t => t * f1 t - f0 t) T 1 T v B (T * f1 T - f0 T) 0 1 V' 0 (T * attraction (rn r) q2 x)
     (d_const _ _) (d_id _) HV (d_const _ _) H3 (total1 x _ Hx) eq_refl EV eq_refl eq_refl Hb).
  eapply is_derive_val; [exact (is_derive_plus _ _ T _ _ H1 H2)|].
  unfold plus; simpl. unfold gUV. fold B. change (attraction (rn r) (q1f T) x) with (f1 T).
  change (attraction (rn r) (q T) x) with (f0 T).
  set (p0 := phi (B / v)). set (p1 := phi1 (B / v)). field. repeat split; lra.
Qed.
