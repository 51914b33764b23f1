From Coquelicot Require Import Coquelicot.
From Coq Require Import Reals List Bool Arith Lia Lra.
From Verif Require Import Base.Fp Base.Outcome Base.RSum Base.Map2 Units.Model Units.Proofs IdealGas.Model IdealGas.Spec IdealGas.Proofs IdealGas.DerivProofs.
Import ListNotations.
Local Open Scope list_scope.
Local Open Scope R_scope.

(* Positive amounts, none a trace. *)
Definition amounts_ok (mw : list R) (n : nat -> R) : Prop :=
  forall j, (j < length mw)%nat ->
    0 < n j /\ SmallNumber < n j / total mw n /\ SmallNumber < n j / RSum.sum_n (fun i => nth i mw 0 * n i) (length mw).

Section Amounts.
Context (cpR hRT sR : nat -> R -> R) (p0 : R) (P0 : 0 < p0) (mw : list R) (HW : forall j, (j < length mw)%nat -> 0 < nth j mw 0).
Notation K := (length mw).
Definition wsum (n : nat -> R) : R := RSum.sum_n (fun i => nth i mw 0 * n i) K.

Lemma rmax_list l : (forall v, In v l -> 0 <= v) -> map (fun v => Rmax v 0) l = l.
Proof.
  induction l as [|a l IH]; intros H; cbn; auto. rewrite IH by (intros; apply H; right; auto). rewrite Rmax_left by (apply H; left; auto). reflexivity.
Qed.
Lemma setX_moles s n : (forall j, (j < K)%nat -> 0 <= n j) ->
  setMoleFractions mw s (moles mw n) = GST (gT s) (gD s) (map (fun v => v * (1 / wsum n)) (moles mw n)) (wsum n / total mw n).
Proof.
  intros H. unfold setMoleFractions. rewrite rmax_list.
  2:{ intros v V. unfold moles in V. apply in_map_iff in V as (j & <- & J). apply in_seq in J. apply H. lia. }
  assert (E : rsum (map2 Rmult mw (moles mw n)) = wsum n).
  { rewrite rsum_map2_sum by (unfold moles; rewrite map_length, seq_length; auto). apply sum_n_ext. intros k Hk. unfold moles. rewrite nth_map_seq; auto. }
  rewrite E. reflexivity.
Qed.
Lemma at_moles_eq T p n : (forall j, (j < K)%nat -> 0 <= n j) ->
  at_moles mw T p n = GST T (p * (wsum n / total mw n) / (T * GasConstant)) (map (fun v => v * (1 / wsum n)) (moles mw n)) (wsum n / total mw n).
Proof. intros H. unfold at_moles. rewrite setX_moles by auto. reflexivity. Qed.
Lemma at_moles_kk T p n : (forall j, (j < K)%nat -> 0 <= n j) -> kk (at_moles mw T p n) = K.
Proof. intros H. rewrite at_moles_eq by auto. unfold kk, moles; cbn. rewrite !map_length, seq_length. reflexivity. Qed.
Lemma ym_moles T p n j : (forall j, (j < K)%nat -> 0 <= n j) -> (j < K)%nat -> nth j (gYM (at_moles mw T p n)) 0 = n j / wsum n.
Proof.
  intros H J. rewrite at_moles_eq by auto. cbn. rewrite (nth_indep _ 0 ((fun v => v * (1 / wsum n)) 0)) by (unfold moles; rewrite !map_length, seq_length; auto).
  rewrite (map_nth (fun v => v * (1 / wsum n))). unfold moles. rewrite nth_map_seq by auto. unfold Rdiv. ring.
Qed.
Lemma wsum_pos n : (0 < K)%nat -> (forall j, (j < K)%nat -> 0 < n j) -> 0 < wsum n.
Proof. intros H N. apply sum_n_pos; auto. intros. apply Rmult_lt_0_compat; auto. Qed.
Lemma total_pos n : (0 < K)%nat -> (forall j, (j < K)%nat -> 0 < n j) -> 0 < total mw n.
Proof. intros H N. apply sum_n_pos; auto. Qed.
Lemma X_moles T p n j : (forall j, (j < K)%nat -> 0 < n j) -> (j < K)%nat -> moleFraction (at_moles mw T p n) j = n j / total mw n.
Proof.
  intros H J. assert (KP : (0 < K)%nat) by lia. pose proof (wsum_pos n KP H). pose proof (total_pos n KP H).
  unfold moleFraction. rewrite ym_moles by (auto; intros; apply Rlt_le; auto). rewrite at_moles_eq by (intros; apply Rlt_le; auto). cbn. field. lra.
Qed.
Lemma at_moles_mixture T p n : (0 < K)%nat -> 0 < T -> 0 < p -> amounts_ok mw n -> mixture (at_moles mw T p n).
Proof.
  intros KP HT HP A. assert (N : forall j, (j < K)%nat -> 0 < n j) by (intros; apply A; auto).
  assert (N' : forall j, (j < K)%nat -> 0 <= n j) by (intros; apply Rlt_le; auto).
  pose proof (wsum_pos n KP N) as WP. pose proof (total_pos n KP N) as TP. pose proof GasConstant_pos as G.
  assert (MP : 0 < wsum n / total mw n) by (apply Rdiv_lt_0_compat; auto).
  split.
  - rewrite at_moles_eq by auto. exact HT.
  - rewrite at_moles_eq by auto. cbn. apply Rdiv_lt_0_compat; apply Rmult_lt_0_compat; auto.
  - rewrite at_moles_eq by auto. exact MP.
  - rewrite at_moles_kk by auto. rewrite (sum_n_ext _ (fun j => n j * / total mw n)) by (intros; rewrite X_moles; auto).
    rewrite sum_n_scal_r. unfold total. apply Rinv_r. unfold total in TP. lra.
  - intros k Hk. rewrite at_moles_kk in Hk by auto. destruct (A k Hk) as (A1 & A2 & A3). right. rewrite X_moles, ym_moles by auto. split; apply Rlt_le; auto.
Qed.

(* Nearby amounts are as good. *)
Lemma locally_all (P : nat -> R -> Prop) x m : (forall j, (j < m)%nat -> locally x (P j)) -> locally x (fun y => forall j, (j < m)%nat -> P j y).
Proof.
  induction m; intros H.
  - apply filter_forall. intros. lia.
  - eapply filter_imp; [|apply (filter_and (F := locally x) _ _ (H m (Nat.lt_succ_diag_r m)) (IHm (fun j J => H j (Nat.lt_lt_succ_r _ _ J))))].
    intros y [A B] j J. destruct (Nat.eq_dec j m); [subst; auto|apply B; lia].
Qed.
Lemma locally_gt (f : R -> R) x c : ex_derive f x -> c < f x -> locally x (fun y => c < f y).
Proof. intros D H. apply (ex_derive_continuous f x D (fun y => c < y)). apply (open_gt c _ H). Qed.
Lemma frac_locally n k j c : (k < K)%nat -> 0 < total mw n -> c < n j / total mw n ->
  locally (n k) (fun x => c < with_amount n k x j / total mw (with_amount n k x)).
Proof.
  intros HK TP A2.
  assert (TE : forall x, total mw (with_amount n k x) = x + (total mw n - n k)) by (intros; apply (sum_n_at (fun _ v => v)); auto).
  assert (AE : forall j, with_amount n k (n k) j = n j).
  { intros i. unfold with_amount. destruct (Nat.eqb_spec i k); subst; auto. }
  apply (locally_gt (fun x => with_amount n k x j / total mw (with_amount n k x))).
  - apply ex_derive_ext with (f := fun x => with_amount n k x j / (x + (total mw n - n k))); [intros t; rewrite TE; reflexivity|].
    apply (ex_derive_div (fun x => with_amount n k x j) (fun x => x + (total mw n - n k))); [|auto_derive; auto|lra].
    unfold with_amount. destruct (Nat.eqb j k); auto_derive; auto.
  - rewrite AE, TE. replace (n k + (total mw n - n k)) with (total mw n) by ring. exact A2.
Qed.
Lemma amounts_locally n k : (k < K)%nat -> amounts_ok mw n -> locally (n k) (fun x => amounts_ok mw (with_amount n k x)).
Proof.
  intros HK A. assert (KP : (0 < K)%nat) by lia. assert (N : forall j, (j < K)%nat -> 0 < n j) by (intros; apply A; auto).
  pose proof (wsum_pos n KP N) as WP. pose proof (total_pos n KP N) as TP.
  assert (TE : forall x, total mw (with_amount n k x) = x + (total mw n - n k)) by (intros; apply (sum_n_at (fun _ v => v)); auto).
  assert (WE : forall x, RSum.sum_n (fun i => nth i mw 0 * with_amount n k x i) K = nth k mw 0 * x + (wsum n - nth k mw 0 * n k))
    by (intros; apply (sum_n_at (fun i v => nth i mw 0 * v)); auto).
  assert (AE : forall j, with_amount n k (n k) j = n j).
  { intros j. unfold with_amount. destruct (Nat.eqb_spec j k); subst; auto. }
  assert (DA : forall j x, ex_derive (fun x => with_amount n k x j) x).
  { intros j x. unfold with_amount. destruct (Nat.eqb j k); auto_derive; auto. }
  unfold amounts_ok. apply locally_all. intros j J. destruct (A j J) as (A1 & A2 & A3).
  apply filter_and; [|apply filter_and].
  - apply locally_gt; [apply DA|]. rewrite AE. exact A1.
  - apply (locally_gt (fun x => with_amount n k x j / total mw (with_amount n k x))).
    + apply ex_derive_ext with (f := fun x => with_amount n k x j / (x + (total mw n - n k))); [intros t; rewrite TE; reflexivity|].
      apply (ex_derive_div (fun x => with_amount n k x j) (fun x => x + (total mw n - n k))); [apply DA|auto_derive; auto|lra].
    + rewrite AE, TE. replace (n k + (total mw n - n k)) with (total mw n) by ring. exact A2.
  - apply (locally_gt (fun x => with_amount n k x j / RSum.sum_n (fun i => nth i mw 0 * with_amount n k x i) K)).
    + apply ex_derive_ext with (f := fun x => with_amount n k x j / (nth k mw 0 * x + (wsum n - nth k mw 0 * n k))); [intros t; rewrite WE; reflexivity|].
      apply (ex_derive_div (fun x => with_amount n k x j) (fun x => nth k mw 0 * x + (wsum n - nth k mw 0 * n k))); [apply DA|auto_derive; auto|lra].
    + rewrite AE, WE. replace (nth k mw 0 * n k + (wsum n - nth k mw 0 * n k)) with (wsum n) by ring. exact A3.
Qed.

(* An extensive property that is a sum over the species plus a multiple of the mixing term, for amounts
   in some set P around n. *)
Lemma deriv_amount_gen (P : (nat -> R) -> Prop) (Q : (nat -> R) -> R) (c : nat -> R) (q : R) n k : (k < K)%nat ->
  (forall m, P m -> forall j, (j < K)%nat -> 0 < m j) -> P n -> locally (n k) (fun x => P (with_amount n k x)) ->
  (forall m, P m -> Q m = RSum.sum_n (fun j => m j * c j) K + q * RSum.sum_n (fun j => m j * ln (m j / total mw m)) K) ->
  is_derive (fun x => Q (with_amount n k x)) (n k) (c k + q * ln (n k / total mw n)).
Proof.
  intros HK PP A LA HQ. assert (KP : (0 < K)%nat) by lia. assert (N : forall j, (j < K)%nat -> 0 < n j) by (apply PP; auto).
  pose proof (total_pos n KP N) as TP. pose proof (N k HK) as NK.
  assert (TE : forall x, total mw (with_amount n k x) = x + (total mw n - n k)) by (intros; apply (sum_n_at (fun _ v => v)); auto).
  set (C1 := RSum.sum_n (fun j => n j * c j) K - n k * c k). set (C2 := RSum.sum_n (fun j => n j * ln (n j)) K - n k * ln (n k)).
  apply is_derive_extl with (f := fun x => (x * c k + C1) + q * (x * ln x + C2 - (x + (total mw n - n k)) * ln (x + (total mw n - n k)))).
  { eapply filter_imp; [|apply LA]. intros x G. rewrite HQ by exact G.
    rewrite (sum_n_at (fun j v => v * c j)) by auto. fold C1. f_equal. f_equal.
    rewrite (sum_n_ext _ (fun j => with_amount n k x j * ln (with_amount n k x j) - with_amount n k x j * ln (x + (total mw n - n k)))).
    2:{ intros j J. pose proof (PP _ G j J) as G1. rewrite TE, ln_quot by (auto; rewrite <- TE; apply total_pos; auto; intros; apply (PP _ G); auto). ring. }
    rewrite sum_n_minus, sum_n_scal_r. rewrite (sum_n_at (fun _ v => v * ln v)) by auto. fold C2.
    rewrite <- (TE x). reflexivity. }
  rewrite ln_quot by auto.
  auto_derive; [repeat split; lra|]. replace (n k + (total mw n - n k)) with (total mw n) by ring. field. lra.
Qed.
Lemma deriv_amount (Q : (nat -> R) -> R) (c : nat -> R) (q : R) n k : (k < K)%nat -> amounts_ok mw n ->
  (forall m, amounts_ok mw m -> Q m = RSum.sum_n (fun j => m j * c j) K + q * RSum.sum_n (fun j => m j * ln (m j / total mw m)) K) ->
  is_derive (fun x => Q (with_amount n k x)) (n k) (c k + q * ln (n k / total mw n)).
Proof.
  intros HK A HQ. apply deriv_amount_gen with (P := amounts_ok mw); auto; [|apply amounts_locally; auto]. intros m M j J. apply (M j J).
Qed.
Lemma mult_total T p n (q : gst -> R) (f : nat -> R) : amounts_ok mw n -> (0 < K)%nat ->
  q (at_moles mw T p n) = RSum.sum_n (fun j => moleFraction (at_moles mw T p n) j * f j) (kk (at_moles mw T p n)) ->
  total mw n * q (at_moles mw T p n) = RSum.sum_n (fun j => n j * f j) K.
Proof.
  intros A KP E. assert (N : forall j, (j < K)%nat -> 0 < n j) by (intros; apply A; auto). pose proof (total_pos n KP N) as TP.
  rewrite E, at_moles_kk by (intros; apply Rlt_le; auto). rewrite <- sum_n_scal. apply sum_n_ext. intros. rewrite X_moles by auto. field. lra.
Qed.
Lemma at_moles_T T p n : gT (at_moles mw T p n) = T.
Proof. reflexivity. Qed.
Lemma at_moles_p T p n : (0 < K)%nat -> 0 < T -> 0 < p -> amounts_ok mw n -> pressure (at_moles mw T p n) = p.
Proof.
  intros KP HT HP A. unfold at_moles. apply at_Tp_p; auto. apply (m_W _ (at_moles_mixture T p n KP HT HP A)).
Qed.

Section One.
Context (T p : R) (HT : 0 < T) (HP : 0 < p) (n : nat -> R) (k : nat) (HK : (k < K)%nat) (A : amounts_ok mw n).
Let KP : (0 < K)%nat. Proof. lia. Qed.
Let NP : forall j, (j < K)%nat -> 0 < n j. Proof. intros; apply A; auto. Qed.
Notation st m := (at_moles mw T p m).
Lemma small_X m j : amounts_ok mw m -> (j < K)%nat -> Rmax SmallNumber (moleFraction (st m) j) = m j / total mw m.
Proof. intros G J. rewrite X_moles by (auto; intros; apply G; auto). apply Rmax_right, Rlt_le, (G j J). Qed.

Lemma amount_h : is_derive (fun x => total mw (with_amount n k x) * enthalpy_mole hRT (st (with_amount n k x))) (n k) (nth k (getPartialMolarEnthalpies hRT (st n)) 0).
Proof.
  eapply is_derive_eq; [apply (deriv_amount (fun m => total mw m * enthalpy_mole hRT (st m)) (fun j => hRT j T * (T * GasConstant)) 0 n k HK A)|].
  - intros m G. rewrite Rmult_0_l, Rplus_0_r. apply (mult_total T p m (enthalpy_mole hRT)); auto. apply enthalpy_sum.
  - unfold getPartialMolarEnthalpies, enthalpy_RT_ref, vecT. rewrite map_map, at_moles_kk by (intros; apply Rlt_le; auto). rewrite nth_map_seq by auto. unfold RT.
    rewrite at_moles_T. ring.
Qed.
Lemma amount_cp : is_derive (fun x => total mw (with_amount n k x) * cp_mole cpR (st (with_amount n k x))) (n k) (nth k (getPartialMolarCp cpR (st n)) 0).
Proof.
  eapply is_derive_eq; [apply (deriv_amount (fun m => total mw m * cp_mole cpR (st m)) (fun j => cpR j T * GasConstant) 0 n k HK A)|].
  - intros m G. rewrite Rmult_0_l, Rplus_0_r. apply (mult_total T p m (cp_mole cpR)); auto. apply cp_sum.
  - unfold getPartialMolarCp, cp_R_ref, vecT. rewrite map_map, at_moles_kk by (intros; apply Rlt_le; auto). rewrite nth_map_seq by auto. rewrite at_moles_T. ring.
Qed.
Lemma amount_u : is_derive (fun x => total mw (with_amount n k x) * intEnergy_mole hRT (st (with_amount n k x))) (n k) (nth k (getPartialMolarIntEnergies hRT (st n)) 0).
Proof.
  eapply is_derive_eq; [apply (deriv_amount (fun m => total mw m * intEnergy_mole hRT (st m)) (fun j => T * GasConstant * (hRT j T - 1)) 0 n k HK A)|].
  - intros m G. rewrite Rmult_0_l, Rplus_0_r. apply (mult_total T p m (intEnergy_mole hRT)); auto. apply intEnergy_sum. apply at_moles_mixture; auto.
  - unfold getPartialMolarIntEnergies, enthalpy_RT_ref, vecT, RT. rewrite map_map, at_moles_kk by (intros; apply Rlt_le; auto). rewrite nth_map_seq by auto. rewrite at_moles_T. ring.
Qed.
Lemma amount_v : is_derive (fun x => total mw (with_amount n k x) * molarVolume (st (with_amount n k x))) (n k) (nth k (getPartialMolarVolumes (st n)) 0).
Proof.
  assert (V : forall m, amounts_ok mw m -> molarVolume (st m) = T * GasConstant / p).
  { intros m G. unfold at_moles. apply volume_Tp; auto. apply (m_W _ (at_moles_mixture T p m KP HT HP G)). }
  eapply is_derive_eq; [apply (deriv_amount (fun m => total mw m * molarVolume (st m)) (fun j => T * GasConstant / p) 0 n k HK A)|].
  - intros m G. rewrite Rmult_0_l, Rplus_0_r, V by auto. rewrite sum_n_scal_r. reflexivity.
  - unfold getPartialMolarVolumes. rewrite at_moles_kk by (intros; apply Rlt_le; auto). rewrite nth_map_seq by auto.
    fold (molarVolume (st n)). rewrite V by auto. ring.
Qed.
Lemma amount_s : is_derive (fun x => total mw (with_amount n k x) * entropy_mole sR p0 (st (with_amount n k x))) (n k) (nth k (getPartialMolarEntropies sR p0 (st n)) 0).
Proof.
  eapply is_derive_eq; [apply (deriv_amount (fun m => total mw m * entropy_mole sR p0 (st m)) (fun j => sR j T * GasConstant - GasConstant * ln (p / p0)) (- GasConstant) n k HK A)|].
  - intros m G. rewrite <- sum_n_scal, <- sum_n_plus. erewrite (mult_total T p m (entropy_mole sR p0)); auto.
    2:{ rewrite entropy_sum by (apply at_moles_mixture; auto). reflexivity. }
    apply sum_n_ext. intros j J. rewrite at_moles_p, small_X, at_moles_T by auto. ring.
  - rewrite entropies_list, at_moles_kk by (intros; apply Rlt_le; auto). rewrite nth_map_seq by auto. rewrite at_moles_p, small_X, at_moles_T by auto. ring.
Qed.
Lemma amount_g : is_derive (fun x => total mw (with_amount n k x) * gibbs_mole hRT sR p0 (st (with_amount n k x))) (n k) (nth k (getChemPotentials hRT sR p0 (st n)) 0).
Proof.
  eapply is_derive_eq; [apply (deriv_amount (fun m => total mw m * gibbs_mole hRT sR p0 (st m)) (fun j => (hRT j T - sR j T) * (T * GasConstant) + ln (p / p0) * (T * GasConstant)) (T * GasConstant) n k HK A)|].
  - intros m G. rewrite <- sum_n_scal, <- sum_n_plus. erewrite (mult_total T p m (gibbs_mole hRT sR p0)); auto.
    2:{ rewrite gibbs_sum. reflexivity. }
    apply sum_n_ext. intros j J. unfold RT. rewrite at_moles_p, small_X, at_moles_T by auto. ring.
  - rewrite chem_list, at_moles_kk by (intros; apply Rlt_le; auto). rewrite nth_map_seq by auto. unfold RT. rewrite at_moles_p, small_X, at_moles_T by auto. ring.
Qed.
End One.
End Amounts.
