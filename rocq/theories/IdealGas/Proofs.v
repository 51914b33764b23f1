From Coquelicot Require Import Coquelicot.
From Coq Require Import Reals List Bool Arith Lia Lra.
From Verif Require Import Base.Fp Base.Outcome Base.RSum Base.Map2 Units.Model Units.Proofs IdealGas.Model IdealGas.Spec.
Import ListNotations.
Local Open Scope list_scope.
Local Open Scope R_scope.

Lemma Small_pos : 0 < SmallNumber.
Proof. unfold SmallNumber. apply powerRZ_lt. lra. Qed.
Lemma ln_quot a b : 0 < a -> 0 < b -> ln (a / b) = ln a - ln b.
Proof. intros. unfold Rdiv. rewrite ln_mult; auto using Rinv_0_lt_compat. rewrite ln_Rinv; auto. Qed.

(* Sums. *)
Lemma sum_n_plus f g n : sum_n (fun k => f k + g k) n = sum_n f n + sum_n g n.
Proof. apply sum_of_plus. Qed.
Lemma sum_n_minus f g n : sum_n (fun k => f k - g k) n = sum_n f n - sum_n g n.
Proof. apply sum_of_minus. Qed.
Lemma sum_n_scal c f n : sum_n (fun k => c * f k) n = c * sum_n f n.
Proof. apply sum_of_scal. Qed.
Lemma sum_n_scal_r c f n : sum_n (fun k => f k * c) n = sum_n f n * c.
Proof. apply sum_of_scal_r. Qed.
Lemma sum_n_pos f n : (0 < n)%nat -> (forall k, (k < n)%nat -> 0 < f k) -> 0 < sum_n f n.
Proof.
  intros N H. apply (sum_of_pos f (seq 0 n) 0%nat); [|apply in_seq; lia|apply H; lia].
  intros y Y. apply in_seq in Y. apply Rlt_le, H. lia.
Qed.
Lemma rsum_map2_sum a b : length a = length b -> rsum (map2 Rmult a b) = sum_n (fun k => nth k a 0 * nth k b 0) (length a).
Proof.
  intros L. rewrite rsum_nth, map2_length by auto. rewrite <- L. apply sum_n_ext. intros k K.
  rewrite (map2_nth Rmult 0 0 0) by (auto; lia). reflexivity.
Qed.
Lemma nth_map_seq (f : nat -> R) n k : (k < n)%nat -> nth k (map f (seq 0 n)) 0 = f k.
Proof. intros K. rewrite (nth_indep _ 0 (f 0%nat)) by (rewrite map_length, seq_length; auto). rewrite map_nth, seq_nth; auto. Qed.
Lemma rsum_map_seq (f : nat -> R) n : rsum (map f (seq 0 n)) = sum_n f n.
Proof. reflexivity. Qed.
(* One term of a sum singled out. *)
Lemma sum_n_at (F : nat -> R -> R) n k x N : (k < N)%nat ->
  sum_n (fun j => F j (with_amount n k x j)) N = F k x + (sum_n (fun j => F j (n j)) N - F k (n k)).
Proof.
  intros K. rewrite <- Rplus_0_r at 1. cut (sum_n (fun j => F j (with_amount n k x j)) N - sum_n (fun j => F j (n j)) N = F k x - F k (n k)); [lra|].
  rewrite <- sum_n_minus. rewrite (sum_n_single _ N k K).
  - unfold with_amount. rewrite Nat.eqb_refl. reflexivity.
  - intros j _ J. unfold with_amount. destruct (Nat.eqb_spec j k); [contradiction|]. lra.
Qed.

Section Gas.
Context (cpR hRT sR : nat -> R -> R) (p0 : R) (P0 : 0 < p0).

Lemma mean_X_mixed s q : length q = kk s -> mean_X s q = mixed s q.
Proof.
  intros L. unfold mean_X, mixed, kk in *. rewrite rsum_map2_sum by auto. rewrite <- sum_n_scal. apply sum_n_ext. intros k K.
  unfold moleFraction. ring.
Qed.
Lemma mixed_map s f : mixed s (map f (seq 0 (kk s))) = sum_n (fun k => moleFraction s k * f k) (kk s).
Proof. unfold mixed. apply sum_n_ext. intros k K. rewrite nth_map_seq by auto. reflexivity. Qed.
Lemma vecT_length f s : length (vecT f s) = kk s.
Proof. unfold vecT. rewrite map_length, seq_length. reflexivity. Qed.
Lemma mean_X_vec s f : mean_X s (map f (seq 0 (kk s))) = sum_n (fun k => moleFraction s k * f k) (kk s).
Proof. rewrite mean_X_mixed by (rewrite map_length, seq_length; reflexivity). apply mixed_map. Qed.
Lemma add_each_map f g n : add_each f (map g (seq 0 n)) = map (fun k => g k + f k) (seq 0 n).
Proof.
  unfold add_each. rewrite map_length, seq_length. rewrite map2_map_r. generalize (seq 0 n). induction l; cbn; auto. f_equal; auto.
Qed.
Lemma chem_list s : getChemPotentials hRT sR p0 s =
  map (fun k => (hRT k (gT s) - sR k (gT s)) * RT s + ln (pressure s / p0) * RT s + RT s * ln (Rmax SmallNumber (moleFraction s k))) (seq 0 (kk s)).
Proof. unfold getChemPotentials, getStandardChemPotentials, gibbs_RT_ref, vecT. rewrite map_map, add_each_map. reflexivity. Qed.
Lemma entropies_list s : getPartialMolarEntropies sR p0 s =
  map (fun k => sR k (gT s) * GasConstant + GasConstant * (- ln (pressure s / p0) - ln (Rmax SmallNumber (moleFraction s k)))) (seq 0 (kk s)).
Proof. unfold getPartialMolarEntropies, entropy_R_ref, vecT. rewrite map_map, add_each_map. reflexivity. Qed.

Definition xlnx (s : gst) : R := sum_n (fun k => moleFraction s k * ln (Rmax SmallNumber (moleFraction s k))) (kk s).
Lemma sum_xlogx_eq s : mixture s -> sum_xlogx s = xlnx s.
Proof.
  intros M. unfold sum_xlogx, xlnx. rewrite rsum_nth, map_length. fold (kk s).
  rewrite <- (Rmult_1_r (ln (gW s))), <- (m_sum s M), <- !sum_n_scal, <- sum_n_plus. apply sum_n_ext. intros k K.
  rewrite (nth_indep _ 0 ((fun y => y * ln (Rmax y SmallNumber)) 0)) by (rewrite map_length; exact K). rewrite (map_nth (fun y => y * ln (Rmax y SmallNumber))).
  pose proof Small_pos as SP. pose proof (m_W s M) as W.
  destruct (m_pure s M k K) as [Z|[A B]].
  - assert (nth k (gYM s) 0 = 0) by (unfold moleFraction in Z; nra). rewrite H, Z. ring.
  - rewrite (Rmax_right SmallNumber) by exact A. rewrite Rmax_left by exact B. unfold moleFraction. rewrite ln_mult by lra. ring.
Qed.

Lemma pressure_pos s : mixture s -> 0 < pressure s.
Proof.
  intros [A B C _ _]. unfold pressure, molarDensity. pose proof GasConstant_pos. pose proof (Rdiv_lt_0_compat _ _ B C). apply Rmult_lt_0_compat; auto. apply Rmult_lt_0_compat; auto.
Qed.

(* Molar properties as sums. *)
Lemma enthalpy_sum s : enthalpy_mole hRT s = sum_n (fun k => moleFraction s k * (hRT k (gT s) * RT s)) (kk s).
Proof.
  unfold enthalpy_mole, enthalpy_RT_ref, vecT. rewrite mean_X_vec, <- sum_n_scal. apply sum_n_ext. intros. ring.
Qed.
Lemma cp_sum s : cp_mole cpR s = sum_n (fun k => moleFraction s k * (cpR k (gT s) * GasConstant)) (kk s).
Proof. unfold cp_mole, cp_R_ref, vecT. rewrite mean_X_vec, <- sum_n_scal. apply sum_n_ext. intros. ring. Qed.
Lemma entropy_sum s : mixture s -> entropy_mole sR p0 s =
  sum_n (fun k => moleFraction s k * (sR k (gT s) * GasConstant + GasConstant * (- ln (pressure s / p0) - ln (Rmax SmallNumber (moleFraction s k))))) (kk s).
Proof.
  intros M. unfold entropy_mole, entropy_R_ref, vecT. rewrite mean_X_vec, sum_xlogx_eq by auto. unfold xlnx.
  rewrite <- (Rmult_1_r (ln (pressure s / p0))) at 1. rewrite <- (m_sum s M), <- sum_n_scal, <- !sum_n_minus, <- sum_n_scal. apply sum_n_ext. intros. ring.
Qed.
Lemma gibbs_sum s : gibbs_mole hRT sR p0 s =
  sum_n (fun k => moleFraction s k * ((hRT k (gT s) - sR k (gT s)) * RT s + ln (pressure s / p0) * RT s + RT s * ln (Rmax SmallNumber (moleFraction s k)))) (kk s).
Proof. unfold gibbs_mole. rewrite chem_list, mean_X_vec. reflexivity. Qed.

Lemma gibbs_hTs s : mixture s -> gibbs_mole hRT sR p0 s = enthalpy_mole hRT s - gT s * entropy_mole sR p0 s.
Proof.
  intros M. rewrite gibbs_sum, enthalpy_sum, entropy_sum by auto. rewrite <- sum_n_scal, <- sum_n_minus. apply sum_n_ext. intros. unfold RT. ring.
Qed.
Lemma pv s : mixture s -> pressure s * molarVolume s = RT s.
Proof. intros [A B C _ _]. unfold pressure, molarVolume, RT, molarDensity. field. lra. Qed.
Lemma intEnergy_sum s : mixture s -> intEnergy_mole hRT s = sum_n (fun k => moleFraction s k * (RT s * (hRT k (gT s) - 1))) (kk s).
Proof.
  intros M. unfold intEnergy_mole. rewrite pv, enthalpy_sum by auto. transitivity (sum_n (fun k => moleFraction s k * (hRT k (gT s) * RT s)) (kk s) - RT s * sum_n (moleFraction s) (kk s)); [rewrite (m_sum s M); ring|].
  rewrite <- sum_n_scal, <- sum_n_minus. apply sum_n_ext. intros. ring.
Qed.

(* Another temperature and pressure. *)
Lemma at_Tp_X s T p k : moleFraction (at_Tp s T p) k = moleFraction s k.
Proof. reflexivity. Qed.
Lemma at_Tp_kk s T p : kk (at_Tp s T p) = kk s.
Proof. reflexivity. Qed.
Lemma at_Tp_p s T p : 0 < gW s -> 0 < T -> pressure (at_Tp s T p) = p.
Proof. intros. unfold pressure, molarDensity, at_Tp. cbn. pose proof GasConstant_pos. field. repeat split; lra. Qed.
Lemma at_Tp_mixture s T p : mixture s -> 0 < T -> 0 < p -> mixture (at_Tp s T p).
Proof.
  intros [A B C D E] HT HP. pose proof GasConstant_pos. split; auto.
  cbn. apply Rdiv_lt_0_compat; apply Rmult_lt_0_compat; auto.
Qed.
End Gas.
