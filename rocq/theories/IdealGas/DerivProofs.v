From Coquelicot Require Import Coquelicot.
From Coq Require Import Reals List Bool Arith Lia Lra.
From Verif Require Import Base.Fp Base.Outcome Base.RSum Base.Map2 Units.Model Units.Proofs IdealGas.Model IdealGas.Spec IdealGas.Proofs.
Import ListNotations.
Local Open Scope list_scope.
Local Open Scope R_scope.

Lemma is_derive_sum_n (F : nat -> R -> R) (D : nat -> R) x n :
  (forall k, (k < n)%nat -> is_derive (F k) x (D k)) -> is_derive (fun y => RSum.sum_n (fun k => F k y) n) x (RSum.sum_n D n).
Proof.
  intros H. unfold RSum.sum_n, sum_of. assert (A : forall k, In k (seq 0 n) -> is_derive (F k) x (D k)) by (intros k K; apply in_seq in K; apply H; lia).
  clear H. revert A. generalize (seq 0 n). intros l. induction l as [|a l IH]; intros A; cbn [map].
  - unfold rsum; cbn. apply (is_derive_const 0 x).
  - change (is_derive (fun y => F a y + rsum (map (fun k => F k y) l)) x (D a + rsum (map D l))).
    apply (is_derive_plus (F a) _ x); [apply A; left; auto|apply IH; intros; apply A; right; auto].
Qed.
Lemma locally_pos x : 0 < x -> locally x (fun y => 0 < y).
Proof. intros. apply (open_gt 0 x H). Qed.
Lemma is_derive_eq (f : R -> R) (x a b : R) : is_derive f x a -> a = b -> is_derive f x b.
Proof. intros H <-. exact H. Qed.
Lemma is_derive_c (c x : R) : is_derive (fun _ : R => c) x 0.
Proof. apply (is_derive_const c x). Qed.
Lemma is_derive_extl (f g : R -> R) (x d : R) : locally x (fun t => @eq R (f t) (g t)) -> is_derive f x d -> is_derive g x d.
Proof. intros. eapply is_derive_ext_loc; eauto. Qed.
Lemma is_derive_exta (f g : R -> R) (x d : R) : (forall t : R, @eq R (f t) (g t)) -> is_derive f x d -> is_derive g x d.
Proof. intros. eapply is_derive_ext; eauto. Qed.
(* c * f *)
Lemma is_derive_cmul (f : R -> R) (x d c : R) : is_derive f x d -> is_derive (fun y => c * f y) x (c * d).
Proof. intros H. apply (is_derive_scal f x c d H). Qed.

Section Gas.
Context (cpR hRT sR : nat -> R -> R) (p0 : R) (P0 : 0 < p0).
Definition species_ok (T : R) : Prop :=
  forall k, is_derive (fun t => t * hRT k t) T (cpR k T) /\ is_derive (sR k) T (cpR k T / T).

Lemma deriv_h s T p : species_ok T -> is_derive (fun t => enthalpy_mole hRT (at_Tp s t p)) T (cp_mole cpR (at_Tp s T p)).
Proof.
  intros H. rewrite cp_sum.
  apply is_derive_exta with (f := fun t => RSum.sum_n (fun k => (moleFraction s k * GasConstant) * (t * hRT k t)) (kk s)).
  { intros t. rewrite enthalpy_sum. apply sum_n_ext. intros. rewrite at_Tp_X. unfold RT, at_Tp. cbn. ring. }
  apply is_derive_eq with (a := RSum.sum_n (fun k => (moleFraction s k * GasConstant) * cpR k T) (kk s)).
  - apply is_derive_sum_n. intros k _. apply is_derive_cmul, H.
  - apply sum_n_ext. intros. rewrite at_Tp_X. cbn. ring.
Qed.
Lemma deriv_s s T p : mixture s -> species_ok T -> 0 < T -> 0 < p ->
  is_derive (fun t => entropy_mole sR p0 (at_Tp s t p)) T (cp_mole cpR (at_Tp s T p) / T).
Proof.
  intros M H HT HP. rewrite cp_sum.
  apply is_derive_extl with (f := fun t => RSum.sum_n (fun k => (moleFraction s k * GasConstant) * sR k t) (kk s) +
     RSum.sum_n (fun k => moleFraction s k * (GasConstant * (- ln (p / p0) - ln (Rmax SmallNumber (moleFraction s k))))) (kk s)).
  { eapply filter_imp; [|apply (locally_pos T HT)]. intros t Ht. rewrite entropy_sum by (apply at_Tp_mixture; auto).
    rewrite at_Tp_p by (auto; apply M). rewrite <- sum_n_plus. apply sum_n_ext. intros. rewrite at_Tp_X. cbn. ring. }
  apply is_derive_eq with (a := RSum.sum_n (fun k => (moleFraction s k * GasConstant) * (cpR k T / T)) (kk s) + 0).
  - apply (is_derive_plus (fun t => RSum.sum_n (fun k => (moleFraction s k * GasConstant) * sR k t) (kk s)) _ T).
    + apply is_derive_sum_n. intros k _. apply is_derive_cmul, H.
    + apply is_derive_c.
  - rewrite Rplus_0_r. unfold Rdiv. rewrite <- sum_n_scal_r. apply sum_n_ext. intros. rewrite at_Tp_X. cbn. ring.
Qed.
Lemma deriv_g s T p : mixture s -> species_ok T -> 0 < T -> 0 < p ->
  is_derive (fun t => gibbs_mole hRT sR p0 (at_Tp s t p)) T (- entropy_mole sR p0 (at_Tp s T p)).
Proof.
  intros M H HT HP.
  apply is_derive_extl with (f := fun t => enthalpy_mole hRT (at_Tp s t p) - t * entropy_mole sR p0 (at_Tp s t p)).
  { eapply filter_imp; [|apply (locally_pos T HT)]. intros t Ht. rewrite gibbs_hTs by (apply at_Tp_mixture; auto). reflexivity. }
  pose proof (deriv_h s T p H) as A. pose proof (deriv_s s T p M H HT HP) as B.
  pose proof (is_derive_mult (fun t => t) _ T 1 _ (is_derive_id T) B (fun a b => Rmult_comm a b)) as C.
  eapply is_derive_eq.
  - apply (is_derive_minus (fun t => enthalpy_mole hRT (at_Tp s t p)) _ T _ _ A C).
  - unfold minus, plus, opp, mult; cbn. field. lra.
Qed.

Lemma volume_Tp s T p : 0 < gW s -> 0 < T -> 0 < p -> molarVolume (at_Tp s T p) = T * GasConstant / p.
Proof. intros. unfold molarVolume, molarDensity, at_Tp; cbn. pose proof GasConstant_pos. field. repeat split; lra. Qed.
Lemma deriv_v_T s T p : mixture s -> 0 < T -> 0 < p ->
  is_derive (fun t => molarVolume (at_Tp s t p)) T (thermalExpansionCoeff (at_Tp s T p) * molarVolume (at_Tp s T p)).
Proof.
  intros M HT HP. apply is_derive_extl with (f := fun t => t * (GasConstant / p)).
  { eapply filter_imp; [|apply (locally_pos T HT)]. intros t Ht. rewrite volume_Tp; auto; [|apply M]. change (t * (GasConstant / p) = t * GasConstant / p). field. lra. }
  rewrite volume_Tp; auto; [|apply M]. unfold thermalExpansionCoeff; cbn.
  apply is_derive_eq with (a := 1 * (GasConstant / p)); [|field; lra].
  auto_derive; auto.
Qed.
Lemma deriv_v_p s T p : mixture s -> 0 < T -> 0 < p ->
  is_derive (fun q => molarVolume (at_Tp s T q)) p (- (isothermalCompressibility (at_Tp s T p) * molarVolume (at_Tp s T p))).
Proof.
  intros M HT HP. apply is_derive_extl with (f := fun q => T * GasConstant / q).
  { eapply filter_imp; [|apply (locally_pos p HP)]. intros t Ht. rewrite volume_Tp; auto. apply M. }
  rewrite volume_Tp; auto; [|apply M]. unfold isothermalCompressibility. rewrite at_Tp_p by (auto; apply M).
  auto_derive; [lra|]. field. lra.
Qed.
Lemma deriv_ln_p p : 0 < p -> is_derive (fun q => ln (q / p0)) p (1 / p).
Proof.
  intros HP. auto_derive; [apply Rdiv_lt_0_compat; auto|]. field. lra.
Qed.
Lemma deriv_s_p s T p : mixture s -> 0 < T -> 0 < p ->
  is_derive (fun q => entropy_mole sR p0 (at_Tp s T q)) p (- (GasConstant / p)).
Proof.
  intros M HT HP.
  set (C := RSum.sum_n (fun k => moleFraction s k * (sR k T * GasConstant - GasConstant * ln (Rmax SmallNumber (moleFraction s k)))) (kk s)).
  apply is_derive_extl with (f := fun q => C - GasConstant * ln (q / p0)).
  { eapply filter_imp; [|apply (locally_pos p HP)]. intros q Hq. rewrite entropy_sum by (apply at_Tp_mixture; auto). rewrite at_Tp_p by (auto; apply M).
    rewrite at_Tp_kk. transitivity (C - GasConstant * ln (q / p0) * RSum.sum_n (moleFraction s) (kk s)); [rewrite (m_sum s M); ring|].
    unfold C. rewrite <- sum_n_scal, <- sum_n_minus. apply sum_n_ext. intros. rewrite at_Tp_X. cbn. ring. }
  apply is_derive_eq with (a := 0 - GasConstant * (1 / p)); [|field; lra].
  apply (is_derive_minus (fun _ => C) _ p); [apply is_derive_c|]. apply is_derive_cmul, deriv_ln_p; auto.
Qed.
Lemma deriv_h_p s T p : is_derive (fun q => enthalpy_mole hRT (at_Tp s T q)) p 0.
Proof.
  apply is_derive_exta with (f := fun _ => enthalpy_mole hRT (at_Tp s T p)).
  { intros q. rewrite !enthalpy_sum. reflexivity. }
  apply is_derive_c.
Qed.
Lemma deriv_g_p s T p : mixture s -> 0 < T -> 0 < p ->
  is_derive (fun q => gibbs_mole hRT sR p0 (at_Tp s T q)) p (molarVolume (at_Tp s T p)).
Proof.
  intros M HT HP.
  apply is_derive_extl with (f := fun q => enthalpy_mole hRT (at_Tp s T q) - T * entropy_mole sR p0 (at_Tp s T q)).
  { eapply filter_imp; [|apply (locally_pos p HP)]. intros q Hq. rewrite gibbs_hTs by (apply at_Tp_mixture; auto). reflexivity. }
  rewrite volume_Tp; auto; [|apply M].
  apply is_derive_eq with (a := 0 - T * (- (GasConstant / p))); [|field; lra].
  apply (is_derive_minus (fun q => enthalpy_mole hRT (at_Tp s T q)) _ p); [apply deriv_h_p|].
  apply is_derive_cmul, deriv_s_p; auto.
Qed.

(* At constant density. *)
Definition at_TD (s : gst) (T d : R) : gst := GST T d (gYM s) (gW s).
Lemma at_TD_mixture s T d : mixture s -> 0 < T -> 0 < d -> mixture (at_TD s T d).
Proof. intros [A B C D E] HT HD. split; auto. Qed.
Lemma deriv_u_T s T d : mixture s -> species_ok T -> 0 < T -> 0 < d ->
  is_derive (fun t => intEnergy_mole hRT (at_TD s t d)) T (cv_mole cpR (at_TD s T d)).
Proof.
  intros M H HT HD.
  apply is_derive_extl with (f := fun t => RSum.sum_n (fun k => (moleFraction s k * GasConstant) * (t * hRT k t - t)) (kk s)).
  { eapply filter_imp; [|apply (locally_pos T HT)]. intros t Ht. rewrite intEnergy_sum by (apply at_TD_mixture; auto).
    apply sum_n_ext. intros. unfold RT, at_TD, moleFraction; cbn. ring. }
  apply is_derive_eq with (a := RSum.sum_n (fun k => (moleFraction s k * GasConstant) * (cpR k T - 1)) (kk s)).
  - apply is_derive_sum_n. intros k _. apply is_derive_cmul. apply (is_derive_minus (fun t => t * hRT k t) (fun t => t) T); [apply H|apply (is_derive_id T)].
  - unfold cv_mole. rewrite cp_sum.
    transitivity (RSum.sum_n (fun k => moleFraction s k * (cpR k T * GasConstant)) (kk s) - GasConstant * RSum.sum_n (moleFraction s) (kk s)); [|rewrite (m_sum s M), Rmult_1_r; reflexivity].
    rewrite <- sum_n_scal, <- sum_n_minus. apply sum_n_ext. intros. ring.
Qed.
(* Along any path of temperature and density. *)
Lemma deriv_s_path s (Tq : R -> R) d dT : mixture s -> 0 < d -> 0 < Tq d -> species_ok (Tq d) -> is_derive Tq d dT ->
  is_derive (fun x => entropy_mole sR p0 (at_TD s (Tq x) x)) d (cv_mole cpR (at_TD s (Tq d) d) / Tq d * dT - GasConstant / d).
Proof.
  intros M HD HT H HQ.
  assert (LT : locally d (fun x => 0 < Tq x)).
  { pose proof (ex_derive_continuous Tq d (ex_intro _ dT HQ)) as C. apply (C (fun y => 0 < y)), locally_pos; auto. }
  set (C := RSum.sum_n (fun k => moleFraction s k * (- GasConstant * ln (Rmax SmallNumber (moleFraction s k)))) (kk s)).
  pose proof GasConstant_pos as G. pose proof (m_W s M) as W.
  set (c := GasConstant / gW s / p0). assert (Hc : 0 < c) by (unfold c; apply Rdiv_lt_0_compat; auto; apply Rdiv_lt_0_compat; auto).
  apply is_derive_extl with (f := fun x => RSum.sum_n (fun k => (moleFraction s k * GasConstant) * sR k (Tq x)) (kk s) + (C - GasConstant * (ln c + ln (Tq x) + ln x))).
  { eapply filter_imp; [|apply (filter_and _ _ LT (locally_pos d HD))]. intros x [Hx Hd].
    rewrite entropy_sum by (apply at_TD_mixture; auto).
    replace (pressure (at_TD s (Tq x) x) / p0) with (c * Tq x * x) by (unfold c, pressure, molarDensity, at_TD; cbn; field; repeat split; lra).
    rewrite !ln_mult by (auto using Rmult_lt_0_compat).
    transitivity (RSum.sum_n (fun k => (moleFraction s k * GasConstant) * sR k (Tq x)) (kk s) + (C - GasConstant * (ln c + ln (Tq x) + ln x) * RSum.sum_n (moleFraction s) (kk s))); [rewrite (m_sum s M); ring|].
    unfold C. rewrite <- sum_n_scal, <- sum_n_minus, <- sum_n_plus. apply sum_n_ext. intros. unfold at_TD, moleFraction; cbn. ring. }
  apply is_derive_eq with (a := RSum.sum_n (fun k => (moleFraction s k * GasConstant) * (dT * (cpR k (Tq d) / Tq d))) (kk s) + (0 - GasConstant * (0 + dT * / Tq d + / d))).
  - apply (is_derive_plus (fun x => RSum.sum_n (fun k => (moleFraction s k * GasConstant) * sR k (Tq x)) (kk s)) _ d).
    + apply is_derive_sum_n. intros k _. apply is_derive_cmul. apply (is_derive_comp (sR k) Tq d); auto. apply H.
    + apply (is_derive_minus (fun _ => C) _ d); [apply is_derive_c|]. apply is_derive_cmul.
      apply (is_derive_plus (fun x => ln c + ln (Tq x)) ln d).
      * apply (is_derive_plus (fun _ => ln c) _ d); [apply is_derive_c|].
        apply (is_derive_comp ln Tq d); auto. apply is_derive_Reals. apply derivable_pt_lim_ln; auto.
      * apply is_derive_Reals. apply derivable_pt_lim_ln; auto.
  - unfold cv_mole. rewrite cp_sum.
    replace (RSum.sum_n (fun k => moleFraction s k * GasConstant * (dT * (cpR k (Tq d) / Tq d))) (kk s))
      with (RSum.sum_n (fun k => moleFraction s k * (cpR k (Tq d) * GasConstant)) (kk s) * (dT / Tq d)).
    + change (RSum.sum_n (fun k => moleFraction (at_TD s (Tq d) d) k * (cpR k (gT (at_TD s (Tq d) d)) * GasConstant)) (kk (at_TD s (Tq d) d)))
        with (RSum.sum_n (fun k => moleFraction s k * (cpR k (Tq d) * GasConstant)) (kk s)).
      field. split; lra.
    + rewrite <- sum_n_scal_r. apply sum_n_ext. intros. field. lra.
Qed.
Lemma sound s (Tq : R -> R) d dT : mixture s -> 0 < d -> 0 < Tq d -> species_ok (Tq d) -> is_derive Tq d dT ->
  0 < cv_mole cpR (at_TD s (Tq d) d) ->
  is_derive (fun x => per_mass (entropy_mole sR p0) (at_TD s (Tq x) x)) d 0 ->
  is_derive (fun x => pressure (at_TD s (Tq x) x)) d (soundSpeed cpR (at_TD s (Tq d) d) * soundSpeed cpR (at_TD s (Tq d) d)).
Proof.
  intros M HD HT H HQ CV S0. pose proof (deriv_s_path s Tq d dT M HD HT H HQ) as DS. pose proof GasConstant_pos as G. pose proof (m_W s M) as W.
  assert (E : (cv_mole cpR (at_TD s (Tq d) d) / Tq d * dT - GasConstant / d) / gW s = 0).
  { rewrite <- (is_derive_unique _ _ _ S0). symmetry. apply is_derive_unique.
    apply is_derive_exta with (f := fun x => / gW s * entropy_mole sR p0 (at_TD s (Tq x) x)); [intros; unfold per_mass, Rdiv; cbn; ring|].
    eapply is_derive_eq; [apply is_derive_cmul, DS|]. field. repeat split; lra. }
  set (cv := cv_mole cpR (at_TD s (Tq d) d)) in *.
  assert (E2 : dT = GasConstant * Tq d / (d * cv)).
  { assert (X : cv / Tq d * dT - GasConstant / d = 0). { apply (Rmult_eq_reg_r (/ gW s)); [|apply Rinv_neq_0_compat; lra]. rewrite Rmult_0_l. exact E. }
    assert (cv * dT * d = GasConstant * Tq d). { replace (cv * dT * d) with ((cv / Tq d * dT) * (Tq d * d)) by (field; lra). replace (cv / Tq d * dT) with (GasConstant / d) by lra. field. lra. }
    apply (Rmult_eq_reg_r (d * cv)); [|nra]. unfold Rdiv. rewrite Rmult_assoc, Rinv_l by nra. lra. }
  unfold soundSpeed. fold cv. rewrite sqrt_sqrt.
  - apply is_derive_exta with (f := fun x => GasConstant / gW s * (x * Tq x)); [intros; unfold pressure, molarDensity; cbn; unfold Rdiv; ring|].
    eapply is_derive_eq.
    + apply is_derive_cmul. apply (is_derive_mult (fun x => x) Tq d 1 dT (is_derive_id d) HQ (fun a b => Rmult_comm a b)).
    + unfold plus, mult; cbn. rewrite E2. replace (cp_mole cpR (at_TD s (Tq d) d)) with (cv + GasConstant) by (unfold cv, cv_mole; ring). field. repeat split; lra.
  - assert (0 < cp_mole cpR (at_TD s (Tq d) d)) by (unfold cv, cv_mole in CV; lra). cbn.
    apply Rlt_le. apply Rmult_lt_0_compat; auto. apply Rdiv_lt_0_compat; auto. apply Rmult_lt_0_compat; auto. apply Rdiv_lt_0_compat; auto.
Qed.
End Gas.
