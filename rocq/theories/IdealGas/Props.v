From Coquelicot Require Import Coquelicot.
From Coq Require Import Reals List Bool Arith Lia Lra.
From Verif Require Import Base.Fp Base.Outcome Base.RSum Base.Map2 Units.Model Units.Proofs IdealGas.Model IdealGas.Spec IdealGas.Proofs IdealGas.DerivProofs IdealGas.AmountProofs.
Import ListNotations.
Local Open Scope list_scope.
Local Open Scope R_scope.

Lemma small_lt x : 1 / 1000 <= x -> SmallNumber < x.
Proof.
  intros H. apply Rlt_le_trans with (1 / 1000); auto. unfold SmallNumber. cbn [powerRZ].
  assert (10 ^ 4 <= 10 ^ Pos.to_nat 300) by (apply Rle_pow; [lra|lia]).
  apply Rle_lt_trans with (/ 10 ^ 4); [apply Rinv_le_contravar; [apply pow_lt; lra|auto]|]. cbn. lra.
Qed.

(* ---- Setting and reading back ---- *)

(* What is set is what is read, and nothing else changes; what cannot be is refused and changes
   nothing. *)
Theorem C36_setters : forall s, 0 < gT s -> 0 < gD s -> 0 < gW s ->
  (forall p, 0 < p -> exists s', setPressure s p = (Ok tt, s') /\ pressure s' = p /\ gT s' = gT s /\ gYM s' = gYM s /\ gW s' = gW s /\ 0 < gD s') /\
  (forall t, 0 < t -> exists s', setTemperature s t = (Ok tt, s') /\ gT s' = t /\ gD s' = gD s /\ gYM s' = gYM s /\ gW s' = gW s) /\
  (forall rho p, 0 < rho -> 0 < p -> exists s', setState_DP s rho p = (Ok tt, s') /\ gD s' = rho /\ pressure s' = p /\ gYM s' = gYM s /\ gW s' = gW s /\ 0 < gT s') /\
  (forall p, p <= 0 -> setPressure s p = (Err, s)) /\ (forall t, t <= 0 -> setTemperature s t = (Err, s)) /\
  (forall rho p, rho <= 0 \/ p <= 0 -> setState_DP s rho p = (Err, s)).
Proof.
  intros s HT HD HW. pose proof GasConstant_pos as G. assert (R : 0 < RT s) by (unfold RT; apply Rmult_lt_0_compat; auto).
  assert (Y : forall x, 0 < x -> rltb 0 x = true) by (intros; apply rltb_true; auto).
  assert (N : forall x, x <= 0 -> rltb 0 x = false) by (intros; apply rltb_false; auto).
  split; [|split; [|split; [|split; [|split]]]].
  - intros p HP. unfold setPressure, setDensity.
    assert (Q : 0 < p * gW s / RT s) by (apply Rdiv_lt_0_compat; auto; apply Rmult_lt_0_compat; auto).
    rewrite Y by exact Q. eexists. split; [reflexivity|]. cbn. repeat split; auto. unfold pressure, molarDensity, RT; cbn. field. repeat split; lra.
  - intros t Ht. unfold setTemperature. rewrite Y by auto. eexists. split; [reflexivity|]. cbn. auto.
  - intros rho p Hr Hp. unfold setState_DP, setDensity, setTemperature. rewrite !Y by auto. cbn.
    assert (Q : 0 < p * gW s / (GasConstant * rho)) by (apply Rdiv_lt_0_compat; apply Rmult_lt_0_compat; auto).
    rewrite Y by exact Q. eexists. split; [reflexivity|]. cbn. repeat split; auto. unfold pressure, molarDensity; cbn. field. repeat split; lra.
  - intros p HP. unfold setPressure, setDensity. rewrite N; auto.
    replace (p * gW s / RT s) with (p * (gW s / RT s)) by (unfold Rdiv; ring). assert (0 < gW s / RT s) by (apply Rdiv_lt_0_compat; auto). nra.
  - intros t Ht. unfold setTemperature. rewrite N; auto.
  - intros rho p H. unfold setState_DP, setDensity. destruct (rltb 0 p) eqn:E; auto. apply rltb_true in E. rewrite N by lra. reflexivity.
Qed.
Print Assumptions C36_setters.

(* The states at_Tp and at_moles are those the API reaches. *)
Theorem C36_reached : forall s T p, 0 < gW s -> 0 < T -> 0 < p ->
  (let (r, s1) := setTemperature s T in r = Ok tt /\ setPressure s1 p = (Ok tt, at_Tp s T p)) /\
  (forall mw n, (0 < length mw)%nat -> (forall j, (j < length mw)%nat -> 0 < nth j mw 0) -> amounts_ok mw n ->
     let (r, s1) := setTemperature (setMoleFractions mw s (moles mw n)) T in
     r = Ok tt /\ setPressure s1 p = (Ok tt, at_moles mw T p n) /\
     forall j, (j < length mw)%nat -> moleFraction (at_moles mw T p n) j = n j / total mw n).
Proof.
  intros s T p HW HT HP. pose proof GasConstant_pos as G.
  assert (A : forall s, 0 < gW s -> let (r, s1) := setTemperature s T in r = Ok tt /\ setPressure s1 p = (Ok tt, at_Tp s T p)).
  { intros s0 H0. unfold setTemperature. rewrite (proj2 (rltb_true 0 T) HT). split; auto. unfold setPressure, setDensity, RT; cbn.
    assert (Q : 0 < p * gW s0 / (T * GasConstant)) by (apply Rdiv_lt_0_compat; apply Rmult_lt_0_compat; auto).
    rewrite (proj2 (rltb_true _ _) Q). reflexivity. }
  split; [apply A; auto|]. intros mw n KP MW N.
  assert (NP : forall j, (j < length mw)%nat -> 0 < n j) by (intros; apply N; auto).
  specialize (A (setMoleFractions mw s (moles mw n))).
  destruct (setTemperature (setMoleFractions mw s (moles mw n)) T) as [r s1] eqn:E.
  destruct A as [A1 A2].
  { rewrite setX_moles by (intros; apply Rlt_le; auto). cbn. apply Rdiv_lt_0_compat; [apply wsum_pos|apply total_pos]; auto. }
  split; [exact A1|]. split; [|intros; apply X_moles; auto].
  rewrite A2. f_equal.
Qed.
Print Assumptions C36_reached.

(* ---- Molar properties of the mixture ---- *)

(* Every molar property is the mole-fraction-weighted sum of the partial molar ones, and they satisfy
   the defining relations of thermodynamics and of an ideal gas. *)
Theorem C36_molar : forall cpR hRT sR p0 s, mixture s ->
  enthalpy_mole hRT s = mixed s (getPartialMolarEnthalpies hRT s) /\
  intEnergy_mole hRT s = mixed s (getPartialMolarIntEnergies hRT s) /\
  entropy_mole sR p0 s = mixed s (getPartialMolarEntropies sR p0 s) /\
  gibbs_mole hRT sR p0 s = mixed s (getChemPotentials hRT sR p0 s) /\
  cp_mole cpR s = mixed s (getPartialMolarCp cpR s) /\
  molarVolume s = mixed s (getPartialMolarVolumes s) /\
  gibbs_mole hRT sR p0 s = enthalpy_mole hRT s - gT s * entropy_mole sR p0 s /\
  intEnergy_mole hRT s = enthalpy_mole hRT s - pressure s * molarVolume s /\
  pressure s * molarVolume s = GasConstant * gT s /\
  cp_mole cpR s - cv_mole cpR s = GasConstant.
Proof.
  intros cpR hRT sR p0 s M. repeat split.
  - rewrite enthalpy_sum. unfold getPartialMolarEnthalpies, enthalpy_RT_ref, vecT. rewrite map_map, mixed_map. reflexivity.
  - rewrite intEnergy_sum by auto. unfold getPartialMolarIntEnergies, enthalpy_RT_ref, vecT. rewrite map_map, mixed_map. reflexivity.
  - rewrite entropy_sum by auto. rewrite entropies_list, mixed_map. reflexivity.
  - rewrite gibbs_sum, chem_list, mixed_map. reflexivity.
  - rewrite cp_sum. unfold getPartialMolarCp, cp_R_ref, vecT. rewrite map_map, mixed_map. reflexivity.
  - unfold getPartialMolarVolumes. rewrite mixed_map, sum_n_scal_r. change (RSum.sum_n (fun k => moleFraction s k) (kk s)) with (RSum.sum_n (moleFraction s) (kk s)).
    rewrite (m_sum s M). unfold molarVolume. ring.
  - apply gibbs_hTs; auto.
  - rewrite pv by auto. unfold RT. ring.
  - unfold cv_mole. ring.
Qed.
Print Assumptions C36_molar.

(* Mole fractions set without normalisation break them: one species, mole fraction 2. *)
Theorem C36_unnormalised_refuted : exists hRT sR p0 s, 0 < gT s /\ 0 < gD s /\ 0 < gW s /\ 0 < p0 /\
  gibbs_mole hRT sR p0 s <> enthalpy_mole hRT s - gT s * entropy_mole sR p0 s.
Proof.
  exists (fun _ _ => 0), (fun _ _ => 0), GasConstant, (GST 1 2 [1] 2). pose proof GasConstant_pos as G.
  repeat split; cbn; try lra.
  unfold gibbs_mole, enthalpy_mole, entropy_mole, mean_X, sum_xlogx, getChemPotentials, getStandardChemPotentials, gibbs_RT_ref, enthalpy_RT_ref, entropy_R_ref, vecT, add_each, RT, pressure, molarDensity, moleFraction, kk.
  pose proof (small_lt 1 ltac:(lra)) as SP. revert SP. generalize SmallNumber. intros sn SP. cbn.
  replace (GasConstant * (2 / 2) * 1 / GasConstant) with 1 by (field; lra). rewrite ln_1.
  rewrite (Rmax_left 1) by lra. rewrite (Rmax_right sn) by lra. rewrite ln_1. replace (1 * 2) with 2 by ring.
  assert (0 < ln 2) by (rewrite <- ln_1; apply ln_increasing; lra). intros E. nra.
Qed.
Print Assumptions C36_unnormalised_refuted.

(* ---- Derivatives ---- *)

(* species_ok: each species' enthalpy and entropy are integrals of its heat capacity (C35). *)
Theorem C36_derivatives : forall cpR hRT sR p0 s T p, 0 < p0 -> mixture s -> 0 < T -> 0 < p -> species_ok cpR hRT sR T ->
  is_derive (fun t => enthalpy_mole hRT (at_Tp s t p)) T (cp_mole cpR (at_Tp s T p)) /\
  is_derive (fun t => entropy_mole sR p0 (at_Tp s t p)) T (cp_mole cpR (at_Tp s T p) / T) /\
  is_derive (fun t => gibbs_mole hRT sR p0 (at_Tp s t p)) T (- entropy_mole sR p0 (at_Tp s T p)) /\
  is_derive (fun q => gibbs_mole hRT sR p0 (at_Tp s T q)) p (molarVolume (at_Tp s T p)) /\
  is_derive (fun t => molarVolume (at_Tp s t p)) T (thermalExpansionCoeff (at_Tp s T p) * molarVolume (at_Tp s T p)) /\
  is_derive (fun q => molarVolume (at_Tp s T q)) p (- (isothermalCompressibility (at_Tp s T p) * molarVolume (at_Tp s T p))) /\
  is_derive (fun q => entropy_mole sR p0 (at_Tp s T q)) p (- (thermalExpansionCoeff (at_Tp s T p) * molarVolume (at_Tp s T p))) /\
  is_derive (fun q => enthalpy_mole hRT (at_Tp s T q)) p 0.
Proof.
  intros cpR hRT sR p0 s T p P0 M HT HP H. pose proof GasConstant_pos as G. repeat match goal with |- _ /\ _ => split end.
  - exact (deriv_h cpR hRT sR s T p H).
  - exact (deriv_s cpR hRT sR p0 s T p M H HT HP).
  - apply deriv_g with (cpR := cpR); auto.
  - apply deriv_g_p; auto.
  - apply deriv_v_T; auto.
  - apply deriv_v_p; auto.
  - eapply is_derive_eq; [apply deriv_s_p; auto|]. rewrite volume_Tp by (auto; apply M). unfold thermalExpansionCoeff; cbn. field. lra.
  - apply deriv_h_p.
Qed.
Print Assumptions C36_derivatives.

(* At constant density u grows with T at the rate cv; along any path of T and density on which the
   specific entropy does not change, the pressure changes with density at the rate soundSpeed^2. *)
Theorem C36_constant_volume : forall cpR hRT sR p0 s, 0 < p0 -> mixture s ->
  (forall T d, 0 < T -> 0 < d -> species_ok cpR hRT sR T ->
     is_derive (fun t => intEnergy_mole hRT (GST t d (gYM s) (gW s))) T (cv_mole cpR (GST T d (gYM s) (gW s)))) /\
  (forall (Tq : R -> R) d, 0 < d -> 0 < Tq d -> species_ok cpR hRT sR (Tq d) -> ex_derive Tq d ->
     0 < cv_mole cpR (GST (Tq d) d (gYM s) (gW s)) ->
     is_derive (fun x => per_mass (entropy_mole sR p0) (GST (Tq x) x (gYM s) (gW s))) d 0 ->
     is_derive (fun x => pressure (GST (Tq x) x (gYM s) (gW s))) d
       (soundSpeed cpR (GST (Tq d) d (gYM s) (gW s)) * soundSpeed cpR (GST (Tq d) d (gYM s) (gW s)))).
Proof.
  intros cpR hRT sR p0 s P0 M. split.
  - intros T d HT HD H. exact (deriv_u_T cpR hRT sR s T d M H HT HD).
  - intros Tq d HD HT H [dT HQ] CV S0. exact (sound cpR hRT sR p0 P0 s Tq d dT M HD HT H HQ CV S0).
Qed.
Print Assumptions C36_constant_volume.

(* Partial molar properties are the rates at which the property of the whole changes when species k is
   added at fixed temperature, pressure and other amounts. *)
Theorem C36_partial_molar : forall cpR hRT sR p0 mw T p n k, 0 < p0 -> (forall j, (j < length mw)%nat -> 0 < nth j mw 0) ->
  0 < T -> 0 < p -> (k < length mw)%nat -> amounts_ok mw n ->
  let whole (q : gst -> R) x := total mw (with_amount n k x) * q (at_moles mw T p (with_amount n k x)) in
  let s := at_moles mw T p n in
  is_derive (whole (enthalpy_mole hRT)) (n k) (nth k (getPartialMolarEnthalpies hRT s) 0) /\
  is_derive (whole (intEnergy_mole hRT)) (n k) (nth k (getPartialMolarIntEnergies hRT s) 0) /\
  is_derive (whole (entropy_mole sR p0)) (n k) (nth k (getPartialMolarEntropies sR p0 s) 0) /\
  is_derive (whole (gibbs_mole hRT sR p0)) (n k) (nth k (getChemPotentials hRT sR p0 s) 0) /\
  is_derive (whole (cp_mole cpR)) (n k) (nth k (getPartialMolarCp cpR s) 0) /\
  is_derive (whole molarVolume) (n k) (nth k (getPartialMolarVolumes s) 0).
Proof.
  intros cpR hRT sR p0 mw T p n k P0 MW HT HP HK A whole s. unfold whole, s. repeat match goal with |- _ /\ _ => split end.
  - apply amount_h; auto.
  - apply amount_u; auto.
  - apply amount_s; auto.
  - apply amount_g; auto.
  - apply amount_cp; auto.
  - apply amount_v; auto.
Qed.
Print Assumptions C36_partial_molar.

(* ---- Standard states ---- *)

Theorem C36_standard_states : forall cpR hRT sR p0 s k, 0 < p0 -> 0 < gT s -> 0 < gD s -> 0 < gW s -> (k < kk s)%nat ->
  nth k (getGibbs_RT hRT sR p0 s) 0 = nth k (getEnthalpy_RT hRT s) 0 - nth k (getEntropy_R sR p0 s) 0 /\
  nth k (getPureGibbs hRT sR p0 s) 0 = RT s * nth k (getGibbs_RT hRT sR p0 s) 0 /\
  nth k (getStandardChemPotentials hRT sR p0 s) 0 = nth k (getPureGibbs hRT sR p0 s) 0 /\
  nth k (getIntEnergy_RT hRT s) 0 = nth k (getEnthalpy_RT hRT s) 0 - pressure s * nth k (getStandardVolumes s) 0 / RT s /\
  p0 * nth k (getStandardVolumes_ref p0 s) 0 = RT s /\
  nth k (getCp_R cpR s) 0 = cpR k (gT s) /\
  (* activity concentration over standard concentration is the mole fraction *)
  nth k (gYM s) 0 * gD s / standardConcentration s k = moleFraction s k /\
  (SmallNumber <= moleFraction s k ->
   nth k (getChemPotentials hRT sR p0 s) 0 = nth k (getStandardChemPotentials hRT sR p0 s) 0 + RT s * ln (moleFraction s k)).
Proof.
  intros cpR hRT sR p0 s k P0 HT HD HW HK. pose proof GasConstant_pos as G.
  unfold getGibbs_RT, getEntropy_R, getPureGibbs, getStandardChemPotentials, getIntEnergy_RT, getEnthalpy_RT, getStandardVolumes, getStandardVolumes_ref, getCp_R, gibbs_RT_ref, enthalpy_RT_ref, entropy_R_ref, cp_R_ref, vecT.
  rewrite chem_list, !map_map, !nth_map_seq by auto. repeat match goal with |- _ /\ _ => split end; auto; try ring.
  - unfold pressure, RT, molarDensity. field. repeat split; lra.
  - field. lra.
  - unfold standardConcentration, pressure, RT, molarDensity, moleFraction. field. repeat split; lra.
  - intros S. rewrite Rmax_right by auto. ring.
Qed.
Print Assumptions C36_standard_states.

(* ---- Prescribed chemical potentials ---- *)

(* setToEquilState: at the current temperature, the state it sets has the prescribed chemical
   potentials, for every species whose mole fraction is not a trace, as long as no exponent is clipped. *)
Theorem C36_equilibrium : forall hRT sR p0 mw s mu, 0 < p0 -> 0 < gT s -> (0 < length mw)%nat ->
  (forall j, (j < length mw)%nat -> 0 < nth j mw 0) -> kk s = length mw -> length mu = length mw ->
  (forall j, (j < length mw)%nat -> -600 <= nth j mu 0 - (hRT j (gT s) - sR j (gT s)) <= 300) ->
  exists s', setToEquilState hRT sR p0 mw s mu = (Ok tt, s') /\ gT s' = gT s /\ kk s' = length mw /\
    forall k, (k < length mw)%nat -> SmallNumber <= moleFraction s' k ->
      nth k (getChemPotentials hRT sR p0 s') 0 = GasConstant * gT s * nth k mu 0.
Proof.
  intros hRT sR p0 mw s mu P0 HT KP MW KS LM E. pose proof GasConstant_pos as G.
  set (n := fun j => p0 * exp (nth j mu 0 - (hRT j (gT s) - sR j (gT s)))).
  assert (NP : forall j, (j < length mw)%nat -> 0 < n j) by (intros; unfold n; apply Rmult_lt_0_compat; auto; apply exp_pos).
  assert (NP' : forall j, (j < length mw)%nat -> 0 <= n j) by (intros; apply Rlt_le; auto).
  assert (PP : map2 (equil_pp p0) (gibbs_RT_ref hRT sR s) mu = moles mw n).
  { apply (nth_ext _ _ 0 0).
    - unfold moles, gibbs_RT_ref, vecT. rewrite map2_length; rewrite ?map_length, ?seq_length, ?KS; auto.
    - intros k Hk. unfold gibbs_RT_ref in *.
      assert (LV : length (vecT (fun k T => hRT k T - sR k T) s) = length mu) by (rewrite vecT_length; congruence).
      rewrite map2_length, LM in Hk by exact LV.
      unfold moles. rewrite nth_map_seq by auto.
      rewrite (map2_nth (equil_pp p0) 0 0 0) by (auto; lia). unfold vecT. rewrite KS. rewrite nth_map_seq by auto.
      unfold equil_pp, n. destruct (E k Hk) as [E1 E2].
      rewrite (proj2 (rltb_false (- (hRT k (gT s) - sR k (gT s)) + nth k mu 0) (-600))) by lra.
      rewrite (proj2 (rltb_false 300 _)) by lra. f_equal. f_equal. ring. }
  assert (TP : rsum (moles mw n) = total mw n) by reflexivity.
  pose proof (total_pos mw n KP NP) as T1. pose proof (wsum_pos mw MW n KP NP) as W1.
  unfold setToEquilState. rewrite PP, TP, setX_moles by auto.
  unfold setPressure, setDensity, RT; cbn [gT gD gYM gW].
  assert (Q : 0 < total mw n * (wsum mw n / total mw n) / (gT s * GasConstant)).
  { apply Rdiv_lt_0_compat; apply Rmult_lt_0_compat; auto. apply Rdiv_lt_0_compat; auto. }
  rewrite (proj2 (rltb_true _ _) Q). eexists. split; [reflexivity|]. split; [reflexivity|].
  split. { unfold kk, moles; cbn. rewrite !map_length, seq_length. reflexivity. }
  intros k HK SX. rewrite <- (at_moles_eq mw (gT s) (total mw n) n NP') in *.
  rewrite chem_list, at_moles_kk by auto. rewrite nth_map_seq by auto. unfold RT. rewrite at_moles_T.
  rewrite (Rmax_right SmallNumber) by exact SX. rewrite X_moles by auto.
  assert (PR : pressure (at_moles mw (gT s) (total mw n) n) = total mw n).
  { unfold at_moles. apply at_Tp_p; auto. rewrite setX_moles by auto. cbn. apply Rdiv_lt_0_compat; auto. }
  rewrite PR, !ln_quot by auto. unfold n at 2. rewrite ln_mult, ln_exp by (auto; apply exp_pos). ring.
Qed.
Print Assumptions C36_equilibrium.

(* Above exponent 300 the partial pressure is replaced by a quadratic and the potentials set are not
   those asked for. *)
Theorem C36_equilibrium_refuted : exists hRT sR p0 mw s mu s', 0 < p0 /\ 0 < gT s /\ mw = [1] /\ kk s = 1%nat /\ length mu = 1%nat /\
  setToEquilState hRT sR p0 mw s mu = (Ok tt, s') /\ moleFraction s' 0 = 1 /\
  nth 0 (getChemPotentials hRT sR p0 s') 0 <> GasConstant * gT s * nth 0 mu 0.
Proof.
  pose proof GasConstant_pos as G.
  set (P := 1 * exp 300 * (600 / 300 * (600 / 300))).
  assert (HP : 0 < P) by (unfold P; pose proof (exp_pos 300); nra).
  exists (fun _ _ => 0), (fun _ _ => 0), 1, [1], (GST 1 1 [1] 1), [600], (GST 1 (P * 1 / (1 * GasConstant)) [1] 1).
  repeat match goal with |- _ /\ _ => split end; cbn [gT]; try lra; auto.
  - unfold setToEquilState, gibbs_RT_ref, vecT. cbn. unfold equil_pp. cbn.
    rewrite (proj2 (rltb_false _ _)) by lra. rewrite (proj2 (rltb_true _ _)) by lra.
    replace (- (0 - 0) + 600) with 600 by ring. fold P. unfold setMoleFractions; cbn. rewrite (Rmax_left P 0) by lra.
    replace (1 * P + 0) with P by ring. replace (P + 0) with P by ring. replace (P * (1 / P)) with 1 by (field; lra). replace (P / P) with 1 by (field; lra).
    unfold setPressure, setDensity, RT; cbn [gT gD gYM gW]. rewrite (proj2 (rltb_true _ _)); [reflexivity|].
    apply Rdiv_lt_0_compat; apply Rmult_lt_0_compat; lra.
  - unfold moleFraction; cbn; ring.
  - unfold getChemPotentials, getStandardChemPotentials, gibbs_RT_ref, vecT, add_each, RT, pressure, molarDensity, moleFraction, kk.
    pose proof (small_lt 1 ltac:(lra)) as SP. revert SP. generalize SmallNumber. intros sn SP. cbn.
    replace (1 * 1) with 1 by ring. rewrite (Rmax_right sn) by lra. rewrite ln_1.
    replace (GasConstant * (P * 1 / (1 * GasConstant) / 1) * 1 / 1) with P by (field; lra).
    assert (LP : ln P = 300 + ln 4).
    { unfold P. replace (1 * exp 300 * (600 / 300 * (600 / 300))) with (exp 300 * 4) by lra. rewrite ln_mult, ln_exp by (try apply exp_pos; lra). reflexivity. }
    rewrite LP. assert (ln 4 < ln (exp 4)). { apply ln_increasing; [lra|]. pose proof (exp_ineq1 4). lra. } rewrite ln_exp in H.
    intros X. nra.
Qed.
Print Assumptions C36_equilibrium_refuted.

(* ---- The hypotheses hold ---- *)

(* A diatomic and a monatomic gas with constant heat capacities, 1 kmol of the first and 3 of the
   second. *)
Definition ex_cp (k : nat) (_ : R) : R := match k with O => 7 / 2 | _ => 5 / 2 end.
Definition ex_s (k : nat) (T : R) : R := ex_cp k T * ln T.
Definition ex_mw : list R := [28; 4].
Definition ex_n (k : nat) : R := match k with O => 1 | _ => 3 end.

Example C36_species_example : forall T, 0 < T -> species_ok ex_cp ex_cp ex_s T.
Proof.
  intros T HT k. split.
  - apply is_derive_exta with (f := fun t => ex_cp k 0 * t); [intros; unfold ex_cp; ring|]. eapply is_derive_eq; [apply is_derive_cmul, (is_derive_id T)|].
    change (ex_cp k 0 * 1 = ex_cp k T). unfold ex_cp. ring.
  - apply is_derive_exta with (f := fun t => ex_cp k 0 * ln t); [intros; reflexivity|]. eapply is_derive_eq.
    + apply is_derive_cmul. apply is_derive_Reals, derivable_pt_lim_ln; auto.
    + reflexivity.
Qed.
Example C36_amounts_example : amounts_ok ex_mw ex_n.
Proof.
  intros j J. cbn in J. unfold total, RSum.sum_n, sum_of, rsum, ex_mw; cbn.
  destruct j as [|[|j]]; [| |lia]; cbn; (split; [lra|split; apply small_lt; lra]).
Qed.
Example C36_mixture_example : mixture (at_moles ex_mw 300 101325 ex_n) /\ moleFraction (at_moles ex_mw 300 101325 ex_n) 1 = 3 / 4.
Proof.
  assert (H : forall j, (j < length ex_mw)%nat -> 0 < nth j ex_mw 0) by (intros j J; cbn in J; destruct j as [|[|j]]; cbn; try lra; lia).
  split.
  - apply at_moles_mixture; [exact H|cbn; lia|lra|lra|exact C36_amounts_example].
  - rewrite X_moles; [|exact H| |cbn; lia].
    + unfold total, RSum.sum_n, sum_of, rsum, ex_mw, ex_n; cbn. lra.
    + intros j J. apply C36_amounts_example; auto.
Qed.
