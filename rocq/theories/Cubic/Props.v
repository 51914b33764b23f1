(** The cubic equations of state: theorems. *)
From Coquelicot Require Import Coquelicot.
From Coq Require Import Reals List Arith Bool Lra Lia.
From Verif Require Import Base.RSum Base.Vec Base.Fp Units.Model Excess.Spec Excess.Proofs
  Cubic.Model Cubic.Spec Cubic.Proofs Cubic.Mix Cubic.Paths Cubic.PRProofs Cubic.RKProofs.
Open Scope R_scope.

Lemma loc_covol n b x k V : (k < n)%nat -> 0 < covolume n b x < V ->
  locally (x k) (fun t => 0 < covolume n b (upd x k t) < V).
Proof.
  intros Hk Hb.
  assert (D : is_derive (fun t => covolume n b x + b k * (t - x k)) (x k) (b k)) by apply derive_line.
  assert (D2 : is_derive (fun t => (V - covolume n b x) + (- b k) * (t - x k)) (x k) (- b k)) by apply derive_line.
  assert (L1 := locally_pos _ _ _ D). assert (L2 := locally_pos _ _ _ D2). cbv beta in L1, L2.
  rewrite Rminus_eq_0, Rmult_0_r, Rplus_0_r in L1, L2.
  refine (filter_imp _ _ _ (filter_and _ _ (L1 _) (L2 _))); [|lra|lra].
  intros t [H1 H2]. rewrite covolume_upd by assumption. lra.
Qed.
Lemma loc_gt (B V : R) : 0 < B < V -> locally V (fun u => 0 < B < u).
Proof.
  intros H. assert (D : is_derive (fun u => - B + 1 * (u - 0)) V 1) by (auto_derive; [exact I|ring]).
  assert (L := locally_pos _ _ _ D). cbv beta in L.
  refine (filter_imp _ _ _ (L _)); [intros t Ht; lra|lra].
Qed.

(* ---- Peng-Robinson ---- *)

(* Pressure, chemical potentials and entropy are the derivatives of one Helmholtz energy in volume,
   mole numbers and temperature; enthalpy is A + T S + P V. *)
Theorem C67_pr_helmholtz : forall s T v x,
  state_ok (p_ref s) (p_b s) T v x -> pr_ok s T -> ref_ok (p_ref s) T ->
  let S := pr_set s T v x in
  is_derive (fun V => pr_A s T V x) v (- pr_pressure S)
  /\ (0 < pr_pressure S ->
     (forall k, (k < rn (p_ref s))%nat ->
        is_derive (fun t => pr_A s T v (upd x k t)) (x k) (pr_mu S k))
     /\ is_derive (fun t => pr_A s t v x) T (- pr_entropy S)
     /\ pr_enthalpy S = pr_A s T v x + T * pr_entropy S + pr_pressure S * v).
Proof.
  intros s T v x Hok Hpr Href S. assert (Hw := ok_weak _ _ _ _ _ Hok).
  destruct (dom _ _ _ _ _ Hok) as (HT & Hp & Hx & Hkx & Hb & Hv).
  split; [|intros HP; split; [|split]].
  - unfold S. rewrite (E_pressure s T v x Hw).
    apply (is_derive_ext_loc (fun V => gA ph (p_ref s) (p_b s) (pr_attr s) T V x)).
    + refine (filter_imp _ _ _ (loc_gt _ _ Hb)). intros V HV. symmetry. apply E_A; assumption.
    + apply (gA_V ph ph1 ph_d (p_ref s) (p_b s) (pr_attr s) T v x Hok).
  - intros k Hk. unfold S. rewrite (E_mu s T v x Hw Hok k Hk HP).
    apply (is_derive_ext_loc (fun t => gA ph (p_ref s) (p_b s) (pr_attr s) T v (upd x k t))).
    + refine (filter_imp _ _ _ (loc_covol _ _ _ _ _ Hk Hb)). intros t Ht. symmetry. apply E_A; assumption.
    + apply (gA_k ph ph1 ph_d (p_ref s) (p_b s) (pr_attr s) T (attr_sym s T Hpr T) v x Hok k Hk).
  - unfold S. rewrite (E_entropy s T v x Hw Hok HP).
    apply (is_derive_ext_loc (fun t => gA ph (p_ref s) (p_b s) (pr_attr s) t v x)).
    + refine (filter_imp _ _ _ (loc_T _ _ _ _ _ Hok)). intros t Ht. symmetry. apply E_A; assumption.
    + apply (gA_T ph (p_ref s) (p_b s) (pr_attr s) (pq1 s v x T) T (pq1_d s T v x Hok Hpr) v x Hok Href).
  - unfold S. rewrite (E_enthalpy s T v x Hw), (E_entropy s T v x Hw Hok HP), (E_pressure s T v x Hw).
    rewrite E_A by assumption.
    rewrite (gA_relation ph (p_ref s) (p_b s) (pr_attr s) (pq1 s v x T) T v x Hok). ring.
Qed.
Print Assumptions C67_pr_helmholtz.

(* The derivatives of the pressure that the compressibility and the expansion coefficient use. *)
Theorem C67_pr_pressure : forall s T v x,
  state_ok (p_ref s) (p_b s) T v x -> pr_ok s T ->
  let S := pr_set s T v x in
  is_derive (fun V => pr_pressure (pr_set s T V x)) v (pr_dpdV S)
  /\ is_derive (fun t => pr_pressure (pr_set s t v x)) T (pr_dpdT S)
  /\ (pr_dpdV S <> 0 ->
     - / v * / Derive (fun V => pr_pressure (pr_set s T V x)) v = pr_compressibility S
     /\ forall fV V', is_derive fV T V' -> fV T = v ->
          is_derive (fun t => pr_pressure (pr_set s t (fV t) x)) T 0 -> V' = v * pr_expansion S).
Proof.
  intros s T v x Hok Hpr S. assert (Hw := ok_weak _ _ _ _ _ Hok).
  destruct (dom _ _ _ _ _ Hok) as (HT & Hp & Hx & Hkx & Hb & Hv).
  assert (H1 := path_P_V ph1 ph2 ph1_d (p_ref s) (p_b s) (pr_attr s)
    (fun t v x => pr_pressure (pr_set s t v x)) (fun t v x Hw => E_pressure s t v x Hw) T v x Hok).
  assert (H2 := path_P ph1 ph2 ph1_d (p_ref s) (p_b s) (pr_attr s) (pq1 s v x)
    (fun t v x => pr_pressure (pr_set s t v x)) (fun t v x Hw => E_pressure s t v x Hw) T v x Hok (pq1_d s T v x Hok Hpr)).
  cbv beta in H1. rewrite <- (E_dpdV s T v x Hw) in H1. fold S in H1.
  assert (EV := E_dpdV s T v x Hw). assert (ET := E_dpdT s T v x Hw). fold S in EV, ET.
  split; [exact H1|split].
  - eapply is_derive_val; [exact (H2 (fun _ => v) 0 (d_const v T) eq_refl)|]. rewrite ET. ring.
  - intros HV. split.
    + replace (Derive (fun V => pr_pressure (pr_set s T V x)) v) with (pr_dpdV S)
        by (symmetry; apply is_derive_unique; exact H1).
      unfold pr_compressibility. change (p_v S) with v. field. split; lra.
    + intros fV V' HfV EfV H0.
      assert (A := is_derive_unique _ _ _ (H2 fV V' HfV EfV)). cbv beta in A.
      assert (A0 := is_derive_unique _ _ _ H0). rewrite A0 in A. rewrite <- EV, <- ET in A.
      unfold pr_expansion. change (p_v S) with v.
      apply Rmult_eq_reg_l with (pr_dpdV S); [|assumption].
      replace (pr_dpdV S * (v * (- pr_dpdT S / (v * pr_dpdV S)))) with (- pr_dpdT S) by (field; split; lra). lra.
Qed.
Print Assumptions C67_pr_pressure.

(* The heat capacities are the derivative of the internal energy at constant volume and of the
   enthalpy along every path of constant pressure; such a path exists. *)
Theorem C67_pr_heat : forall s T v x,
  state_ok (p_ref s) (p_b s) T v x -> pr_ok s T -> ref_ok (p_ref s) T ->
  let S := pr_set s T v x in pr_dpdV S <> 0 ->
  is_derive (fun t => pr_enthalpy (pr_set s t v x) - pr_pressure (pr_set s t v x) * v) T (pr_cv S)
  /\ (forall fV V', is_derive fV T V' -> fV T = v ->
       is_derive (fun t => pr_pressure (pr_set s t (fV t) x)) T 0 ->
       is_derive (fun t => pr_enthalpy (pr_set s t (fV t) x)) T (pr_cp S))
  /\ exists fV V', is_derive fV T V' /\ fV T = v
       /\ is_derive (fun t => pr_pressure (pr_set s t (fV t) x)) T 0.
Proof.
  intros s T v x Hok Hpr Href S HV. assert (Hw := ok_weak _ _ _ _ _ Hok).
  assert (EV := E_dpdV s T v x Hw). assert (ET := E_dpdT s T v x Hw). fold S in EV, ET.
  assert (HPf := fun t v x Hw => E_pressure s t v x Hw).
  assert (HHf : forall t v0 x0, weak_ok (p_ref s) (p_b s) t v0 x0 ->
      pr_enthalpy (pr_set s t v0 x0) = gU ph (p_ref s) (p_b s) (pr_attr s) ((pq1 s v x) t) t v0 x0
        + gP ph1 (p_ref s) (p_b s) (pr_attr s) t v0 x0 * v0).
  { intros t v0 x0 H0. rewrite (E_enthalpy s t v0 x0 H0). reflexivity. }
  assert (HPV : gPV ph1 ph2 (p_ref s) (p_b s) (pr_attr s) T v x <> 0) by (rewrite <- EV; assumption).
  split; [|split].
  - assert (H := path_cv ph ph1 ph2 ph_d ph1_d (p_ref s) (p_b s) (pr_attr s) (pq1 s v x) (pq2 s T v x)
      (fun t v x => pr_pressure (pr_set s t v x)) (fun t v x => pr_enthalpy (pr_set s t v x))
      HPf HHf T v x Hok (pq1_d s T v x Hok Hpr) (pq2_d s T v x Hok Hpr) Href).
    eapply is_derive_val; [exact H|]. unfold S, pr_cv. rewrite (E_cp s T v x Hw HPV). fold S.
    rewrite EV, ET. change (p_T S) with T. unfold cv_gen, Rdiv. ring.
  - intros fV V' HfV EfV H0.
    assert (H := path_cp ph ph1 ph2 ph_d ph1_d (p_ref s) (p_b s) (pr_attr s) (pq1 s v x) (pq2 s T v x)
      (fun t v x => pr_pressure (pr_set s t v x)) (fun t v x => pr_enthalpy (pr_set s t v x))
      HPf HHf T v x Hok (pq1_d s T v x Hok Hpr) (pq2_d s T v x Hok Hpr) Href fV V' HPV HfV EfV H0).
    destruct H as [_ H]. eapply is_derive_val; [exact H|].
    unfold S. rewrite (E_cp s T v x Hw HPV). reflexivity.
  - assert (H := path_cp_exists ph1 ph2 ph1_d (p_ref s) (p_b s) (pr_attr s) (pq1 s v x)
      (fun t v x => pr_pressure (pr_set s t v x)) HPf T v x Hok (pq1_d s T v x Hok Hpr) HPV).
    eexists. eexists. split; [|split; [|exact H]]; [apply derive_line|match goal with |- ?a = ?b => change (@eq R a b) end; cbv beta; ring].
Qed.
Print Assumptions C67_pr_heat.

(* Partial molar volume, enthalpy and energy: the change of the total when the amount of one species
   changes at constant temperature and pressure.  They satisfy h - T s = mu, u = h - P v. *)
Theorem C67_pr_partial : forall s T v x k,
  state_ok (p_ref s) (p_b s) T v x -> pr_ok s T -> (k < rn (p_ref s))%nat ->
  let S := pr_set s T v x in
  let N := fun t => total (upd x k t) (rn (p_ref s)) in
  pr_dpdV S <> 0 ->
  (forall fV V', is_derive fV (x k) V' -> fV (x k) = v ->
     is_derive (fun t => pr_pressure (pr_holding s T (fV t) (upd x k t))) (x k) 0 ->
     V' = pr_vbar S k
     /\ is_derive (fun t => N t * pr_enthalpy (pr_holding s T (fV t) (upd x k t))) (x k) (pr_hbar S k)
     /\ pr_ubar S k = pr_hbar S k - pr_pressure S * V')
  /\ (exists fV V', is_derive fV (x k) V' /\ fV (x k) = v
        /\ is_derive (fun t => pr_pressure (pr_holding s T (fV t) (upd x k t))) (x k) 0)
  /\ (0 < pr_pressure S -> pr_hbar S k - T * pr_sbar S k = pr_mu S k).
Proof.
  intros s T v x k Hok Hpr Hk S N HV. assert (Hw := ok_weak _ _ _ _ _ Hok).
  assert (EV := E_dpdV s T v x Hw). assert (ET := E_dpdT s T v x Hw). fold S in EV, ET.
  assert (HPf := fun t v x Hw => E_pressure s t v x Hw).
  assert (HHf : forall t v0 x0, weak_ok (p_ref s) (p_b s) t v0 x0 ->
      pr_enthalpy (pr_set s t v0 x0) = gU ph (p_ref s) (p_b s) (pr_attr s) ((pq1 s v x) t) t v0 x0
        + gP ph1 (p_ref s) (p_b s) (pr_attr s) t v0 x0 * v0).
  { intros t v0 x0 H0. rewrite (E_enthalpy s t v0 x0 H0). reflexivity. }
  assert (HPV : gPV ph1 ph2 (p_ref s) (p_b s) (pr_attr s) T v x <> 0) by (rewrite <- EV; assumption).
  split; [|split].
  - intros fV V' HfV EfV H0.
    assert (H := path_partial ph ph1 ph2 ph_d ph1_d (p_ref s) (p_b s) (pr_attr s) (pq1 s v x)
      (fun t v x => pr_pressure (pr_set s t v x)) (fun t v x => pr_enthalpy (pr_set s t v x))
      HPf HHf T v x Hok (attr_sym s T Hpr T) (pq1_sym s T v x Hpr) k fV V' Hk HPV HfV EfV H0).
    destruct H as [H1 H2]. split; [|split].
    + unfold S. rewrite (E_vbar s T v x Hw k Hk HPV). exact H1.
    + unfold S. rewrite (E_hbar s T v x Hw k Hk HPV). exact H2.
    + unfold pr_ubar. assert (EB := E_vbar s T v x Hw k Hk HPV). fold S in EB. rewrite EB, H1. reflexivity.
  - assert (H := path_partial_exists ph1 ph2 ph1_d (p_ref s) (p_b s) (pr_attr s)
      (fun t v x => pr_pressure (pr_set s t v x)) HPf T v x Hok (attr_sym s T Hpr T) k Hk HPV).
    eexists. eexists. split; [|split; [|exact H]]; [apply derive_line|match goal with |- ?a = ?b => change (@eq R a b) end; cbv beta; ring].
  - intros HP. unfold pr_sbar. change (p_T S) with T. destruct (dom _ _ _ _ _ Hok) as (HT & _). field. lra.
Qed.
Print Assumptions C67_pr_partial.

(* The molar properties are the sums of the partial molar ones over the mixture. *)
Theorem C67_pr_sums : forall s T v x,
  state_ok (p_ref s) (p_b s) T v x -> pr_ok s T ->
  let S := pr_set s T v x in
  let sum := fun f => sum_n (fun k => x k * f k) (rn (p_ref s)) in
  pr_dpdV S <> 0 -> 0 < pr_pressure S ->
  sum (pr_mu S) = pr_enthalpy S - T * pr_entropy S
  /\ sum (pr_vbar S) = v
  /\ sum (pr_hbar S) = pr_enthalpy S
  /\ sum (pr_sbar S) = pr_entropy S
  /\ sum (pr_ubar S) = pr_enthalpy S - pr_pressure S * v.
Proof.
  intros s T v x Hok Hpr S sum HV HP. assert (Hw := ok_weak _ _ _ _ _ Hok).
  destruct (dom _ _ _ _ _ Hok) as (HT & Hp & Hx & Hkx & Hb & Hv).
  assert (EV := E_dpdV s T v x Hw). fold S in EV.
  assert (HPV : gPV ph1 ph2 (p_ref s) (p_b s) (pr_attr s) T v x <> 0) by (rewrite <- EV; assumption).
  assert (E1 : sum (pr_mu S) = pr_enthalpy S - T * pr_entropy S).
  { unfold sum. rewrite (sum_n_ext _ (fun k => x k * gMu ph ph1 (p_ref s) (p_b s) (pr_attr s) T v x k))
      by (intros k Hk; unfold S; now rewrite (E_mu s T v x Hw Hok k Hk HP)).
    rewrite (sum_gMu ph ph1 (p_ref s) (p_b s) (pr_attr s) (pq1 s v x T) T v x Hok).
    unfold S. rewrite (E_enthalpy s T v x Hw), (E_entropy s T v x Hw Hok HP). ring. }
  assert (E2 : sum (pr_vbar S) = v).
  { unfold sum. rewrite (sum_n_ext _ (fun k => x k * gPk ph1 ph2 (p_ref s) (p_b s) (pr_attr s) T v x k
       * (- / gPV ph1 ph2 (p_ref s) (p_b s) (pr_attr s) T v x))).
    2:{ intros k Hk. unfold S. rewrite (E_vbar s T v x Hw k Hk HPV). unfold Rdiv. ring. }
    rewrite sum_n_scal_r, (sum_gPk ph1 ph2 (p_ref s) (p_b s) (pr_attr s) T v x Hok). field. assumption. }
  assert (E3 : sum (pr_hbar S) = pr_enthalpy S).
  { unfold sum. rewrite (sum_n_ext _ (fun k => x k * gUk ph ph1 (p_ref s) (p_b s) (pr_attr s) (pq1 s v x T) T v x k
       + x k * gPk ph1 ph2 (p_ref s) (p_b s) (pr_attr s) T v x k
         * (- (T * gPT ph1 (p_ref s) (p_b s) (pq1 s v x T) v x) / gPV ph1 ph2 (p_ref s) (p_b s) (pr_attr s) T v x))).
    2:{ intros k Hk. unfold S. rewrite (E_hbar s T v x Hw k Hk HPV). field. assumption. }
    rewrite sum_n_plus, sum_n_scal_r, (sum_gPk ph1 ph2 (p_ref s) (p_b s) (pr_attr s) T v x Hok),
      (sum_gUk ph ph1 (p_ref s) (p_b s) (pr_attr s) (pq1 s v x T) T v x Hok).
    unfold S. rewrite (E_enthalpy s T v x Hw).
    rewrite <- (maxwell ph1 (p_ref s) (p_b s) (pr_attr s) (pq1 s v x T) T v x Hok). field. assumption. }
  split; [exact E1|]. split; [exact E2|]. split; [exact E3|]. split.
  - unfold sum. rewrite (sum_n_ext _ (fun k => x k * pr_hbar S k * / T + x k * pr_mu S k * (- / T))).
    2:{ intros k Hk. assert (HS := C67_pr_partial s T v x k Hok Hpr Hk).
        destruct (HS HV) as (_ & _ & H3). specialize (H3 HP). fold S in H3.
        rewrite <- H3. field. lra. }
    rewrite sum_n_plus, !sum_n_scal_r. unfold sum in E1, E3. rewrite E1, E3. field. lra.
  - unfold sum. rewrite (sum_n_ext _ (fun k => x k * pr_hbar S k + x k * pr_vbar S k * (- pr_pressure S)))
      by (intros k Hk; unfold pr_ubar; ring).
    rewrite sum_n_plus, sum_n_scal_r. unfold sum in E2, E3. rewrite E2, E3. ring.
Qed.
Print Assumptions C67_pr_sums.

(* The activity coefficients describe the chemical potential relative to the ideal gas at the same
   pressure. *)
Theorem C67_pr_activity : forall s T v x k,
  state_ok (p_ref s) (p_b s) T v x -> pr_ok s T -> (k < rn (p_ref s))%nat ->
  let S := pr_set s T v x in 0 < pr_pressure S ->
  pr_mu S k = gibbs_ref (p_ref s) T k + GasConstant * T * ln (pr_pressure S / rp0 (p_ref s))
             + GasConstant * T * ln (x k * pr_ac S k).
Proof.
  intros s T v x k Hok Hpr Hk S HP.
  assert (Hsm : SmallNumber <= x k) by (destruct Hok as (_ & _ & _ & H & _); now apply H).
  destruct (dom _ _ _ _ _ Hok) as (HT & Hp & Hx & Hkx & Hb & Hv). pose proof R_pos as HR.
  assert (HRT : 0 < GasConstant * T) by (apply Rmult_lt_0_compat; assumption).
  rewrite ln_mult; [|now apply Hkx|apply exp_pos].
  unfold pr_ac, pr_mu. cbv zeta. rewrite ln_exp. change (p_T S) with T. change (p_x S) with x.
  change (p_ref S) with (p_ref s). rewrite Rmax_right by assumption.
  assert (K : forall A, GasConstant * T * (A / (GasConstant * T)) = A) by (intros; field; lra).
  rewrite Rmult_plus_distr_l, K. unfold Rdiv. ring.
Qed.
Print Assumptions C67_pr_activity.

(* ---- Redlich-Kwong ---- *)

(* Pressure, chemical potentials and entropy are the derivatives of one Helmholtz energy in volume,
   mole numbers and temperature; enthalpy is A + T S + P V. *)
Theorem C67_rk_helmholtz : forall s T v x,
  state_ok (k_ref s) (k_b s) T v x -> rk_ok s -> ref_ok (k_ref s) T ->
  let S := rk_set s T v x in
  is_derive (fun V => rk_A s T V x) v (- rk_pressure S)
  /\ (0 < rk_pressure S ->
     (forall k, (k < rn (k_ref s))%nat ->
        is_derive (fun t => rk_A s T v (upd x k t)) (x k) (rk_mu S k))
     /\ is_derive (fun t => rk_A s t v x) T (- rk_entropy S)
     /\ rk_enthalpy S = rk_A s T v x + T * rk_entropy S + rk_pressure S * v).
Proof.
  intros s T v x Hok Hpr Href S. assert (Hw := ok_weak _ _ _ _ _ Hok).
  destruct (dom _ _ _ _ _ Hok) as (HT & Hp & Hx & Hkx & Hb & Hv).
  split; [|intros HP; split; [|split]].
  - unfold S. rewrite (F_pressure s T v x Hw Hpr).
    apply (is_derive_ext_loc (fun V => gA rph (k_ref s) (k_b s) (kq s) T V x)).
    + refine (filter_imp _ _ _ (loc_gt _ _ Hb)). intros V HV. symmetry. apply F_A; assumption.
    + apply (gA_V rph rph1 rph_d (k_ref s) (k_b s) (kq s) T v x Hok).
  - intros k Hk. unfold S. rewrite (F_mu s T v x Hw Hok Hpr k Hk HP).
    apply (is_derive_ext_loc (fun t => gA rph (k_ref s) (k_b s) (kq s) T v (upd x k t))).
    + refine (filter_imp _ _ _ (loc_covol _ _ _ _ _ Hk Hb)). intros t Ht. symmetry. apply F_A; assumption.
    + apply (gA_k rph rph1 rph_d (k_ref s) (k_b s) (kq s) T (kq_sym s Hpr T) v x Hok k Hk).
  - unfold S. rewrite (F_entropy s T v x Hw Hok Hpr HP).
    apply (is_derive_ext_loc (fun t => gA rph (k_ref s) (k_b s) (kq s) t v x)).
    + refine (filter_imp _ _ _ (loc_T _ _ _ _ _ Hok)). intros t Ht. symmetry. apply F_A; assumption.
    + apply (gA_T rph (k_ref s) (k_b s) (kq s) (kq1 s T) T (fun i j _ _ => kq1_d s T i j (proj1 Hok)) v x Hok Href).
  - unfold S. rewrite (F_enthalpy s T v x Hw Hpr), (F_entropy s T v x Hw Hok Hpr HP), (F_pressure s T v x Hw Hpr).
    rewrite F_A by assumption.
    rewrite (gA_relation rph (k_ref s) (k_b s) (kq s) (kq1 s T) T v x Hok). ring.
Qed.
Print Assumptions C67_rk_helmholtz.

(* The derivatives of the pressure that the compressibility and the expansion coefficient use. *)
Theorem C67_rk_pressure : forall s T v x,
  state_ok (k_ref s) (k_b s) T v x -> rk_ok s ->
  let S := rk_set s T v x in
  is_derive (fun V => rk_pressure (rk_set s T V x)) v (rk_dpdV S)
  /\ is_derive (fun t => rk_pressure (rk_set s t v x)) T (rk_dpdT S)
  /\ (rk_dpdV S <> 0 ->
     - / v * / Derive (fun V => rk_pressure (rk_set s T V x)) v = rk_compressibility S
     /\ forall fV V', is_derive fV T V' -> fV T = v ->
          is_derive (fun t => rk_pressure (rk_set s t (fV t) x)) T 0 -> V' = v * rk_expansion S).
Proof.
  intros s T v x Hok Hpr S. assert (Hw := ok_weak _ _ _ _ _ Hok).
  destruct (dom _ _ _ _ _ Hok) as (HT & Hp & Hx & Hkx & Hb & Hv).
  assert (H1 := path_P_V rph1 rph2 rph1_d (k_ref s) (k_b s) (kq s)
    (fun t v x => rk_pressure (rk_set s t v x)) (fun t v x Hw => F_pressure s t v x Hw Hpr) T v x Hok).
  assert (H2 := path_P rph1 rph2 rph1_d (k_ref s) (k_b s) (kq s) (kq1 s)
    (fun t v x => rk_pressure (rk_set s t v x)) (fun t v x Hw => F_pressure s t v x Hw Hpr) T v x Hok (fun i j _ _ => kq1_d s T i j (proj1 Hok))).
  cbv beta in H1. rewrite <- (F_dpdV s T v x Hw Hpr) in H1. fold S in H1.
  assert (EV := F_dpdV s T v x Hw Hpr). assert (ET := F_dpdT s T v x Hw Hpr). fold S in EV, ET.
  split; [exact H1|split].
  - eapply is_derive_val; [exact (H2 (fun _ => v) 0 (d_const v T) eq_refl)|]. rewrite ET. ring.
  - intros HV. split.
    + replace (Derive (fun V => rk_pressure (rk_set s T V x)) v) with (rk_dpdV S)
        by (symmetry; apply is_derive_unique; exact H1).
      unfold rk_compressibility. change (k_v S) with v. field. split; lra.
    + intros fV V' HfV EfV H0.
      assert (A := is_derive_unique _ _ _ (H2 fV V' HfV EfV)). cbv beta in A.
      assert (A0 := is_derive_unique _ _ _ H0). rewrite A0 in A. rewrite <- EV, <- ET in A.
      unfold rk_expansion. change (k_v S) with v.
      apply Rmult_eq_reg_l with (rk_dpdV S); [|assumption].
      replace (rk_dpdV S * (v * (- rk_dpdT S / (v * rk_dpdV S)))) with (- rk_dpdT S) by (field; split; lra). lra.
Qed.
Print Assumptions C67_rk_pressure.

(* The heat capacities are the derivative of the internal energy at constant volume and of the
   enthalpy along every path of constant pressure; such a path exists. *)
Theorem C67_rk_heat : forall s T v x,
  state_ok (k_ref s) (k_b s) T v x -> rk_ok s -> ref_ok (k_ref s) T ->
  let S := rk_set s T v x in rk_dpdV S <> 0 ->
  is_derive (fun t => rk_enthalpy (rk_set s t v x) - rk_pressure (rk_set s t v x) * v) T (rk_cv S)
  /\ (forall fV V', is_derive fV T V' -> fV T = v ->
       is_derive (fun t => rk_pressure (rk_set s t (fV t) x)) T 0 ->
       is_derive (fun t => rk_enthalpy (rk_set s t (fV t) x)) T (rk_cp S))
  /\ exists fV V', is_derive fV T V' /\ fV T = v
       /\ is_derive (fun t => rk_pressure (rk_set s t (fV t) x)) T 0.
Proof.
  intros s T v x Hok Hpr Href S HV. assert (Hw := ok_weak _ _ _ _ _ Hok).
  assert (EV := F_dpdV s T v x Hw Hpr). assert (ET := F_dpdT s T v x Hw Hpr). fold S in EV, ET.
  assert (HPf := fun t v x Hw => F_pressure s t v x Hw Hpr).
  assert (HHf : forall t v0 x0, weak_ok (k_ref s) (k_b s) t v0 x0 ->
      rk_enthalpy (rk_set s t v0 x0) = gU rph (k_ref s) (k_b s) (kq s) ((kq1 s) t) t v0 x0
        + gP rph1 (k_ref s) (k_b s) (kq s) t v0 x0 * v0).
  { intros t v0 x0 H0. rewrite (F_enthalpy s t v0 x0 H0 Hpr). reflexivity. }
  assert (HPV : gPV rph1 rph2 (k_ref s) (k_b s) (kq s) T v x <> 0) by (rewrite <- EV; assumption).
  split; [|split].
  - assert (H := path_cv rph rph1 rph2 rph_d rph1_d (k_ref s) (k_b s) (kq s) (kq1 s) (kq2 s T)
      (fun t v x => rk_pressure (rk_set s t v x)) (fun t v x => rk_enthalpy (rk_set s t v x))
      HPf HHf T v x Hok (fun i j _ _ => kq1_d s T i j (proj1 Hok)) (fun i j _ _ => kq2_d s T i j (proj1 Hok)) Href).
    eapply is_derive_val; [exact H|]. unfold S. rewrite (F_cv s T v x Hw Hpr). reflexivity.
  - intros fV V' HfV EfV H0.
    assert (H := path_cp rph rph1 rph2 rph_d rph1_d (k_ref s) (k_b s) (kq s) (kq1 s) (kq2 s T)
      (fun t v x => rk_pressure (rk_set s t v x)) (fun t v x => rk_enthalpy (rk_set s t v x))
      HPf HHf T v x Hok (fun i j _ _ => kq1_d s T i j (proj1 Hok)) (fun i j _ _ => kq2_d s T i j (proj1 Hok)) Href fV V' HPV HfV EfV H0).
    destruct H as [_ H]. eapply is_derive_val; [exact H|].
    unfold S. rewrite (F_cp s T v x Hw Hpr HPV). reflexivity.
  - assert (H := path_cp_exists rph1 rph2 rph1_d (k_ref s) (k_b s) (kq s) (kq1 s)
      (fun t v x => rk_pressure (rk_set s t v x)) HPf T v x Hok (fun i j _ _ => kq1_d s T i j (proj1 Hok)) HPV).
    eexists. eexists. split; [|split; [|exact H]]; [apply derive_line|match goal with |- ?a = ?b => change (@eq R a b) end; cbv beta; ring].
Qed.
Print Assumptions C67_rk_heat.

(* Partial molar volume, enthalpy and energy: the change of the total when the amount of one species
   changes at constant temperature and pressure.  They satisfy h - T s = mu, u = h - P v. *)
Theorem C67_rk_partial : forall s T v x k,
  state_ok (k_ref s) (k_b s) T v x -> rk_ok s -> (k < rn (k_ref s))%nat ->
  let S := rk_set s T v x in
  let N := fun t => total (upd x k t) (rn (k_ref s)) in
  rk_dpdV S <> 0 ->
  (forall fV V', is_derive fV (x k) V' -> fV (x k) = v ->
     is_derive (fun t => rk_pressure (rk_holding s T (fV t) (upd x k t))) (x k) 0 ->
     V' = rk_vbar S k
     /\ is_derive (fun t => N t * rk_enthalpy (rk_holding s T (fV t) (upd x k t))) (x k) (rk_hbar S k)
     /\ rk_ubar S k = rk_hbar S k - rk_pressure S * V')
  /\ (exists fV V', is_derive fV (x k) V' /\ fV (x k) = v
        /\ is_derive (fun t => rk_pressure (rk_holding s T (fV t) (upd x k t))) (x k) 0)
  /\ (0 < rk_pressure S -> rk_hbar S k - T * rk_sbar S k = rk_mu S k).
Proof.
  intros s T v x k Hok Hpr Hk S N HV. assert (Hw := ok_weak _ _ _ _ _ Hok).
  assert (EV := F_dpdV s T v x Hw Hpr). assert (ET := F_dpdT s T v x Hw Hpr). fold S in EV, ET.
  assert (HPf := fun t v x Hw => F_pressure s t v x Hw Hpr).
  assert (HHf : forall t v0 x0, weak_ok (k_ref s) (k_b s) t v0 x0 ->
      rk_enthalpy (rk_set s t v0 x0) = gU rph (k_ref s) (k_b s) (kq s) ((kq1 s) t) t v0 x0
        + gP rph1 (k_ref s) (k_b s) (kq s) t v0 x0 * v0).
  { intros t v0 x0 H0. rewrite (F_enthalpy s t v0 x0 H0 Hpr). reflexivity. }
  assert (HPV : gPV rph1 rph2 (k_ref s) (k_b s) (kq s) T v x <> 0) by (rewrite <- EV; assumption).
  split; [|split].
  - intros fV V' HfV EfV H0.
    assert (H := path_partial rph rph1 rph2 rph_d rph1_d (k_ref s) (k_b s) (kq s) (kq1 s)
      (fun t v x => rk_pressure (rk_set s t v x)) (fun t v x => rk_enthalpy (rk_set s t v x))
      HPf HHf T v x Hok (kq_sym s Hpr T) (kq1_sym s Hpr T) k fV V' Hk HPV HfV EfV H0).
    destruct H as [H1 H2]. split; [|split].
    + unfold S. rewrite (F_vbar s T v x Hw Hpr k Hk HPV). exact H1.
    + unfold S. rewrite (F_hbar s T v x Hw Hpr k Hk HPV). exact H2.
    + unfold rk_ubar. assert (EB := F_vbar s T v x Hw Hpr k Hk HPV). fold S in EB. rewrite EB, H1. reflexivity.
  - assert (H := path_partial_exists rph1 rph2 rph1_d (k_ref s) (k_b s) (kq s)
      (fun t v x => rk_pressure (rk_set s t v x)) HPf T v x Hok (kq_sym s Hpr T) k Hk HPV).
    eexists. eexists. split; [|split; [|exact H]]; [apply derive_line|match goal with |- ?a = ?b => change (@eq R a b) end; cbv beta; ring].
  - intros HP. unfold S. rewrite (F_hbar s T v x Hw Hpr k Hk HPV), (F_sbar s T v x Hw Hok Hpr k Hk HPV), (F_mu s T v x Hw Hok Hpr k Hk HP).
    rewrite <- (gUk_Sk rph rph1 (k_ref s) (k_b s) (kq s) (kq1 s T) T v x Hok k Hk). field. assumption.
Qed.
Print Assumptions C67_rk_partial.

(* The molar properties are the sums of the partial molar ones over the mixture. *)
Theorem C67_rk_sums : forall s T v x,
  state_ok (k_ref s) (k_b s) T v x -> rk_ok s ->
  let S := rk_set s T v x in
  let sum := fun f => sum_n (fun k => x k * f k) (rn (k_ref s)) in
  rk_dpdV S <> 0 -> 0 < rk_pressure S ->
  sum (rk_mu S) = rk_enthalpy S - T * rk_entropy S
  /\ sum (rk_vbar S) = v
  /\ sum (rk_hbar S) = rk_enthalpy S
  /\ sum (rk_sbar S) = rk_entropy S
  /\ sum (rk_ubar S) = rk_enthalpy S - rk_pressure S * v.
Proof.
  intros s T v x Hok Hpr S sum HV HP. assert (Hw := ok_weak _ _ _ _ _ Hok).
  destruct (dom _ _ _ _ _ Hok) as (HT & Hp & Hx & Hkx & Hb & Hv).
  assert (EV := F_dpdV s T v x Hw Hpr). fold S in EV.
  assert (HPV : gPV rph1 rph2 (k_ref s) (k_b s) (kq s) T v x <> 0) by (rewrite <- EV; assumption).
  assert (E1 : sum (rk_mu S) = rk_enthalpy S - T * rk_entropy S).
  { unfold sum. rewrite (sum_n_ext _ (fun k => x k * gMu rph rph1 (k_ref s) (k_b s) (kq s) T v x k))
      by (intros k Hk; unfold S; now rewrite (F_mu s T v x Hw Hok Hpr k Hk HP)).
    rewrite (sum_gMu rph rph1 (k_ref s) (k_b s) (kq s) (kq1 s T) T v x Hok).
    unfold S. rewrite (F_enthalpy s T v x Hw Hpr), (F_entropy s T v x Hw Hok Hpr HP). ring. }
  assert (E2 : sum (rk_vbar S) = v).
  { unfold sum. rewrite (sum_n_ext _ (fun k => x k * gPk rph1 rph2 (k_ref s) (k_b s) (kq s) T v x k
       * (- / gPV rph1 rph2 (k_ref s) (k_b s) (kq s) T v x))).
    2:{ intros k Hk. unfold S. rewrite (F_vbar s T v x Hw Hpr k Hk HPV). unfold Rdiv. ring. }
    rewrite sum_n_scal_r, (sum_gPk rph1 rph2 (k_ref s) (k_b s) (kq s) T v x Hok). field. assumption. }
  assert (E3 : sum (rk_hbar S) = rk_enthalpy S).
  { unfold sum. rewrite (sum_n_ext _ (fun k => x k * gUk rph rph1 (k_ref s) (k_b s) (kq s) (kq1 s T) T v x k
       + x k * gPk rph1 rph2 (k_ref s) (k_b s) (kq s) T v x k
         * (- (T * gPT rph1 (k_ref s) (k_b s) (kq1 s T) v x) / gPV rph1 rph2 (k_ref s) (k_b s) (kq s) T v x))).
    2:{ intros k Hk. unfold S. rewrite (F_hbar s T v x Hw Hpr k Hk HPV). field. assumption. }
    rewrite sum_n_plus, sum_n_scal_r, (sum_gPk rph1 rph2 (k_ref s) (k_b s) (kq s) T v x Hok),
      (sum_gUk rph rph1 (k_ref s) (k_b s) (kq s) (kq1 s T) T v x Hok).
    unfold S. rewrite (F_enthalpy s T v x Hw Hpr).
    rewrite <- (maxwell rph1 (k_ref s) (k_b s) (kq s) (kq1 s T) T v x Hok). field. assumption. }
  split; [exact E1|]. split; [exact E2|]. split; [exact E3|]. split.
  - unfold sum. rewrite (sum_n_ext _ (fun k => x k * rk_hbar S k * / T + x k * rk_mu S k * (- / T))).
    2:{ intros k Hk. assert (HS := C67_rk_partial s T v x k Hok Hpr Hk).
        destruct (HS HV) as (_ & _ & H3). specialize (H3 HP). fold S in H3.
        rewrite <- H3. field. lra. }
    rewrite sum_n_plus, !sum_n_scal_r. unfold sum in E1, E3. rewrite E1, E3. field. lra.
  - unfold sum. rewrite (sum_n_ext _ (fun k => x k * rk_hbar S k + x k * rk_vbar S k * (- rk_pressure S)))
      by (intros k Hk; unfold rk_ubar; ring).
    rewrite sum_n_plus, sum_n_scal_r. unfold sum in E2, E3. rewrite E2, E3. ring.
Qed.
Print Assumptions C67_rk_sums.

(* The activity coefficients describe the chemical potential relative to the ideal gas at the same
   pressure. *)
Theorem C67_rk_activity : forall s T v x k,
  state_ok (k_ref s) (k_b s) T v x -> rk_ok s -> (k < rn (k_ref s))%nat ->
  let S := rk_set s T v x in 0 < rk_pressure S ->
  rk_mu S k = gibbs_ref (k_ref s) T k + GasConstant * T * ln (rk_pressure S / rp0 (k_ref s))
             + GasConstant * T * ln (x k * rk_ac S k).
Proof.
  intros s T v x k Hok Hpr Hk S HP.
  assert (Hsm : SmallNumber <= x k) by (destruct Hok as (_ & _ & _ & H & _); now apply H).
  destruct (dom _ _ _ _ _ Hok) as (HT & Hp & Hx & Hkx & Hb & Hv). pose proof R_pos as HR.
  assert (HRT : 0 < GasConstant * T) by (apply Rmult_lt_0_compat; assumption).
  rewrite ln_mult; [|now apply Hkx|apply exp_pos].
  unfold rk_ac, rk_mu. cbv zeta. rewrite ln_exp. change (k_T S) with T. change (k_x S) with x.
  change (k_ref S) with (k_ref s). rewrite Rmax_right by assumption.
  assert (K : forall A, GasConstant * T * (A / (GasConstant * T)) = A) by (intros; field; lra).
  rewrite Rmult_plus_distr_l, K. unfold Rdiv. ring.
Qed.
Print Assumptions C67_rk_activity.

(* ---- The polynomial given to the root finder ---- *)

(* A molar volume is a root of the polynomial exactly if the phase has the requested pressure there. *)
Theorem C67_pr_cubic : forall s T v x p,
  let S := pr_set s T v x in
  let b := p_bm S in
  v <> b -> v * v + 2 * v * b - b * b <> 0 -> p <> 0 ->
  (cubic_at (pr_cubic T p b (p_am S)) v = 0 <-> pr_pressure S = p).
Proof.
  intros s T v x p S b Hvb Hden Hp.
  assert (E : cubic_at (pr_cubic T p b (p_am S)) v
              = (p - pr_pressure S) * ((v - b) * (v * v + 2 * v * b - b * b) / p)).
  { unfold cubic_at, pr_cubic, pr_pressure. cbv zeta. fold b.
    change (p_v S) with v. change (p_T S) with T. set (am := p_am S). clearbody b am.
    field. repeat split; try assumption. intro E. apply Hvb. lra. }
  rewrite E. split; intros H.
  - apply Rmult_integral in H. destruct H as [H|H]; [lra|]. exfalso. unfold Rdiv in H.
    apply Rmult_integral in H. destruct H as [H|H]; [|revert H; now apply Rinv_neq_0_compat].
    apply Rmult_integral in H. destruct H as [H|H]; [apply Hvb; lra|contradiction].
  - rewrite H. ring.
Qed.
Print Assumptions C67_pr_cubic.

Theorem C67_rk_cubic : forall s T v x p,
  let S := rk_set s T v x in
  let b := k_bm S in
  0 < T -> v <> b -> v + b <> 0 -> v <> 0 -> p <> 0 ->
  (cubic_at (rk_cubic T p (k_am S) b) v = 0 <-> rk_pressure S = p).
Proof.
  intros s T v x p S b HT Hvb Hvp Hv Hp.
  assert (Hs : 0 < sqrt T) by (now apply sqrt_lt_R0).
  assert (E : cubic_at (rk_cubic T p (k_am S) b) v
              = (p - rk_pressure S) * ((v - b) * (v * (v + b)) / p)).
  { unfold cubic_at, rk_cubic, rk_pressure. cbv zeta. fold b.
    change (k_v S) with v. change (k_T S) with T. set (am := k_am S). set (z := sqrt T) in *.
    clearbody b am z.
    field. repeat split; first [assumption | lra | intro E; apply Hvb; lra]. }
  rewrite E. split; intros H.
  - apply Rmult_integral in H. destruct H as [H|H]; [lra|]. exfalso. unfold Rdiv in H.
    apply Rmult_integral in H. destruct H as [H|H]; [|revert H; now apply Rinv_neq_0_compat].
    apply Rmult_integral in H. destruct H as [H|H]; [apply Hvb; lra|].
    apply Rmult_integral in H. tauto.
  - rewrite H. ring.
Qed.
Print Assumptions C67_rk_cubic.

(* ---- Coefficients ---- *)

(* PengRobinson.cpp:412-413 computes a and b from the critical temperature and pressure; the critical
   temperature that the phase then uses is the one given. *)
Theorem C67_pr_critical : forall Tc Pc, 0 < Tc -> 0 < Pc ->
  pr_crit (omega_a * (GasConstant * Tc) ^ 2 / Pc) (omega_b * GasConstant * Tc / Pc) = Tc.
Proof.
  intros Tc Pc HT HP. pose proof R_pos as HR.
  assert (Ha : 0 < omega_a) by (unfold omega_a; lra). assert (Hb : 0 < omega_b) by (unfold omega_b; lra).
  assert (HRT : 0 < GasConstant * Tc) by (apply Rmult_lt_0_compat; assumption).
  assert (H1 : 0 < omega_b * GasConstant * Tc / Pc).
  { apply Rdiv_lt_0_compat; [|assumption]. rewrite Rmult_assoc. apply Rmult_lt_0_compat; assumption. }
  assert (H2 : 0 < omega_a * (GasConstant * Tc) ^ 2 / Pc).
  { apply Rdiv_lt_0_compat; [|assumption]. apply Rmult_lt_0_compat; [assumption|]. apply pow_lt. assumption. }
  unfold pr_crit. apply rltb_true in H1, H2. rewrite H1, H2.
  set (oa := omega_a) in *. set (ob := omega_b) in *. set (Rg := GasConstant) in *. clearbody oa ob Rg.
  field. repeat split; lra.
Qed.
Print Assumptions C67_pr_critical.

(* Setting the coefficients of a species: its own coefficients are stored; a cross coefficient is
   given the geometric mean unless it has been set before; nothing else changes. *)
Theorem C67_pr_species : forall s k a b w,
  (k < rn (p_ref s))%nat ->
  let s' := pr_setSpeciesCoeffs s k a b w in
  p_a s' k k = a /\ p_b s' k = b /\ p_kappa s' k = pr_kappa w
  /\ (forall j, (j < rn (p_ref s))%nat -> j <> k ->
        if Req_EM_T (p_a s j k) 0
        then p_a s' j k = sqrt (p_a s j j * a) /\ p_a s' k j = sqrt (p_a s j j * a)
        else p_a s' j k = p_a s j k /\ p_a s' k j = p_a s k j)
  /\ (forall i j, i <> k -> j <> k -> p_a s' i j = p_a s i j)
  /\ (forall j, j <> k -> p_b s' j = p_b s j /\ p_kappa s' j = p_kappa s j).
Proof.
  intros s k a b w Hk s'.
  set (alpha := upd (p_alpha s) k (pr_sqt_alpha a b (pr_kappa w) (p_T s) * pr_sqt_alpha a b (pr_kappa w) (p_T s))).
  set (aAk := a * alpha k).
  set (step := fun '(m, q) j =>
      if (k =? j)%nat then (m, q)
      else
        let a0kj := sqrt (m j j * a) in
        let a_Alpha := sqrt (a * alpha j * aAk) in
        if reqb (m j k) 0 then
          (upd2 (upd2 m j k a0kj) k j a0kj, upd2 (upd2 q j k a_Alpha) k j a_Alpha)
        else (m, q)).
  assert (Ea : forall i j, p_a s' i j
     = fst (List.fold_left step (List.seq 0 (rn (p_ref s))) (upd2 (p_a s) k k a, upd2 (p_aA s) k k aAk)) i j).
  { intros i j. unfold s', pr_setSpeciesCoeffs. cbv zeta. fold alpha. fold aAk. fold step.
    destruct (fold_left step _ _) as [a2 aA2]. reflexivity. }
  assert (Eb : forall j, p_b s' j = upd (p_b s) k b j).
  { intros j. unfold s', pr_setSpeciesCoeffs. cbv zeta. fold alpha. fold aAk. fold step.
    destruct (fold_left step _ _) as [a2 aA2]. reflexivity. }
  assert (Ekp : forall j, p_kappa s' j = upd (p_kappa s) k (pr_kappa w) j).
  { intros j. unfold s', pr_setSpeciesCoeffs. cbv zeta. fold alpha. fold aAk. fold step.
    destruct (fold_left step _ _) as [a2 aA2]. reflexivity. }
  assert (U2 : forall m i j v i' j', upd2 m i j v i' j' = if ((i' =? i) && (j' =? j))%nat then v else m i' j') by reflexivity.
  assert (F : forall l m q, NoDup l ->
     let m' := fst (fold_left step l (m, q)) in
     m' k k = m k k
     /\ (forall i j, i <> k -> j <> k -> m' i j = m i j)
     /\ (forall j, j <> k -> ~ In j l -> m' j k = m j k /\ m' k j = m k j)
     /\ (forall j, j <> k -> In j l ->
          if Req_EM_T (m j k) 0 then m' j k = sqrt (m j j * a) /\ m' k j = sqrt (m j j * a)
          else m' j k = m j k /\ m' k j = m k j)).
  { induction l as [|j0 l IH]; intros m q Hnd.
    - simpl. repeat split; try tauto.
    - inversion Hnd as [|? ? Hni Hnd']; subst. cbv zeta.
      change (fold_left step (j0 :: l) (m, q)) with (fold_left step l (step (m, q) j0)).
      destruct (Nat.eqb_spec k j0) as [<-|Hne].
      + replace (step (m, q) k) with (m, q) by (unfold step; now rewrite Nat.eqb_refl).
        destruct (IH m q Hnd') as (A & B & C & D). split; [exact A|]. split; [exact B|]. split.
        * intros j Hj Hn. apply C; [assumption|]. intro. apply Hn. now right.
        * intros j Hj [<-|Hin]; [congruence|]. now apply D.
      + destruct (Req_EM_T (m j0 k) 0) as [E0|E0].
        * set (c := sqrt (m j0 j0 * a)).
          assert (St : exists q', step (m, q) j0 = (upd2 (upd2 m j0 k c) k j0 c, q')).
          { unfold step. destruct (Nat.eqb_spec k j0); [contradiction|]. cbv zeta.
            assert (Hr : reqb (m j0 k) 0 = true) by (now apply reqb_true). rewrite Hr. eexists. reflexivity. }
          destruct St as [q' St]. rewrite St.
          set (m1 := upd2 (upd2 m j0 k c) k j0 c).
          assert (M1 : forall i j, i <> k -> j <> k -> m1 i j = m i j).
          { intros i j Hi Hj. unfold m1. rewrite !U2.
            destruct (Nat.eqb_spec i k); [contradiction|]. destruct (Nat.eqb_spec j k); [contradiction|].
            now rewrite andb_false_r. }
          assert (M2 : forall j, j <> k -> j <> j0 -> m1 j k = m j k /\ m1 k j = m k j).
          { intros j Hj Hj0. unfold m1. rewrite !U2.
            destruct (Nat.eqb_spec j k); [contradiction|]. destruct (Nat.eqb_spec j j0); [contradiction|].
            destruct (Nat.eqb_spec k j0); [contradiction|]. simpl. rewrite Nat.eqb_refl. simpl. tauto. }
          assert (M3 : m1 j0 k = c /\ m1 k j0 = c).
          { unfold m1. rewrite !U2, !Nat.eqb_refl. destruct (Nat.eqb_spec j0 k); [congruence|]. simpl. tauto. }
          assert (M4 : m1 k k = m k k).
          { unfold m1. rewrite !U2, !Nat.eqb_refl. destruct (Nat.eqb_spec k j0); [contradiction|]. reflexivity. }
          destruct (IH m1 q' Hnd') as (A & B & C & D). split; [now rewrite A|].
          split; [intros; now rewrite B, M1|]. split.
          -- intros j Hj Hn. destruct (C j Hj) as [C1 C2]; [intro; apply Hn; now right|].
             destruct (M2 j Hj) as [N1 N2]; [intros ->; apply Hn; now left|]. rewrite C1, C2, N1, N2. tauto.
          -- intros j Hj [<-|Hin].
             ++ destruct (C j0 Hj Hni) as [C1 C2]. destruct (Req_EM_T (m j0 k) 0); [|contradiction].
                rewrite C1, C2. exact M3.
             ++ assert (Hj0 : j <> j0) by congruence. destruct (M2 j Hj Hj0) as [N1 N2].
                specialize (D j Hj Hin). rewrite N1, N2, (M1 j j Hj Hj) in D. exact D.
        * assert (St : step (m, q) j0 = (m, q)).
          { unfold step. destruct (Nat.eqb_spec k j0); [contradiction|]. cbv zeta.
            assert (Hr : reqb (m j0 k) 0 = false) by (now apply reqb_false). now rewrite Hr. }
          rewrite St. destruct (IH m q Hnd') as (A & B & C & D). split; [exact A|]. split; [exact B|]. split.
          -- intros j Hj Hn. apply C; [assumption|]. intro. apply Hn. now right.
          -- intros j Hj [<-|Hin]; [|now apply D]. destruct (Req_EM_T (m j0 k) 0); [contradiction|].
             now apply C. }
  destruct (F (List.seq 0 (rn (p_ref s))) (upd2 (p_a s) k k a) (upd2 (p_aA s) k k aAk) (seq_NoDup _ _))
    as (A & B & C & D).
  assert (M0 : forall i j, i <> k \/ j <> k -> upd2 (p_a s) k k a i j = p_a s i j).
  { intros i j H. rewrite U2. destruct (Nat.eqb_spec i k); destruct (Nat.eqb_spec j k); simpl; try reflexivity. tauto. }
  split; [rewrite Ea, A, U2, Nat.eqb_refl; reflexivity|].
  split; [rewrite Eb; apply upd_same|]. split; [rewrite Ekp; apply upd_same|]. split; [|split].
  - intros j Hj Hne. assert (Hin : In j (List.seq 0 (rn (p_ref s)))) by (apply in_seq; lia).
    specialize (D j Hne Hin). rewrite !Ea.
    rewrite !(M0 j k), !(M0 j j), !(M0 k j) in D by tauto. exact D.
  - intros i j Hi Hj. rewrite Ea, B by assumption. apply M0. tauto.
  - intros j Hj. rewrite Eb, Ekp. rewrite !upd_other by assumption. tauto.
Qed.
Print Assumptions C67_pr_species.

Lemma attraction_upd2 n q i j c x : (i < n)%nat -> (j < n)%nat -> i <> j ->
  attraction n (upd2 (upd2 q j i c) i j c) x
  = attraction n q x + (c - q i j) * x i * x j + (c - q j i) * x i * x j.
Proof.
  intros Hi Hj Hne. unfold attraction.
  rewrite (sum_n_ext _ (fun a => sum_n (fun b => q a b * x a * x b) n
     + ((c - q i j) * x a * x j * dl i a + (c - q j i) * x a * x i * dl j a))).
  2:{ intros a Ha.
      rewrite (sum_n_ext _ (fun b => q a b * x a * x b
         + ((c - q i j) * x a * x b * dl i a * dl j b + (c - q j i) * x a * x b * dl j a * dl i b))).
      2:{ intros b Hb. unfold upd2, dl.
          rewrite (Nat.eqb_sym a i), (Nat.eqb_sym b j), (Nat.eqb_sym a j), (Nat.eqb_sym b i).
          destruct (Nat.eqb_spec i a) as [E1|E1]; destruct (Nat.eqb_spec j b) as [E2|E2];
          destruct (Nat.eqb_spec j a) as [E3|E3]; destruct (Nat.eqb_spec i b) as [E4|E4];
          simpl; try (exfalso; congruence); try ring.
          - rewrite <- E1, <- E2. ring.
          - rewrite <- E3, <- E4. ring. }
      rewrite !sum_n_plus.
      rewrite (sum_n_dl j n (fun b => (c - q i j) * x a * x b * dl i a)) by assumption.
      rewrite (sum_n_dl i n (fun b => (c - q j i) * x a * x b * dl j a)) by assumption. ring. }
  rewrite !sum_n_plus.
  rewrite (sum_n_dl i n (fun a => (c - q i j) * x a * x j)) by assumption.
  rewrite (sum_n_dl j n (fun a => (c - q j i) * x a * x i)) by assumption. ring.
Qed.

(* Changing a binary coefficient does not reach the pressure until the state is set again: the phase
   keeps reporting the old pressure, and setting the state to its current value changes it. *)
Theorem C67_pr_binary_refuted : forall s T v x i j a0,
  state_ok (p_ref s) (p_b s) T v x -> pr_ok s T ->
  (i < rn (p_ref s))%nat -> (j < rn (p_ref s))%nat -> i <> j -> a0 <> p_a s i j ->
  let S := pr_set s T v x in
  let S' := pr_setBinaryCoeffs S i j a0 in
  pr_pressure S' = pr_pressure S /\ pr_pressure (pr_set S' T v x) <> pr_pressure S'.
Proof.
  intros s T v x i j a0 Hok Hpr Hi Hj Hne Ha S S'.
  destruct (dom _ _ _ _ _ Hok) as (HT & Hp & Hx & Hkx & Hb & Hv).
  assert (H0 : pr_pressure S' = pr_pressure S) by reflexivity. split; [exact H0|]. rewrite H0.
  assert (Hw := ok_weak _ _ _ _ _ Hok).
  assert (Hw' : weak_ok (p_ref S') (p_b S') T v x) by exact Hw.
  unfold S at 1. rewrite (E_pressure s T v x Hw), (E_pressure S' T v x Hw').
  unfold gP, res_P. change (p_ref S') with (p_ref s). change (p_b S') with (p_b s).
  assert (Hd : forall a, p_a S' a a = p_a s a a).
  { intros a. unfold S', pr_setBinaryCoeffs, upd2; simpl.
    destruct (Nat.eqb_spec a i), (Nat.eqb_spec a j); subst; simpl; try congruence; reflexivity. }
  assert (Hal : forall a, pr_alpha S' T a = pr_alpha s T a).
  { intros a. unfold pr_alpha. rewrite Hd. reflexivity. }
  destruct Hpr as [Hsy Hal0].
  destruct (Hal0 i Hi) as [_ Ai]. destruct (Hal0 j Hj) as [_ Aj].
  apply alpha_pos in Ai. apply alpha_pos in Aj.
  set (g := sqrt (pr_alpha s T i * pr_alpha s T j)).
  assert (Hg : 0 < g) by (apply sqrt_lt_R0; apply Rmult_lt_0_compat; assumption).
  assert (E : attraction (rn (p_ref s)) (pr_attr S' T) x
     = attraction (rn (p_ref s)) (pr_attr s T) x + 2 * (g * (a0 - p_a s i j)) * x i * x j).
  { rewrite (attraction_ext _ _ (upd2 (upd2 (pr_attr s T) j i (g * a0)) i j (g * a0))).
    - rewrite (attraction_upd2 _ _ i j _ x Hi Hj Hne). unfold pr_attr.
      rewrite <- (Hsy i j Hi Hj), (Rmult_comm (pr_alpha s T j)). fold g. ring.
    - intros a c _ _. unfold pr_attr. rewrite !Hal. unfold S', pr_setBinaryCoeffs, upd2; simpl.
      destruct (Nat.eqb_spec a i), (Nat.eqb_spec c j); subst; simpl; try reflexivity.
      + destruct (Nat.eqb_spec i j); [congruence|]. reflexivity.
      + destruct (Nat.eqb_spec a j), (Nat.eqb_spec j i); subst; simpl; try reflexivity; congruence.
      + destruct (Nat.eqb_spec a j), (Nat.eqb_spec c i); subst; simpl; try reflexivity.
        now rewrite (Rmult_comm (pr_alpha s T j)). }
  rewrite E.
  assert (Hden := den_pos s T v x Hw). assert (Hph := ph1_den s T v x Hw).
  intro K. set (f := ph1 (covolume (rn (p_ref s)) (p_b s) x / v)) in *.
  assert (Hf : 0 < f).
  { rewrite Hph. apply Rdiv_lt_0_compat; [nra|assumption]. }
  assert (K2 : (g * (a0 - p_a s i j)) * (x i * x j) * (f / (v * v)) = 0).
  { clearbody f. unfold Rdiv in K |- *. lra. }
  apply Rmult_integral in K2. destruct K2 as [K2|K2].
  - apply Rmult_integral in K2. destruct K2 as [K2|K2].
    + apply Rmult_integral in K2. destruct K2 as [K2|K2]; lra.
    + assert (0 < x i * x j) by (apply Rmult_lt_0_compat; now apply Hkx). lra.
  - assert (0 < f / (v * v)) by (apply Rdiv_lt_0_compat; [assumption|nra]). lra.
Qed.
Print Assumptions C67_pr_binary_refuted.

Theorem C67_rk_binary_refuted : forall s T v x i j a0 a1,
  state_ok (k_ref s) (k_b s) T v x -> rk_ok s ->
  (i < rn (k_ref s))%nat -> (j < rn (k_ref s))%nat -> i <> j ->
  a0 + a1 * T <> k_a0 s i j + k_a1 s i j * T ->
  let S := rk_set s T v x in
  let S' := rk_setBinaryCoeffs S i j a0 a1 in
  rk_pressure S' = rk_pressure S /\ rk_pressure (rk_set S' T v x) <> rk_pressure S'.
Proof.
  intros s T v x i j a0 a1 Hok Hrk Hi Hj Hne Ha S S'.
  destruct (dom _ _ _ _ _ Hok) as (HT & Hp & Hx & Hkx & Hb & Hv).
  assert (H0 : rk_pressure S' = rk_pressure S) by reflexivity. split; [exact H0|]. rewrite H0.
  assert (Hw := ok_weak _ _ _ _ _ Hok).
  assert (Hw' : weak_ok (k_ref S') (k_b S') T v x) by exact Hw.
  assert (Up : forall m c a e, upd2 (upd2 m j i c) i j c a e
     = if ((a =? i) && (e =? j) || (a =? j) && (e =? i))%nat then c else m a e).
  { intros m c a e. unfold upd2. destruct ((a =? i) && (e =? j))%nat; simpl; reflexivity. }
  assert (Hrk' : rk_ok S').
  { destruct Hrk as [H1 H2]. split.
    - intros a e Ha' He. unfold S', rk_setBinaryCoeffs; simpl. rewrite !Up.
      replace ((e =? i) && (a =? j) || (e =? j) && (a =? i))%nat
        with ((a =? i) && (e =? j) || (a =? j) && (e =? i))%nat
        by (rewrite (andb_comm (a =? i)%nat), (andb_comm (a =? j)%nat), orb_comm; reflexivity).
      destruct ((a =? i) && (e =? j) || (a =? j) && (e =? i))%nat; [tauto|]. now apply H1.
    - unfold S', rk_setBinaryCoeffs; simpl. intros Hf a e Ha' He. rewrite !Up.
      destruct (reqb a1 0) eqn:E1; [|discriminate]. apply reqb_true in E1. subst a1.
      destruct (H2 Hf a e Ha' He) as [A1 A2].
      destruct ((a =? i) && (e =? j) || (a =? j) && (e =? i))%nat; [tauto|].
      rewrite Hf. tauto. }
  unfold S at 1. rewrite (F_pressure s T v x Hw Hrk), (F_pressure S' T v x Hw' Hrk').
  unfold gP, res_P. change (k_ref S') with (k_ref s). change (k_b S') with (k_b s).
  assert (Hs : 0 < sqrt T) by (now apply sqrt_lt_R0).
  rewrite (A_kq s T x), (A_kq S' T x : attraction (rn (k_ref s)) (kq S' T) x = _).
  change (k_ref S') with (k_ref s).
  assert (E : attraction (rn (k_ref s)) (rk_attr S' T) x
     = attraction (rn (k_ref s)) (rk_attr s T) x
       + 2 * ((a0 + a1 * T) - (k_a0 s i j + k_a1 s i j * T)) * x i * x j).
  { rewrite (attraction_ext _ _ (upd2 (upd2 (rk_attr s T) j i (a0 + a1 * T)) i j (a0 + a1 * T))).
    - rewrite (attraction_upd2 _ _ i j _ x Hi Hj Hne). unfold rk_attr.
      destruct Hrk as [H1 _]. destruct (H1 i j Hi Hj) as [-> ->]. ring.
    - intros a e _ _. rewrite Up. unfold rk_attr, S', rk_setBinaryCoeffs; simpl. rewrite !Up.
      destruct ((a =? i) && (e =? j) || (a =? j) && (e =? i))%nat; reflexivity. }
  rewrite E. intro K.
  destruct (K_sq s T v x Hw) as (_ & _ & _ & Hvb & HB & Hvp & _).
  assert (Hph := rph1_den s T v x Hw).
  set (f := rph1 (covolume (rn (k_ref s)) (k_b s) x / v)) in *.
  assert (Hf : 0 < f) by (rewrite Hph; apply Rdiv_lt_0_compat; assumption).
  set (d := a0 + a1 * T - (k_a0 s i j + k_a1 s i j * T)) in *.
  assert (Hd : d <> 0) by (unfold d; lra).
  assert (K2 : d * (x i * x j) * (/ sqrt T * (f / (v * v))) = 0).
  { clearbody f. unfold Rdiv in K |- *. lra. }
  assert (0 < x i * x j) by (apply Rmult_lt_0_compat; now apply Hkx).
  assert (0 < / sqrt T * (f / (v * v))).
  { apply Rmult_lt_0_compat; [now apply Rinv_0_lt_compat|]. apply Rdiv_lt_0_compat; [assumption|nra]. }
  apply Rmult_integral in K2. destruct K2 as [K2|K2]; [|lra].
  apply Rmult_integral in K2. destruct K2 as [K2|K2]; lra.
Qed.
Print Assumptions C67_rk_binary_refuted.

(* Redlich-Kwong's mixing rule takes the root of the product of the temperature coefficients, which
   loses their common sign: a mixture of two species with identical coefficients, falling with
   temperature, does not have the pressure of either. *)
Definition rk_pair (r : refdata) (a0 a1 b : R) : rk :=
  let c := rk_cross a0 a1 a0 a1 in
  Rk r true (fun i j => if (i =? j)%nat then a0 else fst c)
     (fun i j => if (i =? j)%nat then a1 else snd c) (fun _ => b)
     0 0 zeros (fun _ _ => 0) 0 0.
Definition two (y : R) : vec := fun k => if (k =? 0)%nat then y else 1 - y.
Theorem C67_rk_mixing_refuted : forall r a0 a1 b T v y,
  rn r = 2%nat -> 0 <= a0 -> a1 < 0 -> 0 < T -> 0 < b < v -> 0 < y < 1 ->
  rk_pressure (rk_set (rk_pair r a0 a1 b) T v (two y))
  <> rk_pressure (rk_set (rk_pair r a0 a1 b) T v (two 1)).
Proof.
  intros r a0 a1 b T v y Hr Ha0 Ha1 HT Hb Hy.
  assert (Hs : 0 < sqrt T) by (now apply sqrt_lt_R0).
  assert (E0 : sqrt (a0 * a0) = a0) by (now apply sqrt_square).
  assert (E1 : sqrt (a1 * a1) = - a1).
  { replace (a1 * a1) with ((- a1) * (- a1)) by ring. apply sqrt_square. lra. }
  unfold rk_pressure, rk_set, rk_update, rk_pair, rk_cross; simpl. rewrite Hr, E0, E1.
  unfold sum_n, sum_of, two; simpl.
  set (z := sqrt T) in *. clearbody z.
  replace (y * b + ((1 - y) * b + 0)) with b by ring.
  replace (1 * b + ((1 - 1) * b + 0)) with b by ring.
  intro K.
  assert (K2 : (- a1) * T * (y * (1 - y)) * (4 * / (z * v * (v + b))) = 0).
  { unfold Rdiv in K. set (w := / (z * v * (v + b))) in *. set (w2 := GasConstant * T * / (v - b)) in *.
    clearbody w w2. lra. }
  assert (0 < y * (1 - y)) by (apply Rmult_lt_0_compat; lra).
  assert (0 < / (z * v * (v + b))).
  { apply Rinv_0_lt_compat. apply Rmult_lt_0_compat; [apply Rmult_lt_0_compat|]; lra. }
  assert (0 < (- a1) * T) by (apply Rmult_lt_0_compat; lra).
  apply Rmult_integral in K2. destruct K2 as [K2|K2]; [|lra].
  apply Rmult_integral in K2. destruct K2 as [K2|K2]; lra.
Qed.
Print Assumptions C67_rk_mixing_refuted.

(* ---- The hypotheses are met ---- *)

Lemma small_half : SmallNumber <= 1 / 2.
Proof.
  unfold SmallNumber. cbn [powerRZ].
  assert (10 ^ 1 <= 10 ^ Pos.to_nat 300) by (apply Rle_pow; [lra|lia]).
  apply Rle_trans with (/ 10 ^ 1); [apply Rinv_le_contravar; [apply pow_lt; lra|auto]|]. cbn. lra.
Qed.
(* An equimolar mixture of two gases with h0 = 5/2 R T, s0 = 5/2 R ln T, covolume 1. *)
Definition ex_ref : refdata :=
  Refdata 2 (fun _ _ => 5 / 2) (fun t _ => 5 / 2 * ln t) (fun _ _ => 5 / 2) 1 (fun _ => 1).
Definition ex_pr : pr :=
  Pr ex_ref (fun _ _ => GasConstant) (fun _ => 1) (fun _ => 0) 0 0 zeros zeros (fun _ _ => 0) 0 0.
Definition ex_rk : rk :=
  Rk ex_ref true (fun _ _ => GasConstant) (fun _ _ => GasConstant) (fun _ => 1) 0 0 zeros (fun _ _ => 0) 0 0.
Lemma ex_state T : 0 < T -> state_ok ex_ref (fun _ => 1) T 10 (fun _ => 1 / 2).
Proof.
  intros HT. pose proof small_half as H. pose proof small_pos as H0.
  unfold state_ok, mixture, covolume, sum_n, sum_of, ex_ref; simpl.
  split; [exact HT|]. split; [lra|]. split; [lra|]. split; [intros; exact H|]. split; [|lra].
  intros k _. split; [lra|].
  replace (1 / 2 * 1 + (1 / 2 * 1 + 0)) with 1 by field. lra.
Qed.
Lemma ex_refok T : 0 < T -> ref_ok ex_ref T.
Proof.
  intros HT k Hk. unfold ex_ref; simpl. split; auto_derive; try exact I; try lra; try (field; lra).
Qed.
Example C67_pr_example :
  state_ok (p_ref ex_pr) (p_b ex_pr) 300 10 (fun _ => 1 / 2)
  /\ pr_ok ex_pr 300 /\ ref_ok (p_ref ex_pr) 300
  /\ 0 < pr_pressure (pr_set ex_pr 300 10 (fun _ => 1 / 2))
  /\ pr_dpdV (pr_set ex_pr 300 10 (fun _ => 1 / 2)) <> 0.
Proof.
  pose proof R_pos as HR.
  split; [apply ex_state; lra|]. split; [|split; [apply ex_refok; lra|]].
  - split; [reflexivity|]. intros i Hi. unfold ex_pr, pr_alpha; simpl. split.
    + unfold pr_crit. assert (Ha : rltb 0 1 = true) by (apply rltb_true; lra).
      assert (Hb : rltb 0 GasConstant = true) by (apply rltb_true; lra). rewrite Ha, Hb.
      apply Rdiv_lt_0_compat; [apply Rmult_lt_0_compat; [assumption|unfold omega_b; lra]|].
      apply Rmult_lt_0_compat; [|assumption]. unfold omega_a; lra.
    + intro E. revert E. rewrite Rmult_0_l, Rplus_0_r. lra.
  - assert (E : forall T, p_am (pr_set ex_pr T 10 (fun _ => 1 / 2)) = GasConstant).
    { intros T. rewrite (S_am ex_pr T 10 (fun _ => 1 / 2)).
      unfold attraction, sum_n, sum_of, pr_attr, pr_alpha, ex_pr; simpl.
      rewrite Rmult_0_l, Rplus_0_r, !Rmult_1_l, sqrt_1. field. }
    assert (Eb : p_bm (pr_set ex_pr 300 10 (fun _ => 1 / 2)) = 1).
    { rewrite (S_bm ex_pr 300 10 (fun _ => 1/2)). unfold covolume, sum_n, sum_of, ex_pr; simpl. field. }
    unfold pr_pressure, pr_dpdV. rewrite E, Eb. change (p_v _) with 10. change (p_T _) with 300.
    split.
    + replace (GasConstant * 300 / (10 - 1) - GasConstant / (10 * 10 + 2 * 10 * 1 - 1 * 1))
        with (GasConstant * (300 / 9 - / 119)) by field.
      apply Rmult_lt_0_compat; [assumption|lra].
    + replace (- GasConstant * 300 / ((10 - 1) * (10 - 1)) + 2 * GasConstant * (10 + 1) / ((10 * 10 + 2 * 10 * 1 - 1 * 1) * (10 * 10 + 2 * 10 * 1 - 1 * 1)))
        with (- (GasConstant * (300 / 81 - 22 / 14161))) by field.
      assert (0 < GasConstant * (300 / 81 - 22 / 14161)) by (apply Rmult_lt_0_compat; [assumption|lra]). lra.
Qed.
Example C67_rk_example :
  state_ok (k_ref ex_rk) (k_b ex_rk) 1 10 (fun _ => 1 / 2)
  /\ rk_ok ex_rk /\ ref_ok (k_ref ex_rk) 1
  /\ 0 < rk_pressure (rk_set ex_rk 1 10 (fun _ => 1 / 2))
  /\ rk_dpdV (rk_set ex_rk 1 10 (fun _ => 1 / 2)) <> 0.
Proof.
  pose proof R_pos as HR.
  split; [apply ex_state; lra|]. split; [|split; [apply ex_refok; lra|]].
  - split; [intros; split; reflexivity|]. discriminate.
  - assert (E : k_am (rk_set ex_rk 1 10 (fun _ => 1 / 2)) = 2 * GasConstant).
    { unfold rk_set, rk_update, ex_rk, sum_n, sum_of; simpl. field. }
    assert (Eb : k_bm (rk_set ex_rk 1 10 (fun _ => 1 / 2)) = 1).
    { unfold rk_set, rk_update, ex_rk, sum_n, sum_of; simpl. field. }
    unfold rk_pressure, rk_dpdV. rewrite E, Eb. change (k_v _) with 10. change (k_T _) with 1.
    cbv zeta. rewrite sqrt_1. split.
    + replace (GasConstant * 1 / (10 - 1) - 2 * GasConstant / (1 * 10 * (10 + 1)))
        with (GasConstant * (/ 9 - 2 / 110)) by field.
      apply Rmult_lt_0_compat; [assumption|lra].
    + replace (- GasConstant * 1 / ((10 - 1) * (10 - 1)) + 2 * GasConstant * (2 * 10 + 1) / (1 * 10 * 10 * (10 + 1) * (10 + 1)))
        with (- (GasConstant * (/ 81 - 42 / 12100))) by field.
      assert (0 < GasConstant * (/ 81 - 42 / 12100)) by (apply Rmult_lt_0_compat; [assumption|lra]). lra.
Qed.
