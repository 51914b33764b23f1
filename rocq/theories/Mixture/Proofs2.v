From Coq Require Import String.
From Coq Require Import Reals Lra List Bool Arith Lia.
From Verif Require Import Base.Fp Base.Outcome Base.RSum Base.Map2 Units.Model.
From Verif Require Import Phase.CompModel Phase.CompSpec Phase.CompProofs Mixture.Model Mixture.Spec Mixture.Proofs.
Import ListNotations.
Open Scope R_scope.

Section P2.
  Context (els : list string) (sps : list species) (Hgas : gas_ok els sps).
  Notation comp := (composition sps).
  Notation deficit := (deficit els sps).
  Notation demand := (demand els sps).
  Notation supply := (supply els sps).
  Notation kmol := (kmol_of els sps).
  Notation ms := (masses sps).

  Lemma fltb_ge a b : b <= a -> fltb (Fin a) (Fin b) = false.
  Proof. intros. simpl. now apply rltb_false. Qed.

  Lemma clamp_in z : 0 <= z <= 1 -> fmin (fmax (Fin z) (Fin 0)) (Fin 1) = Fin z.
  Proof. intros. rewrite fmax_fin, fmin_fin, Rmax_left, Rmin_left by lra. reflexivity. Qed.
  Lemma clamp_any z : exists w, fmin (fmax (Fin z) (Fin 0)) (Fin 1) = Fin w /\ 0 <= w <= 1.
  Proof.
    rewrite fmax_fin, fmin_fin. eexists. split; [reflexivity|]. split.
    - apply Rmin_glb; [apply Rmax_r|lra].
    - apply Rmin_r.
  Qed.

  Lemma in_len c T D Y : in_state sps c T D Y -> length Y = length sps.
  Proof. intros (_&_&C&_). apply C. Qed.

  (** The two mixture fractions of a state whose composition is known. *)
  Lemma bilger_in c T D Y b f o : in_state sps c T D Y -> comp f -> comp o ->
    0 <= deficit (ms b f) -> deficit (ms b o) <= 0 -> deficit (ms b f) <> deficit (ms b o) ->
    mixtureFraction els sps c (map Fin f) (map Fin o) b Bilger =
    Ok (fmin (fmax (Fin ((deficit Y - deficit (ms b o)) / (deficit (ms b f) - deficit (ms b o)))) (Fin 0)) (Fin 1)).
  Proof.
    intros I Cf Co Df Do Dn. unfold mixtureFraction. rewrite !(toMass_fin els sps Hgas) by auto. cbn [obind].
    pose proof (conv_comp els sps Hgas b f Cf) as Cf'. pose proof (conv_comp els sps Hgas b o Co) as Co'.
    rewrite !(o2Net_fin els sps Hgas) by (auto using comp_len; apply Rgt_not_eq; eapply comp_sum; eauto).
    cbn [obind]. rewrite !(conv_deficit els sps Hgas) by auto.
    destruct I as (HT&HD&C&S1&E1&E2&E3&E4). rewrite E3.
    rewrite (o2Net_fin els sps Hgas) by (auto using comp_len; lra). cbn [obind].
    rewrite !fltb_ge by lra. cbn [orb fsub fopp fadd].
    rewrite feqb_fin_ne by lra. rewrite fdiv_fin by lra. reflexivity.
  Qed.
  Lemma element_in c T D Y b f o e : in_state sps c T D Y -> comp f -> comp o -> In e els ->
    kmol e (ms b f) / rsum (ms b f) <> kmol e (ms b o) / rsum (ms b o) ->
    let zf := kmol e (ms b f) / rsum (ms b f) in
    let zo := kmol e (ms b o) / rsum (ms b o) in
    mixtureFraction els sps c (map Fin f) (map Fin o) b (Element e) =
    Ok (fmin (fmax (Fin ((kmol e Y - zo) / (zf - zo))) (Fin 0)) (Fin 1)).
  Proof.
    intros I Cf Co He Dn zf zo. unfold mixtureFraction. rewrite !(toMass_fin els sps Hgas) by auto. cbn [obind].
    pose proof (conv_comp els sps Hgas b f Cf) as Cf'. pose proof (conv_comp els sps Hgas b o Co) as Co'.
    pose proof (comp_sum _ _ Cf') as Pf. pose proof (comp_sum _ _ Co') as Po.
    rewrite !fsum_fin. rewrite !feqb_fin_ne by lra. cbn [orb].
    rewrite !(elementalFraction_fin els sps Hgas) by (auto using comp_len). cbn [obind].
    destruct I as (HT&HD&C&S1&E1&E2&E3&E4). rewrite E3.
    rewrite (elementalFraction_fin els sps Hgas) by (auto using comp_len). cbn [obind].
    rewrite !fdiv_fin by lra.
    assert (forall x, comp x -> kmol e (conv sps b x) / rsum (conv sps b x) = kmol e (ms b x) / rsum (ms b x)) as CV.
    { intros x Cx. rewrite <- !per_kg_kmol. now rewrite (conv_kg els sps Hgas). }
    rewrite !CV by auto. fold zf zo. rewrite feqb_fin_ne by exact Dn. cbn [fsub fopp fadd].
    rewrite fdiv_fin. 2:{ intros X. apply Dn. fold zf zo. lra. }
    reflexivity.
  Qed.

  Lemma phi_in c T D Y b f o : in_state sps c T D Y -> comp f -> comp o ->
    0 < deficit (ms b f) -> deficit (ms b o) < 0 ->
    let z := (deficit Y - deficit (ms b o)) / (deficit (ms b f) - deficit (ms b o)) in
    0 <= z < 1 ->
    equivalenceRatio els sps c (map Fin f) (map Fin o) b =
    Ok (Fin (z / (1 - z) * (deficit (ms b f) / - deficit (ms b o)))).
  Proof.
    intros I Cf Co Df Do z Hz. unfold equivalenceRatio.
    rewrite (bilger_in c T D Y) by (auto; lra). cbn [obind]. fold z. rewrite clamp_in by lra.
    destruct (Req_dec z 0) as [Z0|Z0].
    - rewrite Z0. rewrite feqb_fin_eq. do 2 f_equal. unfold Rdiv. ring.
    - rewrite !feqb_fin_ne by lra. rewrite !(toMass_fin els sps Hgas) by auto. cbn [obind].
      rewrite (AFR_fin els sps Hgas).
      2,3: (eapply conv_comp; eauto).
      2,3: (rewrite (conv_deficit els sps Hgas) by auto; lra).
      rewrite !(conv_deficit els sps Hgas) by auto. cbn [obind fsub fopp fadd].
      replace (1 + - z) with (1 - z) by lra. rewrite fdiv_fin by lra. cbn [fmul].
      rewrite fmax_fin, Rmax_left; [reflexivity|].
      apply Rmult_le_pos; apply Rmult_le_pos; try lra; left; apply Rinv_0_lt_compat; lra.
  Qed.

  Lemma phi_pure c T D Y b f o : in_state sps c T D Y -> comp f -> comp o ->
    0 <= deficit (ms b f) -> deficit (ms b o) <= 0 -> deficit (ms b f) <> deficit (ms b o) ->
    deficit (ms b f) <= deficit Y ->
    equivalenceRatio els sps c (map Fin f) (map Fin o) b = Ok PInf.
  Proof.
    intros I Cf Co Df Do Dn DY. unfold equivalenceRatio.
    rewrite (bilger_in c T D Y) by (auto; lra). cbn [obind].
    rewrite fmax_fin, fmin_fin.
    assert (1 <= (deficit Y - deficit (ms b o)) / (deficit (ms b f) - deficit (ms b o))) as G.
    { apply (Rmult_le_reg_r (deficit (ms b f) - deficit (ms b o))); [lra|].
      unfold Rdiv. rewrite Rmult_assoc, Rinv_l by lra. lra. }
    rewrite Rmax_left by lra. rewrite Rmin_right by lra.
    rewrite feqb_fin_ne by lra. rewrite feqb_fin_eq. reflexivity.
  Qed.

  (** Setting. *)
  Lemma setZ_in c T D Y b f o z : in_state sps c T D Y -> comp f -> comp o -> 0 <= z <= 1 ->
    let y := mix z (1 - z) (ms b f) (ms b o) in
    let D' := D * kmoles sps Y / kmoles sps y in
    setMixtureFraction sps c (Fin z) (map Fin f) (map Fin o) b = (Ok tt, set_all sps c y D') /\
    comp y /\ rsum y = 1 /\
    in_state sps (set_all sps c y D') T D' y /\ pressure (set_all sps c y D') = pressure c.
  Proof.
    intros I Cf Co Hz y D'.
    pose proof (conv_comp els sps Hgas b f Cf) as Cf'. pose proof (conv_comp els sps Hgas b o Co) as Co'.
    pose proof (masses_comp els sps Hgas b f Cf) as Mf. pose proof (masses_comp els sps Hgas b o Co) as Mo.
    pose proof (comp_sum _ _ Cf') as Pf. pose proof (comp_sum _ _ Co') as Po.
    assert (rsum y = 1) as Sy by (unfold y; rewrite (mix_sum sps) by auto; lra).
    assert (comp y) as Cy.
    { apply comp_of_sum; [apply mix_len; eapply comp_len; eauto|eapply mix_nonneg; eauto; lra|lra]. }
    destruct (setP_after els sps Hgas c T D Y y I Cy Sy) as (E1&E2&E3). fold D' in E1, E2, E3.
    split; [|auto].
    unfold setMixtureFraction. rewrite !fltb_ge by lra. cbn [orb].
    rewrite !(toMass_fin els sps Hgas) by auto. cbn [before]. rewrite !fsum_fin, !feqb_fin_ne by lra. cbn [orb].
    cbn [fsub fopp fadd]. replace (1 + - z) with (1 - z) by lra.
    rewrite (blend_fin sps) by auto. rewrite (conv_mix els sps Hgas) by auto. fold y.
    rewrite (setYn_fin els sps Hgas) by auto. unfold andthen. cbn [fst snd]. exact E1.
  Qed.

  Lemma per_kg_mix a b f o : comp f -> comp o -> a + b <> 0 ->
    per_kg (mix a b f o) = mix (a / (a + b)) (1 - a / (a + b)) f o.
  Proof.
    intros Cf Co H. unfold per_kg at 1. rewrite (mix_sum sps) by auto. unfold mix. rewrite map_map2.
    apply map2_ext. intros. field. auto.
  Qed.

  Lemma setPhi_in c T D Y b f o phi : in_state sps c T D Y -> comp f -> comp o -> 0 <= phi ->
    0 <= deficit (ms b f) -> deficit (ms b o) < 0 ->
    let r := deficit (ms b f) / - deficit (ms b o) in
    0 < phi + r ->
    setEquivalenceRatio els sps c (Fin phi) (map Fin f) (map Fin o) b =
    setMixtureFraction sps c (Fin (phi / (phi + r))) (map Fin f) (map Fin o) b.
  Proof.
    intros I Cf Co Hp Df Do r Hr.
    assert (0 <= r) as Hr0.
    { unfold r. apply Rmult_le_pos; [lra|]. left. apply Rinv_0_lt_compat. lra. }
    assert (0 <= phi / (phi + r) <= 1) as Hz.
    { split.
      - apply Rmult_le_pos; [lra|]. left. now apply Rinv_0_lt_compat.
      - apply (Rmult_le_reg_r (phi + r)); [lra|]. unfold Rdiv. rewrite Rmult_assoc, Rinv_l by lra. lra. }
    pose proof (conv_comp els sps Hgas b f Cf) as Cf'. pose proof (conv_comp els sps Hgas b o Co) as Co'.
    pose proof (masses_comp els sps Hgas b f Cf) as Mf. pose proof (masses_comp els sps Hgas b o Co) as Mo.
    destruct (setZ_in c T D Y b f o _ I Cf Co Hz) as (E&Cy&Sy&_&_). rewrite E.
    unfold setEquivalenceRatio. rewrite !fltb_ge by lra. cbv zeta.
    rewrite !(toMass_fin els sps Hgas) by auto. cbn [before].
    rewrite (AFR_fin els sps Hgas) by (auto; rewrite (conv_deficit els sps Hgas) by auto; lra).
    rewrite !(conv_deficit els sps Hgas) by auto. fold r. cbn [before].
    rewrite (blend_fin sps) by auto. rewrite (conv_mix els sps Hgas) by auto.
    rewrite (setY_fin els sps Hgas).
    2:{ apply comp_of_sum; [apply mix_len; eapply comp_len; eauto|eapply mix_nonneg; eauto; lra|].
        rewrite (mix_sum sps) by auto. lra. }
    unfold andthen. cbn [fst snd]. rewrite per_kg_mix by (auto; lra).
    destruct (setP_after els sps Hgas c T D Y _ I Cy Sy) as (E1&_). exact E1.
  Qed.

  (** Net demand of a mixture. *)
  Lemma mix_z b f o z : comp f -> comp o ->
    deficit (mix z (1 - z) (ms b f) (ms b o)) = z * deficit (ms b f) + (1 - z) * deficit (ms b o).
  Proof.
    intros Cf Co. rewrite (mix_deficit els sps) by (try (eapply masses_comp; eauto); lra). unfold Rdiv.
    replace (z + (1 - z)) with 1 by lra. lra.
  Qed.
End P2.
