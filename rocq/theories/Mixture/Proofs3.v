From Coq Require Import String.
From Coq Require Import Reals Lra List Bool Arith Lia.
From Verif Require Import Base.Fp Base.Outcome Base.RSum Base.Map2 Units.Model.
From Verif Require Import Phase.CompModel Phase.CompSpec Phase.CompProofs Mixture.Model Mixture.Spec Mixture.Proofs Mixture.Proofs2.
Import ListNotations.
Open Scope R_scope.

Lemma rltb_div v s : 0 < s -> rltb 0 (v / s) = rltb 0 v /\ rltb (v / s) 0 = rltb v 0.
Proof.
  intros Hs. assert (v = v / s * s) as E by (field; lra).
  split.
  - destruct (rltb 0 v) eqn:A; [apply rltb_true in A; apply rltb_true; now apply Rdiv_lt_0_compat|].
    apply rltb_false in A. apply rltb_false. rewrite E in A.
    destruct (Rle_dec (v / s) 0); auto. exfalso.
    assert (0 < v / s * s) by (apply Rmult_lt_0_compat; lra). lra.
  - destruct (rltb v 0) eqn:A; [apply rltb_true in A; apply rltb_true|].
    + assert (0 < - v / s) by (apply Rdiv_lt_0_compat; lra). unfold Rdiv in *. lra.
    + apply rltb_false in A. apply rltb_false. apply Rmult_le_pos; auto. left. now apply Rinv_0_lt_compat.
Qed.

Lemma fdiv_pos_inf s : 0 < s -> fdiv PInf (Fin s) = PInf /\ fdiv NInf (Fin s) = NInf.
Proof. intros H. simpl. assert (rltb s 0 = false) as -> by (apply rltb_false; lra). auto. Qed.

Lemma term_kg a v s : 0 < s -> fdiv (fmul a (Fin v)) (Fin s) = fmul a (Fin (v / s)).
Proof.
  intros Hs. destruct (rltb_div v s Hs) as [A B]. destruct (fdiv_pos_inf s Hs) as [P N].
  destruct a as [x| | |]; cbn [fmul].
  - rewrite fdiv_fin by lra. f_equal. unfold Rdiv. ring.
  - unfold sinf. rewrite A, B. destruct (rltb 0 v); [exact P|]. destruct (rltb v 0); [exact N|reflexivity].
  - unfold sinf. rewrite A, B. destruct (rltb 0 v); [exact N|]. destruct (rltb v 0); [exact P|reflexivity].
  - reflexivity.
Qed.

Section P3.
  Context (els : list string) (sps : list species) (Hgas : gas_ok els sps).
  Notation comp := (composition sps).
  Notation ms := (masses sps).
  Notation deficit := (deficit els sps).
  Notation kmol := (kmol_of els sps).

  Lemma blend_kg a b f o : comp f -> comp o ->
    blend a b (map Fin f) (map Fin o) =
    map2 (fun u v => fadd (fmul a (Fin u)) (fmul b (Fin v))) (per_kg f) (per_kg o).
  Proof.
    intros Hf Ho. unfold blend, per_kg. rewrite !fsum_fin, map2_map_l, map2_map_r, map2_map_l, map2_map_r.
    apply map2_ext. intros. rewrite !term_kg by (eapply comp_sum; eauto). reflexivity.
  Qed.
  Lemma deficit_of_kg f f' : comp f -> comp f' -> per_kg f = per_kg f' -> deficit f = deficit f'.
  Proof.
    intros C C' E. rewrite <- (deficit_kg els sps f), <- (deficit_kg els sps f'), E; auto;
      apply Rgt_not_eq; eapply comp_sum; eauto.
  Qed.

  Context (b b' : basis) (f o f' o' : list R).
  Context (Cf : comp f) (Co : comp o) (Cf' : comp f') (Co' : comp o').
  Context (Ef : per_kg (ms b f) = per_kg (ms b' f')) (Eo : per_kg (ms b o) = per_kg (ms b' o')).

  Lemma cv_f : per_kg (conv sps b f) = per_kg (conv sps b' f').
  Proof. now rewrite !(conv_kg els sps Hgas). Qed.
  Lemma cv_o : per_kg (conv sps b o) = per_kg (conv sps b' o').
  Proof. now rewrite !(conv_kg els sps Hgas). Qed.

  Lemma net_eq g g' : comp g -> comp g' -> per_kg g = per_kg g' ->
    o2Net els sps (map Fin g) = o2Net els sps (map Fin g').
  Proof.
    intros C C' E. rewrite !(o2Net_fin els sps Hgas) by (try (eapply comp_len; eauto); apply Rgt_not_eq; eapply comp_sum; eauto).
    now rewrite (deficit_of_kg g g').
  Qed.

  Lemma AFR_mass_eq : stoichAirFuelRatio els sps (map Fin (conv sps b f)) (map Fin (conv sps b o)) MassBasis =
    stoichAirFuelRatio els sps (map Fin (conv sps b' f')) (map Fin (conv sps b' o')) MassBasis.
  Proof.
    unfold stoichAirFuelRatio. cbn [toMass obind].
    rewrite (net_eq (conv sps b f) (conv sps b' f')), (net_eq (conv sps b o) (conv sps b' o'));
      try (eapply conv_comp; eauto); auto using cv_f, cv_o.
  Qed.
  Lemma AFR_eq : stoichAirFuelRatio els sps (map Fin f) (map Fin o) b =
    stoichAirFuelRatio els sps (map Fin f') (map Fin o') b'.
  Proof. rewrite (AFR_basis els sps Hgas f o), (AFR_basis els sps Hgas f' o') by auto. apply AFR_mass_eq. Qed.

  Lemma blend_eq a a' : blend a a' (map Fin (conv sps b f)) (map Fin (conv sps b o)) =
    blend a a' (map Fin (conv sps b' f')) (map Fin (conv sps b' o')).
  Proof.
    rewrite !blend_kg by (eapply conv_comp; eauto). now rewrite cv_f, cv_o.
  Qed.
  Lemma setPhi_eq c phi : setEquivalenceRatio els sps c phi (map Fin f) (map Fin o) b =
    setEquivalenceRatio els sps c phi (map Fin f') (map Fin o') b'.
  Proof.
    unfold setEquivalenceRatio. destruct (fltb phi (Fin 0)); auto. cbv zeta.
    rewrite !(toMass_fin els sps Hgas) by auto. cbn [before]. rewrite AFR_mass_eq.
    destruct (stoichAirFuelRatio _ _ _ _ _); cbn [before]; auto. now rewrite blend_eq.
  Qed.
  Lemma setZ_eq c z : setMixtureFraction sps c z (map Fin f) (map Fin o) b =
    setMixtureFraction sps c z (map Fin f') (map Fin o') b'.
  Proof.
    unfold setMixtureFraction. destruct (fltb z (Fin 0) || fltb (Fin 1) z); auto.
    rewrite !(toMass_fin els sps Hgas) by auto. cbn [before]. rewrite !fsum_fin.
    rewrite !feqb_fin_ne by (apply Rgt_not_eq; eapply comp_sum; eapply conv_comp; eauto). cbn [orb].
    now rewrite blend_eq.
  Qed.
  Lemma el_eq e i g g' : comp g -> comp g' -> per_kg g = per_kg g' -> elementIndex els e = Some i ->
    obind (elementalFraction sps (Some i) (map Fin g)) (fun x => Ok (fdiv x (Fin (rsum g)))) =
    obind (elementalFraction sps (Some i) (map Fin g')) (fun x => Ok (fdiv x (Fin (rsum g')))).
  Proof.
    intros C C' E I. unfold elementalFraction. rewrite !(el_fold els sps) with (e := e);
      try (eapply comp_len; eauto); auto; try (apply (Hw els sps Hgas)). cbn [obind].
    pose proof (comp_sum _ _ C). pose proof (comp_sum _ _ C'). rewrite !fdiv_fin by lra. do 2 f_equal.
    rewrite !Rplus_0_l. now rewrite <- !per_kg_kmol, E.
  Qed.
  Lemma mixZ_eq c el : mixtureFraction els sps c (map Fin f) (map Fin o) b el =
    mixtureFraction els sps c (map Fin f') (map Fin o') b' el.
  Proof.
    pose proof (conv_comp els sps Hgas b f Cf) as K1. pose proof (conv_comp els sps Hgas b o Co) as K2.
    pose proof (conv_comp els sps Hgas b' f' Cf') as K3. pose proof (conv_comp els sps Hgas b' o' Co') as K4.
    unfold mixtureFraction. rewrite !(toMass_fin els sps Hgas) by auto. cbn [obind]. destruct el as [|e].
    - rewrite (net_eq (conv sps b f) (conv sps b' f')), (net_eq (conv sps b o) (conv sps b' o')); auto using cv_f, cv_o.
    - rewrite !fsum_fin. rewrite !feqb_fin_ne by (apply Rgt_not_eq; eapply comp_sum; eauto). cbn [orb].
      destruct (elementIndex els e) as [i|] eqn:E.
      + pose proof (el_eq e i _ _ K1 K3 cv_f E) as Q1. pose proof (el_eq e i _ _ K2 K4 cv_o E) as Q2.
        unfold elementalFraction in *. cbn [obind] in *. injection Q1 as Q1. injection Q2 as Q2. rewrite Q1, Q2. reflexivity.
      + unfold elementalFraction. destruct sps; [|reflexivity].
        destruct Cf as (_&_&X). destruct f; [inversion X|]. destruct Cf as (L&_). discriminate.
  Qed.
  Lemma phi_eq c : equivalenceRatio els sps c (map Fin f) (map Fin o) b =
    equivalenceRatio els sps c (map Fin f') (map Fin o') b'.
  Proof.
    unfold equivalenceRatio. rewrite mixZ_eq. destruct (mixtureFraction _ _ _ _ _ _ _); auto. cbn [obind].
    destruct (feqb a (Fin 0)), (feqb a (Fin 1)); auto. rewrite !(toMass_fin els sps Hgas) by auto. cbn [obind].
    now rewrite AFR_mass_eq.
  Qed.
End P3.

(** An inert oxidizer. *)
Section Inert.
  Context (els : list string) (sps : list species) (Hgas : gas_ok els sps).
  Notation comp := (composition sps).
  Notation ms := (masses sps).
  Notation deficit := (deficit els sps).

  Definition bad (v : fp) : Prop := v = PInf \/ v = NaN.
  Lemma bad_sum l a : Forall bad l -> bad a -> bad (fold_left fadd l a).
  Proof.
    intros H. revert a. induction H as [|v l Hv H IH]; intros a Ha; simpl; auto.
    apply IH. destruct Hv; destruct Ha; subst; simpl; unfold bad; auto.
  Qed.
  Lemma bad_fsum l : l <> [] -> Forall bad l -> bad (fsum l).
  Proof.
    intros N H. destruct H as [|v l Hv H]; [congruence|]. unfold fsum. cbn [fold_left]. apply bad_sum; auto.
    destruct Hv; subst; unfold bad; simpl; auto.
  Qed.
  Lemma nan_sum l a : a = NaN -> fold_left fadd l a = NaN.
  Proof. intros ->. induction l; simpl; auto. Qed.

  Lemma all_nan_density (l : list fp) (k : list R) : (forall v, In v l -> v = NaN) -> l <> [] -> length k = length l ->
    fsum (map2 (fun v m => fmul v (Fin m)) l k) = NaN.
  Proof.
    intros H N L. destruct l as [|v l]; [congruence|]. destruct k as [|m k]; [discriminate|].
    cbn [map2]. rewrite (H v) by (left; auto). unfold fsum. cbn [fold_left fmul fadd]. now apply nan_sum.
  Qed.

  Lemma setY_bad c y : y <> [] -> length y = length sps -> Forall bad y ->
    exists c', setY sps c y = (Ok tt, c') /\ s_Y c' = map (fun _ => NaN) y /\ s_mmw c' = NaN /\ s_T c' = s_T c /\ s_D c' = s_D c.
  Proof.
    intros N L H. unfold setY, setMassFractions. cbv zeta. cbn [compositionChanged bump].
    set (y0 := map (fun v => fmax v (Fin 0)) y).
    assert (Forall bad y0) as H0.
    { unfold y0. apply Forall_map. eapply Forall_impl; [|exact H]. intros v [-> | ->]; [left|right]; reflexivity. }
    assert (y0 <> []) as N0 by (unfold y0; destruct y; simpl; congruence).
    assert (scale y0 (fdiv (Fin 1) (fsum y0)) = map (fun _ => NaN) y) as E.
    { unfold scale. unfold y0 at 2. rewrite map_map. apply map_ext_in. intros v I.
      rewrite Forall_forall in H. destruct (H v I) as [-> | ->]; destruct (bad_fsum y0 N0 H0) as [-> | ->]; cbn.
      - unfold sinf. assert (rltb 0 0 = false) as -> by (apply rltb_false; lra). reflexivity.
      - reflexivity.
      - reflexivity.
      - reflexivity. }
    rewrite E. eexists. split; [reflexivity|]. cbn [s_Y s_mmw s_T s_D with_comp]. repeat split.
    rewrite all_nan_density; auto.
    - intros v I. apply in_map_iff in I. destruct I as (x&Hx&_). auto.
    - destruct y; simpl; congruence.
    - unfold rmw, mw. rewrite !map_length. auto.
  Qed.

  Lemma setP_nan c p : s_mmw c = NaN -> setPressure c p = (Err, c).
  Proof.
    intros E. unfold setPressure. rewrite E. replace (fmul p NaN) with NaN by (destruct p; reflexivity).
    replace (fdiv NaN (RT c)) with NaN by (destruct (RT c); reflexivity). reflexivity.
  Qed.

  Lemma inert c b f o phi : comp f -> comp o -> 0 <= phi ->
    0 <= deficit (ms b f) -> deficit (ms b o) = 0 ->
    exists c', setEquivalenceRatio els sps c (Fin phi) (map Fin f) (map Fin o) b = (Err, c') /\
      s_Y c' = map (fun _ => NaN) sps.
  Proof.
    intros Cf Co Hp Df Do.
    pose proof (conv_comp els sps Hgas b f Cf) as K1. pose proof (conv_comp els sps Hgas b o Co) as K2.
    unfold setEquivalenceRatio. rewrite fltb_ge by lra. cbv zeta.
    rewrite !(toMass_fin els sps Hgas) by auto. cbn [before].
    assert (stoichAirFuelRatio els sps (map Fin (conv sps b f)) (map Fin (conv sps b o)) MassBasis = Ok PInf) as A.
    { unfold stoichAirFuelRatio. cbn [toMass obind].
      rewrite !(o2Net_fin els sps Hgas) by (try (eapply comp_len; eauto); apply Rgt_not_eq; eapply comp_sum; eauto).
      rewrite !(conv_deficit els sps Hgas) by auto. rewrite Do. cbn [obind]. rewrite !fltb_ge by lra. cbn [orb].
      rewrite feqb_fin_eq. reflexivity. }
    rewrite A. cbn [before]. rewrite (blend_kg sps) by auto.
    set (y := map2 _ _ _).
    assert (length y = length sps) as L.
    { unfold y. rewrite map2_length; rewrite !per_kg_len; rewrite !(comp_len sps) by auto; reflexivity. }
    destruct (setY_bad c y) as (c'&E&E1&E2&E3&E4); auto.
    - intros X. rewrite X in L. destruct Co as (Lo&_&Xo). destruct o as [|q o1]; [inversion Xo|]. simpl in Lo, L. lia.
    - unfold y. apply Forall_map2. intros u v Hu Hv. cbn [fmul].
      destruct (comp_per_kg sps _ K2) as (_&NN&_). unfold all_nonneg in NN. rewrite Forall_forall in NN. specialize (NN v Hv). simpl in NN.
      unfold sinf. destruct (rltb 0 v) eqn:V; [left; reflexivity|].
      assert (rltb v 0 = false) as -> by (apply rltb_false; lra). right. reflexivity.
    - rewrite E. unfold andthen. cbn [fst snd]. rewrite (setP_nan c') by auto. exists c'. split; auto.
      rewrite E1. clear -L. revert L. generalize y. clear. intros y L. revert y L.
      induction sps as [|s l IH]; intros [|v y] L; simpl in *; try discriminate; auto.
      now rewrite IH by lia.
  Qed.
End Inert.
