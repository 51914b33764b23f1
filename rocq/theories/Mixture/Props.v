(** C63: equivalence ratio, mixture fraction and stoichiometric air-fuel ratio. *)
From Coq Require Import String.
From Coq Require Import Reals Lra List Bool Arith Lia.
From Verif Require Import Base.Fp Base.Outcome Base.RSum Base.Map2 Units.Model.
From Verif Require Import Phase.CompModel Phase.CompSpec Phase.CompProofs Mixture.Model Mixture.Spec Mixture.Proofs Mixture.Proofs2 Mixture.Proofs3.
Import ListNotations.
Open Scope R_scope.

Section C63.
Context (els : list string) (sps : list species).
Notation comp := (composition sps).
Notation deficit := (deficit els sps).
Notation demand := (demand els sps).
Notation supply := (supply els sps).
Notation kmol := (kmol_of els sps).
Notation ms := (masses sps).
Notation vec := (map Fin).

(** The stoichiometric air-fuel ratio is the number of kilograms of oxidizer per kilogram of fuel for
    which the oxygen demanded and the oxygen supplied balance, and no other number is. *)
Theorem C63_stoich f o b :
  gas_ok els sps -> comp f -> comp o -> 0 <= deficit (ms b f) -> deficit (ms b o) < 0 ->
  exists r, stoichAirFuelRatio els sps (vec f) (vec o) b = Ok (Fin r) /\ 0 <= r /\
    forall a, demand (mix 1 a (ms b f) (ms b o)) = supply (mix 1 a (ms b f) (ms b o)) <-> a = r.
Proof.
  intros G Cf Co Df Do. exists (deficit (ms b f) / - deficit (ms b o)).
  pose proof (conv_comp els sps G b f Cf) as Cf'. pose proof (conv_comp els sps G b o Co) as Co'.
  pose proof (masses_comp els sps G b f Cf) as Mf. pose proof (masses_comp els sps G b o Co) as Mo.
  split; [|split].
  - rewrite (AFR_basis els sps G) by auto.
    rewrite (AFR_fin els sps G) by (auto; rewrite (conv_deficit els sps G) by auto; lra).
    now rewrite !(conv_deficit els sps G) by auto.
  - apply Rmult_le_pos; [lra|]. left. apply Rinv_0_lt_compat. lra.
  - intros a. pose proof (mix_net els sps 1 a _ _ Mf Mo) as N. split; intros H.
    + assert (1 * deficit (ms b f) + a * deficit (ms b o) = 0) by lra.
      apply (Rmult_eq_reg_r (- deficit (ms b o))); [|lra]. unfold Rdiv.
      rewrite Rmult_assoc, Rinv_l by lra. lra.
    + assert (a * deficit (ms b o) = - deficit (ms b f)); [|lra]. rewrite H. field. lra.
Qed.

(** Setting an equivalence ratio: the call succeeds for every phi >= 0, the composition becomes phi
    parts of fuel with the stoichiometric amount of oxidizer, temperature and pressure are kept, and
    the equivalence ratio read back is the one set. *)
Theorem C63_phi_round_trip c T D Y b f o phi :
  gas_ok els sps -> in_state sps c T D Y -> comp f -> comp o ->
  0 < deficit (ms b f) -> deficit (ms b o) < 0 -> 0 <= phi ->
  exists c' D' r,
    stoichAirFuelRatio els sps (vec f) (vec o) b = Ok (Fin r) /\
    setEquivalenceRatio els sps c (Fin phi) (vec f) (vec o) b = (Ok tt, c') /\
    in_state sps c' T D' (per_kg (mix phi r (ms b f) (ms b o))) /\
    pressure c' = pressure c /\
    equivalenceRatio els sps c' (vec f) (vec o) b = Ok (Fin phi).
Proof.
  intros G I Cf Co Df Do Hp. set (r := deficit (ms b f) / - deficit (ms b o)).
  pose proof (masses_comp els sps G b f Cf) as Mf. pose proof (masses_comp els sps G b o Co) as Mo.
  assert (0 < r) as Hr by (unfold r; apply Rdiv_lt_0_compat; lra).
  assert (0 <= phi / (phi + r) < 1) as Hz.
  { split.
    - apply Rmult_le_pos; [lra|]. left. apply Rinv_0_lt_compat. lra.
    - apply (Rmult_lt_reg_r (phi + r)); [lra|]. unfold Rdiv. rewrite Rmult_assoc, Rinv_l by lra. lra. }
  destruct (setZ_in els sps G c T D Y b f o (phi / (phi + r)) I Cf Co) as (E&Cy&Sy&I'&P'); [lra|].
  eexists _, _, r. split; [|split; [|split; [|split]]].
  - rewrite (AFR_basis els sps G) by auto.
    rewrite (AFR_fin els sps G); try (eapply conv_comp; eauto); try (rewrite (conv_deficit els sps G) by auto; lra).
    now rewrite !(conv_deficit els sps G) by auto.
  - rewrite (setPhi_in els sps G c T D Y) by (auto; fold r; lra). fold r. exact E.
  - rewrite (per_kg_mix sps) by (auto; lra). exact I'.
  - exact P'.
  - rewrite (phi_in els sps G _ _ _ _ b f o I') by (auto; rewrite ?(mix_z els sps G) by auto;
      replace ((phi / (phi + r) * deficit (ms b f) + (1 - phi / (phi + r)) * deficit (ms b o) - deficit (ms b o)) /
        (deficit (ms b f) - deficit (ms b o))) with (phi / (phi + r)) by (field; lra); lra).
    rewrite (mix_z els sps G) by auto. do 2 f_equal.
    replace ((phi / (phi + r) * deficit (ms b f) + (1 - phi / (phi + r)) * deficit (ms b o) - deficit (ms b o)) /
        (deficit (ms b f) - deficit (ms b o))) with (phi / (phi + r)) by (field; lra).
    fold r. field. lra.
Qed.

(** Setting a mixture fraction: the composition becomes z kilograms of fuel with 1 - z of oxidizer,
    temperature and pressure are kept, and the mixture fraction read back is the one set: the one
    based on oxygen demand whenever fuel and oxidizer differ in it, the one based on an element
    whenever they differ in that element. *)
Theorem C63_z_round_trip c T D Y b f o z :
  gas_ok els sps -> in_state sps c T D Y -> comp f -> comp o -> 0 <= z <= 1 ->
  exists c' D',
    setMixtureFraction sps c (Fin z) (vec f) (vec o) b = (Ok tt, c') /\
    in_state sps c' T D' (mix z (1 - z) (ms b f) (ms b o)) /\
    pressure c' = pressure c /\
    (0 <= deficit (ms b f) -> deficit (ms b o) <= 0 -> deficit (ms b f) <> deficit (ms b o) ->
       mixtureFraction els sps c' (vec f) (vec o) b Bilger = Ok (Fin z)) /\
    (forall e, In e els ->
       kmol e (ms b f) / rsum (ms b f) <> kmol e (ms b o) / rsum (ms b o) ->
       mixtureFraction els sps c' (vec f) (vec o) b (Element e) = Ok (Fin z)).
Proof.
  intros G I Cf Co Hz.
  pose proof (masses_comp els sps G b f Cf) as Mf. pose proof (masses_comp els sps G b o Co) as Mo.
  destruct (setZ_in els sps G c T D Y b f o z I Cf Co Hz) as (E&Cy&Sy&I'&P').
  eexists _, _. split; [exact E|]. split; [exact I'|]. split; [exact P'|]. split.
  - intros Df Do Dn. rewrite (bilger_in els sps G _ _ _ _ b f o I') by auto. rewrite (mix_z els sps G) by auto.
    replace ((z * deficit (ms b f) + (1 - z) * deficit (ms b o) - deficit (ms b o)) /
        (deficit (ms b f) - deficit (ms b o))) with z by (field; lra).
    now rewrite clamp_in.
  - intros e He Dn. rewrite (element_in els sps G _ _ _ _ b f o e I') by auto. rewrite (mix_kmol els sps) by auto.
    set (zf := kmol e (ms b f) / rsum (ms b f)) in *. set (zo := kmol e (ms b o) / rsum (ms b o)) in *.
    replace ((z * zf + (1 - z) * zo - zo) / (zf - zo)) with z by (field; intros X; apply Dn; lra).
    now rewrite clamp_in.
Qed.

(** The two descriptions agree: phi corresponds to z = phi / (phi + r), both setters leave exactly
    the same state, and after setting z the equivalence ratio is z / (1 - z) times r, or infinite for
    pure fuel. *)
Theorem C63_phi_and_z c T D Y b f o :
  gas_ok els sps -> in_state sps c T D Y -> comp f -> comp o ->
  0 < deficit (ms b f) -> deficit (ms b o) < 0 ->
  exists r, stoichAirFuelRatio els sps (vec f) (vec o) b = Ok (Fin r) /\
    (forall phi, 0 <= phi ->
       setEquivalenceRatio els sps c (Fin phi) (vec f) (vec o) b =
       setMixtureFraction sps c (Fin (phi / (phi + r))) (vec f) (vec o) b) /\
    (forall z, 0 <= z < 1 ->
       equivalenceRatio els sps (snd (setMixtureFraction sps c (Fin z) (vec f) (vec o) b)) (vec f) (vec o) b =
       Ok (Fin (z / (1 - z) * r))) /\
    equivalenceRatio els sps (snd (setMixtureFraction sps c (Fin 1) (vec f) (vec o) b)) (vec f) (vec o) b = Ok PInf.
Proof.
  intros G I Cf Co Df Do. set (r := deficit (ms b f) / - deficit (ms b o)).
  assert (0 < r) as Hr by (unfold r; apply Rdiv_lt_0_compat; lra).
  exists r. split; [|split; [|split]].
  - rewrite (AFR_basis els sps G) by auto.
    rewrite (AFR_fin els sps G); try (eapply conv_comp; eauto); try (rewrite (conv_deficit els sps G) by auto; lra).
    now rewrite !(conv_deficit els sps G) by auto.
  - intros phi Hp. apply (setPhi_in els sps G c T D Y); auto; fold r; lra.
  - intros z Hz. destruct (setZ_in els sps G c T D Y b f o z I Cf Co) as (E&_&_&I'&_); [lra|]. rewrite E. cbn [snd].
    assert ((deficit (mix z (1 - z) (ms b f) (ms b o)) - deficit (ms b o)) / (deficit (ms b f) - deficit (ms b o)) = z) as EZ.
    { rewrite (mix_z els sps G) by auto. field. lra. }
    rewrite (phi_in els sps G _ _ _ _ b f o I') by (auto; rewrite ?EZ; lra). rewrite EZ. reflexivity.
  - destruct (setZ_in els sps G c T D Y b f o 1 I Cf Co) as (E&_&_&I'&_); [lra|]. rewrite E. cbn [snd].
    apply (phi_pure els sps G _ _ _ _ b f o I'); auto; try lra. rewrite (mix_z els sps G) by auto. lra.
Qed.

(** Only the proportions of the fuel and of the oxidizer matter, by mass: neither the amounts nor the
    basis they are given on change any answer or the state that is set. *)
Theorem C63_proportions c b b' f o f' o' :
  gas_ok els sps -> comp f -> comp o -> comp f' -> comp o' ->
  per_kg (ms b f) = per_kg (ms b' f') -> per_kg (ms b o) = per_kg (ms b' o') ->
  stoichAirFuelRatio els sps (vec f) (vec o) b = stoichAirFuelRatio els sps (vec f') (vec o') b' /\
  (forall phi, setEquivalenceRatio els sps c phi (vec f) (vec o) b = setEquivalenceRatio els sps c phi (vec f') (vec o') b') /\
  (forall z, setMixtureFraction sps c z (vec f) (vec o) b = setMixtureFraction sps c z (vec f') (vec o') b') /\
  equivalenceRatio els sps c (vec f) (vec o) b = equivalenceRatio els sps c (vec f') (vec o') b' /\
  (forall el, mixtureFraction els sps c (vec f) (vec o) b el = mixtureFraction els sps c (vec f') (vec o') b' el).
Proof.
  intros G C1 C2 C3 C4 E1 E2. repeat split; intros.
  - now apply AFR_eq.
  - now apply setPhi_eq.
  - now apply setZ_eq with (els := els).
  - now apply phi_eq.
  - now apply mixZ_eq.
Qed.

(** The answers depend only on the elements in the mixture, so that chemical reactions, which keep
    them, do not change them. *)
Theorem C63_reaction_invariant c c' T T' D D' Y Y' :
  gas_ok els sps -> in_state sps c T D Y -> in_state sps c' T' D' Y' ->
  (forall e, In e els -> kmol e Y = kmol e Y') ->
  globalEquivalenceRatio els sps c = globalEquivalenceRatio els sps c' /\
  (forall f o b, equivalenceRatio els sps c f o b = equivalenceRatio els sps c' f o b) /\
  (forall f o b el, mixtureFraction els sps c f o b el = mixtureFraction els sps c' f o b el).
Proof.
  intros G (HT&HD&C&S1&E1&E2&E3&E4) (HT'&HD'&C'&S1'&E1'&E2'&E3'&E4') K.
  assert (forall e, kmol e Y = kmol e Y') as K'.
  { intros e. destruct (in_dec string_dec e els) as [I|I]; [auto|]. unfold kmol_of.
    assert (elementIndex els e = None) as N.
    { unfold elementIndex. clear -I. induction els as [|x l IH]; simpl; auto. simpl in I.
      destruct (String.eqb_spec x e); [tauto|]. now rewrite IH by tauto. }
    transitivity 0; [|symmetry].
    - clear -N. generalize Y. induction sps as [|s l IH]; intros [|v y]; simpl; auto.
      rewrite IH. unfold atoms. rewrite N. lra.
    - clear -N. generalize Y'. induction sps as [|s l IH]; intros [|v y]; simpl; auto.
      rewrite IH. unfold atoms. rewrite N. lra. }
  assert (demand Y = demand Y') as DE by (unfold Spec.demand; now rewrite !K').
  assert (supply Y = supply Y') as SE by (unfold Spec.supply; now rewrite !K').
  pose proof (comp_len _ _ C) as L. pose proof (comp_len _ _ C') as L'.
  assert (o2Required els sps (s_Y c) = o2Required els sps (s_Y c')) as R1.
  { rewrite E3, E3', !(o2Required_fin els sps G) by (auto; lra). now rewrite DE, S1, S1'. }
  assert (o2Present els sps (s_Y c) = o2Present els sps (s_Y c')) as R2.
  { rewrite E3, E3', !(o2Present_fin els sps G) by (auto; lra). now rewrite SE, S1, S1'. }
  assert (o2Net els sps (s_Y c) = o2Net els sps (s_Y c')) as R3.
  { unfold o2Net. now rewrite R1, R2. }
  assert (forall f o b el, mixtureFraction els sps c f o b el = mixtureFraction els sps c' f o b el) as M.
  { intros f o b el. unfold mixtureFraction. rewrite R3. destruct (toMass sps b f); auto. destruct (toMass sps b o); auto.
    cbn [obind]. destruct el as [|e]; auto.
    destruct (feqb (fsum a) (Fin 0) || feqb (fsum a0) (Fin 0)); auto.
    assert (elementalFraction sps (elementIndex els e) (s_Y c) = elementalFraction sps (elementIndex els e) (s_Y c')) as Q.
    { destruct (in_dec string_dec e els) as [I|I].
      - rewrite E3, E3', !(elementalFraction_fin els sps G) by auto. now rewrite K'.
      - assert (elementIndex els e = None) as N; [|rewrite N; reflexivity].
        unfold elementIndex. clear -I. induction els as [|x l IH]; simpl; auto. simpl in I.
        destruct (String.eqb_spec x e); [tauto|]. now rewrite IH by tauto. }
    now rewrite Q. }
  split; [|split].
  - unfold globalEquivalenceRatio. now rewrite R1, R2.
  - intros f o b. unfold equivalenceRatio. now rewrite M.
  - exact M.
Qed.

(** A mixture fraction is a number between 0 and 1, an equivalence ratio is never negative. *)
Theorem C63_range c T D Y b f o :
  gas_ok els sps -> in_state sps c T D Y -> comp f -> comp o ->
  (forall el v, mixtureFraction els sps c (vec f) (vec o) b el = Ok v -> exists z, v = Fin z /\ 0 <= z <= 1) /\
  (forall v, equivalenceRatio els sps c (vec f) (vec o) b = Ok v -> v = PInf \/ exists x, v = Fin x /\ 0 <= x) /\
  (forall v, stoichAirFuelRatio els sps (vec f) (vec o) b = Ok v -> v = PInf \/ exists x, v = Fin x /\ 0 <= x).
Proof.
  intros G I Cf Co.
  pose proof (conv_comp els sps G b f Cf) as K1. pose proof (conv_comp els sps G b o Co) as K2.
  pose proof (comp_sum _ _ K1) as P1. pose proof (comp_sum _ _ K2) as P2.
  pose proof I as (HT&HD&C&S1&E1&E2&E3&E4).
  assert (forall el v, mixtureFraction els sps c (vec f) (vec o) b el = Ok v -> exists z, v = Fin z /\ 0 <= z <= 1) as M.
  { intros el v. unfold mixtureFraction. rewrite !(toMass_fin els sps G) by auto. cbn [obind]. rewrite E3.
    destruct el as [|e].
    - rewrite !(o2Net_fin els sps G) by (try (eapply comp_len; eauto); lra). cbn [obind].
      destruct (fltb _ _ || fltb _ _); [discriminate|]. cbn [fsub fopp fadd].
      destruct (feqb _ _) eqn:F; [discriminate|]. simpl in F. apply reqb_false in F. rewrite fdiv_fin by auto.
      intros H. injection H as <-. apply clamp_any.
    - rewrite !fsum_fin, !feqb_fin_ne by lra. cbn [orb].
      destruct (in_dec string_dec e els) as [J|J].
      + rewrite !(elementalFraction_fin els sps G) by (auto; eapply comp_len; eauto). cbn [obind].
        rewrite !fdiv_fin by lra. destruct (feqb _ _) eqn:F; [discriminate|]. simpl in F. apply reqb_false in F.
        cbn [fsub fopp fadd]. rewrite fdiv_fin by lra. intros H. injection H as <-. apply clamp_any.
      + assert (elementIndex els e = None) as ->.
        { unfold elementIndex. clear -J. induction els as [|x l IH]; simpl; auto. simpl in J.
          destruct (String.eqb_spec x e); [tauto|]. now rewrite IH by tauto. }
        unfold elementalFraction. destruct sps; [|discriminate].
        destruct Cf as (L&_&X). destruct f; [inversion X|discriminate]. }
  assert (forall f o v, comp f -> comp o ->
     stoichAirFuelRatio els sps (vec f) (vec o) MassBasis = Ok v -> v = PInf \/ exists x, v = Fin x /\ 0 <= x) as A.
  { clear - G. intros f o v Cf Co. unfold stoichAirFuelRatio. cbn [toMass obind].
    rewrite !(o2Net_fin els sps G) by (try (eapply comp_len; eauto); apply Rgt_not_eq; eapply comp_sum; eauto). cbn [obind].
    destruct (fltb _ _ || fltb _ _) eqn:O; [discriminate|]. apply orb_false_iff in O. destruct O as [O1 O2].
    simpl in O1, O2. apply rltb_false in O1, O2.
    destruct (feqb _ _) eqn:F; [intros H; injection H as <-; auto|]. simpl in F. apply reqb_false in F.
    cbn [fopp]. rewrite fdiv_fin by lra. intros H. injection H as <-. right. eexists. split; [reflexivity|].
    apply Rmult_le_pos; [lra|]. left. apply Rinv_0_lt_compat. lra. }
  split; [exact M|]. split.
  - intros v. unfold equivalenceRatio. destruct (mixtureFraction _ _ _ _ _ _ _) as [w| | |] eqn:E; try discriminate.
    destruct (M _ _ E) as (z&->&Hz). cbn [obind].
    destruct (feqb (Fin z) (Fin 0)) eqn:F0. { intros H; injection H as <-. right. exists 0. split; [auto|lra]. }
    destruct (feqb (Fin z) (Fin 1)) eqn:F1. { intros H; injection H as <-. auto. }
    simpl in F0, F1. apply reqb_false in F0, F1.
    rewrite !(toMass_fin els sps G) by auto. cbn [obind].
    destruct (stoichAirFuelRatio _ _ _ _ _) as [a| | |] eqn:EA; try discriminate. cbn [obind fsub fopp fadd].
    rewrite fdiv_fin by lra. intros H. injection H as <-.
    assert (0 < z / (1 + - z)) as PZ by (apply Rdiv_lt_0_compat; lra).
    destruct (A _ _ _ K1 K2 EA) as [-> | (x&->&Hx)].
    + left. cbn [fmul]. unfold sinf. apply rltb_true in PZ. rewrite PZ. reflexivity.
    + right. cbn [fmul]. rewrite fmax_fin. eexists. split; [reflexivity|]. apply Rmax_r.
  - intros v. rewrite (AFR_basis els sps G) by auto. now apply A.
Qed.

(** What is rejected, and that a rejected call changes nothing: a negative equivalence ratio, a
    mixture fraction outside [0,1], and a fuel that has oxygen to spare or an oxidizer that needs
    some (typically the two arguments exchanged), and for a mixture fraction a composition that sums to zero. *)
Theorem C63_rejected c b :
  gas_ok els sps ->
  (forall f o phi, phi < 0 -> setEquivalenceRatio els sps c (Fin phi) f o b = (Err, c)) /\
  (forall f o z, z < 0 \/ 1 < z -> setMixtureFraction sps c (Fin z) f o b = (Err, c)) /\
  (forall f o z, rsum f = 0 \/ rsum o = 0 ->
     setMixtureFraction sps c z (vec f) (vec o) MassBasis = (Err, c)) /\
  (forall f o, comp f -> comp o -> deficit (ms b f) < 0 \/ 0 < deficit (ms b o) ->
     (forall phi, setEquivalenceRatio els sps c phi (vec f) (vec o) b = (Err, c)) /\
     stoichAirFuelRatio els sps (vec f) (vec o) b = Err /\
     (forall T D Y, in_state sps c T D Y ->
        mixtureFraction els sps c (vec f) (vec o) b Bilger = Err /\
        equivalenceRatio els sps c (vec f) (vec o) b = Err)).
Proof.
  intros G. split; [|split; [|split]].
  - intros f o phi H. unfold setEquivalenceRatio. cbn [fltb]. apply rltb_true in H. now rewrite H.
  - intros f o z H. unfold setMixtureFraction. cbn [fltb].
    destruct H as [H|H]; apply rltb_true in H; rewrite H; [reflexivity|now rewrite orb_true_r].
  - intros f o z H. unfold setMixtureFraction. destruct (fltb z (Fin 0) || fltb (Fin 1) z); auto. cbn [toMass before].
    rewrite !fsum_fin. cbn [feqb]. destruct H as [H|H]; apply reqb_true in H; rewrite H; [reflexivity|now rewrite orb_true_r].
  - intros f o Cf Co H.
    pose proof (conv_comp els sps G b f Cf) as K1. pose proof (conv_comp els sps G b o Co) as K2.
    assert (fltb (Fin (deficit (conv sps b f))) (Fin 0) || fltb (Fin 0) (Fin (deficit (conv sps b o))) = true) as B.
    { rewrite !(conv_deficit els sps G) by auto. cbn [fltb]. apply orb_true_iff.
      destruct H as [H|H]; apply rltb_true in H; auto. }
    assert (stoichAirFuelRatio els sps (vec (conv sps b f)) (vec (conv sps b o)) MassBasis = Err) as A.
    { unfold stoichAirFuelRatio. cbn [toMass obind].
      rewrite !(o2Net_fin els sps G) by (try (eapply comp_len; eauto); apply Rgt_not_eq; eapply comp_sum; eauto). cbn [obind].
      now rewrite B. }
    split; [|split].
    + intros phi. unfold setEquivalenceRatio. destruct (fltb phi (Fin 0)); auto. cbv zeta.
      rewrite !(toMass_fin els sps G) by auto. cbn [before]. now rewrite A.
    + rewrite (AFR_basis els sps G) by auto. exact A.
    + intros T D Y (HT&HD&C&S1&E1&E2&E3&E4).
      assert (mixtureFraction els sps c (vec f) (vec o) b Bilger = Err) as M.
      { unfold mixtureFraction. rewrite !(toMass_fin els sps G) by auto. cbn [obind]. rewrite E3.
        rewrite !(o2Net_fin els sps G) by (try (eapply comp_len; eauto); apply Rgt_not_eq; eapply comp_sum; eauto). cbn [obind].
        now rewrite B. }
      split; [exact M|]. unfold equivalenceRatio. now rewrite M.
Qed.

(** For a fuel without oxygen and an oxidizer without carbon, sulfur and hydrogen, the equivalence
    ratio computed from the state alone is the one set. *)
Theorem C63_global_phi c T D Y b f o phi :
  gas_ok els sps -> in_state sps c T D Y -> comp f -> comp o ->
  0 < deficit (ms b f) -> deficit (ms b o) < 0 -> 0 <= phi ->
  kmol "O" (ms b f) = 0 ->
  kmol "C" (ms b o) = 0 -> kmol "S" (ms b o) = 0 -> kmol "H" (ms b o) = 0 ->
  globalEquivalenceRatio els sps (snd (setEquivalenceRatio els sps c (Fin phi) (vec f) (vec o) b)) = Ok (Fin phi).
Proof.
  intros G I Cf Co Df Do Hp KO KC KS KH. set (r := deficit (ms b f) / - deficit (ms b o)).
  pose proof (masses_comp els sps G b f Cf) as Mf. pose proof (masses_comp els sps G b o Co) as Mo.
  assert (0 < r) as Hr by (unfold r; apply Rdiv_lt_0_compat; lra).
  rewrite (setPhi_in els sps G c T D Y) by (auto; fold r; lra). fold r. set (z := phi / (phi + r)).
  assert (0 <= z < 1) as Hz.
  { unfold z. split.
    - apply Rmult_le_pos; [lra|]. left. apply Rinv_0_lt_compat. lra.
    - apply (Rmult_lt_reg_r (phi + r)); [lra|]. unfold Rdiv. rewrite Rmult_assoc, Rinv_l by lra. lra. }
  destruct (setZ_in els sps G c T D Y b f o z I Cf Co) as (E&Cy&Sy&I'&P'); [lra|]. rewrite E. cbn [snd].
  destruct I' as (HT&HD&C&S1&E1&E2&E3&E4). unfold globalEquivalenceRatio. rewrite E3.
  rewrite (o2Required_fin els sps G), (o2Present_fin els sps G) by (try (eapply comp_len; eauto); lra). cbn [obind].
  rewrite Sy.
  assert (demand (mix z (1 - z) (ms b f) (ms b o)) = z * deficit (ms b f)) as DE.
  { unfold Spec.demand, Spec.deficit, Spec.demand, Spec.supply. rewrite !(mix_kmol els sps) by auto. rewrite KO, KC, KS, KH. unfold Rdiv. ring. }
  assert (supply (mix z (1 - z) (ms b f) (ms b o)) = (1 - z) * - deficit (ms b o)) as SE.
  { unfold Spec.supply, Spec.deficit, Spec.demand, Spec.supply. rewrite !(mix_kmol els sps) by auto. rewrite KO, KC, KS, KH. unfold Rdiv. ring. }
  rewrite DE, SE.
  assert (0 < (1 - z) * - deficit (ms b o)) by (apply Rmult_lt_0_compat; lra).
  rewrite feqb_fin_ne by (unfold Rdiv; rewrite Rinv_1, Rmult_1_r; lra).
  rewrite fdiv_fin by (unfold Rdiv; rewrite Rinv_1, Rmult_1_r; lra).
  do 2 f_equal.
  replace (z * deficit (ms b f) / 1 / ((1 - z) * - deficit (ms b o) / 1)) with (z / (1 - z) * r)
    by (unfold r; field; lra).
  unfold z. field. lra.
Qed.

(** Where it goes wrong: an oxidizer that neither needs nor supplies oxygen is accepted as far as an
    infinite air-fuel ratio, every mass fraction becomes NaN, and the exception that is then thrown
    (by setPressure) leaves them like that. *)
Theorem C63_inert_oxidizer c b f o phi :
  gas_ok els sps -> comp f -> comp o -> 0 <= phi -> 0 <= deficit (ms b f) -> deficit (ms b o) = 0 ->
  exists c', setEquivalenceRatio els sps c (Fin phi) (vec f) (vec o) b = (Err, c') /\
    s_Y c' = map (fun _ => NaN) sps.
Proof. intros. now apply inert. Qed.
End C63.

(** A concrete gas: CH4, O2, N2, CH3OH (rounded molecular weights). *)
Definition els0 : list string := ["C"; "H"; "O"; "N"]%string.
Definition at4 (a b c d : R) (m : nat) : R :=
  match m with 0%nat => a | 1%nat => b | 2%nat => c | 3%nat => d | _ => 0 end.
Definition sps0 : list species :=
  [mk_species 16 (at4 1 4 0 0); mk_species 32 (at4 0 0 2 0); mk_species 28 (at4 0 0 0 2); mk_species 32 (at4 1 4 1 0)].
Definition Y0 : list R := [0; 0; 1; 0].
Definition c0 : st :=
  mk_st (Fin 300) (Fin 1) (Fin 0) (map Fin Y0) [] (Fin (1 / rsum (map2 (fun y s => y / sp_w s) Y0 sps0))) 0.

Lemma gas0 : gas_ok els0 sps0.
Proof. split; [repeat (constructor; [simpl; lra|]); constructor|simpl; auto]. Qed.
Lemma comp0 a b c d : 0 <= a -> 0 <= b -> 0 <= c -> 0 <= d -> 0 < a + b + c + d -> composition sps0 [a; b; c; d].
Proof.
  intros. apply comp_of_sum; [reflexivity| |simpl; lra]. repeat (apply Forall_cons; [assumption|]). apply Forall_nil.
Qed.
Lemma state0 : in_state sps0 c0 300 1 Y0.
Proof.
  unfold in_state. split; [lra|]. split; [lra|]. split; [apply comp0; lra|]. split; [simpl; lra|]. repeat split; reflexivity.
Qed.
Lemma deficit0 a b c d : deficit els0 sps0 [a; b; c; d] =
  (a / 8 + d / 16 - (b / 32 + d / 64)) / (a + b + c + d).
Proof.
  unfold deficit, demand, supply, kmol_of, atoms. cbn [elementIndex els0 find_name String.eqb Ascii.eqb Bool.eqb option_map].
  cbn [map2 sps0 sp_w sp_at at4 rsum]. f_equal; field.
Qed.

(** The hypotheses are met: methane with oxygen (mass basis) and with air (molar basis). *)
Example C63_case_mass : 0 < deficit els0 sps0 (masses sps0 MassBasis [2; 0; 0; 0]) /\
  deficit els0 sps0 (masses sps0 MassBasis [0; 3; 0; 0]) < 0.
Proof. cbn [masses]. rewrite !deficit0. lra. Qed.
Example C63_case_molar : 0 < deficit els0 sps0 (masses sps0 MolarBasis [1; 0; 0; 1]) /\
  deficit els0 sps0 (masses sps0 MolarBasis [0; 1; 4; 0]) < 0.
Proof.
  cbn [masses map2 sps0 sp_w]. rewrite !deficit0. split.
  - apply Rdiv_lt_0_compat; lra.
  - replace _ with (- (1 / (0 + 32 + 112 + 0))); [|field]. assert (0 < 1 / (0 + 32 + 112 + 0)) by (apply Rdiv_lt_0_compat; lra). lra.
Qed.
Example C63_case_stoich : stoichAirFuelRatio els0 sps0 (map Fin [2; 0; 0; 0]) (map Fin [0; 3; 0; 0]) MassBasis = Ok (Fin 4).
Proof.
  rewrite (AFR_fin els0 sps0 gas0); try (apply comp0; lra); try (rewrite deficit0; lra).
  rewrite !deficit0. do 2 f_equal. field.
Qed.
(** [1;0;0;0] by mass and [5;0;0;0] by mole are the same proportions. *)
Example C63_case_proportions : per_kg (masses sps0 MassBasis [1; 0; 0; 0]) = per_kg (masses sps0 MolarBasis [5; 0; 0; 0]).
Proof. unfold per_kg. cbn [masses map2 sps0 sp_w rsum map]. repeat (apply f_equal2; [field|]); reflexivity. Qed.
(** CH4 + 1/2 O2 burnt to CH3OH: 1/2 kg each of two states with the same elements. *)
Example C63_case_reaction : forall e, In e els0 -> kmol_of els0 sps0 e [1/2; 1/2; 0; 0] = kmol_of els0 sps0 e [0; 0; 0; 1].
Proof.
  intros e He. simpl in He. destruct He as [<- | [<- | [<- | [<- | []]]]]; unfold kmol_of, atoms;
    cbn [elementIndex els0 find_name String.eqb Ascii.eqb Bool.eqb option_map map2 sps0 sp_w sp_at at4 rsum]; field.
Qed.
Example C63_case_element : In "C"%string els0 /\
  kmol_of els0 sps0 "C" (masses sps0 MassBasis [1; 0; 0; 0]) / rsum (masses sps0 MassBasis [1; 0; 0; 0]) <>
  kmol_of els0 sps0 "C" (masses sps0 MassBasis [0; 1; 0; 0]) / rsum (masses sps0 MassBasis [0; 1; 0; 0]).
Proof.
  split; [simpl; auto|]. unfold kmol_of, atoms.
  cbn [elementIndex els0 find_name String.eqb Ascii.eqb Bool.eqb option_map masses map2 sps0 sp_w sp_at at4 rsum]. lra.
Qed.
Example C63_case_inert : 0 <= deficit els0 sps0 [1; 0; 0; 0] /\ deficit els0 sps0 [0; 0; 1; 0] = 0.
Proof. rewrite !deficit0. lra. Qed.

(** A call of setEquivalenceRatio that throws does not always leave the composition alone. *)
Theorem C63_failure_keeps_state_refuted :
  ~ (forall c c' f o phi, in_state sps0 c 300 1 Y0 -> composition sps0 f -> composition sps0 o -> 0 <= phi ->
       setEquivalenceRatio els0 sps0 c (Fin phi) (map Fin f) (map Fin o) MassBasis = (Err, c') -> s_Y c' = s_Y c).
Proof.
  intros H.
  destruct (C63_inert_oxidizer els0 sps0 c0 MassBasis [1; 0; 0; 0] [0; 0; 1; 0] 1) as (c'&E&EY);
    try (apply comp0; lra); try exact gas0; try lra; try (cbn [masses]; rewrite deficit0; lra).
  assert (s_Y c' = s_Y c0) as X.
  { apply (H c0 c' [1; 0; 0; 0] [0; 0; 1; 0] 1); auto; try exact state0; try (apply comp0; lra); lra. }
  rewrite EY in X. discriminate X.
Qed.

(** The equivalence ratio computed from the state alone is not the one set when the fuel contains
    oxygen (methanol with oxygen, phi = 2: it says 1.6). *)
Theorem C63_global_phi_refuted :
  ~ (forall c f o phi, in_state sps0 c 300 1 Y0 -> composition sps0 f -> composition sps0 o ->
       0 < deficit els0 sps0 f -> deficit els0 sps0 o < 0 -> 0 <= phi ->
       globalEquivalenceRatio els0 sps0 (snd (setEquivalenceRatio els0 sps0 c (Fin phi) (map Fin f) (map Fin o) MassBasis))
       = Ok (Fin phi)).
Proof.
  intros H. specialize (H c0 [0; 0; 0; 1] [0; 1; 0; 0] 2 state0).
  assert (globalEquivalenceRatio els0 sps0
    (snd (setEquivalenceRatio els0 sps0 c0 (Fin 2) (map Fin [0; 0; 0; 1]) (map Fin [0; 1; 0; 0]) MassBasis)) = Ok (Fin 2)) as X.
  { apply H; try (apply comp0; lra); try (rewrite deficit0; lra); lra. }
  destruct (C63_phi_round_trip els0 sps0 c0 300 1 Y0 MassBasis [0; 0; 0; 1] [0; 1; 0; 0] 2)
    as (c'&D'&r&ER&E&I'&_); try exact gas0; try exact state0; try (apply comp0; lra); try (cbn [masses]; rewrite deficit0; lra); try lra.
  rewrite E in X. cbn [snd] in X.
  rewrite (AFR_fin els0 sps0 gas0) in ER; try (apply comp0; lra); try (rewrite deficit0; lra).
  injection ER as ER. rewrite !deficit0 in ER. assert (r = 3 / 2) as R32 by (rewrite <- ER; field). clear ER. subst r.
  destruct I' as (HT&HD&C&S1&E1&E2&E3&E4).
  unfold globalEquivalenceRatio in X. rewrite E3 in X.
  rewrite (o2Required_fin els0 sps0 gas0), (o2Present_fin els0 sps0 gas0) in X by (try (eapply comp_len; eauto); lra).
  cbn [obind] in X. rewrite S1 in X.
  assert (per_kg (mix 2 (3 / 2) (masses sps0 MassBasis [0; 0; 0; 1]) (masses sps0 MassBasis [0; 1; 0; 0])) = [0; 3/7; 0; 4/7]) as EY.
  { unfold per_kg, mix, per_kg. cbn [masses map map2 rsum]. repeat (apply f_equal2; [field|]); reflexivity. }
  rewrite EY in X.
  assert (demand els0 sps0 [0; 3/7; 0; 4/7] = 1/28) as ED.
  { unfold demand, kmol_of, atoms. cbn [elementIndex els0 find_name String.eqb Ascii.eqb Bool.eqb option_map map2 sps0 sp_w sp_at at4 rsum]. field. }
  assert (supply els0 sps0 [0; 3/7; 0; 4/7] = 5/224) as ES.
  { unfold supply, kmol_of, atoms. cbn [elementIndex els0 find_name String.eqb Ascii.eqb Bool.eqb option_map map2 sps0 sp_w sp_at at4 rsum]. field. }
  rewrite ED, ES in X. rewrite feqb_fin_ne in X by lra. rewrite fdiv_fin in X by lra. injection X as X. lra.
Qed.

(** "An equivalence ratio of zero is pure oxidizer": not when the fuel needs no oxygen (nitrogen with
    oxygen): the composition becomes NaN. *)
Theorem C63_zero_phi_refuted :
  ~ (forall c f o, in_state sps0 c 300 1 Y0 -> composition sps0 f -> composition sps0 o ->
       0 <= deficit els0 sps0 f -> deficit els0 sps0 o < 0 ->
       s_Y (snd (setEquivalenceRatio els0 sps0 c (Fin 0) (map Fin f) (map Fin o) MassBasis)) = map Fin (per_kg o)).
Proof.
  intros H.
  assert (s_Y (snd (setEquivalenceRatio els0 sps0 c0 (Fin 0) (map Fin [0; 0; 1; 0]) (map Fin [0; 1; 0; 0]) MassBasis))
    = map Fin (per_kg [0; 1; 0; 0])) as X.
  { apply H; try exact state0; try (apply comp0; lra); rewrite deficit0; lra. }
  unfold setEquivalenceRatio in X. rewrite fltb_ge in X by lra. cbv zeta in X. cbn [toMass before] in X.
  rewrite (AFR_fin els0 sps0 gas0) in X; try (apply comp0; lra); try (rewrite deficit0; lra).
  cbn [before] in X. rewrite (blend_fin sps0) in X by (apply comp0; lra).
  assert (deficit els0 sps0 [0; 0; 1; 0] / - deficit els0 sps0 [0; 1; 0; 0] = 0) as Z by (rewrite !deficit0; field).
  rewrite Z in X.
  assert (mix 0 0 [0; 0; 1; 0] [0; 1; 0; 0] = [0; 0; 0; 0]) as M.
  { unfold mix, per_kg. cbn [map map2 rsum]. repeat (apply f_equal2; [field|]); reflexivity. }
  rewrite M in X.
  assert (setY sps0 c0 (map Fin [0; 0; 0; 0]) =
    (Ok tt, mk_st (Fin 300) (Fin 1) (Fin 0) [NaN; NaN; NaN; NaN] [NaN; NaN; NaN; NaN] NaN 1)) as SY.
  { unfold setY, setMassFractions. cbv zeta. rewrite clip_fin, clip_nn by (apply comp0 with (a := 0) (d := 1) || (repeat (apply Forall_cons; [lra|]); apply Forall_nil)).
    rewrite fsum_fin. replace (rsum [0; 0; 0; 0]) with 0 by (simpl; lra).
    assert (fdiv (Fin 1) (Fin 0) = PInf) as F.
    { cbn [fdiv]. assert (reqb 0 0 = true) as -> by now apply reqb_true. unfold sinf.
      assert (rltb 0 1 = true) as -> by (apply rltb_true; lra). reflexivity. }
    rewrite F. unfold scale. cbn [map fmul]. unfold sinf.
    assert (rltb 0 0 = false) as -> by (apply rltb_false; lra). reflexivity. }
  rewrite SY in X. unfold andthen in X. cbn [fst snd] in X. rewrite setP_nan in X by reflexivity. cbn [snd s_Y] in X.
  discriminate X.
Qed.

Print Assumptions C63_stoich.
Print Assumptions C63_phi_round_trip.
Print Assumptions C63_z_round_trip.
Print Assumptions C63_phi_and_z.
Print Assumptions C63_proportions.
Print Assumptions C63_reaction_invariant.
Print Assumptions C63_range.
Print Assumptions C63_rejected.
Print Assumptions C63_global_phi.
Print Assumptions C63_inert_oxidizer.
Print Assumptions C63_failure_keeps_state_refuted.
Print Assumptions C63_global_phi_refuted.
Print Assumptions C63_zero_phi_refuted.
