From Coq Require Import Reals Lra Lia List Bool Arith.
From Verif Require Import Base.RSum Base.Map2 Base.Fp Base.Outcome Phase.CompModel Phase.CompSpec Phase.CompProofs.
Import ListNotations.
Open Scope R_scope.

Lemma positive_iff v : fltb (Fin 0) v = true <-> positive v.
Proof. destruct v; simpl; try apply rltb_true; split; auto; try discriminate; tauto. Qed.
Lemma positive_false v : fltb (Fin 0) v = false <-> ~ positive v.
Proof. rewrite <- positive_iff. destruct (fltb (Fin 0) v); split; intros H; try discriminate; auto. exfalso; auto. Qed.

Lemma some_pos_nonzero l : all_nonneg l -> rsum l <> 0 -> some_pos l.
Proof.
  induction 1 as [|a l Ha H IH]; simpl; intros Hs; [lra|].
  destruct (Req_EM_T a 0) as [->|]; [|left; lra]. right. apply IH. lra.
Qed.

Section Hist.
  Variable mw : list R.
  Variable kd : kind.
  Hypothesis Hmw : all_pos mw.
  Let good := good mw.
  Let comp_of := comp_of mw.
  Let moles_of := moles_of mw.

  Definition mixture (c : st) : Prop := exists n, good n /\ comp_of n c.

  Lemma moles_nn y : all_nonneg y -> all_nonneg (moles_of y).
  Proof.
    intros H. apply Forall_map2. intros a b Ha Hb.
    unfold all_nonneg in H. rewrite Forall_forall in H. specialize (H _ Ha).
    unfold all_pos in Hmw. rewrite Forall_forall in Hmw. specialize (Hmw _ Hb).
    unfold Rdiv. apply Rmult_le_pos; auto. left. now apply Rinv_0_lt_compat.
  Qed.
  Lemma moles_len y : length y = length mw -> length (moles_of y) = length mw.
  Proof. apply map2_length. Qed.
  Lemma moles_pos y : length y = length mw -> all_nonneg y -> some_pos y -> some_pos (moles_of y).
  Proof.
    intros HL Hn Hp. apply some_pos_nonzero; [now apply moles_nn|].
    intros E0.
    assert (forall a, In a (moles_of y) -> a = 0) as Z.
    { clear - E0 Hn Hmw. pose proof (moles_nn y Hn) as H. revert E0 H. generalize (moles_of y).
      induction l as [|a l IH]; simpl; intros E0 H b; [tauto|]. inversion H; subst.
      pose proof (rsum_nonneg l H3). intros [->|Hb]; [lra|]. apply IH; auto. lra. }
    pose proof (wsum_moles mw Hmw y HL) as W.
    pose proof (rsum_pos y Hn Hp) as P. rewrite <- W in P. unfold wsum in P.
    fold (moles_of y) in P.
    assert (rsum (map2 Rmult (moles_of y) mw) = 0); [|lra].
    revert Z. generalize (moles_of y) mw. induction l as [|a l IH]; intros [|m ms] Z; simpl; auto.
    rewrite (Z a) by (simpl; auto). rewrite IH; [lra|]. intros; apply Z; simpl; auto.
  Qed.

  Lemma good_nn n : length n = length mw -> all_nonneg n -> some_pos n -> good n.
  Proof.
    intros HL Hn Hp. split; [auto|]. pose proof (rsum_pos n Hn Hp). pose proof (wsum_pos n mw HL Hn Hp Hmw).
    split; lra.
  Qed.
  Lemma good_clip x : length x = length mw -> some_pos x -> good (clip x).
  Proof. intros. apply good_nn; [now rewrite clip_length|apply clip_nonneg|now apply clip_some_pos]. Qed.
  Lemma good_moles y : length y = length mw -> rsum y = 1 -> rsum (moles_of y) <> 0 -> good (moles_of y).
  Proof.
    intros HL Hs Hm. split; [now apply moles_len|]. split; auto.
    unfold moles_of. rewrite (wsum_moles mw Hmw) by auto. lra.
  Qed.
  Lemma good_moles_nn y : length y = length mw -> all_nonneg y -> some_pos y -> good (moles_of y).
  Proof. intros. apply good_nn; [now apply moles_len|now apply moles_nn|now apply moles_pos]. Qed.

  Lemma same_refl c : same_comp c c. Proof. repeat split. Qed.
  Lemma setT_same c t : same_comp c (snd (setTemperature c t)).
  Proof. unfold setTemperature. destruct (fltb _ _); repeat split. Qed.
  Lemma setD_same c t : same_comp c (snd (setDensity kd c t)).
  Proof. unfold setDensity. destruct (is_compressible kd); simpl negb; try apply same_refl. destruct (fltb _ _); repeat split. Qed.
  Lemma calcD_same c v : same_comp c (snd (calcDensity c v)).
  Proof. unfold calcDensity, assignDensity. match goal with |- context [fltb ?a ?b] => destruct (fltb a b) end; repeat split. Qed.
  Lemma setP_same c t : same_comp c (snd (setPressure kd c t)).
  Proof. unfold setPressure. destruct kd as [|v]; [apply same_refl|]. apply (calcD_same (with_P c t)). Qed.
  Lemma same_trans a b c : same_comp a b -> same_comp b c -> same_comp a c.
  Proof. intros (A1&A2&A3) (B1&B2&B3). repeat split; congruence. Qed.
  Lemma andthen_same r f c : same_comp c (snd r) -> (forall c', same_comp c c' -> same_comp c (snd (f c'))) ->
    same_comp c (snd (andthen r f)).
  Proof. intros A B. unfold andthen. destruct (fst r); auto. Qed.
  Lemma mixture_same c c' : same_comp c c' -> mixture c -> mixture c'.
  Proof. intros S (n&G&C). exists n. split; auto. eapply same_comp_of; eauto. Qed.

  Lemma step_mixture c o : admissible mw o -> mixture c -> mixture (snd (step mw kd c o)).
  Proof.
    destruct o; cbn [step admissible admissible_nonneg]; intros A M.
    - eapply mixture_same; [apply setT_same|auto].
    - eapply mixture_same; [apply setD_same|auto].
    - eapply mixture_same; [apply setP_same|auto].
    - eapply mixture_same; [|exact M]. unfold setState_TD. apply andthen_same; [apply setT_same|].
      intros c' S. eapply same_trans; [exact S|apply setD_same].
    - destruct A as (xs&->&HL&Hp). exists (clip xs). split; [now apply good_clip|]. apply setX_comp; auto. now apply good_clip.
    - destruct A as (xs&->&HL&Hs&Hw). assert (good xs) as G by (repeat split; auto; lra).
      exists xs. split; auto. apply setXn_comp; auto.
    - destruct A as (xs&->&HL&Hp).
      assert (good (moles_of (clip xs))) as G.
      { apply good_moles_nn; [now rewrite clip_length|apply clip_nonneg|now apply clip_some_pos]. }
      exists (moles_of (clip xs)). split; auto. apply setY_comp; auto.
      + pose proof (rsum_pos _ (clip_nonneg xs) (clip_some_pos _ Hp)). lra.
      + apply G.
    - destruct A as (xs&->&HL&Hs&Hw). exists (moles_of xs). split; [now apply good_moles|]. apply setYn_comp; auto.
    - destruct A as (xs&->&HL&Hp). destruct (is_compressible kd) eqn:K.
      + assert (kd = Compressible) as K' by (destruct kd; auto; discriminate).
        exists (clip xs). split; [now apply good_clip|]. apply setC_comp; auto.
        * apply good_clip; auto.
        * apply wsum_pos; auto; [now rewrite clip_length|apply clip_nonneg|now apply clip_some_pos].
      + unfold setConcentrations. rewrite K. exact M.
    - destruct A as (xs&->&HL&Hs&Hw). destruct (is_compressible kd) eqn:K.
      + assert (kd = Compressible) as K' by (destruct kd; auto; discriminate).
        exists xs. split; [repeat split; auto; lra|]. apply setCn_comp; auto.
      + unfold setConcentrationsNoNorm. rewrite K. exact M.
    - destruct A as (xs&->&HL&Hs&Hw). assert (good xs) as G by (repeat split; auto).
      exists xs. split; auto. apply setN_comp; auto.
    - destruct A as (L2&ys&E&HL&Hs&Hm). unfold restoreState.
      destruct (length s <? stateSize mw)%nat; [exact M|].
      rewrite E, firstn_all2 by (rewrite map_length; lia).
      unfold andthen at 1. pose proof (setT_same c (nth 0 s NaN)) as S1.
      destruct (fst (setTemperature c (nth 0 s NaN))); try (eapply mixture_same; [exact S1|exact M]).
      assert (same_comp c (snd (if is_compressible kd then setDensity kd (snd (setTemperature c (nth 0 s NaN))) (nth 1 s NaN)
        else setPressure kd (snd (setTemperature c (nth 0 s NaN))) (nth 1 s NaN)))) as S2.
      { eapply same_trans; [exact S1|]. destruct (is_compressible kd); [apply setD_same|apply setP_same]. }
      unfold andthen at 1.
      match goal with |- context [fst ?r] => destruct (fst r) end; try (eapply mixture_same; [exact S2|exact M]).
      unfold andthen.
      match goal with |- context [setMassFractions_NoNorm mw kd ?c2 _] =>
        pose proof (setYn_comp mw kd Hmw c2 ys HL Hs Hm) as C end.
      match goal with |- context [fst ?r] => destruct (fst r) end;
        (exists (moles_of ys); split; [now apply good_moles|]); auto.
      eapply same_comp_of; [apply changed_same|exact C].
  Qed.

  Lemma run_mixture ops c : Forall (admissible mw) ops -> mixture c -> mixture (run mw kd c ops).
  Proof.
    intros H. revert c. induction H as [|o ops Ho H IH]; intros c M; simpl; auto.
    apply IH. now apply step_mixture.
  Qed.

  Lemma init_n m ms : mw = m :: ms -> let n := 1 :: map (fun _ => 0) ms in
    good n /\ comp_of n (init_state mw kd) /\ all_nonneg n.
  Proof.
    intros E n. rewrite E in Hmw. inversion Hmw; subst x l.
    assert (forall l : list R, rsum (map (fun _ : R => 0) l) = 0) as Z.
    { induction l as [|a l IH]; simpl; auto. rewrite IH. lra. }
    assert (forall l : list R, rsum (map2 Rmult (map (fun _ : R => 0) l) l) = 0) as Z2.
    { induction l as [|a l IH]; simpl; auto. rewrite IH. lra. }
    assert (wsum n mw = m) as W.
    { rewrite E. unfold wsum, n. simpl. rewrite Z2. lra. }
    assert (rsum n = 1) as Sn by (unfold n; simpl; rewrite Z; lra).
    assert (all_nonneg n) as Nn.
    { constructor; [lra|]. apply Forall_map. apply Forall_forall. intros; lra. }
    split; [|split; auto].
    - split; [rewrite E; simpl; now rewrite map_length|]. rewrite W, Sn. split; lra.
    - unfold comp_of, CompProofs.comp_of. rewrite W, Sn. unfold init_state. rewrite E. unfold n.
      cbn [map map2 s_Y s_YM s_mmw].
      assert (m <> 0) as Hm0 by lra. repeat split.
      + f_equal; [f_equal; field; auto|]. clear - Hm0. induction ms as [|a l IH]; simpl; auto. rewrite IH. f_equal. f_equal. unfold Rdiv. ring.
      + f_equal. rewrite !map_map. apply map_ext. intros. f_equal. unfold Rdiv. ring.
      + rewrite fdiv_fin. { f_equal. field. auto. }
        unfold Rdiv. rewrite Rmult_1_l. now apply Rinv_neq_0_compat.
  Qed.
  Lemma init_mixture : mw <> [] -> mixture (init_state mw kd).
  Proof.
    intros H. assert (exists m ms, mw = m :: ms) as (m&ms&E) by (clear - H; destruct mw as [|m ms]; [congruence|eauto]).
    destruct (init_n m ms E) as (A&B&_). eexists; split; eauto.
  Qed.

  (** Temperature and density stay positive. *)
  Lemma setT_pos c t : positive (s_T c) -> positive (s_T (snd (setTemperature c t))).
  Proof. unfold setTemperature. destruct (fltb (Fin 0) t) eqn:E; auto. intros _. simpl. now apply positive_iff. Qed.
  Definition TDpos c := positive (s_T c) /\ positive (s_D c).
  Lemma setT_TD c t : TDpos c -> TDpos (snd (setTemperature c t)).
  Proof. intros (A&B). unfold setTemperature. destruct (fltb (Fin 0) t) eqn:E; split; auto. simpl. now apply positive_iff. Qed.
  Lemma setD_TD c t : TDpos c -> TDpos (snd (setDensity kd c t)).
  Proof.
    intros (A&B). unfold setDensity. destruct (negb _); [split; auto|].
    destruct (fltb (Fin 0) t) eqn:E; split; auto. simpl. now apply positive_iff.
  Qed.
  Lemma calcD_TD c v : TDpos c -> TDpos (snd (calcDensity c v)).
  Proof.
    intros (A&B). unfold calcDensity, assignDensity.
    match goal with |- context [fltb ?a ?b] => destruct (fltb a b) eqn:E end; split; auto.
    now apply positive_iff in E.
  Qed.
  Lemma changed_TD c : TDpos c -> TDpos (snd (compositionChanged kd c)).
  Proof. intros H. unfold compositionChanged. destruct kd; [exact H|]. apply calcD_TD. exact H. Qed.
  Lemma setP_TD c t : TDpos c -> TDpos (snd (setPressure kd c t)).
  Proof. intros H. unfold setPressure. destruct kd; [exact H|]. apply calcD_TD. exact H. Qed.
  Lemma andthen_TD r f : TDpos (snd r) -> (forall c', TDpos c' -> TDpos (snd (f c'))) -> TDpos (snd (andthen r f)).
  Proof. intros A B. unfold andthen. destruct (fst r); auto. Qed.

  Lemma step_TD c o : TDpos c -> TDpos (snd (step mw kd c o)).
  Proof.
    intros H. destruct o; simpl.
    - now apply setT_TD.
    - now apply setD_TD.
    - now apply setP_TD.
    - apply andthen_TD; [now apply setT_TD|]. intros; now apply setD_TD.
    - apply changed_TD. exact H.
    - apply changed_TD. exact H.
    - apply changed_TD. exact H.
    - apply changed_TD. exact H.
    - unfold setConcentrations. destruct (negb _); [exact H|].
      apply andthen_TD; [apply setD_TD; exact H|]. intros c' H'. apply changed_TD. exact H'.
    - unfold setConcentrationsNoNorm. destruct (negb _); [exact H|].
      apply andthen_TD; [apply setD_TD; exact H|]. intros c' H'. apply changed_TD. exact H'.
    - apply changed_TD. exact H.
    - unfold restoreState. destruct (_ <? _)%nat; [exact H|].
      apply andthen_TD; [now apply setT_TD|]. intros c1 H1.
      apply andthen_TD; [destruct (is_compressible kd); [now apply setD_TD|now apply setP_TD]|]. intros c2 H2.
      apply andthen_TD; [apply changed_TD; exact H2|]. intros c3 H3. now apply changed_TD.
  Qed.
  Lemma run_TD ops c : TDpos c -> TDpos (run mw kd c ops).
  Proof. revert c. induction ops as [|o ops IH]; intros c H; simpl; auto. apply IH. now apply step_TD. Qed.
End Hist.

(** * Saving and restoring *)
Definition same_obs (mw : list R) (c c' : st) : Prop :=
  temperature c' = temperature c /\ density c' = density c /\
  getMoleFractions c' = getMoleFractions c /\ getMassFractions c' = getMassFractions c /\
  meanMolecularWeight c' = meanMolecularWeight c /\ getConcentrations c' = getConcentrations c /\
  concentrations1 mw c' = concentrations1 mw c /\ molarDensity c' = molarDensity c.

Lemma same_obs_of mw c c' : same_comp c c' -> s_T c' = s_T c -> s_D c' = s_D c -> same_obs mw c c'.
Proof.
  intros (A&B&C) D E. unfold same_obs, temperature, density, getMoleFractions, getMassFractions, meanMolecularWeight,
    getConcentrations, concentrations1, molarDensity. rewrite A, B, C, D, E. repeat split.
Qed.

Lemma mixture_len mw c : mixture mw c -> length (s_Y c) = length mw.
Proof. intros (n&(HL&_)&(A&_)). rewrite A, map_length. now apply map2_length. Qed.

(** Setting the mass fractions of a mixture as they were read. *)
Lemma setYn_readback mw kd c c2 : all_pos mw -> mixture mw c ->
  same_comp c (snd (setMassFractions_NoNorm mw kd c2 (s_Y c))).
Proof.
  intros Hmw (n&G&A&B&C). destruct G as (HL&Hn&Hw).
  unfold setMassFractions_NoNorm. eapply same_trans; [|apply changed_same].
  rewrite A, mulrmw, fsum_fin by auto. rewrite map2_map2_l.
  rewrite (map2_ext (fun a b => a * b / wsum n mw / b) (fun a _ => a / wsum n mw)).
  2:{ intros a b _ Hb. field. split; auto. eapply mw_nz; eauto. }
  rewrite (rsum_map2_div (fun a _ => a)), map2_fst by auto.
  rewrite fdiv_fin. 2:{ unfold Rdiv. apply Rmult_integral_contrapositive_currified; auto. now apply Rinv_neq_0_compat. }
  unfold same_comp. simpl. rewrite A, B, C. repeat split.
  - f_equal. rewrite <- (map2_map_l (fun a _ => a) (fun v => v / wsum n mw)). now rewrite map2_fst by (rewrite map_length; auto).
  - f_equal. field. auto.
Qed.

Lemma restore_compressible mw c c2 : all_pos mw -> mixture mw c -> TDpos c ->
  let r := restoreState mw Compressible c2 (saveState Compressible c) in
  fst r = Ok tt /\ same_obs mw c (snd r).
Proof.
  intros Hmw M (HT&HD) r. unfold r, restoreState, saveState, temperature, density, getMassFractions.
  pose proof (mixture_len _ _ M) as HL.
  cbn [is_compressible length nth skipn]. unfold stateSize.
  replace (S (S (length (s_Y c))) <? length mw + 2)%nat with false by (symmetry; apply Nat.ltb_ge; lia).
  rewrite firstn_all2 by lia.
  unfold setTemperature. rewrite (proj2 (positive_iff _) HT). cbn [andthen fst snd].
  unfold setDensity. cbn [is_compressible negb]. rewrite (proj2 (positive_iff _) HD). cbn [andthen fst snd].
  set (c3 := with_D _ _).
  pose proof (setYn_readback mw Compressible c c3 Hmw M) as S.
  split; [reflexivity|]. apply same_obs_of; try reflexivity. exact S.
Qed.

(** Incompressible phases. *)
Section Solid.
  Variable mw v : list R.
  Hypothesis Hmw : all_pos mw.
  Hypothesis Hv : all_pos v.
  Hypothesis HLv : length v = length mw.
  Let kd := SolidSoln v.

  Lemma calcDensity_ok n c : good mw n -> all_nonneg n -> comp_of mw n c ->
    calcDensity c v = (Ok tt, with_D c (Fin (wsum n mw / wsum n v))).
  Proof.
    intros (HL&Hn&Hw) Nn (A&B&C). unfold calcDensity, mean_X. rewrite B, C.
    assert (some_pos n) as Pn by (apply some_pos_nonzero; auto).
    pose proof (rsum_pos n Nn Pn). pose proof (wsum_pos n mw HL Nn Pn Hmw).
    pose proof (wsum_pos n v ltac:(lia) Nn Pn Hv).
    rewrite map2_map_l, map2_map_l, map2_map_r.
    replace (map2 (fun a b => fmul (Fin (a / wsum n mw)) (Fin b)) n v)
      with (map Fin (map2 (fun a b => a * b / wsum n mw) n v)).
    2:{ rewrite map_map2. apply map2_ext. intros. simpl. f_equal. unfold Rdiv. ring. }
    rewrite fsum_fin, (rsum_map2_div Rmult). fold (wsum n v). cbn [fmul].
    assert (wsum n mw / rsum n * (wsum n v / wsum n mw) = wsum n v / rsum n) as E by (field; lra).
    rewrite E. rewrite fdiv_fin.
    2:{ unfold Rdiv. apply Rmult_integral_contrapositive_currified; [lra|]. apply Rinv_neq_0_compat. lra. }
    replace (wsum n mw / rsum n / (wsum n v / rsum n)) with (wsum n mw / wsum n v) by (field; lra).
    unfold assignDensity. cbn [fltb].
    rewrite (proj2 (rltb_true _ _)); [reflexivity|]. apply Rdiv_lt_0_compat; auto.
  Qed.

  Definition solid_inv (c : st) : Prop :=
    exists n, good mw n /\ all_nonneg n /\ comp_of mw n c /\ s_D c = Fin (wsum n mw / wsum n v).

  Lemma solid_changed n c : good mw n -> all_nonneg n -> comp_of mw n (snd (compositionChanged kd c)) ->
    fst (compositionChanged kd c) = Ok tt /\ solid_inv (snd (compositionChanged kd c)) /\
    s_T (snd (compositionChanged kd c)) = s_T c /\ s_P (snd (compositionChanged kd c)) = s_P c.
  Proof.
    intros G Nn C. pose proof (changed_same kd c) as S.
    assert (comp_of mw n c) as C0.
    { eapply same_comp_of; [|exact C]. destruct S as (S1&S2&S3). repeat split; congruence. }
    unfold compositionChanged, kd. rewrite (calcDensity_ok n) by auto.
    split; [reflexivity|]. split; [|split; reflexivity].
    exists n. split; [exact G|]. split; [exact Nn|]. split; [exact C0|reflexivity].
  Qed.

  Lemma nn_rsum1 y : all_nonneg y -> rsum y = 1 -> some_pos y.
  Proof. intros. apply some_pos_nonzero; auto. lra. Qed.

  Lemma solid_step c o : admissible_nonneg mw o -> solid_inv c -> solid_inv (snd (step mw kd c o)).
  Proof.
    assert (forall c t, solid_inv c -> solid_inv (snd (setTemperature c t))) as HsT.
    { intros c0 t0 H. unfold setTemperature. destruct (fltb _ _); auto. }
    assert (forall c t, solid_inv c -> solid_inv (snd (setPressure kd c t)) /\ fst (setPressure kd c t) = Ok tt) as HsP.
    { intros c0 t0 (n&G&Nn&C&D). unfold setPressure, kd. rewrite (calcDensity_ok n) by auto. split; [|reflexivity].
      exists n. repeat (split; auto); try apply G; try apply C. }
    destruct o; cbn [step admissible admissible_nonneg]; intros A M.
    - auto.
    - exact M.
    - apply HsP; auto.
    - unfold setState_TD, andthen. destruct (fst _); auto. unfold setDensity, kd. simpl. now apply HsT.
    - destruct A as (xs&->&HL&Hp). eapply solid_changed; [apply (good_clip mw Hmw xs); auto|apply clip_nonneg|].
      apply setX_comp; auto. now apply good_clip.
    - destruct A as (xs&->&HL&Hn&Hs). assert (good mw xs) as G by (apply good_nn; auto; now apply nn_rsum1).
      eapply solid_changed; [exact G|auto|]. apply setXn_comp; auto.
    - destruct A as (xs&->&HL&Hp).
      assert (good mw (moles_of mw (clip xs))) as G.
      { apply good_moles_nn; auto; [now rewrite clip_length|apply clip_nonneg|now apply clip_some_pos]. }
      eapply solid_changed; [exact G|apply moles_nn; auto; apply clip_nonneg|]. apply setY_comp; auto.
      + pose proof (rsum_pos _ (clip_nonneg xs) (clip_some_pos _ Hp)). lra.
      + apply G.
    - destruct A as (xs&->&HL&Hn&Hs). assert (good mw (moles_of mw xs)) as G by (apply good_moles_nn; auto; now apply nn_rsum1).
      eapply solid_changed; [exact G|now apply moles_nn|]. apply setYn_comp; auto. apply G.
    - exact M.
    - exact M.
    - destruct A as (xs&->&HL&Hn&Hp). assert (good mw xs) as G by (apply good_nn; auto).
      eapply solid_changed; [exact G|auto|]. apply setN_comp; auto.
    - destruct A as (L2&ys&E&HL&Hn&Hs). unfold restoreState.
      destruct (length s <? stateSize mw)%nat; [exact M|].
      rewrite E, firstn_all2 by (rewrite map_length; lia).
      unfold andthen at 1. pose proof (HsT c (nth 0 s NaN) M) as M1.
      destruct (fst (setTemperature c (nth 0 s NaN))); auto.
      cbn [is_compressible kd]. destruct (HsP _ (nth 1 s NaN) M1) as (M2&E2).
      unfold andthen at 1. fold kd. rewrite E2.
      assert (good mw (moles_of mw ys)) as G by (apply good_moles_nn; auto; now apply nn_rsum1).
      match goal with |- context [setMassFractions_NoNorm mw kd ?c2 _] =>
        pose proof (setYn_comp mw kd Hmw c2 ys HL Hs (proj1 (proj2 G))) as C;
        pose proof (solid_changed _ _ G (moles_nn mw Hmw ys Hn) C) as S end.
      unfold andthen. destruct S as (S1&S2&_&_). unfold setMassFractions_NoNorm in *. rewrite S1.
      eapply solid_changed; [exact G|now apply moles_nn|].
      eapply same_comp_of; [apply changed_same|exact C].
  Qed.
  Lemma solid_run ops c : Forall (admissible_nonneg mw) ops -> solid_inv c -> solid_inv (run mw kd c ops).
  Proof. intros H. revert c. induction H; intros c M; simpl; auto. apply IHForall. now apply solid_step. Qed.
  Lemma solid_init : mw <> [] -> solid_inv (init_state mw kd).
  Proof.
    intros H. assert (exists m ms, mw = m :: ms) as (m&ms&E) by (clear - H; destruct mw as [|m ms]; [congruence|eauto]).
    destruct (init_n mw kd Hmw m ms E) as (A&B&C). eexists. split; [exact A|]. split; [exact C|]. split; [exact B|].
    unfold init_state, kd. assert (exists v0 vs, v = v0 :: vs) as (v0&vs&Ev).
    { clear - HLv E. rewrite E in HLv. destruct v; [discriminate|eauto]. }
    rewrite E, Ev. simpl. f_equal.
    unfold wsum. simpl.
    assert (forall l l' : list R, rsum (map2 Rmult (map (fun _ : R => 0) l) l') = 0) as Z2.
    { induction l as [|a l IH]; intros [|b l']; simpl; auto. rewrite IH. lra. }
    rewrite !Z2. f_equal; lra || (f_equal; lra).
  Qed.

  Lemma restore_solid c c2 : solid_inv c -> TDpos c -> solid_inv c2 ->
    let r := restoreState mw kd c2 (saveState kd c) in
    fst r = Ok tt /\ same_obs mw c (snd r) /\ pressure (snd r) = pressure c.
  Proof.
    intros I (HT&HD) I2 r. destruct I as (n&G&Nn&C&D).
    assert (mixture mw c) as M by (exists n; auto).
    pose proof (mixture_len _ _ M) as HL.
    unfold r, restoreState, saveState, temperature, pressure, getMassFractions.
    cbn [is_compressible length nth skipn kd]. unfold stateSize.
    replace (S (S (length (s_Y c))) <? length mw + 2)%nat with false by (symmetry; apply Nat.ltb_ge; lia).
    rewrite firstn_all2 by lia.
    unfold setTemperature. rewrite (proj2 (positive_iff _) HT). cbn [andthen fst snd].
    change (setPressure kd) with (fun c p => calcDensity (with_P c p) v). cbv beta.
    destruct I2 as (n2&G2&Nn2&C2&D2).
    rewrite (calcDensity_ok n2) by auto. cbn [andthen fst snd].
    set (c3 := with_D _ _).
    pose proof (setYn_readback mw kd c c3 Hmw M) as S.
    assert (comp_of mw n (snd (setMassFractions_NoNorm mw kd c3 (s_Y c)))) as C3 by (eapply same_comp_of; eauto).
    pose proof (solid_changed n _ G Nn C3) as (S1&S2&S3&S4). fold (setMassFractions_NoNorm mw kd c3 (s_Y c)) in *.
    unfold andthen. rewrite S1.
    set (c4 := snd (setMassFractions_NoNorm mw kd c3 (s_Y c))) in *.
    assert (comp_of mw n (bump c4)) as C4 by exact C3.
    unfold compositionChanged, kd. rewrite (calcDensity_ok n) by auto. cbn [fst snd].
    split; [reflexivity|]. split.
    - apply same_obs_of; [exact S| |].
      + exact S3.
      + simpl. now rewrite D.
    - exact S4.
  Qed.
End Solid.
