From Coq Require Import Reals Lra Lia List Bool Arith.
From Verif Require Import Base.RSum Base.Map2 Base.Fp Base.Outcome Phase.CompModel Phase.CompSpec.
Import ListNotations.
Open Scope R_scope.

(** * Lifting finite arithmetic *)
Lemma fold_fadd l a : fold_left fadd (map Fin l) (Fin a) = Fin (a + rsum l).
Proof.
  revert a. induction l as [|x l IH]; intros a; simpl; [f_equal; lra|].
  rewrite IH. f_equal. lra.
Qed.
Lemma fsum_fin l : fsum (map Fin l) = Fin (rsum l).
Proof. unfold fsum. rewrite fold_fadd. f_equal. lra. Qed.
Lemma scale_fin l f : scale (map Fin l) (Fin f) = map Fin (map (fun v => v * f) l).
Proof. unfold scale. rewrite !map_map. reflexivity. Qed.
Lemma mulmw_fin l m :
  map2 (fun v m => fmul v (Fin m)) (map Fin l) m = map Fin (map2 Rmult l m).
Proof. rewrite map2_map_l, map_map2. reflexivity. Qed.
Lemma mulmw_fin' l m :
  map2 (fun m v => fmul (Fin m) v) m (map Fin l) = map Fin (map2 Rmult m l).
Proof. rewrite map2_map_r, map_map2. reflexivity. Qed.
Lemma clip_fin l : map (fun v => fmax v (Fin 0)) (map Fin l) = map Fin (clip l).
Proof. unfold clip. rewrite !map_map. apply map_ext. intros. apply fmax_fin. Qed.
Lemma map_Fin_inj l l' : map Fin l = map Fin l' -> l = l'.
Proof.
  revert l'. induction l as [|a l IH]; intros [|b l'] H; simpl in *; try discriminate; auto.
  injection H. intros. f_equal; auto.
Qed.

Lemma rsum_map_div l c : rsum (map (fun v => v / c) l) = rsum l / c.
Proof. unfold Rdiv. induction l as [|a l IH]; simpl; [lra|rewrite IH; lra]. Qed.
Lemma rsum_map2_div {A B} (f : A -> B -> R) l m c :
  rsum (map2 (fun a b => f a b / c) l m) = rsum (map2 f l m) / c.
Proof.
  rewrite <- (map_map2 (fun v => v / c) f). apply rsum_map_div.
Qed.
Lemma wsum_comm a b : wsum a b = wsum b a.
Proof. unfold wsum. rewrite map2_swap. f_equal. apply map2_ext. intros; lra. Qed.
Lemma rsum_nonneg l : all_nonneg l -> 0 <= rsum l.
Proof. induction 1; simpl; lra. Qed.
Lemma rsum_pos l : all_nonneg l -> some_pos l -> 0 < rsum l.
Proof.
  intros H E. induction E as [x l Hx|x l E IH]; simpl; inversion H; subst.
  - pose proof (rsum_nonneg l H3). lra.
  - specialize (IH H3). lra.
Qed.
Lemma clip_nonneg l : all_nonneg (clip l).
Proof. unfold all_nonneg, clip. apply Forall_map. apply Forall_forall. intros. apply Rmax_r. Qed.
Lemma clip_some_pos l : some_pos l -> some_pos (clip l).
Proof.
  unfold some_pos, clip. induction 1; simpl.
  - left. eapply Rlt_le_trans; [eassumption|apply Rmax_l].
  - right. assumption.
Qed.
Lemma clip_nn l : all_nonneg l -> clip l = l.
Proof. induction 1; simpl; auto. rewrite Rmax_left by lra. now rewrite IHForall. Qed.
Lemma clip_length l : length (clip l) = length l.
Proof. apply map_length. Qed.
Lemma wsum_nonneg l m : all_nonneg l -> all_nonneg m -> 0 <= wsum l m.
Proof.
  intros H. unfold wsum. revert m. induction H as [|a l Ha H IH]; intros [|b m] Hm; simpl; try lra.
  inversion Hm; subst. specialize (IH m H3). pose proof (Rmult_le_pos a b). lra.
Qed.
Lemma all_pos_nonneg m : all_pos m -> all_nonneg m.
Proof. intros H. eapply Forall_impl; [|exact H]. intros; simpl in *; lra. Qed.
Lemma wsum_pos l m : length l = length m -> all_nonneg l -> some_pos l -> all_pos m -> 0 < wsum l m.
Proof.
  unfold wsum. intros HL Hn E. revert m HL. induction E as [x l Hx|x l E IH]; intros [|b m] HL Hm; simpl in *; try discriminate.
  - inversion Hn; inversion Hm; subst. pose proof (wsum_nonneg l m H2 (all_pos_nonneg _ H6)).
    unfold wsum in H. pose proof (Rmult_lt_0_compat x b). lra.
  - inversion Hn; inversion Hm; subst. specialize (IH H2 m ltac:(lia) H6).
    pose proof (Rmult_le_pos x b). lra.
Qed.
Lemma pos_nz l : all_pos l -> Forall (fun m => m <> 0) l.
Proof. intros H. eapply Forall_impl; [|exact H]. intros; simpl in *; lra. Qed.

Section Comp.
  Variable mw : list R.
  Variable kd : kind.
  Hypothesis Hmw : all_pos mw.

  Lemma mw_nz b : In b mw -> b <> 0.
  Proof. intros H. unfold all_pos in Hmw. rewrite Forall_forall in Hmw. specialize (Hmw _ H). lra. Qed.

  (** The composition part of the state is that of a mixture with mole numbers [n]. *)
  Definition comp_of (n : list R) (c : st) : Prop :=
    s_Y c = map Fin (map2 (fun a m => a * m / wsum n mw) n mw) /\
    s_YM c = map Fin (map (fun a => a / wsum n mw) n) /\
    s_mmw c = Fin (wsum n mw / rsum n).
  Definition good (n : list R) : Prop :=
    length n = length mw /\ rsum n <> 0 /\ wsum n mw <> 0.

  Definition same_comp (c c' : st) : Prop :=
    s_Y c' = s_Y c /\ s_YM c' = s_YM c /\ s_mmw c' = s_mmw c.

  Lemma same_comp_of n c c' : same_comp c c' -> comp_of n c -> comp_of n c'.
  Proof. intros (A&B&C) (D&E&F). unfold comp_of. rewrite A, B, C. auto. Qed.

  Lemma changed_same c : same_comp c (snd (compositionChanged kd c)).
  Proof.
    unfold compositionChanged, calcDensity, assignDensity, same_comp. destruct kd as [|v]; [simpl; auto|].
    match goal with |- context [fltb ?a ?b] => destruct (fltb a b) end; simpl; auto.
  Qed.

  Definition X_of n := map (fun a => a / rsum n) n.
  Definition Y_of n := map2 (fun a m => a * m / wsum n mw) n mw.
  Definition mb_of n := wsum n mw / rsum n.

  Lemma comp_of_getX n c : good n -> comp_of n c -> getMoleFractions c = map Fin (X_of n).
  Proof.
    intros (HL&Hn&Hw) (A&B&C). unfold getMoleFractions. rewrite B, C, scale_fin, map_map.
    unfold X_of. rewrite map_map. rewrite map_map. apply map_ext. intros a. f_equal. field. auto.
  Qed.
  Lemma comp_of_getY n c : comp_of n c -> getMassFractions c = map Fin (Y_of n).
  Proof. intros (A&B&C). exact A. Qed.

  Lemma mixture_of n : good n -> same_mixture mw (X_of n) (Y_of n) (mb_of n).
  Proof.
    intros (HL&Hn&Hw). unfold X_of, Y_of, mb_of. split.
    - rewrite map_length. auto.
    - now apply map2_length.
    - rewrite rsum_map_div. field. auto.
    - rewrite (rsum_map2_div Rmult). fold (wsum n mw). field. auto.
    - intros k Hk. rewrite (map2_nth _ 0 0) by auto.
      rewrite (nth_indep _ 0 (0 / rsum n)) by (rewrite map_length; lia).
      rewrite (map_nth (fun a => a / rsum n)). field. repeat split; auto.
      apply mw_nz. apply nth_In. auto.
    - unfold wsum at 2. rewrite map2_map_l.
      rewrite (map2_ext _ (fun a b => (a * b) / rsum n)) by (intros; field; auto).
      rewrite (rsum_map2_div Rmult). reflexivity.
    - rewrite map2_map2_l.
      rewrite (map2_ext _ (fun a b => a / wsum n mw)).
      2:{ intros a b _ Hb. field. split; auto. now apply mw_nz. }
      rewrite (rsum_map2_div (fun a _ => a)). rewrite map2_fst by auto.
      field. auto.
  Qed.

  Definition coherent (c : st) : Prop :=
    exists X Y mb, getMoleFractions c = map Fin X /\ getMassFractions c = map Fin Y /\
      meanMolecularWeight c = Fin mb /\ same_mixture mw X Y mb.

  Lemma comp_of_coherent n c : good n -> comp_of n c -> coherent c.
  Proof.
    intros G H. exists (X_of n), (Y_of n), (mb_of n).
    split; [|split; [|split]].
    - apply comp_of_getX; auto.
    - apply H.
    - apply H.
    - apply mixture_of; auto.
  Qed.

  (** Every coherent state is one of these. *)
  Lemma coherent_comp_of c : coherent c -> length (s_YM c) = length mw ->
    exists n, good n /\ comp_of n c /\ getMoleFractions c = map Fin n /\ rsum n = 1.
  Proof.
    intros (X&Y&mb&HX&HY&Hm&S) HL.
    assert (mb <> 0) as Hmb.
    { intros ->. destruct S as [sm_lenX0 sm_lenY0 sm_sumX0 sm_sumY0 sm_rel0 sm_mean0 sm_harm0]. assert (forall v, In v X -> v = 0) as E0.
      { intros v Hv. apply (In_nth _ _ 0) in Hv. destruct Hv as (k&Hk&<-).
        rewrite sm_rel0 by lia. unfold Rdiv. ring. }
      clear - sm_sumX0 E0. assert (rsum X = 0); [|lra]. clear sm_sumX0.
      induction X as [|a X IH]; simpl; auto. rewrite (E0 a), IH; [lra| |]; intros; simpl; auto. apply E0. now right. }
    assert (wsum X mw = mb) as EW by (destruct S; auto).
    exists X. destruct S as [sm_lenX0 sm_lenY0 sm_sumX0 sm_sumY0 sm_rel0 sm_mean0 sm_harm0]. split; [|split; [|split]]; auto.
    - repeat split; auto; lra.
    - unfold getMassFractions in HY. unfold meanMolecularWeight in Hm.
      unfold comp_of. rewrite EW, HY, Hm, sm_sumX0. repeat split.
      + f_equal. apply (nth_ext _ _ 0 0).
        { rewrite map2_length; lia. }
        intros k Hk. rewrite (map2_nth _ 0 0) by lia. rewrite sm_rel0 by lia.
        field. split; auto. apply mw_nz, nth_In. lia.
      + unfold getMoleFractions in HX. rewrite Hm in HX.
        clear - HX Hmb. revert X HX. induction (s_YM c) as [|a l IH]; intros [|x X] HX; simpl in *; try discriminate; auto.
        injection HX as E1 E2. rewrite (IH X) by auto. f_equal.
        destruct a; simpl in E1; try discriminate.
        * injection E1 as <-. f_equal. field. auto.
        * unfold sinf in E1. destruct (rltb 0 mb), (rltb mb 0); discriminate.
        * unfold sinf in E1. destruct (rltb 0 mb), (rltb mb 0); discriminate.
      + f_equal. field.
  Qed.

  (** * The setters *)
  Lemma snd_changed_comp n c : comp_of n c -> comp_of n (snd (compositionChanged kd c)).
  Proof. apply same_comp_of, changed_same. Qed.

  Lemma setX_comp c x : length x = length mw -> good (clip x) ->
    comp_of (clip x) (snd (setMoleFractions mw kd c (map Fin x))).
  Proof.
    intros HL (HL'&Hn&Hw). unfold setMoleFractions. apply snd_changed_comp.
    rewrite clip_fin, mulmw_fin', !fsum_fin.
    fold (wsum mw (clip x)). rewrite (wsum_comm mw).
    rewrite !fdiv_fin by auto. rewrite scale_fin, mulmw_fin.
    unfold comp_of; simpl. repeat split.
    - f_equal. rewrite map2_map_l. apply map2_ext. intros. field. auto.
    - f_equal. apply map_ext. intros. field. auto.
  Qed.

  Lemma setXn_comp c n : good n -> rsum n = 1 ->
    comp_of n (snd (setMoleFractions_NoNorm mw kd c (map Fin n))).
  Proof.
    intros (HL'&Hn&Hw) Hs. unfold setMoleFractions_NoNorm. apply snd_changed_comp.
    rewrite mulmw_fin, !fsum_fin. fold (wsum n mw).
    rewrite !fdiv_fin by auto. rewrite scale_fin, mulmw_fin.
    unfold comp_of; simpl. rewrite Hs. repeat split.
    - f_equal. rewrite map2_map_l. apply map2_ext. intros. field. auto.
    - f_equal. apply map_ext. intros. field. auto.
    - f_equal. field.
  Qed.

  Definition moles_of (y : list R) := map2 Rdiv y mw.
  Lemma wsum_moles y : length y = length mw -> wsum (moles_of y) mw = rsum y.
  Proof.
    intros HL. unfold wsum, moles_of. rewrite map2_map2_l.
    rewrite (map2_ext _ (fun a _ => a)). 2:{ intros. field. now apply mw_nz. }
    now rewrite map2_fst.
  Qed.

  Lemma mulrmw l : map2 (fun v m => fmul v (Fin m)) (map Fin l) (rmw mw) = map Fin (map2 Rdiv l mw).
  Proof.
    unfold rmw. rewrite mulmw_fin, map2_map_r. f_equal. apply map2_ext. intros. field. now apply mw_nz.
  Qed.

  Lemma moles_scale y s : moles_of (map (fun v => v / s) y) = map (fun v => v / s) (moles_of y).
  Proof.
    unfold moles_of. rewrite map2_map_l, map_map2. apply map2_ext. intros. unfold Rdiv. ring.
  Qed.

  Lemma setYn_comp c y : length y = length mw -> rsum y = 1 -> rsum (moles_of y) <> 0 ->
    comp_of (moles_of y) (snd (setMassFractions_NoNorm mw kd c (map Fin y))).
  Proof.
    intros HL Hs Hm. unfold setMassFractions_NoNorm. apply snd_changed_comp.
    rewrite mulrmw, fsum_fin. fold (moles_of y). rewrite fdiv_fin by auto.
    unfold comp_of; simpl. rewrite wsum_moles, Hs by auto. repeat split.
    - f_equal. unfold moles_of. rewrite map2_map2_l.
      rewrite (map2_ext _ (fun a _ => a)). 2:{ intros. field. now apply mw_nz. }
      now rewrite map2_fst.
    - f_equal. rewrite <- (map_id (moles_of y)) at 1. apply map_ext. intros. field.
  Qed.

  Lemma setY_comp c y : length y = length mw -> rsum (clip y) <> 0 -> rsum (moles_of (clip y)) <> 0 ->
    comp_of (moles_of (clip y)) (snd (setMassFractions mw kd c (map Fin y))).
  Proof.
    intros HL Hs Hm. unfold setMassFractions. apply snd_changed_comp.
    rewrite clip_fin, fsum_fin, fdiv_fin, scale_fin, mulrmw, fsum_fin by auto.
    set (y1 := map (fun v => v * (1 / rsum (clip y))) (clip y)).
    assert (map2 Rdiv y1 mw = map (fun v => v / rsum (clip y)) (moles_of (clip y))) as E1.
    { rewrite <- moles_scale. unfold moles_of, y1. f_equal. apply map_ext. intros. unfold Rdiv. ring. }
    rewrite E1. rewrite rsum_map_div. rewrite fdiv_fin.
    2:{ unfold Rdiv. apply Rmult_integral_contrapositive_currified; auto. now apply Rinv_neq_0_compat. }
    unfold comp_of; simpl. rewrite wsum_moles by (rewrite clip_length; auto). repeat split.
    - f_equal. unfold moles_of. rewrite map2_map2_l. unfold y1.
      rewrite (map2_ext _ (fun a _ => a / rsum (clip y))). 2:{ intros. field. split; auto. now apply mw_nz. }
      rewrite <- (map2_map_l (fun a _ => a) (fun v => v / rsum (clip y))). rewrite map2_fst by (rewrite map_length, clip_length; auto).
      apply map_ext. intros. unfold Rdiv. ring.
    - f_equal. field. auto.
  Qed.

  Lemma setN_comp c n : good n ->
    comp_of n (snd (setMolesNoTruncate mw kd c (map Fin n))).
  Proof.
    intros (HL&Hn&Hw). unfold setMolesNoTruncate. apply snd_changed_comp.
    rewrite mulmw_fin, !fsum_fin. fold (wsum n mw). rewrite !fdiv_fin by auto.
    cbn [fmul].
    assert (wsum n mw / rsum n * rsum n = wsum n mw) as E by (field; auto).
    rewrite E. rewrite fdiv_fin by auto.
    rewrite !scale_fin. unfold comp_of; simpl. repeat split.
    - f_equal. rewrite map_map2. apply map2_ext. intros. field. auto.
    - f_equal. apply map_ext. intros. field. auto.
  Qed.

  Lemma setC_comp c x : kd = Compressible -> length x = length mw -> rsum (clip x) <> 0 -> 0 < wsum (clip x) mw ->
    fst (setConcentrations mw kd c (map Fin x)) = Ok tt /\
    let c' := snd (setConcentrations mw kd c (map Fin x)) in
    comp_of (clip x) c' /\ s_D c' = Fin (wsum (clip x) mw) /\ s_T c' = s_T c.
  Proof.
    intros -> HL Hs Hw. unfold setConcentrations, setDensity, compositionChanged. cbn [is_compressible negb].
    rewrite clip_fin, mulmw_fin, !fsum_fin. fold (wsum (clip x) mw).
    cbn [fltb]. rewrite (proj2 (rltb_true _ _) Hw). cbn [andthen fst snd].
    rewrite !fdiv_fin by lra. split; [reflexivity|].
    rewrite scale_fin, mulmw_fin. unfold comp_of. simpl. repeat split.
    - f_equal. rewrite map2_map_l. apply map2_ext. intros. field. lra.
    - f_equal. apply map_ext. intros. field. lra.
  Qed.

  Lemma setCn_comp c x : kd = Compressible -> length x = length mw -> rsum x <> 0 -> 0 < wsum x mw ->
    fst (setConcentrationsNoNorm mw kd c (map Fin x)) = Ok tt /\
    let c' := snd (setConcentrationsNoNorm mw kd c (map Fin x)) in
    comp_of x c' /\ s_D c' = Fin (wsum x mw) /\ s_T c' = s_T c.
  Proof.
    intros -> HL Hs Hw. unfold setConcentrationsNoNorm, setDensity, compositionChanged. cbn [is_compressible negb].
    rewrite mulmw_fin, !fsum_fin. fold (wsum x mw).
    cbn [fltb]. rewrite (proj2 (rltb_true _ _) Hw). cbn [andthen fst snd].
    rewrite !fdiv_fin by lra. split; [reflexivity|].
    rewrite scale_fin, mulmw_fin. unfold comp_of. simpl. repeat split.
    - f_equal. rewrite map2_map_l. apply map2_ext. intros. field. lra.
    - f_equal. apply map_ext. intros. field. lra.
  Qed.

  (** Concentrations. *)
  Lemma comp_of_getC n c d : good n -> comp_of n c -> s_D c = Fin d ->
    getConcentrations c = map Fin (map (fun a => a / wsum n mw * d) n) /\
    concentrations1 mw c = getConcentrations c.
  Proof.
    intros (HL&Hn&Hw) (A&B&C) D. unfold getConcentrations, concentrations1.
    rewrite A, B, D, scale_fin. split; [now rewrite !map_map|].
    unfold rmw. rewrite map2_map_l, map2_map_r, map2_map2_l. rewrite !map_map.
    clear - HL Hmw Hw. generalize (wsum n mw) Hw. intros w Hw'. clear Hw.
    revert n HL. induction mw as [|m ms IH]; intros [|a n] HL; simpl in *; try discriminate; auto.
    inversion Hmw; subst. rewrite IH by auto. f_equal. f_equal. field. split; lra.
  Qed.
End Comp.
