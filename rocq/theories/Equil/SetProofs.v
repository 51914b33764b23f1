(** Proofs about Equil/MixModel.v: setting mole numbers, total properties, failed solvers. *)
From Coq Require Import Reals String List Bool Arith Lia Lra.
From Verif Require Import Base.Fp Base.Outcome Base.Map2 Base.RSum Equil.MixModel Equil.MixSpec Equil.MixProofs Equil.ReadProofs.
Import ListNotations.
Local Open Scope R_scope.
Local Open Scope list_scope.

Definition sized (p : ph) (b : list R) : Prop := List.length b = nsp p.
Lemma split_blocks ps : forall n, List.length n = fold_right (fun p s => (nsp p + s)%nat) 0%nat ps ->
  exists nb, n = concat nb /\ Forall2 sized ps nb.
Proof.
  induction ps as [|p ps IH]; intros n L; cbn in L.
  - destruct n; [|discriminate]. exists []. split; [auto|constructor].
  - destruct (IH (skipn (nsp p) n)) as (nb & E & F); [rewrite skipn_length; lia|].
    exists (firstn (nsp p) n :: nb). cbn. rewrite <- E, firstn_skipn. split; [auto|]. constructor; [|auto].
    unfold sized. rewrite firstn_length. lia.
Qed.
Lemma block_nth ps nb i b : Forall2 sized ps nb -> nth_error nb i = Some b -> block ps (concat nb) i = b.
Proof.
  intros F. revert i. induction F as [|p a ps nb S F IH]; intros [|i] E; cbn [nth_error] in E; try discriminate.
  - injection E as ->. unfold block, before. cbn. now apply firstn_app_len.
  - rewrite <- (IH i E). unfold block, before. cbn [nth_error firstn fold_right concat]. f_equal.
    rewrite <- (skipn_plus (a ++ concat nb)). f_equal. now apply skipn_app_len.
Qed.
Lemma okx_sized ps bl : Forall2 okx ps bl -> Forall2 sized ps bl.
Proof. induction 1 as [|p b ps bl [L _] F IH]; constructor; auto. Qed.

Definition new_x (b : list R) (q : pst) (k : nat) : list R :=
  if (1 <? k)%nat then (if rltb 0 (rsum b) then normalised b else qX q) else [1].
Lemma moles_loop_set T P ps : 0 < T -> Forall (fun p => p_pok p P = true) ps -> Forall (fun p => (0 < nsp p)%nat) ps ->
  forall qs nm nb bl, Forall2 okq ps qs -> List.length nm = List.length ps ->
  Forall2 okx ps bl -> Forall2 sized ps nb -> (forall v, In v (concat nb) -> 0 <= v) ->
  let r := moles_loop T P ps qs nm (concat nb) (concat bl) in
  fst r = Ok tt /\ snd (fst (snd r)) = map rsum nb /\
  scale_blocks ps (snd (fst (snd r))) (snd (snd r)) = concat nb /\
  (forall i p b, nth_error ps i = Some p -> nth_error nb i = Some b -> (1 < nsp p)%nat -> 0 < rsum b ->
     nth_error (fst (fst (snd r))) i = Some (PST T P (normalised b))).
Proof.
  intros HT HP PP. induction ps as [|p ps IH]; intros qs nm nb bl FQ LN FX FN NN.
  - inversion FQ; subst. inversion FX; subst. inversion FN; subst. destruct nm; [|discriminate]. cbn.
    repeat split; auto. intros [|i]; discriminate.
  - inversion FQ as [|? q ? qs' Q FQ']; subst. inversion FX as [|? b ? bl' X FX']; subst.
    inversion FN as [|? a ? nb' SZ FN']; subst. inversion PP as [|? ? PP1 PP']; subst. inversion HP as [|? ? HP1 HP']; subst.
    destruct nm as [|v nm]; [discriminate|]. cbn [concat] in NN. cbn [concat moles_loop].
    assert (NA : forall v, In v a -> 0 <= v) by (intros; apply NN, in_or_app; auto).
    assert (CA : clip a = a) by (now apply clip_id).
    rewrite (firstn_app_len a), (skipn_app_len a) by apply SZ.
    assert (II := fun mfx bx (E : mfx = concat bx) (G : Forall2 okx ps bx) =>
       IH HP' PP' qs' nm nb' bx FQ' ltac:(cbn in LN; lia) G FN' (fun v Hv => NN v (in_or_app _ _ _ (or_intror Hv)))).
    specialize (II (concat bl') bl' eq_refl FX'). destruct II as (I1 & I2 & I3 & I4).
    destruct (Nat.ltb_spec 1 (nsp p)) as [B|B].
    + rewrite (skipn_app_len b) by apply X.
      set (rr := if rltb 0 (rsum a) then setTPX p q T P a else (Ok tt, q)).
      assert (RR : rr = (Ok tt, if rltb 0 (rsum a) then PST T P (normalised a) else q)).
      { unfold rr. destruct (rltb 0 (rsum a)) eqn:E; [|auto]. apply rltb_true in E. apply setTPX_accept; auto.
        split; [exact SZ|]. rewrite CA. lra. }
      rewrite RR. set (q' := if rltb 0 (rsum a) then _ else q). cbn [fst snd].
      split; [exact I1|]. split; [cbn; now rewrite I2|]. split.
      * cbn [scale_blocks]. assert (LQ : List.length (qX q') = nsp p).
        { unfold q'. destruct (rltb 0 (rsum a)); [cbn; rewrite normalised_length; exact SZ|apply Q]. }
        rewrite (firstn_app_len (qX q')), (skipn_app_len (qX q')) by auto. rewrite I3. f_equal.
        unfold q'. destruct (rltb 0 (rsum a)) eqn:E.
        -- apply rltb_true in E. cbn [qX]. unfold normalised. rewrite CA, map_map.
           transitivity (map (fun x : R => x) a); [|apply map_id]. apply map_ext. intros x. field. lra.
        -- apply rltb_false in E. assert (Z : rsum a = 0) by (pose proof (rsum_nonneg a NA); lra).
           rewrite Z. assert (ZA : forall v, In v a -> v = 0).
           { clear - NA Z. induction a as [|h t IHa]; intros v Hv; [destruct Hv|]. cbn in Z.
             assert (0 <= h) by (apply NA; now left). assert (0 <= rsum t) by (apply rsum_nonneg; intros; apply NA; now right).
             destruct Hv as [<-|Hv]; [lra|]. apply IHa; auto; [intros; apply NA; now right|lra]. }
           assert (LL : List.length (qX q) = List.length a) by (rewrite SZ; apply Q).
           clear - ZA LL. revert a ZA LL. induction (qX q) as [|h t IHq]; intros [|x a] ZA LL; try discriminate; [auto|].
           cbn. f_equal; [rewrite (ZA x (or_introl eq_refl)); ring|]. apply IHq; [intros; apply ZA; now right|cbn in LL; lia].
      * intros [|i] p0 b0 E1 E2 E3 E4; cbn in *.
        -- injection E1 as <-. injection E2 as <-. unfold q'. assert (H : rltb 0 (rsum a) = true) by (now apply rltb_true).
           now rewrite H.
        -- eapply I4; eauto.
    + destruct X as [XL XS]. assert (N1 : nsp p = 1%nat) by lia. destruct b as [|x0 [|? ?]]; cbn in XL; try lia.
      cbn [app write_first]. rewrite N1.
      change (skipn 1 (1 :: concat bl')) with (concat bl'). change (firstn 1 (1 :: concat bl')) with [1].
      cbn [fst snd]. split; [exact I1|]. split; [cbn [map]; now rewrite I2|]. split.
      * cbn [scale_blocks]. rewrite N1. cbn [app firstn skipn map]. rewrite I3.
        unfold sized in SZ. rewrite N1 in SZ. destruct a as [|y [|? ?]]; try discriminate. cbn. f_equal. ring.
      * intros [|i] p0 b0 E1 E2 E3 E4; cbn in *.
        -- injection E1 as <-. lia.
        -- eapply I4; eauto.
Qed.

Lemma init_ok m : wf m -> accepts m (x_T m) (x_P m) ->
  exists m1, init m = (Ok tt, m1) /\ wf m1 /\ x_init m1 = true /\ x_ph m1 = x_ph m /\ x_enames m1 = x_enames m /\
    x_nsp m1 = x_nsp m /\ x_T m1 = x_T m /\ x_P m1 = x_P m /\ x_moles m1 = x_moles m.
Proof.
  intros W A. destruct (init_wf m W) as (I1 & I2 & I3). destruct (init m) as [o m1] eqn:E. cbn [fst snd] in *.
  exists m1. unfold init in E. destruct (x_init m) eqn:I.
  - injection E as <- <-. do 8 (split; [auto|]). auto.
  - set (m0 := upload _) in E.
    assert (W0 : wf m0).
    { unfold m0, upload. destruct W as [A1 B C D E1 F G]. constructor; cbn; auto; [|discriminate]. intros _.
      split; [auto|]. split; [|split; [|now apply upload_blocks]]; intros NE; destruct (x_enames m); try contradiction; try discriminate; auto. }
    destruct (w_init m0 W0 eq_refl) as (_ & _ & _ & bl & EM & F).
    rewrite (updatePhases_ok m0 bl W0 eq_refl EM F A) in E. injection E as <- <-.
    do 8 (split; [auto|]). auto.
Qed.

Theorem setMoles_ok m n : wf m -> accepts m (x_T m) (x_P m) -> List.length n = x_nsp m -> (forall v, In v n -> 0 <= v) ->
  exists m', setMoles m n = (Ok tt, m') /\ wf m' /\ x_init m' = true /\ getMoles m' = n /\
    x_ph m' = x_ph m /\ x_enames m' = x_enames m /\ x_nsp m' = x_nsp m /\ x_T m' = x_T m /\ x_P m' = x_P m /\
    (forall i, (i < List.length (x_ph m))%nat -> nth i (x_moles m') 0 = rsum (block (x_ph m) n i)) /\
    (forall i p, nth_error (x_ph m) i = Some p -> (1 < nsp p)%nat -> 0 < rsum (block (x_ph m) n i) ->
       nth_error (x_st m') i = Some (PST (x_T m) (x_P m) (normalised (block (x_ph m) n i)))).
Proof.
  intros W A L NN. destruct (init_ok m W A) as (m1 & E1 & W1 & I1 & P1 & N1 & K1 & T1 & Q1 & M1).
  pose proof (setMoles_wf m n W) as WF1. cbv zeta in WF1. revert WF1. unfold setMoles, andthen. rewrite E1. cbn [fst snd].
  destruct (Nat.ltb_spec (List.length n) (x_nsp m1)); [lia|].
  destruct (split_blocks (x_ph m1) n) as (nb & EN & FN).
  { rewrite P1, <- before_all, L. apply w_nsp; auto. }
  destruct (w_init m1 W1 I1) as (_ & _ & _ & bl & EM & FB).
  assert (A1 : 0 < x_T m1 /\ Forall (fun p => p_pok p (x_P m1) = true) (x_ph m1)).
  { rewrite T1, Q1, P1. exact A. }
  destruct (moles_loop_set (x_T m1) (x_P m1) (x_ph m1) (proj1 A1) (proj2 A1) (w_pos m1 W1) (x_st m1) (x_moles m1) nb bl
     (w_st m1 W1) (w_moles m1 W1) FB FN ltac:(rewrite <- EN; exact NN)) as (L1 & L2 & L3 & L4).
  rewrite <- EN, <- EM in *.
  set (r := moles_loop _ _ _ _ _ _ _) in *. rewrite L1. intros (WF1 & WF2 & _).
  eexists. split; [reflexivity|]. split; [exact WF1|]. split; [now apply WF2|]. split; [exact L3|].
  cbn [x_ph x_enames x_nsp x_T x_P with_mf with_moles with_st x_moles x_st]. do 5 (split; [auto|]).
  assert (LB : List.length nb = List.length (x_ph m)).
  { rewrite <- P1. clear - FN. induction FN; cbn; auto. }
  split.
  - intros i Hi. rewrite L2. change 0 with (rsum []). rewrite map_nth.
    rewrite <- P1, EN. erewrite block_nth; [reflexivity|exact FN|]. apply nth_error_nth'. lia.
  - intros i p EP Hp Hs. assert (Hi : (i < List.length (x_ph m))%nat) by (apply nth_error_Some; congruence).
    assert (EB : nth_error nb i = Some (nth i nb [])) by (apply nth_error_nth'; lia).
    assert (BE : block (x_ph m) n i = nth i nb []) by (rewrite <- P1, EN; eapply block_nth; eauto).
    rewrite BE in *. rewrite <- T1, <- Q1. eapply L4; eauto. now rewrite P1.
Qed.

(** ** What stays the same after init() *)
Definition static (m m' : mix) : Prop :=
  x_ph m' = x_ph m /\ x_enames m' = x_enames m /\ x_nsp m' = x_nsp m /\ x_init m' = true /\
  x_atoms m' = x_atoms m /\ x_snames m' = x_snames m /\ x_spstart m' = x_spstart m /\ x_spphase m' = x_spphase m.
Lemma static_refl m : x_init m = true -> static m m.
Proof. intros I. repeat split; auto. Qed.
Lemma init_id m : x_init m = true -> init m = (Ok tt, m).
Proof. intros I. unfold init. now rewrite I. Qed.
Ltac stat I := repeat split; cbn; auto; exact I.
Lemma run_op_static m o : x_init m = true -> static m (snd (run_op m o)).
Proof.
  intros I. pose proof (init_id m I) as II.
  assert (SM : forall n, static m (snd (setMoles m n))).
  { intros n. unfold setMoles, andthen. rewrite II. cbn [fst snd]. destruct (_ <? _)%nat; [now apply static_refl|].
    cbn [snd]. repeat split; cbn; auto. }
  destruct o; cbn [run_op].
  - unfold addPhase. rewrite I. now apply static_refl.
  - rewrite II. now apply static_refl.
  - apply SM.
  - unfold setMolesByName. destruct (_ <? _)%nat; [now apply static_refl|apply SM].
  - unfold addSpeciesMoles. destruct (_ && _); [apply SM|now apply static_refl].
  - unfold setPhaseMoles. destruct (_ <? _)%nat; [|now apply static_refl]. repeat split; cbn; auto.
  - unfold setPhaseMoleFractions, andthen. rewrite II. cbn [fst snd].
    destruct (nth_error (x_ph m) i); [|now apply static_refl]. destruct (nth_error (x_st m) i); [|now apply static_refl].
    destruct (_ <? _)%nat; [now apply static_refl|]. destruct (setTPX _ _ _ _ _) as [[]]; try (repeat split; cbn; auto; fail).
    destruct (nth_error (x_spstart m) i); [|repeat split; cbn; auto]. destruct (_ <=? _)%nat; repeat split; cbn; auto.
  - unfold setTemperature, andthen. rewrite II. repeat split; cbn; auto.
  - repeat split; cbn; auto.
  - unfold setState_TP, andthen. rewrite II. repeat split; cbn; auto.
  - unfold setState_TPMoles, setMoles, andthen. rewrite init_id by exact I. cbn [fst snd].
    destruct (_ <? _)%nat; repeat split; cbn; auto.
  - unfold uploadMoleFractionsFromPhases. destruct (_ <? _)%nat; repeat split; cbn; auto.
  - unfold external. destruct (nth_error (x_ph m) i); [|now apply static_refl]. destruct (nth_error (x_st m) i); [|now apply static_refl].
    destruct (_ =? _)%nat; repeat split; cbn; auto.
Qed.
Lemma static_trans a b c : static a b -> static b c -> static a c.
Proof. unfold static. intros (A1 & A2 & A3 & A4 & A5 & A6 & A7 & A8) (B1 & B2 & B3 & B4 & B5 & B6 & B7 & B8).
  repeat split; congruence. Qed.
Lemma run_static ops : forall m m', x_init m = true -> run m ops = Some m' -> static m m'.
Proof.
  induction ops as [|o ops IH]; intros m m' I R; cbn in R; [injection R as <-; now apply static_refl|].
  pose proof (run_op_static m o I) as S. destruct (run_op m o) as [[| | |] m1]; try discriminate; cbn [snd] in S;
    (eapply static_trans; [exact S|apply IH; [apply S|exact R]]).
Qed.

Lemma map_synced (T P : R) ps bl : Forall2 okx ps bl -> forall i p, nth_error ps i = Some p ->
  nth_error (map (at_TP T P) bl) i = Some (PST T P (normalised (block ps (concat bl) i))).
Proof.
  intros F i p E. destruct (Forall2_nth _ _ _ _ _ F E) as (b & EB & _). rewrite nth_error_map, EB. cbn. unfold at_TP.
  erewrite block_nth; [reflexivity|now apply okx_sized|exact EB].
Qed.

Lemma restore_ok m0 m : wf m0 -> x_init m0 = true -> accepts m0 (x_T m0) (x_P m0) -> wf m -> static m0 m ->
  exists m', restore m0 m = (Ok tt, m') /\ wf m' /\ static m0 m' /\ x_T m' = x_T m0 /\ x_P m' = x_P m0 /\
    x_moles m' = x_moles m0 /\ x_mf m' = x_mf m0 /\ synced m'.
Proof.
  intros W0 I0 A W (S1 & S2 & S3 & S4 & S5 & S6 & S7 & S8). unfold restore.
  destruct (w_init m0 W0 I0) as (Q1 & Q2 & Q3 & bl & E & F).
  set (m1 := with_TP _ _ _).
  assert (W1 : wf m1).
  { unfold m1. apply wf_with_TP, wf_with_moles; [|cbn; rewrite S1; now apply w_moles].
    apply wf_with_mf; auto. rewrite S1. exists bl. auto. }
  assert (E1 : x_mf m1 = concat bl) by (unfold m1; cbn; auto).
  assert (F1 : Forall2 okx (x_ph m1) bl) by (unfold m1; cbn; rewrite S1; auto).
  assert (A1 : accepts m1 (x_T m1) (x_P m1)) by (unfold m1, accepts; cbn; rewrite S1; exact A).
  pose proof (updatePhases_wf m1 W1 S4) as (_ & WU & _).
  rewrite (updatePhases_ok m1 bl W1 S4 E1 F1 A1) in *. cbn [snd] in WU. eexists. split; [reflexivity|].
  split; [exact WU|]. split; [repeat split; cbn; auto|]. do 4 (split; [reflexivity|]).
  intros i p EP. cbn in *. rewrite E. now apply (map_synced (x_T m0) (x_P m0) (x_ph m) bl) with (p := p).
Qed.

Lemma extensive_ok f m : wf m -> x_init m = true -> accepts m (x_T m) (x_P m) ->
  exists m', extensive f m = (Ok (sum_n (fun i => match nth_error (x_ph m) i with
      | Some p => if rltb 0 (nth i (x_moles m) 0)
                  then f p (PST (x_T m) (x_P m) (normalised (block (x_ph m) (x_mf m) i))) * nth i (x_moles m) 0 else 0
      | None => 0 end) (List.length (x_ph m))), m') /\ synced m' /\ x_mf m' = x_mf m /\ x_moles m' = x_moles m /\
      x_T m' = x_T m /\ x_P m' = x_P m.
Proof.
  intros W I A. destruct (w_init m W I) as (_ & _ & _ & bl & E & F). unfold extensive.
  rewrite (updatePhases_ok m bl W I E F A). cbn [fst snd x_st with_st_tok omap obind]. eexists.
  split; [f_equal; f_equal|split; [|repeat split; reflexivity]].
  { rewrite E. pose proof (w_moles m W) as L. revert L. generalize (x_moles m). 
    generalize (x_T m) (x_P m). intros T P. clear E A I W. 
    induction F as [|p b ps bl X F IH]; intros nm L; [reflexivity|]. destruct nm as [|v nm]; [discriminate|].
    cbn [map weighted List.length]. rewrite sum_n_shift. cbn [nth_error nth]. f_equal.
    + destruct (rltb 0 v); [|auto]. unfold at_TP. do 3 f_equal.
      unfold block, before. cbn. rewrite firstn_app_len; [auto|apply X].
    + rewrite IH by (cbn in L; lia). apply sum_n_ext. intros i Hi.
      destruct (nth_error ps i) as [p'|] eqn:EP; [|auto]. destruct (rltb 0 (nth i nm 0)); [|auto]. do 3 f_equal.
      unfold block, before. cbn [nth_error firstn fold_right concat]. rewrite EP. do 2 f_equal.
      rewrite <- (skipn_plus (b ++ concat bl)). f_equal. symmetry. apply skipn_app_len. apply X. }
  intros i p EP. cbn in *. rewrite E. now apply (map_synced (x_T m) (x_P m) (x_ph m) bl) with (p := p).
Qed.
Lemma volume_synced f m : wf m -> synced m ->
  volume f m = sum_n (fun i => match nth_error (x_ph m) i with
      | Some p => nth i (x_moles m) 0 * f p (PST (x_T m) (x_P m) (normalised (block (x_ph m) (x_mf m) i)))
      | None => 0 end) (List.length (x_ph m)).
Proof.
  intros W S. unfold volume.
  assert (G : forall ps qs nm, List.length nm = List.length ps -> List.length qs = List.length ps ->
    volume_sum f ps qs nm = sum_n (fun i => match nth_error ps i, nth_error qs i with
       | Some p, Some q => nth i nm 0 * f p q | _, _ => 0 end) (List.length ps)).
  { induction ps as [|p ps IH]; intros [|q qs] [|v nm] L1 L2; try discriminate; [reflexivity|].
    cbn [volume_sum List.length]. rewrite sum_n_shift. cbn [nth_error nth]. f_equal. apply IH; cbn in *; lia. }
  rewrite G.
  - apply sum_n_ext. intros i Hi. destruct (nth_error (x_ph m) i) as [p|] eqn:EP; [|auto]. now rewrite (S i p EP).
  - now apply w_moles.
  - pose proof (w_st m W) as F. clear - F. induction F; cbn; auto.
Qed.
