(** Proofs about Equil/MixModel.v. *)
From Coq Require Import Reals String List Bool Arith Lia Lra.
From Verif Require Import Base.Fp Base.Outcome Base.Map2 Base.RSum Equil.MixModel Equil.MixSpec.
Import ListNotations.
Local Open Scope R_scope.
Local Open Scope list_scope.

(** ** Normalised compositions *)
Lemma clip_length x : List.length (clip x) = List.length x.
Proof. apply map_length. Qed.
Lemma clip_nonneg x v : In v (clip x) -> 0 <= v.
Proof. unfold clip. intros H. apply in_map_iff in H as (a & <- & _). apply Rmax_r. Qed.
Lemma rsum_nonneg l : (forall v, In v l -> 0 <= v) -> 0 <= rsum l.
Proof. induction l as [|a l IH]; intros H; cbn; [lra|]. pose proof (H a (or_introl eq_refl)).
  assert (0 <= rsum l) by (apply IH; intros; apply H; now right). lra. Qed.
Lemma clip_id x : (forall v, In v x -> 0 <= v) -> clip x = x.
Proof.
  unfold clip. intros H. rewrite <- (map_id x) at 2. apply map_ext_in. intros a Ha. specialize (H a Ha).
  rewrite Rmax_left; auto.
Qed.
Lemma clip_ge x : rsum x <= rsum (clip x).
Proof.
  induction x as [|a x IH]; [cbn; lra|].
  change (a + rsum x <= Rmax a 0 + rsum (clip x)). pose proof (Rmax_l a 0). lra.
Qed.
Lemma rsum_map_div l c : rsum (map (fun v => v / c) l) = rsum l / c.
Proof. induction l as [|a l IH]; cbn; [unfold Rdiv; ring|]. rewrite IH. unfold Rdiv. ring. Qed.
Lemma normalised_length x : List.length (normalised x) = List.length x.
Proof. unfold normalised. now rewrite map_length, clip_length. Qed.
Lemma normalised_nonneg x v : rsum (clip x) <> 0 -> In v (normalised x) -> 0 <= v.
Proof.
  intros Z H. unfold normalised in H. apply in_map_iff in H as (a & <- & Ha).
  apply clip_nonneg in Ha. pose proof (rsum_nonneg (clip x) (clip_nonneg x)).
  apply Rmult_le_pos; [auto|]. apply Rlt_le, Rinv_0_lt_compat. lra.
Qed.
Lemma normalised_sum x : rsum (clip x) <> 0 -> rsum (normalised x) = 1.
Proof. intros Z. unfold normalised. rewrite rsum_map_div. now field. Qed.

Definition okx (p : ph) (x : list R) : Prop := List.length x = nsp p /\ rsum (clip x) <> 0.
Lemma okx_normalised p x : okx p x -> okx p (normalised x).
Proof.
  intros [L Z]. split; [now rewrite normalised_length|].
  rewrite clip_id by (intros v; now apply normalised_nonneg). rewrite normalised_sum by auto. lra.
Qed.
Definition okq (p : ph) (q : pst) : Prop := okx p (qX q).
Lemma usable_okq p q : usable p q -> okq p q /\ (0 < nsp p)%nat.
Proof.
  intros (A & B & C & D). split; [|exact A]. split; [exact B|]. rewrite clip_id by auto. lra.
Qed.

Lemma setTPX_ok p q T P x : okx p x -> okq p q ->
  fst (setTPX p q T P x) <> UB /\ okq p (snd (setTPX p q T P x)) /\
  (fst (setTPX p q T P x) = Ok tt \/ fst (setTPX p q T P x) = Err) /\
  (fst (setTPX p q T P x) = Ok tt -> snd (setTPX p q T P x) = PST T P (normalised x)).
Proof.
  intros X Q. unfold setTPX. destruct (reqb (rsum (clip x)) 0) eqn:Z.
  - apply reqb_true in Z. destruct X; contradiction.
  - destruct (rltb 0 T && p_pok p P); cbn [fst snd]; (split; [discriminate|]); (split; [now apply okx_normalised|]);
      split; auto; discriminate.
Qed.
Lemma setTPX_accept p q T P x : okx p x -> 0 < T -> p_pok p P = true ->
  setTPX p q T P x = (Ok tt, PST T P (normalised x)).
Proof.
  intros [_ Z] HT HP. unfold setTPX. destruct (reqb (rsum (clip x)) 0) eqn:E; [apply reqb_true in E; contradiction|].
  assert (H : rltb 0 T = true) by (now apply rltb_true). rewrite H, HP. reflexivity.
Qed.
Lemma setTPX_sound p q T P x : forall q', List.length x = nsp p -> okq p q -> fst (setTPX p q T P x) <> UB ->
  snd (setTPX p q T P x) = q' -> okq p q' /\ (fst (setTPX p q T P x) = Ok tt -> okx p x).
Proof.
  intros q' L Q. unfold setTPX. destruct (reqb (rsum (clip x)) 0) eqn:Z.
  - intros H; exfalso; apply H; reflexivity.
  - apply reqb_false in Z. intros _ <-. destruct (rltb 0 T && p_pok p P); cbn [fst snd];
      (split; [apply okx_normalised; split; auto|]); intros; split; auto.
Qed.

(** ** Well-formed mixtures *)
Definition blocks_ok (ps : list ph) (mf : list R) : Prop :=
  exists bl, mf = concat bl /\ Forall2 okx ps bl.
Record wf (m : mix) : Prop := WF {
  w_pos : Forall (fun p => (0 < nsp p)%nat) (x_ph m);
  w_st : Forall2 okq (x_ph m) (x_st m);
  w_moles : List.length (x_moles m) = List.length (x_ph m);
  w_tok : List.length (x_tok m) = List.length (x_ph m);
  w_nsp : x_nsp m = before (x_ph m) (List.length (x_ph m));
  w_init : x_init m = true ->
     x_atoms m = map (atoms_row (x_ph m)) (x_enames m) /\
     (x_enames m <> [] -> x_snames m = flat_map p_species (x_ph m) /\ x_spstart m = starts (x_ph m) 0 /\
        x_spphase m = owners (x_ph m) 0) /\
     (x_enames m = [] -> x_spstart m = [] /\ x_snames m = []) /\
     blocks_ok (x_ph m) (x_mf m);
  w_not : x_init m = false -> x_mf m = [] /\ x_snames m = [] /\ x_spstart m = [] }.

Lemma firstn_app_len {A} (b r : list A) n : List.length b = n -> firstn n (b ++ r) = b.
Proof. intros <-. rewrite firstn_app, Nat.sub_diag, firstn_all. cbn. apply app_nil_r. Qed.
Lemma skipn_app_len {A} (b r : list A) n : List.length b = n -> skipn n (b ++ r) = r.
Proof. intros <-. rewrite skipn_app, Nat.sub_diag, skipn_all. reflexivity. Qed.

Lemma before_all ps : before ps (List.length ps) = fold_right (fun p s => (nsp p + s)%nat) 0%nat ps.
Proof. unfold before. now rewrite firstn_all. Qed.
Lemma concat_length_ok ps bl : Forall2 okx ps bl ->
  List.length (concat bl) = fold_right (fun p s => (nsp p + s)%nat) 0%nat ps.
Proof. induction 1 as [|p b ps bl [L _] _ IH]; cbn; [auto|]. now rewrite app_length, L, IH. Qed.
Lemma blocks_length ps mf : blocks_ok ps mf -> List.length mf = before ps (List.length ps).
Proof. intros (bl & -> & F). rewrite before_all. now apply concat_length_ok. Qed.

(** updatePhases *)
Definition at_TP (T P : R) (b : list R) : pst := PST T P (normalised b).
Lemma update_loop_ok T P ps : forall qs tok bl, Forall2 okq ps qs -> List.length tok = List.length ps ->
  Forall2 okx ps bl ->
  let r := update_loop T P ps qs tok (concat bl) in
  (fst r = Ok tt \/ fst r = Err) /\ Forall2 okq ps (fst (snd r)) /\ List.length (snd (snd r)) = List.length ps /\
  (fst r = Ok tt -> fst (snd r) = map (at_TP T P) bl /\
     snd (snd r) = map (fun p => negb (rltb T (p_minT p) || rltb (p_maxT p) T)) ps) /\
  (0 < T -> Forall (fun p => p_pok p P = true) ps -> fst r = Ok tt).
Proof.
  induction ps as [|p ps IH]; intros qs tok bl FQ LT FX.
  - inversion FQ; subst. inversion FX; subst. destruct tok; [|discriminate]. cbn.
    repeat split; auto.
  - inversion FQ as [|? q ? qs' Q FQ']; subst. inversion FX as [|? b ? bl' X FX']; subst.
    destruct tok as [|t tok]; [discriminate|]. cbn [concat update_loop].
    destruct (Nat.ltb_spec (List.length (b ++ concat bl')) (nsp p)) as [B|B].
    { rewrite app_length in B. destruct X; lia. }
    rewrite (firstn_app_len b) by apply X. rewrite (skipn_app_len b) by apply X.
    destruct (setTPX_ok p q T P b X Q) as (S1 & S2 & S3 & S4).
    destruct (setTPX p q T P b) as [o q'] eqn:E. cbn [fst snd] in *.
    destruct (IH qs' tok bl' FQ' ltac:(cbn in LT; lia) FX') as (I1 & I2 & I3 & I4 & I5).
    destruct S3 as [->| ->].
    + cbn [fst snd]. split; [exact I1|]. split; [constructor; auto|]. split; [cbn; lia|]. split.
      * intros O. destruct (I4 O) as [J1 J2]. cbn. rewrite J1, J2, (S4 eq_refl). split; reflexivity.
      * intros HT HP. inversion HP; subst. apply I5; auto.
    + cbn [fst snd]. split; [auto|]. split; [constructor; auto|]. split; [cbn in *; lia|]. split; [discriminate|].
      intros HT HP. inversion HP; subst. exfalso.
      rewrite setTPX_accept in E by auto. discriminate.
Qed.

Lemma wf_struct m st tok : wf m -> Forall2 okq (x_ph m) st -> List.length tok = List.length (x_ph m) ->
  wf (with_st_tok m st tok).
Proof. intros [A B C D E F G] H L. constructor; cbn; auto. Qed.
Lemma wf_with_st m st : wf m -> Forall2 okq (x_ph m) st -> wf (with_st m st).
Proof. intros [A B C D E F G] H. constructor; cbn; auto. Qed.
Lemma wf_with_TP m T P : wf m -> wf (with_TP m T P).
Proof. intros [A B C D E F G]. constructor; cbn; auto. Qed.
Lemma wf_with_moles m n : wf m -> List.length n = List.length (x_ph m) -> wf (with_moles m n).
Proof. intros [A B C D E F G] H. constructor; cbn; auto. Qed.
Lemma wf_with_mf m mf : wf m -> x_init m = true -> blocks_ok (x_ph m) mf -> wf (with_mf m mf).
Proof.
  intros [A B C D E F G] I H. constructor; cbn; auto.
  - intros _. destruct (F I) as (F1 & F2 & F3 & _). auto.
  - congruence.
Qed.

Lemma updatePhases_wf m : wf m -> x_init m = true ->
  let r := updatePhases m in
  (fst r = Ok tt \/ fst r = Err) /\ wf (snd r) /\ x_init (snd r) = true.
Proof.
  intros W I. cbv zeta. unfold updatePhases.
  destruct (w_init m W I) as (_ & _ & _ & bl & E & F). rewrite E.
  destruct (update_loop_ok (x_T m) (x_P m) (x_ph m) (x_st m) (x_tok m) bl (w_st m W) (w_tok m W) F)
    as (U1 & U2 & U3 & U4 & _).
  cbn [fst snd]. split; [exact U1|]. split; [|exact I]. apply wf_struct; auto.
Qed.
(** When the phases accept the mixture's temperature and pressure. *)
Lemma updatePhases_ok m bl : wf m -> x_init m = true -> x_mf m = concat bl -> Forall2 okx (x_ph m) bl ->
  accepts m (x_T m) (x_P m) ->
  updatePhases m = (Ok tt, with_st_tok m (map (at_TP (x_T m) (x_P m)) bl)
    (map (fun p => negb (rltb (x_T m) (p_minT p) || rltb (p_maxT p) (x_T m))) (x_ph m))).
Proof.
  intros W I E F [HT HP]. unfold updatePhases. rewrite E.
  destruct (update_loop_ok (x_T m) (x_P m) (x_ph m) (x_st m) (x_tok m) bl (w_st m W) (w_tok m W) F)
    as (U1 & U2 & U3 & U4 & U5).
  specialize (U5 HT HP). destruct (U4 U5) as [-> ->]. now rewrite U5.
Qed.

Lemma upload_blocks ps qs : Forall2 okq ps qs -> blocks_ok ps (concat (map qX qs)).
Proof.
  intros F. exists (map qX qs). split; [auto|]. induction F; cbn; constructor; auto.
Qed.

Lemma init_wf m : wf m -> let r := init m in
  (fst r = Ok tt \/ fst r = Err) /\ wf (snd r) /\ x_init (snd r) = true.
Proof.
  intros W. cbv zeta. unfold init. destruct (x_init m) eqn:I; [auto|].
  apply updatePhases_wf; [|reflexivity]. unfold upload.
  destruct W as [A B C D E F G]. constructor; cbn; auto; [|discriminate]. intros _.
  split; [auto|]. split; [|split; [|now apply upload_blocks]]; intros NE; destruct (x_enames m); try contradiction; try discriminate; auto.
Qed.

(** setMoles *)
Definition single (b : list R) : list R := match b with [] => [] | _ :: t => 1 :: t end.
Lemma okx_single p : nsp p = 1%nat -> okx p [1].
Proof. intros E. split; [auto|]. cbn. rewrite Rmax_left by lra. lra. Qed.

Lemma moles_loop_ok T P ps : forall qs nm n bl, Forall2 okq ps qs -> List.length nm = List.length ps ->
  Forall (fun p => (0 < nsp p)%nat) ps ->
  Forall2 okx ps bl -> (fold_right (fun p s => (nsp p + s)%nat) 0%nat ps <= List.length n)%nat ->
  let r := moles_loop T P ps qs nm n (concat bl) in
  (fst r = Ok tt \/ fst r = Err) /\ Forall2 okq ps (fst (fst (snd r))) /\
  List.length (snd (fst (snd r))) = List.length ps /\ blocks_ok ps (snd (snd r)).
Proof.
  induction ps as [|p ps IH]; intros qs nm n bl FQ LN FP FX HN.
  - inversion FQ; subst. inversion FX; subst. destruct nm; [|discriminate]. cbn.
    split; [auto|]. split; [constructor|]. split; [auto|]. exists []. split; [reflexivity|constructor].
  - inversion FQ as [|? q ? qs' Q FQ']; subst. inversion FX as [|? b ? bl' X FX']; subst.
    inversion FP as [|? ? PP FP']; subst.
    destruct nm as [|v nm]; [discriminate|]. cbn [concat moles_loop fold_right] in *.
    assert (HN' : (fold_right (fun p s => (nsp p + s)%nat) 0%nat ps <= List.length (skipn (nsp p) n))%nat).
    { rewrite skipn_length. lia. }
    destruct (IH qs' nm (skipn (nsp p) n) bl' FQ' ltac:(cbn in LN; lia) FP' FX' HN') as (I1 & I2 & I3 & bl2 & I4 & I5).
    destruct (Nat.ltb_spec 1 (nsp p)) as [B|B].
    + set (rr := if rltb 0 (rsum (firstn (nsp p) n)) then setTPX p q T P (firstn (nsp p) n) else (Ok tt, q)).
      assert (R : (fst rr = Ok tt \/ fst rr = Err) /\ okq p (snd rr)).
      { unfold rr. destruct (rltb 0 (rsum (firstn (nsp p) n))) eqn:E; [|cbn; auto].
        apply rltb_true in E. pose proof (clip_ge (firstn (nsp p) n)).
        destruct (setTPX_ok p q T P (firstn (nsp p) n)) as (_ & S2 & S3 & _); auto.
        split; [rewrite firstn_length; lia|lra]. }
      destruct R as [R1 R2]. destruct rr as [o q']. cbn [fst snd] in R1, R2.
      destruct R1 as [->| ->].
      * rewrite (skipn_app_len b) by apply X. cbn [fst snd]. split; [exact I1|]. split; [constructor; auto|].
        split; [cbn; lia|]. exists (qX q' :: bl2). split; [cbn; now rewrite I4|]. constructor; auto.
      * cbn [fst snd]. split; [auto|]. split; [constructor; auto|]. split; [cbn in *; lia|].
        exists (b :: bl'). split; [auto|constructor; auto].
    + destruct X as [XL XS]. destruct b as [|x0 [|? ?]]; cbn in XL; try lia.
      cbn [app write_first]. assert (N1 : nsp p = 1%nat) by lia. rewrite N1 in *.
      change (skipn 1 (1 :: concat bl')) with (concat bl'). change (firstn 1 (1 :: concat bl')) with [1]. cbn [fst snd]. split; [exact I1|]. split; [constructor; auto|]. split; [cbn in *; lia|].
      exists ([1] :: bl2). split; [cbn [concat app]; now rewrite I4|]. constructor; auto. now apply okx_single.
Qed.

Lemma setMoles_wf m n : wf m -> let r := setMoles m n in
  wf (snd r) /\ (fst r = Ok tt -> x_init (snd r) = true) /\ fst r <> Exn.
Proof.
  intros W. cbv zeta. unfold setMoles, andthen. destruct (init_wf m W) as (I1 & I2 & I3).
  destruct (init m) as [o m1]. cbn [fst snd] in *. destruct I1 as [->| ->]; [|split; [auto|split; discriminate]].
  destruct (Nat.ltb_spec (List.length n) (x_nsp m1)) as [B|B]; [split; [auto|split; discriminate]|].
  destruct (w_init m1 I2 I3) as (_ & _ & _ & bl & E & F). rewrite E.
  rewrite (w_nsp m1 I2), before_all in B.
  destruct (moles_loop_ok (x_T m1) (x_P m1) (x_ph m1) (x_st m1) (x_moles m1) n bl (w_st m1 I2) (w_moles m1 I2)
              (w_pos m1 I2) F B) as (M1 & M2 & M3 & M4).
  cbn [fst snd]. split; [|split; [auto|destruct M1 as [->| ->]; discriminate]].
  apply wf_with_mf; [|exact I3|exact M4]. apply wf_with_moles; [|exact M3]. now apply wf_with_st.
Qed.

Lemma set_nth_length {A} (l : list A) i v : List.length (set_nth l i v) = List.length l.
Proof. revert i; induction l as [|a l IH]; intros [|i]; cbn; auto. Qed.
Lemma set_nth_Forall2 {A B} (R : A -> B -> Prop) ps qs i p v : Forall2 R ps qs ->
  nth_error ps i = Some p -> R p v -> Forall2 R ps (set_nth qs i v).
Proof.
  intros F. revert i. induction F as [|a b ps qs H F IH]; intros [|i] E Rv; cbn in *; try discriminate.
  - injection E as ->. constructor; auto.
  - constructor; auto.
Qed.
Lemma Forall2_nth {A B} (R : A -> B -> Prop) ps qs i p : Forall2 R ps qs -> nth_error ps i = Some p ->
  exists q, nth_error qs i = Some q /\ R p q.
Proof.
  intros F. revert i. induction F as [|a b ps qs H F IH]; intros [|i] E; cbn in *; try discriminate.
  - injection E as ->. eauto.
  - auto.
Qed.

Lemma starts_nth ps : Forall (fun p => (0 < nsp p)%nat) ps -> forall a i, (i < List.length ps)%nat ->
  nth_error (starts ps a) i = Some (a + before ps i)%nat.
Proof.
  induction 1 as [|p ps P F IH]; intros a i Hi; cbn in *; [lia|].
  destruct (Nat.eqb_spec (nsp p) 0); [lia|]. destruct i as [|i]; cbn.
  - f_equal. unfold before. cbn. lia.
  - rewrite IH by lia. f_equal. unfold before. cbn [firstn fold_right]. unfold nsp. lia.
Qed.
Lemma put_blocks ps bl i p x : Forall2 okx ps bl -> nth_error ps i = Some p -> okx p x ->
  put (concat bl) (before ps i) x = concat (set_nth bl i x).
Proof.
  intros F. revert i. induction F as [|a b ps bl H F IH]; intros [|i] E X; cbn [nth_error] in E; try discriminate.
  - injection E as ->. unfold before, put. cbn. rewrite skipn_app_len; [auto|]. destruct H, X; lia.
  - cbn [concat set_nth]. assert (L : List.length b = List.length (p_species a)) by apply H.
    unfold before, put in *. cbn [firstn fold_right]. rewrite <- L.
    rewrite firstn_app, firstn_all2 by lia.
    replace (List.length b + fold_right (fun p s => (List.length (p_species p) + s)%nat) 0%nat (firstn i ps) - List.length b)%nat
      with (fold_right (fun p s => (List.length (p_species p) + s)%nat) 0%nat (firstn i ps)) by lia.
    rewrite <- (IH i E X), <- app_assoc. f_equal. f_equal. f_equal.
    rewrite skipn_app, skipn_all2 by lia. cbn. f_equal. lia.
Qed.

Lemma setPhaseMoleFractions_wf m i x : wf m -> let r := setPhaseMoleFractions m i x in
  fst r <> UB -> wf (snd r).
Proof.
  intros W. cbv zeta. unfold setPhaseMoleFractions, andthen. destruct (init_wf m W) as (I1 & I2 & I3).
  destruct (init m) as [o m1]. cbn [fst snd] in *. destruct I1 as [->| ->]; [|auto].
  destruct (nth_error (x_ph m1) i) as [p|] eqn:EP; [|cbn; congruence].
  destruct (Forall2_nth _ _ _ _ _ (w_st m1 I2) EP) as (q & EQ & Q). rewrite EQ.
  destruct (Nat.ltb_spec (List.length x) (nsp p)) as [B|B]; [cbn; congruence|].
  set (y := firstn (nsp p) x). assert (LY : List.length y = nsp p) by (unfold y; rewrite firstn_length; lia).
  destruct (setTPX p q (x_T m1) (x_P m1) y) as [o q'] eqn:S.
  pose proof (setTPX_sound p q (x_T m1) (x_P m1) y q' LY Q) as SS. rewrite S in SS. cbn [fst snd] in SS.
  destruct o as [[]| | |]; cbn [fst snd].
  - destruct (SS ltac:(discriminate) eq_refl) as [OQ OX]. specialize (OX eq_refl).
    destruct (nth_error (x_spstart m1) i) as [s|] eqn:ES; [|cbn; congruence].
    destruct (Nat.leb_spec (s + List.length y) (List.length (x_mf m1))); [|cbn; congruence].
    cbn [fst snd]. intros _. apply wf_with_mf; [apply wf_with_st; auto; eapply set_nth_Forall2; [apply w_st; auto|exact EP|exact OQ]|exact I3|].
    cbn [x_ph with_st]. destruct (w_init m1 I2 I3) as (_ & SP & SN & bl & E & F).
    destruct (x_enames m1) as [|e0 en] eqn:EN.
    + destruct (SN eq_refl) as [SN' _]. rewrite SN' in ES. now destruct i.
    + destruct (SP ltac:(discriminate)) as (_ & ST & _). rewrite ST in ES.
      assert (Hi : (i < List.length (x_ph m1))%nat) by (apply nth_error_Some; congruence).
      rewrite starts_nth in ES by (auto; apply w_pos; auto). injection ES as <-. cbn [plus].
      rewrite E, (put_blocks (x_ph m1) bl i p y F EP OX). exists (set_nth bl i y). split; [auto|].
      eapply set_nth_Forall2; eauto.
  - intros _. apply wf_with_st; auto. eapply set_nth_Forall2; [apply w_st; auto|exact EP|]. apply SS; [discriminate|auto].
  - intros _. apply wf_with_st; auto. eapply set_nth_Forall2; [apply w_st; auto|exact EP|]. apply SS; [discriminate|auto].
  - congruence.
Qed.
