(** Proofs about Equil/MixModel.v: every reached mixture is well formed, and what its readers return. *)
From Coq Require Import Reals String List Bool Arith Lia Lra.
From Verif Require Import Base.Fp Base.Outcome Base.Map2 Base.RSum Equil.MixModel Equil.MixSpec Equil.MixProofs.
Import ListNotations.
Local Open Scope R_scope.
Local Open Scope list_scope.

Lemma empty_wf : wf empty.
Proof. constructor; cbn; auto; try discriminate. Qed.

Lemma before_app ps p : before (ps ++ [p]) (List.length (ps ++ [p])) = (before ps (List.length ps) + nsp p)%nat.
Proof.
  rewrite !before_all. induction ps as [|a ps IH]; cbn; [lia|]. rewrite IH. lia.
Qed.
Lemma addPhase_wf m p q v : wf m -> usable p q -> wf (snd (addPhase m p q v)).
Proof.
  intros W U. unfold addPhase. destruct (x_init m) eqn:I; [auto|]. destruct (negb (p_compat p)); [auto|].
  destruct (usable_okq p q U) as [OQ PP]. destruct W as [A B C D E F G].
  constructor; cbn [snd x_ph x_st x_moles x_tok x_nsp x_init x_atoms x_enames x_snames x_spstart x_spphase x_mf].
  - apply Forall_app. auto.
  - apply Forall2_app; auto.
  - rewrite !app_length, C. auto.
  - rewrite !app_length, D. auto.
  - now rewrite before_app, E.
  - congruence.
  - auto.
Qed.

Lemma no_phases m : wf m -> x_nsp m = 0%nat -> x_ph m = [].
Proof.
  intros W Z. rewrite (w_nsp m W), before_all in Z. pose proof (w_pos m W) as F.
  destruct (x_ph m) as [|p ps]; [auto|]. inversion F; subst. cbn in Z. lia.
Qed.
Lemma updatePhases_uninit m : wf m -> x_init m = false -> fst (updatePhases m) <> UB ->
  wf (snd (updatePhases m)).
Proof.
  intros W I. unfold updatePhases. destruct (w_not m W I) as (E & _). rewrite E.
  pose proof (w_pos m W) as FP. pose proof (w_st m W) as FS. pose proof (w_tok m W) as LT.
  destruct (x_ph m) as [|p ps] eqn:EP.
  - cbn. intros _. apply wf_struct; auto; rewrite EP; auto.
  - inversion FS as [|? q ? qs Q FQ]; subst. destruct (x_tok m) as [|t tok]; [discriminate|].
    inversion FP; subst. cbn [update_loop]. cbn [List.length].
    destruct (Nat.ltb_spec 0 (nsp p)); [|lia]. cbn. congruence.
Qed.

Lemma run_op_wf m o : wf m -> wf_op o -> fst (run_op m o) <> UB -> wf (snd (run_op m o)).
Proof.
  intros W WO. destruct o; cbn [run_op]; intros NU.
  - now apply addPhase_wf.
  - now apply init_wf.
  - now apply setMoles_wf.
  - unfold setMolesByName in *. destruct (_ <? _)%nat; [auto|]. now apply setMoles_wf.
  - unfold addSpeciesMoles in *. destruct (_ && _); [|auto]. now apply setMoles_wf.
  - unfold setPhaseMoles in *. destruct (_ <? _)%nat; [|auto]. cbn. apply wf_with_moles; auto.
    rewrite set_nth_length. now apply w_moles.
  - now apply setPhaseMoleFractions_wf.
  - unfold setTemperature, andthen in *. destruct (init_wf m W) as (I1 & I2 & I3).
    destruct (init m) as [o m1]. cbn [fst snd] in *. destruct I1 as [->| ->]; [|auto].
    apply updatePhases_wf; [now apply wf_with_TP|exact I3].
  - unfold setPressure in *. destruct (x_init m) eqn:I.
    + apply updatePhases_wf; [now apply wf_with_TP|exact I].
    + apply updatePhases_uninit; auto. now apply wf_with_TP.
  - unfold setState_TP, andthen in *. destruct (init_wf m W) as (I1 & I2 & I3).
    destruct (init m) as [o m1]. cbn [fst snd] in *. destruct I1 as [->| ->]; [|auto].
    apply updatePhases_wf; [now apply wf_with_TP|exact I3].
  - unfold setState_TPMoles in *. apply setMoles_wf. now apply wf_with_TP.
  - unfold uploadMoleFractionsFromPhases in *. destruct (Nat.ltb_spec (List.length (x_mf m)) (x_nsp m)); [auto|].
    cbn [snd]. unfold upload. destruct (x_init m) eqn:I.
    + apply wf_with_mf; auto. apply upload_blocks. now apply w_st.
    + destruct (w_not m W I) as (E & _). rewrite E in H. cbn in H.
      assert (P := no_phases m W ltac:(lia)). pose proof (w_st m W) as FS. rewrite P in FS.
      assert (Q : x_st m = []) by (now inversion FS). rewrite Q. cbn [map concat]. destruct W as [A B C D E' F G]. constructor; cbn; auto; [congruence|].
      intros _. destruct (G I) as (_ & G2). auto.
  - unfold external in *. destruct (nth_error (x_ph m) i) as [p|] eqn:EP; [|auto].
    destruct (Forall2_nth _ _ _ _ _ (w_st m W) EP) as (q & EQ & Q). rewrite EQ in *.
    destruct (Nat.eqb_spec (List.length x) (nsp p)) as [L|L]; [|auto]. cbn [fst snd] in *.
    apply wf_with_st; auto. eapply set_nth_Forall2; [apply w_st; auto|exact EP|].
    eapply (setTPX_sound p q T P x); auto.
Qed.

Lemma run_wf ops : forall m m', wf m -> Forall wf_op ops -> run m ops = Some m' -> wf m'.
Proof.
  induction ops as [|o ops IH]; intros m m' W F R; cbn in R; [injection R as <-; auto|].
  inversion F; subst. pose proof (run_op_wf m o W H1) as G. destruct (run_op m o) as [[| | |] m1]; try discriminate;
    (eapply IH; [|eassumption|eassumption]); apply G; discriminate.
Qed.
Lemma reached_wf m : reached m -> wf m.
Proof. intros (ops & F & R). exact (run_wf ops _ _ empty_wf F R). Qed.

(** ** Readers *)
Lemma nth_firstn {A} (l : list A) n k d : (k < n)%nat -> nth k (firstn n l) d = nth k l d.
Proof. revert n k; induction l as [|a l IH]; intros [|n] [|k] H; cbn; auto; try lia. apply IH. lia. Qed.
Lemma nth_skipn {A} (l : list A) n k d : nth k (skipn n l) d = nth (n + k) l d.
Proof. revert n; induction l as [|a l IH]; intros [|n]; cbn; auto. now destruct k. Qed.
Lemma map2_app {A B C} (f : A -> B -> C) l1 l2 m1 m2 : List.length l1 = List.length m1 ->
  map2 f (l1 ++ l2) (m1 ++ m2) = map2 f l1 m1 ++ map2 f l2 m2.
Proof. revert m1; induction l1 as [|a l IH]; intros [|b m1] H; cbn in *; try discriminate; auto. f_equal. apply IH. lia. Qed.

Lemma rd_ok {A} (l : list A) k d : (k < List.length l)%nat -> rd l k = Ok (nth k l d).
Proof.
  intros H. unfold rd. rewrite (nth_error_nth' l d H). reflexivity.
Qed.
Lemma osum_ok (F : nat -> outcome R) (f : nat -> R) n : (forall i, (i < n)%nat -> F i = Ok (f i)) ->
  osum (map F (seq 0 n)) = Ok (sum_n f n).
Proof.
  intros H. unfold sum_n, sum_of.
  assert (G : forall l, (forall i, In i l -> F i = Ok (f i)) -> osum (map F l) = Ok (rsum (map f l))).
  { induction l as [|a l IH]; intros Hl; cbn; [auto|]. rewrite Hl by (now left). cbn.
    rewrite IH by (intros; apply Hl; now right). reflexivity. }
  apply G. intros i Hi. apply in_seq in Hi. apply H. lia.
Qed.

Lemma all_species_length ps : List.length (all_species ps) = fold_right (fun p s => (nsp p + s)%nat) 0%nat ps.
Proof.
  induction ps as [|p ps IH]; cbn; [auto|]. rewrite app_length, map_length, seq_length.
  fold (all_species ps). unfold nsp at 1. now rewrite IH.
Qed.
Lemma all_species_nth ps i p ik d : nth_error ps i = Some p -> (ik < nsp p)%nat ->
  nth (before ps i + ik) (all_species ps) d = (p, ik) /\
  (before ps i + ik < fold_right (fun p s => (nsp p + s)%nat) 0%nat ps)%nat.
Proof.
  revert i. induction ps as [|a ps IH]; intros [|i] E K; cbn [nth_error] in E; try discriminate.
  - injection E as ->. unfold before. cbn. split; [|lia].
    rewrite app_nth1 by (rewrite map_length, seq_length; exact K).
    rewrite (nth_indep _ d (p, 0%nat)) by (rewrite map_length, seq_length; exact K).
    rewrite (map_nth (fun k => (p, k)) _ 0%nat ik), seq_nth by exact K. reflexivity.
  - destruct (IH i E K) as [I1 I2]. unfold before in *. cbn [firstn fold_right all_species flat_map].
    rewrite app_nth2 by (rewrite map_length, seq_length; lia). rewrite map_length, seq_length.
    replace (List.length (p_species a) + fold_right (fun p s => (List.length (p_species p) + s)%nat) 0%nat (firstn i ps) + ik - List.length (p_species a))%nat
      with (fold_right (fun p s => (List.length (p_species p) + s)%nat) 0%nat (firstn i ps) + ik)%nat by lia.
    split; [exact I1|]. unfold nsp at 1. lia.
Qed.
Lemma atoms_row_eq ps e : atoms_row ps e = map (atoms_of e) (all_species ps).
Proof.
  unfold atoms_row, all_species. induction ps as [|p ps IH]; cbn; [auto|].
  rewrite map_app, map_map, IH. reflexivity.
Qed.

Lemma scale_blocks_concat ps : forall nm bl, Forall2 okx ps bl -> List.length nm = List.length ps ->
  scale_blocks ps nm (concat bl) = concat (map2 (fun v b => map (fun x => x * v) b) nm bl).
Proof.
  induction ps as [|p ps IH]; intros nm bl F L.
  - inversion F; subst. destruct nm; [reflexivity|discriminate].
  - inversion F as [|? b ? bl' X FX]; subst. destruct nm as [|v nm]; [discriminate|]. cbn [concat scale_blocks map2].
    rewrite (firstn_app_len b) by apply X. rewrite (skipn_app_len b) by apply X. rewrite IH by (auto; cbn in L; lia). reflexivity.
Qed.

Lemma species_read ps : forall a nm bl k, Forall2 okx ps bl -> List.length nm = List.length ps ->
  (k < List.length (concat bl))%nat ->
  exists i, nth_error (owners ps a) k = Some (a + i)%nat /\ (i < List.length ps)%nat /\
    nth k (scale_blocks ps nm (concat bl)) 0 = nth i nm 0 * nth k (concat bl) 0.
Proof.
  induction ps as [|p ps IH]; intros a nm bl k F L Hk.
  - inversion F; subst. cbn in Hk. lia.
  - inversion F as [|? b ? bl' X FX]; subst. destruct nm as [|v nm]; [discriminate|]. cbn [concat scale_blocks owners] in *.
    rewrite (firstn_app_len b) by apply X. rewrite (skipn_app_len b) by apply X.
    destruct X as [XL XS]. rewrite app_length in Hk.
    destruct (Nat.lt_ge_cases k (nsp p)) as [B|B].
    + exists 0%nat. split; [|split; [cbn; lia|]].
      * rewrite nth_error_app1 by (rewrite repeat_length; auto).
        rewrite (nth_error_nth' _ a) by (rewrite repeat_length; auto). rewrite nth_repeat. f_equal. lia.
      * rewrite !app_nth1 by (rewrite ?map_length; lia).
        rewrite (nth_indep _ 0 (0 * v)) by (rewrite map_length; lia).
        rewrite (map_nth (fun x => x * v)). cbn. ring.
    + destruct (IH (S a) nm bl' (k - nsp p)%nat FX ltac:(cbn in L; lia) ltac:(lia)) as (i & I1 & I2 & I3).
      exists (S i). split; [|split; [cbn; lia|]].
      * rewrite nth_error_app2 by (rewrite repeat_length; auto). rewrite repeat_length, I1. f_equal. lia.
      * rewrite !app_nth2 by (rewrite ?map_length; lia). rewrite map_length, XL. rewrite I3. reflexivity.
Qed.

(** Phase by phase, a row of species data against the mole fractions. *)
Fixpoint bsum (row : list R) (ps : list ph) (nm mf : list R) : R :=
  match ps, nm with
  | p :: ps, v :: nm => rsum (map2 Rmult (firstn (nsp p) row) (firstn (nsp p) mf)) * v
                        + bsum (skipn (nsp p) row) ps nm (skipn (nsp p) mf)
  | _, _ => 0
  end.
Lemma rsum_map2_scale row b v : rsum (map2 (fun a x => a * (x * v)) row b) = rsum (map2 Rmult row b) * v.
Proof. revert b; induction row as [|a row IH]; intros [|x b]; cbn; try ring. rewrite IH. ring. Qed.
Lemma abund_bsum row ps nm mf : abund_loop row ps nm mf = bsum row ps nm mf.
Proof.
  revert row nm mf. induction ps as [|p ps IH]; intros row [|v nm] mf; cbn; auto. now rewrite IH, rsum_map2_scale.
Qed.
Lemma bsum_tally f ps : forall nm bl, Forall2 okx ps bl -> List.length nm = List.length ps ->
  bsum (map f (all_species ps)) ps nm (concat bl) = tally f ps (scale_blocks ps nm (concat bl)).
Proof.
  induction ps as [|p ps IH]; intros nm bl F L.
  - inversion F; subst. destruct nm; [reflexivity|discriminate].
  - inversion F as [|? b ? bl' X FX]; subst. destruct nm as [|v nm]; [discriminate|].
    cbn [concat scale_blocks bsum]. unfold tally. cbn [all_species flat_map]. fold (all_species ps).
    rewrite map_app. set (sp := map (fun k => (p, k)) (seq 0 (List.length (p_species p)))).
    assert (LS : List.length sp = nsp p) by (unfold sp; now rewrite map_length, seq_length).
    rewrite (firstn_app_len (map f sp)) by (now rewrite map_length).
    rewrite (skipn_app_len (map f sp)) by (now rewrite map_length).
    rewrite (firstn_app_len b) by apply X. rewrite (skipn_app_len b) by apply X.
    rewrite IH by (auto; cbn in L; lia). destruct X as [XL _].
    rewrite map2_app by (rewrite map_length; lia). rewrite rsum_app. unfold tally. f_equal.
    rewrite <- rsum_map2_scale. clear - LS XL. clearbody sp. revert b LS XL. generalize (nsp p).
    induction sp as [|s sp IH]; intros n [|x b] LS XL; cbn; auto. f_equal.
    destruct n; [discriminate|]. apply (IH n b); cbn in *; lia.
Qed.
Lemma rsum_map2_nth0 l1 l2 : List.length l1 = List.length l2 ->
  rsum (map2 Rmult l1 l2) = sum_n (fun k => nth k l1 0 * nth k l2 0) (List.length l1).
Proof.
  revert l2. induction l1 as [|a l IH]; intros [|b m] H; cbn in H; try discriminate; [reflexivity|].
  cbn [map2 rsum List.length]. rewrite sum_n_shift. cbn [nth]. now rewrite IH by lia.
Qed.
Lemma skipn_plus {A} (l : list A) a b : skipn b (skipn a l) = skipn (a + b) l.
Proof. revert a; induction l as [|x l IH]; intros [|a]; cbn; auto. now destruct b. Qed.
Lemma sum_bsum ps : forall a row nm mf, List.length nm = List.length ps ->
  (a + fold_right (fun p s => (nsp p + s)%nat) 0%nat ps <= List.length row)%nat ->
  (a + fold_right (fun p s => (nsp p + s)%nat) 0%nat ps <= List.length mf)%nat ->
  sum_n (fun i => sum_n (fun ik => nth (a + before ps i + ik) row 0 * nth (a + before ps i + ik) mf 0)
                    (match nth_error ps i with Some p => nsp p | None => 0%nat end) * nth i nm 0) (List.length ps)
  = bsum (skipn a row) ps nm (skipn a mf).
Proof.
  induction ps as [|p ps IH]; intros a row nm mf L LR LM; [destruct nm; reflexivity|].
  destruct nm as [|v nm]; [discriminate|]. cbn [List.length bsum fold_right] in *. rewrite sum_n_shift. cbn [nth_error nth].
  f_equal.
  - f_equal. rewrite rsum_map2_nth0 by (rewrite !firstn_length, !skipn_length; lia).
    rewrite firstn_length, skipn_length. rewrite Nat.min_l by lia.
    apply sum_n_ext. intros ik Hik. rewrite !nth_firstn by auto. rewrite !nth_skipn.
    unfold before. cbn [firstn fold_right]. now rewrite Nat.add_0_r.
  - rewrite !skipn_plus. rewrite <- (IH (a + nsp p)%nat row nm mf) by lia.
    apply sum_n_ext. intros i Hi. f_equal. apply sum_n_ext. intros ik Hik.
    unfold before. cbn [firstn fold_right]. unfold nsp. rewrite !Nat.add_assoc. reflexivity.
Qed.

Lemma speciesIndex_ok m i ik : wf m -> x_init m = true -> x_enames m <> [] -> (i < List.length (x_ph m))%nat ->
  speciesIndex m ik i = Ok (before (x_ph m) i + ik)%nat.
Proof.
  intros W I NE Hi. destruct (w_init m W I) as (_ & SP & _). destruct (SP NE) as (_ & ST & _).
  unfold speciesIndex, rd. rewrite ST, starts_nth by (auto; apply w_pos; auto). reflexivity.
Qed.
(** A loop over phases and their species, reading by m_spstart. *)
Lemma phase_loop m (g : ph -> nat -> R) : wf m -> x_init m = true -> x_enames m <> [] ->
  osum (map (fun i =>
    match nth_error (x_ph m) i with
    | None => UB
    | Some p =>
        obind (osum (map (fun ik =>
          obind (speciesIndex m ik i) (fun k =>
          obind (rd (x_mf m) k) (fun x => Ok (g p ik * x)))) (seq 0 (nsp p)))) (fun s =>
        obind (rd (x_moles m) i) (fun v => Ok (s * v)))
    end) (seq 0 (List.length (x_ph m))))
  = Ok (tally (fun s => g (fst s) (snd s)) (x_ph m) (getMoles m)).
Proof.
  intros W I NE. destruct (w_init m W I) as (_ & SP & _ & bl & E & F). destruct (SP NE) as (_ & ST & _).
  set (row := map (fun s => g (fst s) (snd s)) (all_species (x_ph m))).
  assert (LR : List.length row = fold_right (fun p s => (nsp p + s)%nat) 0%nat (x_ph m))
    by (unfold row; rewrite map_length; apply all_species_length).
  assert (LM : List.length (x_mf m) = fold_right (fun p s => (nsp p + s)%nat) 0%nat (x_ph m))
    by (rewrite E; now apply concat_length_ok).
  rewrite (osum_ok _ (fun i => sum_n (fun ik => nth (before (x_ph m) i + ik) row 0 * nth (before (x_ph m) i + ik) (x_mf m) 0)
     (match nth_error (x_ph m) i with Some p => nsp p | None => 0%nat end) * nth i (x_moles m) 0)).
  - f_equal. pose proof (sum_bsum (x_ph m) 0 row (x_moles m) (x_mf m) (w_moles m W) ltac:(lia) ltac:(lia)) as S.
    cbn [plus skipn] in S. rewrite S. unfold row, getMoles. rewrite E. apply bsum_tally; auto. apply w_moles; auto.
  - intros i Hi. destruct (nth_error (x_ph m) i) as [p|] eqn:EP; [|apply nth_error_None in EP; lia].
    rewrite (osum_ok _ (fun ik => nth (before (x_ph m) i + ik) row 0 * nth (before (x_ph m) i + ik) (x_mf m) 0)).
    + cbn [obind]. rewrite (rd_ok _ i 0) by (rewrite (w_moles m W); auto). reflexivity.
    + intros ik Hik. rewrite speciesIndex_ok by auto. cbn [obind].
      destruct (all_species_nth (x_ph m) i p ik (p, ik) EP Hik) as [N1 N2].
      rewrite (rd_ok _ _ 0) by lia. cbn [obind]. do 2 f_equal. unfold row.
      rewrite (nth_indep _ 0 (g (fst (p, ik)) (snd (p, ik)))) by (rewrite map_length, all_species_length; auto).
      rewrite (map_nth (fun s => g (fst s) (snd s))), N1. reflexivity.
Qed.

Lemma getMoles_length m : wf m -> x_init m = true -> List.length (getMoles m) = x_nsp m.
Proof.
  intros W I. destruct (w_init m W I) as (_ & _ & _ & bl & E & F). unfold getMoles.
  rewrite (w_nsp m W), before_all, <- (concat_length_ok _ _ F), E.
  pose proof (w_moles m W) as L. revert L. generalize (x_moles m). clear E I W.
  induction F as [|p b ps bl [XL XS] F IH]; intros nm L; [destruct nm; reflexivity|].
  destruct nm as [|v nm]; [discriminate|]. cbn [concat scale_blocks].
  rewrite (firstn_app_len b), (skipn_app_len b) by auto. rewrite !app_length, map_length.
  rewrite IH by (cbn in L; lia). reflexivity.
Qed.

Lemma speciesMoles_ok m k : wf m -> x_init m = true -> x_enames m <> [] -> (k < x_nsp m)%nat ->
  speciesMoles m k = Ok (nth k (getMoles m) 0).
Proof.
  intros W I NE Hk. destruct (w_init m W I) as (_ & SP & _ & bl & E & F). destruct (SP NE) as (_ & _ & SO).
  assert (LM := blocks_length (x_ph m) (x_mf m) ltac:(exists bl; auto)). rewrite (w_nsp m W), <- LM in Hk.
  rewrite E in Hk. destruct (species_read (x_ph m) 0 (x_moles m) bl k F (w_moles m W) Hk) as (i & S1 & S2 & S3).
  unfold speciesMoles. rewrite SO. unfold rd at 1. rewrite S1. cbn [obind plus].
  rewrite (rd_ok _ i 0) by (rewrite (w_moles m W); auto). cbn [obind].
  rewrite (rd_ok (x_mf m) k 0) by (rewrite E; auto). cbn [obind]. unfold getMoles. rewrite E, S3. reflexivity.
Qed.

Lemma elementMoles_ok m e name : wf m -> x_init m = true -> nth_error (x_enames m) e = Some name ->
  elementMoles m e = Ok (tally (atoms_of name) (x_ph m) (getMoles m)).
Proof.
  intros W I EN. assert (NE : x_enames m <> []) by (intros Z; rewrite Z in EN; now destruct e).
  pose proof (phase_loop m (fun p ik => atoms_of name (p, ik)) W I NE) as G.
  destruct (w_init m W I) as (AT & SP & _ & bl & E & F). destruct (SP NE) as (_ & ST & _).
  unfold elementMoles. etransitivity; [|etransitivity; [exact G|]].
  - f_equal. apply map_ext_in. intros i Hi. apply in_seq in Hi.
    destruct (nth_error (x_ph m) i) as [p|] eqn:EP; [|reflexivity]. f_equal. f_equal. apply map_ext_in. intros ik Hik. apply in_seq in Hik.
    rewrite speciesIndex_ok by (auto; lia). cbn [obind].
    unfold nAtoms, rd at 1. rewrite AT, nth_error_map, EN. cbn [option_map obind].
    destruct (all_species_nth (x_ph m) i p ik (p, ik) EP ltac:(lia)) as [N1 N2].
    rewrite atoms_row_eq. rewrite (rd_ok _ _ 0) by (rewrite map_length, all_species_length; auto). cbn [obind].
    rewrite (nth_indep _ 0 (atoms_of name (p, ik))) by (rewrite map_length, all_species_length; auto).
    rewrite (map_nth (atoms_of name)), N1. reflexivity.
  - f_equal.
Qed.
Lemma abundances_ok m : wf m -> x_init m = true ->
  getElemAbundances m = map (fun name => tally (atoms_of name) (x_ph m) (getMoles m)) (x_enames m).
Proof.
  intros W I. destruct (w_init m W I) as (AT & _ & _ & bl & E & F). unfold getElemAbundances.
  rewrite AT, map_map. apply map_ext. intros name. rewrite abund_bsum, atoms_row_eq.
  unfold getMoles. rewrite E. apply bsum_tally; auto. apply w_moles; auto.
Qed.
Lemma charge_ok m : wf m -> x_init m = true -> x_enames m <> [] ->
  charge m = Ok (tally charge_of (x_ph m) (getMoles m)).
Proof.
  intros W I NE. exact (phase_loop m (fun p ik => p_charge p ik) W I NE).
Qed.
Lemma nAtoms_ok m k e name s : wf m -> x_init m = true -> nth_error (x_enames m) e = Some name ->
  nth_error (all_species (x_ph m)) k = Some s -> nAtoms m k e = Ok (atoms_of name s).
Proof.
  intros W I EN EK. destruct (w_init m W I) as (AT & _). unfold nAtoms, rd at 1. rewrite AT, nth_error_map, EN.
  cbn [option_map obind]. unfold rd. rewrite atoms_row_eq, nth_error_map, EK. reflexivity.
Qed.
