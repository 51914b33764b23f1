From Coq Require Import Reals ZArith List Bool Arith Lia Lra Sorted.
From Verif Require Import Base.Outcome Base.Fp SpThermo.Model SpThermo.Spec SpThermo.Proofs.
Import ListNotations.
Local Open Scope list_scope.
Local Open Scope R_scope.

Lemma sp_find_set : forall l ty v ty', sp_find (sp_set l ty v) ty' = if Z.eqb ty ty' then v else sp_find l ty'.
Proof.
  induction l as [|[i w] l IH]; cbn [sp_set]; intros ty v ty'.
  - cbn. destruct (Z.eqb_spec ty ty'); reflexivity.
  - destruct (Z.eqb_spec i ty) as [->|N].
    + cbn. destruct (Z.eqb ty ty'); reflexivity.
    + destruct (Z.ltb ty i); cbn.
      * destruct (Z.eqb ty ty'); reflexivity.
      * rewrite IH. destruct (Z.eqb_spec i ty'), (Z.eqb_spec ty ty'); subst; try reflexivity. congruence.
Qed.
Lemma sp_set_keys : forall l ty v k, In k (map fst (sp_set l ty v)) <-> k = ty \/ In k (map fst l).
Proof.
  induction l as [|[i w] l IH]; cbn [sp_set]; intros ty v k.
  - cbn. intuition.
  - destruct (Z.eqb_spec i ty) as [->|N]; [cbn; intuition|].
    destruct (Z.ltb ty i); cbn; [intuition|]. rewrite IH. intuition.
Qed.
Lemma sp_set_sorted : forall l ty v, StronglySorted Z.lt (map fst l) -> StronglySorted Z.lt (map fst (sp_set l ty v)).
Proof.
  induction l as [|[i w] l IH]; cbn [sp_set]; intros ty v S.
  - cbn. repeat constructor.
  - cbn [map fst] in S. apply StronglySorted_inv in S as [S F].
    destruct (Z.eqb_spec i ty) as [->|N]; [cbn; constructor; auto|].
    destruct (Z.ltb_spec ty i).
    + cbn. constructor; [constructor; auto|]. constructor; [auto|]. eapply Forall_impl; [|exact F]. cbn. intros; lia.
    + cbn [map fst]. constructor; [apply IH; auto|]. rewrite Forall_forall in *. intros k K. apply sp_set_keys in K as [->|K]; [lia|auto].
Qed.
Lemma sp_set_in : forall l ty v e, In e (sp_set l ty v) -> e = (ty, v) \/ In e l.
Proof.
  induction l as [|[i w] l IH]; cbn [sp_set]; intros ty v e H.
  - cbn in H. intuition.
  - destruct (Z.eqb_spec i ty) as [->|N]; [cbn in *; intuition|].
    destruct (Z.ltb ty i); cbn in *; [intuition|]. destruct H as [H|H]; [auto|]. apply IH in H. intuition.
Qed.
Lemma sp_find_in : forall l ty sp, StronglySorted Z.lt (map fst l) -> In (ty, sp) l -> sp_find l ty = sp.
Proof.
  induction l as [|[i w] l IH]; cbn; intros ty sp S H; [easy|]. apply StronglySorted_inv in S as [S F].
  destruct H as [H|H]; [injection H as -> ->; rewrite Z.eqb_refl; reflexivity|].
  destruct (Z.eqb_spec i ty) as [->|N]; [|auto].
  exfalso. rewrite Forall_forall in F. specialize (F ty (in_map fst _ _ H)). lia.
Qed.
Lemma sp_in_find : forall l ty x, In x (sp_find l ty) -> In (ty, sp_find l ty) l.
Proof.
  induction l as [|[i w] l IH]; cbn; intros ty x H; [easy|].
  destruct (Z.eqb_spec i ty) as [->|N]; [left; reflexivity | right; eauto].
Qed.

Record inv (g : mgr) : Prop := Inv {
  i_loc : forall k ty j, loc_find (g_loc g) k = Some (ty, j) <-> exists t, nth_error (sp_find (g_sp g) ty) j = Some (k, t);
  i_type : forall ty k t, In (k, t) (sp_find (g_sp g) ty) -> type_of t = ty;
  i_sorted : StronglySorted Z.lt (map fst (g_sp g));
  i_ne : forall ty sp, In (ty, sp) (g_sp g) -> sp <> [];
  i_lim : forall ty k t, In (k, t) (sp_find (g_sp g) ty) -> t_min t <= g_low g /\ g_high g <= t_max t
}.
Lemma inv0 : inv mgr0.
Proof.
  constructor; cbn.
  - intros k ty j; split; [discriminate | intros [t H]; destruct j; discriminate H].
  - easy.
  - constructor.
  - easy.
  - easy.
Qed.
Lemma provide_in : forall g k t, inv g -> (provide g k = Some t <-> exists ty, In (k, t) (sp_find (g_sp g) ty)).
Proof.
  intros g k t I. unfold provide. split.
  - destruct (loc_find (g_loc g) k) as [[ty j]|] eqn:L; [|discriminate].
    apply (i_loc g I) in L as [t' L]. rewrite L. cbn. intros E. injection E as <-.
    exists ty. eapply nth_error_In; eauto.
  - intros [ty H]. apply In_nth_error in H as [j H].
    rewrite (proj2 (i_loc g I k ty j) (ex_intro _ t H)). rewrite H. reflexivity.
Qed.
Lemma provide_loc : forall g k, inv g -> (provide g k = None <-> loc_find (g_loc g) k = None).
Proof.
  intros g k I. unfold provide. destruct (loc_find (g_loc g) k) as [[ty j]|] eqn:L; [|tauto].
  apply (i_loc g I) in L as [t' L]. rewrite L. cbn. split; discriminate.
Qed.
Lemma rmax2_spec : forall a b, a <= rmax2 a b /\ b <= rmax2 a b /\ (rmax2 a b = a \/ rmax2 a b = b).
Proof. intros. unfold rmax2. destruct (rltb a b) eqn:E; [apply rltb_true in E | apply rltb_false in E]; repeat split; try lra; auto. Qed.
Lemma rmin2_spec : forall a b, rmin2 a b <= a /\ rmin2 a b <= b /\ (rmin2 a b = a \/ rmin2 a b = b).
Proof. intros. unfold rmin2. destruct (rltb b a) eqn:E; [apply rltb_true in E | apply rltb_false in E]; repeat split; try lra; auto. Qed.

Lemma nth_error_snoc : forall {A} (l : list A) a j, nth_error (l ++ [a]) j = if (j =? length l)%nat then Some a else nth_error l j.
Proof.
  intros. destruct (Nat.eqb_spec j (length l)) as [->|N].
  - rewrite nth_error_app2, Nat.sub_diag by lia. reflexivity.
  - destruct (lt_dec j (length l)); [apply nth_error_app1; lia|].
    rewrite nth_error_app2 by lia. rewrite (proj2 (nth_error_None l j)) by lia.
    destruct (j - length l)%nat as [|[|]] eqn:E; try lia; reflexivity.
Qed.
Lemma install_ok : forall g k t g', inv g -> install g k t = Ok g' ->
  inv g' /\ provide g k = None /\ (forall i, provide g' i = override (provide g) k t i) /\
  (g_p0 g = 0 \/ Rabs (g_p0 g - t_pref t) <= / 10 ^ 6) /\ g_p0 g' = (if reqb (g_p0 g) 0 then t_pref t else g_p0 g) /\
  g_low g' = rmax2 (t_min t) (g_low g) /\ g_high g' = rmin2 (t_max t) (g_high g).
Proof.
  intros g k t g' I. unfold install. destruct (loc_find (g_loc g) k) eqn:L; [discriminate|].
  destruct (reqb (g_p0 g) 0 || negb (rltb (/ 10 ^ 6) (Rabs (g_p0 g - t_pref t))))%bool eqn:C; [|discriminate].
  intros E. injection E as <-. cbn [g_p0 g_low g_high].
  assert (NB : forall ty j t', nth_error (sp_find (g_sp g) ty) j <> Some (k, t')).
  { intros ty j t' H. rewrite (proj2 (i_loc g I k ty j) (ex_intro _ t' H)) in L. discriminate. }
  set (g' := MG _ _ _ _ _).
  assert (I' : inv g').
  { constructor; unfold g'; cbn [g_sp g_loc g_low g_high].
    - intros i ty j. cbn [loc_find]. rewrite sp_find_set.
      destruct (Nat.eqb_spec k i) as [->|N].
      + destruct (Z.eqb_spec (type_of t) ty) as [<-|T].
        * rewrite nth_error_snoc. destruct (Nat.eqb_spec j (length (sp_find (g_sp g) (type_of t)))) as [->|J].
          -- split; eauto.
          -- split; [congruence|]. intros [t' H]. exfalso. eapply NB; eauto.
        * split; [congruence|]. intros [t' H]. exfalso. eapply NB; eauto.
      + rewrite (i_loc g I). destruct (Z.eqb_spec (type_of t) ty) as [<-|T]; [|tauto].
        rewrite nth_error_snoc. destruct (Nat.eqb_spec j (length (sp_find (g_sp g) (type_of t)))) as [->|J]; [|tauto].
        split; intros [t' H].
        * rewrite (proj2 (nth_error_None _ _)) in H by lia. discriminate.
        * congruence.
    - intros ty i t'. rewrite sp_find_set. destruct (Z.eqb_spec (type_of t) ty) as [<-|T]; [|apply (i_type g I)].
      intros H. apply in_app_or in H as [H|[H|[]]]; [apply (i_type g I _ _ _ H) | congruence].
    - apply sp_set_sorted, (i_sorted g I).
    - intros ty sp H. apply sp_set_in in H as [H|H]; [|eapply (i_ne g I); eauto].
      injection H as -> ->. destruct (sp_find (g_sp g) (type_of t)); discriminate.
    - intros ty i t' H.
      destruct (rmax2_spec (t_min t) (g_low g)) as (A & B & _). destruct (rmin2_spec (t_max t) (g_high g)) as (A' & B' & _).
      assert (D : t' = t \/ In (i, t') (sp_find (g_sp g) ty)).
      { rewrite sp_find_set in H. destruct (Z.eqb_spec (type_of t) ty) as [<-|T]; [|auto].
        apply in_app_or in H as [H|[H|[]]]; [auto | left; congruence]. }
      destruct D as [->|D]; [split; assumption|]. destruct (i_lim g I _ _ _ D). split; lra. }
  split; [exact I'|]. split; [apply provide_loc; auto|]. split.
  { intros i. unfold override. destruct (Nat.eqb_spec i k) as [->|N].
    - apply provide_in; auto. exists (type_of t). unfold g'; cbn [g_sp]. rewrite sp_find_set, Z.eqb_refl. apply in_or_app. right. left. reflexivity.
    - destruct (provide g i) as [t'|] eqn:P.
      + apply provide_in in P; auto. apply provide_in; auto. destruct P as [ty P]. exists ty. unfold g'; cbn [g_sp]. rewrite sp_find_set.
        destruct (Z.eqb_spec (type_of t) ty) as [<-|T]; auto. apply in_or_app. auto.
      + apply provide_loc; auto. unfold g'; cbn [g_loc loc_find]. destruct (Nat.eqb_spec k i); [congruence|]. apply provide_loc; auto. }
  repeat split; auto.
  apply orb_true_iff in C as [C|C]; [left; apply reqb_true; auto|].
  right. apply negb_true_iff in C. apply rltb_false in C. exact C.
Qed.
Lemma nth_set_nth : forall {A} (l : list A) i v j, nth_error (set_nth l i v) j = if (j =? i)%nat then option_map (fun _ => v) (nth_error l j) else nth_error l j.
Proof.
  induction l as [|a l IH]; intros [|i] v [|j]; cbn; try reflexivity.
  - destruct (j =? i)%nat; reflexivity.
  - apply IH.
Qed.
Lemma set_nth_in : forall {A} (l : list A) i v x, In x (set_nth l i v) -> x = v \/ In x l.
Proof. induction l as [|a l IH]; intros [|i] v x H; cbn in *; intuition. apply IH in H0. intuition. Qed.
Lemma put_ok : forall g k t t', inv g -> provide g k = Some t' -> type_of t = type_of t' -> t_min t <= g_low g -> g_high g <= t_max t ->
  inv (put g k t) /\ (forall i, provide (put g k t) i = override (provide g) k t i) /\
  g_low (put g k t) = g_low g /\ g_high (put g k t) = g_high g /\ g_p0 (put g k t) = g_p0 g.
Proof.
  intros g k t t' I P T LO HI. unfold put. unfold provide in P.
  destruct (loc_find (g_loc g) k) as [[ty j]|] eqn:L; [|discriminate].
  assert (X := proj1 (i_loc g I k ty j) L). destruct X as [t'' X]. rewrite X in P. cbn in P. injection P as ->.
  assert (TY : type_of t' = ty) by (eapply (i_type g I); eapply nth_error_In; eauto).
  set (g' := MG _ _ _ _ _).
  assert (I' : inv g').
  { constructor; unfold g'; cbn [g_sp g_loc g_low g_high].
    - intros i ty' j'. rewrite (i_loc g I), sp_find_set. destruct (Z.eqb_spec ty ty') as [<-|N]; [|tauto].
      rewrite nth_set_nth. destruct (Nat.eqb_spec j' j) as [->|J]; [|tauto]. rewrite X. cbn.
      split; intros [u U]; injection U as -> _; eauto.
    - intros ty' i u. rewrite sp_find_set. destruct (Z.eqb_spec ty ty') as [<-|N]; [|apply (i_type g I)].
      intros H. apply set_nth_in in H as [H|H]; [congruence | apply (i_type g I _ _ _ H)].
    - apply sp_set_sorted, (i_sorted g I).
    - intros ty' sp H. apply sp_set_in in H as [H|H]; [|eapply (i_ne g I); eauto].
      injection H as -> ->. intros E. assert (Z := nth_set_nth (sp_find (g_sp g) ty) j (k, t) j). rewrite E, Nat.eqb_refl, X in Z. destruct j; discriminate Z.
    - intros ty' i u H. rewrite sp_find_set in H. destruct (Z.eqb_spec ty ty') as [<-|N]; [|apply (i_lim g I _ _ _ H)].
      apply set_nth_in in H as [H|H]; [injection H as -> ->; auto | apply (i_lim g I _ _ _ H)]. }
  split; [exact I'|]. split; [|unfold g'; auto].
  intros i. unfold override. destruct (Nat.eqb_spec i k) as [->|N].
  - unfold provide, g'; cbn [g_loc g_sp]. rewrite L, sp_find_set, Z.eqb_refl, nth_set_nth, Nat.eqb_refl, X. reflexivity.
  - unfold provide, g'; cbn [g_loc g_sp]. destruct (loc_find (g_loc g) i) as [[ty' j']|] eqn:L'; [|reflexivity].
    rewrite sp_find_set. destruct (Z.eqb_spec ty ty') as [<-|N']; [|reflexivity].
    rewrite nth_set_nth. destruct (Nat.eqb_spec j' j) as [->|J]; [|reflexivity].
    apply (i_loc g I) in L' as [u U]. congruence.
Qed.
Lemma modify_type : forall t h t', modifyHf298 t h = Ok t' -> type_of t' = type_of t /\ t_min t' = t_min t /\ t_max t' = t_max t /\ t_pref t' = t_pref t.
Proof.
  intros [a b c k] h t'. unfold modifyHf298, type_of; cbn [t_kind]. destruct k; intros E; try discriminate E; injection E as <-; cbn; auto.
Qed.
Lemma reset_type : forall t t', resetHf298 t = Ok t' -> type_of t' = type_of t /\ t_min t' = t_min t /\ t_max t' = t_max t /\ t_pref t' = t_pref t.
Proof.
  intros [a b c k] t'. unfold resetHf298, type_of; cbn [t_kind]. destruct k; intros E; try discriminate E; injection E as <-; cbn; auto.
Qed.
Lemma put_same : forall g k t t', inv g -> provide g k = Some t -> type_of t' = type_of t -> t_min t' = t_min t -> t_max t' = t_max t ->
  inv (put g k t') /\ (forall i, provide (put g k t') i = override (provide g) k t' i) /\
  g_low (put g k t') = g_low g /\ g_high (put g k t') = g_high g /\ g_p0 (put g k t') = g_p0 g.
Proof.
  intros g k t t' I P T L H. assert (Q := proj1 (provide_in g k t I) P). destruct Q as [ty Q]. destruct (i_lim g I _ _ _ Q).
  apply (put_ok g k t' t); auto; lra.
Qed.

Lemma step_ok : forall g o g', inv g -> step g o = Ok g' -> inv g' /\ effect g o g' /\
  (match o with OInstall _ _ => True | _ => g_low g' = g_low g /\ g_high g' = g_high g /\ g_p0 g' = g_p0 g end).
Proof.
  intros g [k t|k t|k h|k] g' I; cbn [step effect]; intros E.
  - destruct (install_ok g k t g' I E) as (A & B & C & _). auto.
  - unfold modifySpecies in E. destruct (loc_find (g_loc g) k) as [[ty j]|] eqn:L; [|discriminate].
    destruct (Z.eqb_spec ty (type_of t)) as [T|]; [|discriminate]. cbn [negb] in E.
    destruct (rltb (g_low g) (t_min t)) eqn:R1; [discriminate|]. destruct (rltb (t_max t) (g_high g)) eqn:R2; [discriminate|].
    apply rltb_false in R1, R2. injection E as <-.
    assert (X := proj1 (i_loc g I k ty j) L). destruct X as [t0 X].
    assert (P : provide g k = Some t0) by (unfold provide; rewrite L, X; reflexivity).
    assert (TY : type_of t0 = ty) by (eapply (i_type g I); eapply nth_error_In; eauto).
    destruct (put_ok g k t t0 I P) as (A & B & C); try congruence; auto.
    split; [exact A|]. split; [|exact C]. split; [|exact B]. exists t0. repeat split; auto. congruence.
  - unfold g_modifyHf298 in E. destruct (provide g k) as [t|] eqn:P; [|injection E as <-; auto].
    destruct (modifyHf298 t h) as [t'| | |] eqn:M; try discriminate E. injection E as <-.
    destruct (modify_type t h t' M) as (T1 & T2 & T3 & _). destruct (put_same g k t t' I P T1 T2 T3) as (A & B & C).
    split; [exact A|]. split; [|exact C]. exists t'. auto.
  - unfold g_resetHf298 in E. destruct (provide g k) as [t|] eqn:P; [|injection E as <-; auto].
    destruct (resetHf298 t) as [t'| | |] eqn:M; try discriminate E. injection E as <-.
    destruct (reset_type t t' M) as (T1 & T2 & T3 & _). destruct (put_same g k t t' I P T1 T2 T3) as (A & B & C).
    split; [exact A|]. split; [|exact C]. exists t'. auto.
Qed.
Lemma run_snoc : forall ops o, run (ops ++ [o]) = next (run ops) o.
Proof. intros. unfold run. rewrite fold_left_app. reflexivity. Qed.
Lemma run_inv : forall ops, inv (run ops).
Proof.
  intros ops. induction ops as [|o ops IH] using rev_ind; [apply inv0|]. rewrite run_snoc. unfold next.
  destruct (step (run ops) o) eqn:E; auto. eapply step_ok; eauto.
Qed.

(* -------- update -------- *)
Lemma update_list_ok : forall sp tt f, (forall k t, In (k, t) sp -> update_tt t tt = Ok (f t)) ->
  update_list tt sp = Ok (map (fun x => (fst x, f (snd x))) sp).
Proof.
  induction sp as [|[k t] sp IH]; cbn [update_list map fst snd]; intros tt f H; [reflexivity|].
  rewrite (H k t) by (left; reflexivity). cbn [obind]. rewrite (IH tt f); [reflexivity|]. intros; apply (H k0 t0); right; auto.
Qed.
Lemma update_types_ok : forall l T f, (forall ty sp, In (ty, sp) l -> sp <> []) ->
  (forall ty sp k t, In (ty, sp) l -> In (k, t) sp -> type_of t = ty) ->
  (forall ty sp k t, In (ty, sp) l -> In (k, t) sp -> update_temp t T = Ok (f t)) ->
  update_types T l = Ok (flat_map (fun e => map (fun x => (fst x, f (snd x))) (snd e)) l).
Proof.
  induction l as [|[ty sp] l IH]; cbn [update_types flat_map snd]; intros T f NE TY U; [reflexivity|].
  destruct sp as [|[k0 t0] sp0] eqn:ES; [exfalso; eapply NE; [left; reflexivity|reflexivity]|]. rewrite <- ES in *.
  rewrite (update_list_ok sp (tpoly t0 T) f).
  - cbn [obind]. rewrite (IH T f); [reflexivity| | |]; intros; [eapply NE; right; eauto | eapply TY; [right; eauto|eauto] | eapply U; [right; eauto|eauto]].
  - intros k t H. rewrite tt_temp; [eapply U; [left; reflexivity|eauto]|].
    rewrite (TY ty sp k t) by (auto; left; reflexivity). apply (TY ty sp k0 t0); [left; reflexivity|]. rewrite ES. left. reflexivity.
Qed.
Lemma nodup_pieces : forall l : list (Z * list (nat * stit)),
  (forall ty sp, In (ty, sp) l -> NoDup (map fst sp)) -> NoDup (map fst l) ->
  (forall ty sp ty' sp' k, In (ty, sp) l -> In (ty', sp') l -> In k (map fst sp) -> In k (map fst sp') -> ty = ty') ->
  NoDup (flat_map (fun e => map fst (snd e)) l).
Proof.
  induction l as [|[ty sp] l IH]; cbn [flat_map map snd fst]; intros A B C; [constructor|].
  inversion B as [|? ? B1 B2]; subst.
  assert (D : NoDup (flat_map (fun e => map fst (snd e)) l)).
  { apply IH; auto; intros; [eapply A; right; eauto | eapply C; [right; eauto | right; eauto | eauto | eauto]]. }
  assert (E : NoDup (map fst sp)) by (eapply A; left; reflexivity).
  assert (F : forall k, In k (map fst sp) -> ~ In k (flat_map (fun e => map fst (snd e)) l)).
  { intros k K H. apply in_flat_map in H as ([ty' sp'] & H1 & H2). cbn [snd] in H2.
    assert (ty = ty') by (eapply C; [left; reflexivity | right; eauto | eauto | eauto]). subst.
    apply B1. apply (in_map fst) in H1. exact H1. }
  clear - D E F. induction sp as [|a sp IHs]; cbn [map app]; [exact D|].
  cbn [map] in E. inversion E; subst. constructor.
  - intros H. apply in_app_or in H as [H|H]; [auto|]. apply (F (fst a)); [left; auto|auto].
  - apply IHs; auto. intros; apply F; right; auto.
Qed.
Lemma update_ok : forall g T, inv g -> (forall k t, provide g k = Some t -> exists p, update_temp t T = Ok p) ->
  exists out, update g T = Ok out /\ NoDup (map fst out) /\
    forall k p, In (k, p) out <-> exists t, provide g k = Some t /\ update_temp t T = Ok p.
Proof.
  intros g T I U.
  set (f := fun t => match update_temp t T with Ok p => p | _ => (0, 0, 0) end).
  assert (IN : forall ty sp k t, In (ty, sp) (g_sp g) -> In (k, t) sp -> In (k, t) (sp_find (g_sp g) ty)).
  { intros ty sp k t H1 H2. rewrite (sp_find_in (g_sp g) ty sp (i_sorted g I) H1). exact H2. }
  assert (V : forall k t, provide g k = Some t -> update_temp t T = Ok (f t)).
  { intros k t H. unfold f. destruct (U k t H) as [p E]. rewrite E. reflexivity. }
  assert (W : forall ty sp k t, In (ty, sp) (g_sp g) -> In (k, t) sp -> update_temp t T = Ok (f t)).
  { intros ty sp k t H1 H2. apply (V k). apply provide_in; auto. exists ty. eapply IN; eauto. }
  unfold update. rewrite (update_types_ok (g_sp g) T f (i_ne g I)); [|intros; eapply (i_type g I); eapply IN; eauto | exact W].
  eexists. split; [reflexivity|]. split.
  - assert (E : map fst (flat_map (fun e => map (fun x => (fst x, f (snd x))) (snd e)) (g_sp g)) = flat_map (fun e => map fst (snd e)) (g_sp g)).
    { generalize (g_sp g). induction l as [|e l IHl]; cbn [flat_map]; [reflexivity|]. rewrite map_app, IHl, map_map. reflexivity. }
    rewrite E. apply nodup_pieces.
    + intros ty sp H. apply (NoDup_nth_error). intros i j Hi Hj.
      rewrite !nth_error_map in Hj. rewrite map_length in Hi.
      destruct (nth_error sp i) as [[k t]|] eqn:Ni; [|apply nth_error_None in Ni; lia].
      destruct (nth_error sp j) as [[k' t']|] eqn:Nj; [|discriminate]. cbn in Hj. injection Hj as <-.
      rewrite <- (sp_find_in (g_sp g) ty sp (i_sorted g I) H) in Ni, Nj.
      assert (A := proj2 (i_loc g I k ty i) (ex_intro _ t Ni)). assert (B := proj2 (i_loc g I k ty j) (ex_intro _ t' Nj)). congruence.
    + generalize (i_sorted g I). generalize (map fst (g_sp g)). induction 1 as [|a l S IHS F]; constructor; auto.
      intros H. rewrite Forall_forall in F. specialize (F a H). lia.
    + intros ty sp ty' sp' k H1 H2 K1 K2. apply in_map_iff in K1 as ([k1 t1] & E1 & K1). apply in_map_iff in K2 as ([k2 t2] & E2 & K2).
      cbn in E1, E2. subst k1 k2. apply (IN _ _ _ _ H1) in K1. apply (IN _ _ _ _ H2) in K2.
      apply In_nth_error in K1 as [j1 K1]. apply In_nth_error in K2 as [j2 K2].
      assert (A := proj2 (i_loc g I k ty j1) (ex_intro _ t1 K1)). assert (B := proj2 (i_loc g I k ty' j2) (ex_intro _ t2 K2)). congruence.
  - intros k p. rewrite in_flat_map. split.
    + intros ([ty sp] & H1 & H2). cbn [snd] in H2. apply in_map_iff in H2 as ([k' t] & E & H2). cbn in E. injection E as -> <-.
      exists t. split; [apply provide_in; auto; exists ty; eapply IN; eauto | eapply W; eauto].
    + intros (t & P & E). assert (P' := P). apply provide_in in P as [ty P]; auto.
      exists (ty, sp_find (g_sp g) ty). split; [eapply sp_in_find; eauto|]. cbn [snd]. apply in_map_iff. exists (k, t). split; [|exact P].
      cbn. rewrite (V k t P') in E. injection E as <-. reflexivity.
Qed.

(* -------- resetting everything, lattices -------- *)
Lemma reset_all_ok : forall n g g', inv g -> reset_all g n = Ok g' -> inv g' /\
  forall i, match provide g i with
            | Some t => if (i <? n)%nat then exists t', resetHf298 t = Ok t' /\ provide g' i = Some t' else provide g' i = Some t
            | None => provide g' i = None end.
Proof.
  induction n as [|n IH]; cbn [reset_all]; intros g g' I E.
  - injection E as <-. split; [exact I|]. intros i. destruct (provide g i); reflexivity.
  - destruct (reset_all g n) as [g1| | |] eqn:R; try discriminate E. cbn [obind] in E.
    destruct (IH g g1 I R) as [I1 H].
    assert (ST := step_ok g1 (OResetHf n) g' I1 E). destruct ST as (I' & EF & _). split; [exact I'|].
    cbn [effect] in EF. intros i. specialize (H i).
    destruct (provide g1 n) as [tn|] eqn:PN.
    + destruct EF as (t' & RE & PR). rewrite PR. unfold override.
      destruct (Nat.eqb_spec i n) as [->|N].
      * destruct (provide g n) as [t|]; [|congruence]. rewrite Nat.ltb_irrefl in H. rewrite (proj2 (Nat.ltb_lt n (S n))) by lia.
        assert (tn = t) by congruence. subst. eauto.
      * destruct (provide g i); auto. destruct (Nat.ltb_spec i n), (Nat.ltb_spec i (Datatypes.S n)); try lia; auto.
    + subst g'. destruct (provide g i) as [t|] eqn:PI; auto.
      destruct (Nat.ltb_spec i n), (Nat.ltb_spec i (Datatypes.S n)); try lia; auto.
      assert (i = n) by lia. subst. congruence.
Qed.
Lemma lkstart_S : forall ls n g m, nth_error ls n = Some (g, m) -> lkstart ls (S n) = (lkstart ls n + m)%nat.
Proof.
  unfold lkstart. induction ls as [|a ls IH]; intros [|n] g m E; cbn [nth_error] in E; try discriminate.
  - injection E as ->. cbn. lia.
  - cbn [firstn fold_right]. specialize (IH n g m E). cbn [firstn] in IH. lia.
Qed.
Lemma lat_nothing : forall f ls rest n k, (forall i, nth_error ls (n + i) = nth_error rest i) ->
  (forall g m, In (g, m) ls -> forall i, (m <= i)%nat -> f g i = Ok g) ->
  (fix go (rest : list (mgr * nat)) (n : nat) : outcome (list (mgr * nat)) :=
     match rest with
     | [] => Ok []
     | (g, m) :: rest => obind (if (lkstart ls (S n) <? k)%nat then f g (k - lkstart ls n)%nat else Ok g) (fun g' => omap (cons (g', m)) (go rest (S n)))
     end) rest n = Ok rest.
Proof.
  intros f ls rest. induction rest as [|[g m] rest IH]; intros n k A B; [reflexivity|].
  assert (N : nth_error ls n = Some (g, m)) by (specialize (A 0%nat); rewrite Nat.add_0_r in A; exact A).
  assert (E : (if (lkstart ls (S n) <? k)%nat then f g (k - lkstart ls n)%nat else Ok g) = Ok g).
  { destruct (Nat.ltb_spec (lkstart ls (S n)) k); [|reflexivity]. rewrite (lkstart_S ls n g m N) in H.
    apply (B g m); [eapply nth_error_In; eauto | lia]. }
  rewrite E. cbn [obind]. rewrite IH; auto. intros i. specialize (A (S i)). cbn [nth_error] in A. rewrite <- A. f_equal. lia.
Qed.
Lemma lat_modify_nothing : forall ls k h, (forall g m, In (g, m) ls -> forall i, (m <= i)%nat -> provide g i = None) ->
  lattice_modifyHf298 ls k h = Ok ls.
Proof.
  intros ls k h B. unfold lattice_modifyHf298.
  enough (G : forall rest n, (forall i, nth_error ls (n + i) = nth_error rest i) -> lat_modify ls rest n k h = Ok rest) by (apply G; auto).
  intros rest n A. etransitivity; [|apply (lat_nothing (fun g i => g_modifyHf298 g i h) ls rest n k A)].
  - clear A. revert n. induction rest as [|[g m] rest IH]; intros n; [reflexivity|]. cbn [lat_modify].
    destruct (if (lkstart ls (S n) <? k)%nat then _ else _); cbn [obind]; try reflexivity. rewrite IH. reflexivity.
  - intros g m H i L. unfold g_modifyHf298. rewrite (B g m H i L). reflexivity.
Qed.
Lemma lat_reset_nothing : forall ls k, (forall g m, In (g, m) ls -> forall i, (m <= i)%nat -> provide g i = None) ->
  lat_reset ls ls 0 k = Ok ls.
Proof.
  intros ls k B.
  enough (G : forall rest n, (forall i, nth_error ls (n + i) = nth_error rest i) -> lat_reset ls rest n k = Ok rest) by (apply G; auto).
  intros rest n A. etransitivity; [|apply (lat_nothing (fun g i => g_resetHf298 g i) ls rest n k A)].
  - clear A. revert n. induction rest as [|[g m] rest IH]; intros n; [reflexivity|]. cbn [lat_reset].
    destruct (if (lkstart ls (S n) <? k)%nat then _ else _); cbn [obind]; try reflexivity. rewrite IH. reflexivity.
  - intros g m H i L. unfold g_resetHf298. rewrite (B g m H i L). reflexivity.
Qed.
