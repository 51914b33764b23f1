(* What the calls on a network leave unchanged, and the links between its objects. *)
From Coq Require Import String List Bool Reals Lra Lia Arith.
From Verif Require Import Base.Outcome Base.RSum ZeroD.NetModel ZeroD.NetSpec.
Import ListNotations.
Local Open Scope R_scope.
Local Open Scope list_scope.

Lemma updf_same {A} (f : nat -> A) i a : updf f i a i = a.
Proof. unfold updf. rewrite Nat.eqb_refl. reflexivity. Qed.
Lemma updf_other {A} (f : nat -> A) i a j : j <> i -> updf f i a j = f j.
Proof. intros H. unfold updf. destruct (Nat.eqb_spec j i); [congruence|reflexivity]. Qed.

(** * Configuration *)
Definition dstrip (d : dev) : dev :=
  Dev (dv_kind d) (dv_ends d) (dv_coeff d) (dv_pf d) (dv_tf d) None (dv_map d).
Definition wstrip (w : wall) : wall := w_set_time w 0.
Definition sstrip (x : surf) : surf := sf_set x [].
Definition nstrip (n : node) : node :=
  Node (n_kind n) (n_th n) (n_phase n) (n_energy n) (n_chem n) (n_inlet n) (n_outlet n) (n_wall n)
       (map sstrip (n_surf n)) 0 0 0 0 [] (if constP (n_kind n) then n_press n else 0) 0 [].

Record static (s s' : net) : Prop := {
  st_nn : w_nn s' = w_nn s; st_nd : w_nd s' = w_nd s; st_nw : w_nw s' = w_nw s;
  st_order : w_order s' = w_order s;
  st_dev : forall d, dstrip (w_devs s' d) = dstrip (w_devs s d);
  st_wall : forall w, wstrip (w_walls s' w) = wstrip (w_walls s w);
  st_node : forall i, nstrip (w_nodes s' i) = nstrip (w_nodes s i)
}.
Lemma static_refl s : static s s.
Proof. split; reflexivity. Qed.
Lemma static_trans a b c : static a b -> static b c -> static a c.
Proof.
  intros [] []. split; intros; congruence.
Qed.
Lemma static_sym a b : static a b -> static b a.
Proof. intros []. split; intros; symmetry; auto. Qed.

Lemma dstrip_fields a b : dstrip a = dstrip b ->
  dv_kind a = dv_kind b /\ dv_ends a = dv_ends b /\ dv_coeff a = dv_coeff b /\ dv_pf a = dv_pf b /\
  dv_tf a = dv_tf b /\ dv_map a = dv_map b.
Proof. unfold dstrip. intros H. injection H as -> -> -> -> -> ->. tauto. Qed.
Lemma wstrip_fields a b : wstrip a = wstrip b ->
  wl_ends a = wl_ends b /\ wl_area a = wl_area b /\ wl_k a = wl_k b /\ wl_rrth a = wl_rrth b /\
  wl_emiss a = wl_emiss b /\ wl_vf a = wl_vf b /\ wl_qf a = wl_qf b.
Proof. unfold wstrip, w_set_time. intros H. injection H as -> -> -> -> -> -> ->. tauto. Qed.
Lemma nstrip_fields a b : nstrip a = nstrip b ->
  n_kind a = n_kind b /\ n_th a = n_th b /\ n_phase a = n_phase b /\ n_energy a = n_energy b /\
  n_chem a = n_chem b /\ n_inlet a = n_inlet b /\ n_outlet a = n_outlet b /\ n_wall a = n_wall b /\
  map sstrip (n_surf a) = map sstrip (n_surf b) /\
  (constP (n_kind a) = true -> n_press a = n_press b).
Proof.
  unfold nstrip. intros H. injection H as H1 H2 H3 H4 H5 H6 H7 H8 H9 H10.
  assert (X : constP (n_kind a) = true -> n_press a = n_press b) by
    (intros E; rewrite <- H1, E in H10; exact H10). tauto.
Qed.

Lemma dstrip_set_mdot d m : dstrip (set_mdot d m) = dstrip d.
Proof. reflexivity. Qed.
Lemma upd_dev_strip fuel p t : forall d devs d', dstrip (snd (upd_dev fuel p t d devs) d') = dstrip (devs d').
Proof.
  induction fuel as [|fuel IH]; intros d devs d'; [reflexivity|].
  cbn [upd_dev]. destruct (dv_ends (devs d)) as [[i o]|]; [|reflexivity].
  assert (X : forall f v, dstrip (updf f d (set_mdot (f d) v) d') = dstrip (f d')).
  { intros f v. unfold updf. destruct (Nat.eqb_spec d' d); [subst; apply dstrip_set_mdot|reflexivity]. }
  destruct (dv_kind (devs d)) as [|[q|]|]; [|
    |reflexivity|]; try (destruct (tval _ _); [apply X|reflexivity|reflexivity|reflexivity]).
  specialize (IH q devs d'). destruct (upd_dev fuel p t q devs) as [[u| | |] devs'] eqn:E;
    cbn [snd] in *; try exact IH.
  destruct (dv_mdot (devs' q)); [|exact IH]. cbn [snd]. rewrite X. exact IH.
Qed.
Lemma upd_devs_strip fuel p t ds : forall devs d', dstrip (snd (upd_devs fuel p t ds devs) d') = dstrip (devs d').
Proof.
  induction ds as [|d ds IH]; intros devs d'; [reflexivity|]. cbn [upd_devs].
  pose proof (upd_dev_strip fuel p t d devs d') as X.
  destruct (upd_dev fuel p t d devs) as [[u| | |] devs']; cbn [snd] in *; try exact X.
  rewrite IH. exact X.
Qed.

Lemma set_times_strip t (l : list (nat * bool)) : forall f w,
  wstrip (fold_left (fun f w => updf f (fst w) (w_set_time (f (fst w)) t)) l f w) = wstrip (f w).
Proof.
  induction l as [|[x b] l IH]; intros f w; [reflexivity|]. cbn [fold_left]. rewrite IH.
  cbn [fst]. unfold updf. destruct (Nat.eqb_spec w x); [subst; reflexivity|reflexivity].
Qed.

Lemma nstrip_state n m v T rho Y p h : nstrip (n_state n m v T rho Y
    (if constP (n_kind n) then n_press n else p) h) = nstrip n.
Proof. unfold nstrip, n_state. cbn. destruct (constP (n_kind n)); reflexivity. Qed.
Lemma nstrip_surf n ss : map sstrip ss = map sstrip (n_surf n) -> nstrip (n_setsurf n ss) = nstrip n.
Proof. intros E. unfold nstrip, n_setsurf. cbn. rewrite E. reflexivity. Qed.
Lemma upd_surfs_strip mol ss : forall y, map sstrip (upd_surfs mol y ss) = map sstrip ss.
Proof.
  induction ss as [|x ss IH]; intros y; [reflexivity|]. cbn [upd_surfs map]. rewrite IH. reflexivity.
Qed.

Lemma nodes_upd_static s i n' (f : nat -> node) :
  (forall j, f j = updf (w_nodes s) i n' j) -> nstrip n' = nstrip (w_nodes s i) ->
  forall j, nstrip (f j) = nstrip (w_nodes s j).
Proof.
  intros E H j. rewrite E. unfold updf. destruct (Nat.eqb_spec j i); [subst; exact H|reflexivity].
Qed.

Lemma upd_connected_static s i ts : static s (snd (upd_connected s i ts)).
Proof.
  unfold upd_connected.
  match goal with |- context [upd_devs ?fu ?p ?t ?ds ?dv] =>
    pose proof (upd_devs_strip fu p t ds dv) as X; destruct (upd_devs fu p t ds dv) as [[u| | |] devs] end;
  cbn [snd] in *; (split; cbn [s_walls s_devs s_phT s_nodes w_nn w_nd w_nw w_order w_devs w_walls w_nodes];
    try reflexivity; [exact X|..]); try (intros; reflexivity);
  try (intros w; apply set_times_strip);
  try (eapply nodes_upd_static; [reflexivity|apply nstrip_state]).
Qed.
Lemma updateState_static s i y : static s (snd (updateState s i y)).
Proof.
  unfold updateState. destruct (new_state _ _ _) as [ts| | |]; try apply static_refl.
  pose proof (upd_connected_static s i ts) as X.
  destruct (upd_connected s i ts) as [[u| | |] s1]; cbn [snd] in *; try exact X.
  eapply static_trans; [exact X|]. split; cbn; try reflexivity.
  intros j. unfold updf. destruct (Nat.eqb_spec j i); [|reflexivity]. subst j.
  apply nstrip_surf. apply upd_surfs_strip.
Qed.
Lemma updateAll_static order : forall s y, static s (snd (updateAll s order y)).
Proof.
  induction order as [|i order IH]; intros s y; [apply static_refl|]. cbn [updateAll].
  pose proof (updateState_static s i (firstn (neq (w_nodes s i)) y)) as X.
  destruct (updateState s i _) as [[u| | |] s1]; cbn [snd] in *; try exact X.
  eapply static_trans; [exact X|apply IH].
Qed.
Lemma nstrip_wdot n w : nstrip (n_setwdot n w) = nstrip n.
Proof. reflexivity. Qed.
Lemma evalOne_static s i : static s (snd (evalOne s i)).
Proof.
  unfold evalOne. destruct (envOf s i) as [e| | |]; try (split; reflexivity).
  destruct (evalNode _ _). cbn [snd]. split; cbn; try reflexivity.
  intros j. unfold updf. destruct (Nat.eqb_spec j i); [subst; reflexivity|reflexivity].
Qed.
Lemma evalAll_static order : forall s, static s (snd (evalAll s order)).
Proof.
  induction order as [|i order IH]; intros s; [apply static_refl|]. cbn [evalAll].
  pose proof (evalOne_static s i) as X. destruct (evalOne s i) as [[v| | |] s1]; cbn [snd] in *; try exact X.
  specialize (IH s1). destruct (evalAll s1 order) as [[vs| | |] s2]; cbn [snd] in *; eapply static_trans; eauto.
Qed.
Lemma evalNet_static s t y : static s (snd (evalNet s t y)).
Proof.
  unfold evalNet. pose proof (updateAll_static (w_order s) (s_time s t) y) as X.
  assert (E : static s (s_time s t)) by (split; reflexivity).
  change (w_order (s_time s t)) with (w_order s).
  destruct (updateAll (s_time s t) (w_order s) y) as [[u| | |] s1]; cbn [snd] in *;
    try (eapply static_trans; [exact E|exact X]).
  eapply static_trans; [exact E|]. eapply static_trans; [exact X|]. apply evalAll_static.
Qed.

(** * Links *)
Definition names (s : net) (i : nat) : list string := th_names (n_th (w_nodes s i)).
Record linked (s : net) : Prop := {
  lk_in : forall i d, In d (n_inlet (w_nodes s i)) <-> exists a, dv_ends (w_devs s d) = Some (a, i);
  lk_in_nd : forall i, NoDup (n_inlet (w_nodes s i));
  lk_out : forall i d, In d (n_outlet (w_nodes s i)) <-> exists b, dv_ends (w_devs s d) = Some (i, b);
  lk_out_nd : forall i, NoDup (n_outlet (w_nodes s i));
  lk_wall : forall i w (b : bool), In (w, b) (n_wall (w_nodes s i)) <->
              exists l r, wl_ends (w_walls s w) = Some (l, r) /\ i = (if b then r else l);
  lk_wall_nd : forall i, NoDup (n_wall (w_nodes s i));
  lk_dev : forall d a b, dv_ends (w_devs s d) = Some (a, b) ->
             (d < w_nd s)%nat /\ (a < w_nn s)%nat /\ (b < w_nn s)%nat /\
             dv_map (w_devs s d) = map (find_name (names s a)) (names s b);
  lk_wl : forall w l r, wl_ends (w_walls s w) = Some (l, r) ->
             (w < w_nw s)%nat /\ (l < w_nn s)%nat /\ (r < w_nn s)%nat;
  lk_order : forall i, In i (w_order s) -> (i < w_nn s)%nat /\ n_kind (w_nodes s i) <> KReservoir
}.

Lemma linked_static s s' : static s s' -> linked s -> linked s'.
Proof.
  intros St L.
  assert (Nf : forall i, n_inlet (w_nodes s' i) = n_inlet (w_nodes s i) /\ n_outlet (w_nodes s' i) = n_outlet (w_nodes s i)
    /\ n_wall (w_nodes s' i) = n_wall (w_nodes s i) /\ n_th (w_nodes s' i) = n_th (w_nodes s i)
    /\ n_kind (w_nodes s' i) = n_kind (w_nodes s i)).
  { intros i. destruct (nstrip_fields _ _ (st_node _ _ St i)) as (?&?&?&?&?&?&?&?&?&?). tauto. }
  assert (Df : forall d, dv_ends (w_devs s' d) = dv_ends (w_devs s d) /\ dv_map (w_devs s' d) = dv_map (w_devs s d)).
  { intros d. destruct (dstrip_fields _ _ (st_dev _ _ St d)) as (?&?&?&?&?&?). tauto. }
  assert (Wf : forall w, wl_ends (w_walls s' w) = wl_ends (w_walls s w)).
  { intros w. destruct (wstrip_fields _ _ (st_wall _ _ St w)) as (?&?). tauto. }
  assert (Nm : forall i, names s' i = names s i).
  { intros i. unfold names. destruct (Nf i) as (_&_&_&->&_). reflexivity. }
  destruct L. split.
  - intros i d. destruct (Nf i) as (->&_). destruct (Df d) as [-> _]. apply lk_in0.
  - intros i. destruct (Nf i) as (->&_). apply lk_in_nd0.
  - intros i d. destruct (Nf i) as (_&->&_). destruct (Df d) as [-> _]. apply lk_out0.
  - intros i. destruct (Nf i) as (_&->&_). apply lk_out_nd0.
  - intros i w b. destruct (Nf i) as (_&_&->&_). rewrite Wf. apply lk_wall0.
  - intros i. destruct (Nf i) as (_&_&->&_). apply lk_wall_nd0.
  - intros d a b. destruct (Df d) as [-> ->]. rewrite (st_nd _ _ St), (st_nn _ _ St), !Nm. apply lk_dev0.
  - intros w l r. rewrite Wf, (st_nw _ _ St), (st_nn _ _ St). apply lk_wl0.
  - intros i. rewrite (st_order _ _ St), (st_nn _ _ St). destruct (Nf i) as (_&_&_&_&->). apply lk_order0.
Qed.

Lemma linked0 : linked net0.
Proof.
  split; cbn; intros; try (split; [tauto|intros (?&?); discriminate]); try constructor; try tauto; try discriminate.
  intros (?&?&?&?); discriminate.
Qed.

(* Changes that keep nodes' links and kinds, devices' ends and maps, walls' ends. *)
Lemma linked_same s s' :
  w_nn s' = w_nn s -> w_nd s' = w_nd s -> w_nw s' = w_nw s -> w_order s' = w_order s ->
  (forall i, n_inlet (w_nodes s' i) = n_inlet (w_nodes s i) /\ n_outlet (w_nodes s' i) = n_outlet (w_nodes s i)
    /\ n_wall (w_nodes s' i) = n_wall (w_nodes s i) /\ n_th (w_nodes s' i) = n_th (w_nodes s i)
    /\ n_kind (w_nodes s' i) = n_kind (w_nodes s i)) ->
  (forall d, dv_ends (w_devs s' d) = dv_ends (w_devs s d) /\ dv_map (w_devs s' d) = dv_map (w_devs s d)) ->
  (forall w, wl_ends (w_walls s' w) = wl_ends (w_walls s w)) ->
  linked s -> linked s'.
Proof.
  intros Enn End Enw Eo Nf Df Wf L.
  assert (Nm : forall i, names s' i = names s i).
  { intros i. unfold names. destruct (Nf i) as (_&_&_&->&_). reflexivity. }
  destruct L. split.
  - intros i d. destruct (Nf i) as (->&_). destruct (Df d) as [-> _]. apply lk_in0.
  - intros i. destruct (Nf i) as (->&_). apply lk_in_nd0.
  - intros i d. destruct (Nf i) as (_&->&_). destruct (Df d) as [-> _]. apply lk_out0.
  - intros i. destruct (Nf i) as (_&->&_). apply lk_out_nd0.
  - intros i w b. destruct (Nf i) as (_&_&->&_). rewrite Wf. apply lk_wall0.
  - intros i. destruct (Nf i) as (_&_&->&_). apply lk_wall_nd0.
  - intros d a b. destruct (Df d) as [-> ->]. rewrite End, Enn, !Nm. apply lk_dev0.
  - intros w l r. rewrite Wf, Enw, Enn. apply lk_wl0.
  - intros i. rewrite Eo, Enn. destruct (Nf i) as (_&_&_&_&->). apply lk_order0.
Qed.

Lemma dev_op_linked s d o : (forall x, o = Ok x -> dv_ends x = dv_ends (w_devs s d) /\ dv_map x = dv_map (w_devs s d)) ->
  linked s -> linked (dev_op s d o).
Proof.
  intros H L. unfold dev_op. destruct o as [x| | |]; try exact L.
  apply (linked_same s); try reflexivity; try exact L; cbn; try (intros; tauto).
  intros d'. unfold updf. destruct (Nat.eqb_spec d' d); [subst; apply H; reflexivity|tauto].
Qed.
Lemma node_op_linked s i n' :
  n_inlet n' = n_inlet (w_nodes s i) -> n_outlet n' = n_outlet (w_nodes s i) -> n_wall n' = n_wall (w_nodes s i) ->
  n_th n' = n_th (w_nodes s i) -> n_kind n' = n_kind (w_nodes s i) ->
  linked s -> linked (s_nodes s (updf (w_nodes s) i n')).
Proof.
  intros. apply (linked_same s); try reflexivity; try assumption; cbn; try (intros; tauto).
  intros j. unfold updf. destruct (Nat.eqb_spec j i); [subst; tauto|tauto].
Qed.

Lemma NoDup_snoc {A} (l : list A) x : NoDup l -> ~ In x l -> NoDup (l ++ [x]).
Proof.
  intros N H. induction N as [|y l Hy N IH]; cbn; [constructor; [tauto|constructor]|].
  constructor; [|apply IH; intros C; apply H; right; exact C].
  rewrite in_app_iff. intros [C|[C|[]]]; [tauto|]. apply H. left. congruence.
Qed.

Lemma install_linked s d i j s' : (d < w_nd s)%nat -> (i < w_nn s)%nat -> (j < w_nn s)%nat ->
  install s d i j = Ok s' -> linked s -> linked s'.
Proof.
  intros Hd Hi Hj. unfold install. destruct (dv_ends (w_devs s d)) as [e|] eqn:E; [discriminate|].
  intros H L. injection H as <-.
  set (ni := w_nodes s i). set (f1 := updf (w_nodes s) i _). set (nj := f1 j). set (f2 := updf f1 j _).
  assert (N : forall x, n_inlet (f2 x) = n_inlet (w_nodes s x) ++ (if Nat.eqb x j then [d] else []) /\
     n_outlet (f2 x) = n_outlet (w_nodes s x) ++ (if Nat.eqb x i then [d] else []) /\
     n_wall (f2 x) = n_wall (w_nodes s x) /\ n_th (f2 x) = n_th (w_nodes s x) /\ n_kind (f2 x) = n_kind (w_nodes s x)).
  { intros x. unfold f2, nj, f1, ni, updf. destruct (Nat.eqb_spec x j); destruct (Nat.eqb_spec x i);
      destruct (Nat.eqb_spec j i); subst; cbn; rewrite ?app_nil_r; try tauto; try congruence. }
  set (m := map _ _).
  assert (D : forall x, dv_ends (updf (w_devs s) d (set_ends (w_devs s d) (i, j) m) x) =
     if Nat.eqb x d then Some (i, j) else dv_ends (w_devs s x)).
  { intros x. unfold updf. destruct (Nat.eqb_spec x d); reflexivity. }
  assert (Nm : forall x, names (s_devs (s_nodes s f2) (updf (w_devs s) d (set_ends (w_devs s d) (i, j) m))) x = names s x).
  { intros x. unfold names. cbn. destruct (N x) as (_&_&_&->&_). reflexivity. }
  pose proof (lk_in _ L) as Lin. pose proof (lk_out _ L) as Lout.
  split.
  - intros x k. cbn [w_nodes w_devs s_devs s_nodes]. destruct (N x) as (->&_). rewrite D, in_app_iff, Lin.
    destruct (Nat.eqb_spec k d) as [->|Hk].
    + split.
      * intros [(a & C)|C]; [congruence|]. destruct (Nat.eqb_spec x j); [|destruct C]. subst. exists i. reflexivity.
      * intros (a & C). injection C as _ ->. right. rewrite Nat.eqb_refl. left. reflexivity.
    + split; [intros [C|C]; [exact C|]|tauto]. destruct (Nat.eqb_spec x j); destruct C; [congruence|contradiction].
  - intros x. cbn [w_nodes s_devs s_nodes]. destruct (N x) as (->&_). destruct (Nat.eqb_spec x j).
    + apply NoDup_snoc; [apply (lk_in_nd _ L)|]. rewrite Lin. intros (a & C). congruence.
    + rewrite app_nil_r. apply (lk_in_nd _ L).
  - intros x k. cbn [w_nodes w_devs s_devs s_nodes]. destruct (N x) as (_&->&_). rewrite D, in_app_iff, Lout.
    destruct (Nat.eqb_spec k d) as [->|Hk].
    + split.
      * intros [(a & C)|C]; [congruence|]. destruct (Nat.eqb_spec x i); [|destruct C]. subst. exists j. reflexivity.
      * intros (a & C). injection C as -> _. right. rewrite Nat.eqb_refl. left. reflexivity.
    + split; [intros [C|C]; [exact C|]|tauto]. destruct (Nat.eqb_spec x i); destruct C; [congruence|contradiction].
  - intros x. cbn [w_nodes s_devs s_nodes]. destruct (N x) as (_&->&_). destruct (Nat.eqb_spec x i).
    + apply NoDup_snoc; [apply (lk_out_nd _ L)|]. rewrite Lout. intros (a & C). congruence.
    + rewrite app_nil_r. apply (lk_out_nd _ L).
  - intros x w b. cbn [w_nodes w_walls s_devs s_nodes]. destruct (N x) as (_&_&->&_). apply (lk_wall _ L).
  - intros x. cbn [w_nodes s_devs s_nodes]. destruct (N x) as (_&_&->&_). apply (lk_wall_nd _ L).
  - intros k a b. rewrite !Nm. cbn [w_devs s_devs s_nodes w_nn w_nd]. rewrite D.
    destruct (Nat.eqb_spec k d) as [->|Hk].
    + intros C. injection C as <- <-. rewrite updf_same. cbn [dv_map set_ends]. unfold m.
      repeat (split; [assumption|]). reflexivity.
    + intros C. rewrite (updf_other _ _ _ _ Hk). apply (lk_dev _ L). exact C.
  - intros w l r. cbn [w_walls s_devs s_nodes w_nn w_nw]. apply (lk_wl _ L).
  - intros x. cbn [w_order w_nodes s_devs s_nodes w_nn]. destruct (N x) as (_&_&_&_&->). apply (lk_order _ L).
Qed.

Lemma installWall_linked s w i j : (w < w_nw s)%nat -> (i < w_nn s)%nat -> (j < w_nn s)%nat ->
  linked s -> linked (installWall s w i j).
Proof.
  intros Hd Hi Hj L. unfold installWall. destruct (wl_ends (w_walls s w)) as [e|] eqn:E; [exact L|].
  set (ni := w_nodes s i). set (f1 := updf (w_nodes s) i _). set (nj := f1 j). set (f2 := updf f1 j _).
  assert (N : forall x, n_wall (f2 x) = n_wall (w_nodes s x) ++ (if Nat.eqb x i then [(w, false)] else [])
        ++ (if Nat.eqb x j then [(w, true)] else []) /\
     n_outlet (f2 x) = n_outlet (w_nodes s x) /\
     n_inlet (f2 x) = n_inlet (w_nodes s x) /\ n_th (f2 x) = n_th (w_nodes s x) /\ n_kind (f2 x) = n_kind (w_nodes s x)).
  { intros x. unfold f2, nj, f1, ni, updf. destruct (Nat.eqb_spec x j); destruct (Nat.eqb_spec x i);
      destruct (Nat.eqb_spec j i); subst; cbn; rewrite ?app_nil_r, <- ?app_assoc; try tauto; try congruence. }
  assert (D : forall x, wl_ends (updf (w_walls s) w (w_set_ends (w_walls s w) (i, j)) x) =
     if Nat.eqb x w then Some (i, j) else wl_ends (w_walls s x)).
  { intros x. unfold updf. destruct (Nat.eqb_spec x w); reflexivity. }
  pose proof (lk_wall _ L) as Lw.
  assert (Nw : forall x b, ~ In (w, b) (n_wall (w_nodes s x))).
  { intros x b C. apply Lw in C. destruct C as (l & r & C & _). congruence. }
  split.
  - intros x k. cbn [w_nodes w_devs s_walls s_nodes]. destruct (N x) as (_&_&->&_). apply (lk_in _ L).
  - intros x. cbn [w_nodes s_walls s_nodes]. destruct (N x) as (_&_&->&_). apply (lk_in_nd _ L).
  - intros x k. cbn [w_nodes w_devs s_walls s_nodes]. destruct (N x) as (_&->&_). apply (lk_out _ L).
  - intros x. cbn [w_nodes s_walls s_nodes]. destruct (N x) as (_&->&_). apply (lk_out_nd _ L).
  - intros x k b. cbn [w_nodes w_walls s_walls s_nodes]. destruct (N x) as (->&_). rewrite D, !in_app_iff, Lw.
    destruct (Nat.eqb_spec k w) as [->|Hk].
    + split.
      * intros [(l & r & C & _)|[C|C]]; [congruence|..].
        -- destruct (Nat.eqb_spec x i); [destruct C as [C|[]]|destruct C]. injection C as <-. subst. exists i, j. tauto.
        -- destruct (Nat.eqb_spec x j); [destruct C as [C|[]]|destruct C]. injection C as <-. subst. exists i, j. tauto.
      * intros (l & r & C & F). injection C as -> ->. right. destruct b; subst x; [right|left];
          rewrite Nat.eqb_refl; left; reflexivity.
    + split; [intros [C|[C|C]]; [exact C|..]|tauto].
      * destruct (Nat.eqb_spec x i); [destruct C as [C|[]]|destruct C]. congruence.
      * destruct (Nat.eqb_spec x j); [destruct C as [C|[]]|destruct C]. congruence.
  - intros x. cbn [w_nodes s_walls s_nodes]. destruct (N x) as (->&_).
    pose proof (lk_wall_nd _ L x) as ND. rewrite app_assoc.
    assert (ND1 : NoDup (n_wall (w_nodes s x) ++ (if Nat.eqb x i then [(w, false)] else []))).
    { destruct (Nat.eqb x i); [apply NoDup_snoc; [exact ND|apply Nw]|rewrite app_nil_r; exact ND]. }
    destruct (Nat.eqb x j); [|rewrite app_nil_r; exact ND1]. apply NoDup_snoc; [exact ND1|].
    rewrite in_app_iff. intros [C|C]; [exact (Nw _ _ C)|]. destruct (Nat.eqb x i); [destruct C as [C|[]]|destruct C]. discriminate.
  - intros k a b. assert (Nm : forall x, names (s_walls (s_nodes s f2) (updf (w_walls s) w (w_set_ends (w_walls s w) (i, j)))) x = names s x).
    { intros x. unfold names. cbn. destruct (N x) as (_&_&_&->&_). reflexivity. }
    rewrite !Nm. cbn [w_devs s_walls s_nodes w_nn w_nd]. apply (lk_dev _ L).
  - intros k l r. cbn [w_walls s_walls s_nodes w_nn w_nw]. rewrite D. destruct (Nat.eqb_spec k w) as [->|Hk].
    + intros C. injection C as <- <-. tauto.
    + apply (lk_wl _ L).
  - intros x. cbn [w_order w_nodes s_walls s_nodes w_nn]. destruct (N x) as (_&_&_&_&->). apply (lk_order _ L).
Qed.

Lemma step_linked s o : linked s -> linked (step s o).
Proof.
  intros L. destruct o; cbn [step].
  - (* ONode *)
    assert (A : forall d a b, dv_ends (w_devs s d) = Some (a, b) -> (a < w_nn s)%nat /\ (b < w_nn s)%nat).
    { intros d a b H. apply (lk_dev _ L) in H. tauto. }
    assert (B : forall x l r, wl_ends (w_walls s x) = Some (l, r) -> (l < w_nn s)%nat /\ (r < w_nn s)%nat).
    { intros x l r H. apply (lk_wl _ L) in H. tauto. }
    set (nn := newNode k th ph chem sf T rho Y). split; cbn [w_nodes w_devs w_walls w_nn w_nd w_nw w_order].
    + intros i d. unfold updf. destruct (Nat.eqb_spec i (w_nn s)); [|apply (lk_in _ L)].
      subst i. split; [intros []|]. intros (a & H). apply A in H. lia.
    + intros i. unfold updf. destruct (Nat.eqb_spec i (w_nn s)); [constructor|apply (lk_in_nd _ L)].
    + intros i d. unfold updf. destruct (Nat.eqb_spec i (w_nn s)); [|apply (lk_out _ L)].
      subst i. split; [intros []|]. intros (a & H). apply A in H. lia.
    + intros i. unfold updf. destruct (Nat.eqb_spec i (w_nn s)); [constructor|apply (lk_out_nd _ L)].
    + intros i w b. unfold updf. destruct (Nat.eqb_spec i (w_nn s)); [|apply (lk_wall _ L)].
      subst i. split; [intros []|]. intros (l & r & H & F). apply B in H. destruct b; lia.
    + intros i. unfold updf. destruct (Nat.eqb_spec i (w_nn s)); [constructor|apply (lk_wall_nd _ L)].
    + intros d a b H. pose proof (lk_dev _ L d a b H) as (H1 & H2 & H3 & H4).
      unfold names. cbn [w_nodes]. rewrite !updf_other by lia. split; [exact H1|]. split; [lia|]. split; [lia|]. exact H4.
    + intros w l r H. pose proof (lk_wl _ L w l r H). lia.
    + intros i H. pose proof (lk_order _ L i H) as [H1 H2]. rewrite updf_other by lia. split; [lia|exact H2].
  - (* ODev *)
    assert (A : forall d a b, dv_ends (w_devs s d) = Some (a, b) -> (d < w_nd s)%nat).
    { intros d a b H. apply (lk_dev _ L) in H. tauto. }
    assert (D : forall d, dv_ends (updf (w_devs s) (w_nd s) (newDev k) d) = dv_ends (w_devs s d)).
    { intros d. unfold updf. destruct (Nat.eqb_spec d (w_nd s)); [|reflexivity]. subst d. cbn.
      destruct (dv_ends (w_devs s (w_nd s))) as [[a b]|] eqn:E; [|reflexivity]. apply A in E. lia. }
    split; cbn [w_nodes w_devs w_walls w_nn w_nd w_nw w_order].
    + intros i d. rewrite D. apply (lk_in _ L).
    + apply (lk_in_nd _ L).
    + intros i d. rewrite D. apply (lk_out _ L).
    + apply (lk_out_nd _ L).
    + apply (lk_wall _ L).
    + apply (lk_wall_nd _ L).
    + intros d a b. rewrite D. intros H. pose proof (lk_dev _ L d a b H) as (H1 & H2 & H3 & H4).
      rewrite updf_other by lia. split; [lia|]. split; [lia|]. split; [lia|]. exact H4.
    + apply (lk_wl _ L).
    + apply (lk_order _ L).
  - destruct (_ && _) eqn:E; [|exact L]. apply andb_prop in E. destruct E as [E E3]. apply andb_prop in E.
    destruct E as [E1 E2]. apply Nat.ltb_lt in E1, E2, E3. unfold keep.
    destruct (install s d i j) as [s'| | |] eqn:F; try exact L. exact (install_linked s d i j s' E1 E2 E3 F L).
  - (* OWall *)
    assert (A : forall w l r, wl_ends (w_walls s w) = Some (l, r) -> (w < w_nw s)%nat).
    { intros w l r H. apply (lk_wl _ L) in H. tauto. }
    assert (D : forall w, wl_ends (updf (w_walls s) (w_nw s) newWall w) = wl_ends (w_walls s w)).
    { intros w. unfold updf. destruct (Nat.eqb_spec w (w_nw s)); [|reflexivity]. subst w. cbn.
      destruct (wl_ends (w_walls s (w_nw s))) as [[a b]|] eqn:E; [|reflexivity]. apply A in E. lia. }
    split; cbn [w_nodes w_devs w_walls w_nn w_nd w_nw w_order]; try apply L.
    + intros i w b. rewrite D. apply (lk_wall _ L).
    + intros w l r. rewrite D. intros H. pose proof (lk_wl _ L w l r H). lia.
  - destruct (_ && _) eqn:E; [|exact L]. apply andb_prop in E. destruct E as [E E3]. apply andb_prop in E.
    destruct E as [E1 E2]. apply Nat.ltb_lt in E1, E2, E3. apply installWall_linked; assumption.
  - destruct (n_kind (w_nodes s i)) eqn:K; try exact L;
    (destruct (Nat.ltb_spec i (w_nn s)) as [Hi|]; [|exact L]; split; cbn; try apply L;
     intros x; rewrite in_app_iff; intros [C|[C|[]]]; [apply (lk_order _ L); exact C|]; subst x;
     split; [exact Hi|congruence]).
  - destruct (n_kind (w_nodes s i)) eqn:K; try exact L; apply node_op_linked; try reflexivity; exact L.
  - destruct (n_kind (w_nodes s i)) eqn:K; try exact L; apply node_op_linked; try reflexivity; exact L.
  - apply node_op_linked; try reflexivity; exact L.
  - apply dev_op_linked; [|exact L]. intros x. unfold setTimeFunction. destruct (dv_kind _); intros H; inversion H; split; reflexivity.
  - apply dev_op_linked; [|exact L]. intros x. unfold setPressureFunction. destruct (dv_kind _); intros H; inversion H; split; reflexivity.
  - apply dev_op_linked; [|exact L]. intros x H. inversion H. split; reflexivity.
  - apply dev_op_linked; [|exact L]. intros x. unfold setMassFlowRate. destruct (dv_kind (w_devs s d)), (dv_tf (w_devs s d)); intros H; inversion H; split; reflexivity.
  - apply dev_op_linked; [|exact L]. intros x. unfold setPrimary. destruct (dv_kind _); intros H; inversion H; split; reflexivity.
  - destruct (set_wall (w_walls s w) o) as [x| | |] eqn:E; try exact L.
    apply (linked_same s); try reflexivity; try exact L; cbn; try (intros; tauto).
    intros k. unfold updf. destruct (Nat.eqb_spec k w); [|reflexivity]. subst k.
    unfold set_wall in E. destruct o as [| | | |[f|]|]; try (injection E as <-; reflexivity).
    destruct (_ || _) in E; [discriminate|]. injection E as <-. reflexivity.
  - eapply linked_static; [apply evalNet_static|exact L].
Qed.
Lemma run_linked ops : linked (run ops).
Proof.
  unfold run. assert (X : forall s, linked s -> linked (fold_left step ops s)).
  { induction ops as [|o ops IH]; intros s L; [exact L|]. apply IH, step_linked, L. }
  apply X, linked0.
Qed.
