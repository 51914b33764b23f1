(* An evaluation does not depend on the evaluations before it. *)
From Coq Require Import String List Bool Reals Lra Lia Arith.
From Verif Require Import Base.Outcome Base.RSum ZeroD.NetModel ZeroD.NetSpec ZeroD.FrameProofs
  ZeroD.EvalProofs ZeroD.DevProofs.
Import ListNotations.
Local Open Scope R_scope.
Local Open Scope list_scope.

Definition alone (s : net) (l : list nat) : Prop :=
  forall i j, In i l -> In j l -> phase_temperature (w_nodes s i) = true ->
    n_phase (w_nodes s j) = n_phase (w_nodes s i) -> i = j.

(* s' is s after some evaluations of the reactors in l. *)
Record after (l : list nat) (s s' : net) : Prop := {
  af_static : static s s';
  af_out : forall j, ~ In j l -> w_nodes s' j = w_nodes s j;
  af_wdot : forall j, n_chem (w_nodes s j) = false -> n_wdot (w_nodes s' j) = n_wdot (w_nodes s j);
  af_phT : forall i, In i l -> phase_temperature (w_nodes s i) = true ->
             w_phT s' (n_phase (w_nodes s i)) = w_phT s (n_phase (w_nodes s i))
}.
Lemma after_refl l s : after l s s.
Proof. split; try reflexivity. apply static_refl. Qed.
Lemma static_node s s' i : static s s' ->
  n_kind (w_nodes s' i) = n_kind (w_nodes s i) /\ n_phase (w_nodes s' i) = n_phase (w_nodes s i) /\
  n_energy (w_nodes s' i) = n_energy (w_nodes s i) /\ n_chem (w_nodes s' i) = n_chem (w_nodes s i) /\
  n_th (w_nodes s' i) = n_th (w_nodes s i).
Proof. intros St. destruct (nstrip_fields _ _ (st_node _ _ St i)) as (?&?&?&?&?&?&?&?&?&?). tauto. Qed.
Lemma static_pt s s' i : static s s' -> phase_temperature (w_nodes s' i) = phase_temperature (w_nodes s i).
Proof. intros St. destruct (static_node _ _ i St) as (H1&_&H2&_). unfold phase_temperature. rewrite H1, H2. reflexivity. Qed.
Lemma after_trans l a b c : after l a b -> after l b c -> after l a c.
Proof.
  intros [S1 O1 W1 P1] [S2 O2 W2 P2]. split.
  - eapply static_trans; eassumption.
  - intros j Hj. rewrite O2, O1 by exact Hj. reflexivity.
  - intros j Hj. rewrite W2, W1; [reflexivity|exact Hj|]. destruct (static_node _ _ j S1) as (_&_&_&->&_). exact Hj.
  - intros i Hi U. destruct (static_node _ _ i S1) as (_&E&_). specialize (P2 i Hi). rewrite E in P2.
    rewrite P2, P1; [reflexivity|exact Hi|exact U|]. rewrite (static_pt _ _ _ S1). exact U.
Qed.
Lemma alone_static s s' l : static s s' -> alone s l -> alone s' l.
Proof.
  intros St A i j Hi Hj U E. destruct (static_node _ _ i St) as (_&E1&_), (static_node _ _ j St) as (_&E2&_).
  rewrite (static_pt _ _ _ St) in U. rewrite E1, E2 in E. exact (A i j Hi Hj U E).
Qed.

(** * updateState *)
Lemma new_state_sim n n' T T' y : nstrip n = nstrip n' -> (phase_temperature n = true -> T = T') ->
  new_state n T y = new_state n' T' y.
Proof.
  intros H U. destruct (nstrip_fields _ _ H) as (K & Th & _ & En & _ & _ & _ & _ & _ & Pr).
  unfold new_state, n_nsp. cbv zeta. unfold phase_temperature in U. rewrite K, En in U. rewrite K in Pr. rewrite K, Th, En.
  destruct (n_kind n'), (n_energy n'); cbn [constP] in *; try rewrite (Pr eq_refl); try rewrite (U eq_refl); reflexivity.
Qed.
Lemma new_state_T n T y ts : phase_temperature n = true -> new_state n T y = Ok ts -> ts_T ts = T.
Proof.
  unfold phase_temperature, new_state. cbv zeta. intros U.
  destruct (n_kind n), (n_energy n); try discriminate; cbn [obind]; intros H; injection H as <-; reflexivity.
Qed.
Lemma upd_surfs_sim m a : forall b y, map sstrip a = map sstrip b -> upd_surfs m y a = upd_surfs m y b.
Proof.
  induction a as [|x a IH]; intros [|z b] y H; try discriminate; [reflexivity|]. cbn [map] in H.
  injection H as A1 A2 A3 A4 A5 H2. cbn [upd_surfs].
  unfold sf_nk, sf_set. rewrite A1, A2, A3, A4, A5. f_equal. apply IH. exact H2.
Qed.

Lemma upd_dev_some fuel p t d devs devs' : upd_dev fuel p t d devs = (Ok tt, devs') -> exists m, dv_mdot (devs' d) = Some m.
Proof.
  destruct fuel as [|fuel]; [discriminate|]. cbn [upd_dev].
  destruct (dv_ends (devs d)) as [[i o]|]; [|discriminate].
  destruct (dv_kind (devs d)) as [|[q|]|]; try discriminate.
  - destruct (tval _ _); try discriminate. intros H. injection H as <-. rewrite updf_same. eexists. reflexivity.
  - destruct (upd_dev fuel p t q devs) as [[u| | |] dv]; try discriminate.
    destruct (dv_mdot (dv q)); try discriminate. intros H. injection H as <-. rewrite updf_same. eexists. reflexivity.
  - destruct (tval _ _); try discriminate. intros H. injection H as <-. rewrite updf_same. eexists. reflexivity.
Qed.
Lemma upd_dev_fst fuel p p' t : forall d f g, (forall x, dstrip (f x) = dstrip (g x)) ->
  fst (upd_dev fuel p t d f) = fst (upd_dev fuel p' t d g).
Proof.
  induction fuel as [|fuel IH]; intros d f g H; [reflexivity|]. cbn [upd_dev].
  destruct (dstrip_fields _ _ (H d)) as (K1 & K2 & K3 & K4 & K5 & _). rewrite K1, K2, K5.
  destruct (dv_ends (g d)) as [[i o]|]; [|reflexivity].
  destruct (dv_kind (g d)) as [|[q|]|]; [destruct (tval _ _); reflexivity| |reflexivity|destruct (tval _ _); reflexivity].
  specialize (IH q f g H). destruct (upd_dev fuel p t q f) as [[[]| | |] f'] eqn:E1;
    destruct (upd_dev fuel p' t q g) as [[[]| | |] g'] eqn:E2; cbn [fst] in IH; try discriminate; try reflexivity.
  destruct (upd_dev_some _ _ _ _ _ _ E1) as (m1 & ->). destruct (upd_dev_some _ _ _ _ _ _ E2) as (m2 & ->). reflexivity.
Qed.
Lemma upd_devs_fst fuel p p' t ds : forall f g, (forall x, dstrip (f x) = dstrip (g x)) ->
  fst (upd_devs fuel p t ds f) = fst (upd_devs fuel p' t ds g).
Proof.
  induction ds as [|d ds IH]; intros f g H; [reflexivity|]. cbn [upd_devs].
  pose proof (upd_dev_fst fuel p p' t d f g H) as X.
  pose proof (upd_dev_strip fuel p t d f) as Y1. pose proof (upd_dev_strip fuel p' t d g) as Y2.
  destruct (upd_dev fuel p t d f) as [[u1| | |] f']; destruct (upd_dev fuel p' t d g) as [[u2| | |] g'];
    cbn [fst snd] in *; try discriminate; try reflexivity.
  apply IH. intros x. rewrite Y1, Y2. apply H.
Qed.

Definition at_time (w : wall) (t : R) : Prop := wl_time w = t.
Lemma set_times t (l : list (nat * bool)) : forall f w,
  (wl_time (f w) = t \/ In w (map fst l) -> wl_time (fold_left (fun f w => updf f (fst w) (w_set_time (f (fst w)) t)) l f w) = t).
Proof.
  induction l as [|[x b] l IH]; intros f w H; cbn [fold_left map fst] in *.
  - destruct H as [H|[]]. exact H.
  - apply IH. unfold updf. destruct (Nat.eqb_spec w x).
    + left. reflexivity.
    + destruct H as [H|[C|C]]; [left; exact H|congruence|right; exact C].
Qed.

(* One updateState on two related networks. *)
Lemma updateState_sim s s' i y : static s s' -> w_time s' = w_time s ->
  (phase_temperature (w_nodes s i) = true -> w_phT s' (n_phase (w_nodes s i)) = w_phT s (n_phase (w_nodes s i))) ->
  fst (updateState s' i y) = fst (updateState s i y) /\
  (fst (updateState s i y) = Ok tt ->
   nowdot (w_nodes (snd (updateState s' i y)) i) = nowdot (w_nodes (snd (updateState s i y)) i)).
Proof.
  intros St Et Ep. pose proof (st_node _ _ St i) as Sn. destruct (nstrip_fields _ _ Sn) as
    (K & Th & Ph & En & Ch & In_ & Out & Wl & Sf & Pr).
  assert (NS : new_state (w_nodes s' i) (w_phT s' (n_phase (w_nodes s' i))) y =
               new_state (w_nodes s i) (w_phT s (n_phase (w_nodes s i))) y).
  { apply new_state_sim; [exact Sn|]. rewrite (static_pt _ _ _ St), Ph. exact Ep. }
  unfold updateState. rewrite NS. destruct (new_state (w_nodes s i) _ y) as [ts| | |]; try (split; [reflexivity|discriminate]).
  unfold upd_connected. rewrite Et, (st_nd _ _ St), In_, Out.
  match goal with |- context [upd_devs ?fu ?p (w_time s) ?ds (w_devs s')] =>
    match goal with |- context [upd_devs fu ?p0 (w_time s) ds (w_devs s)] =>
      pose proof (upd_devs_fst fu p p0 (w_time s) ds (w_devs s') (w_devs s) (st_dev _ _ St)) as X;
      destruct (upd_devs fu p (w_time s) ds (w_devs s')) as [[u'| | |] dv'];
      destruct (upd_devs fu p0 (w_time s) ds (w_devs s)) as [[u| | |] dv] end end;
  cbn [fst snd] in *; try discriminate; try (split; [reflexivity|discriminate]).
  split; [reflexivity|]. intros _.
  cbn [s_nodes s_walls s_devs s_phT w_nodes]. rewrite !updf_same.
  unfold nowdot, n_setwdot, n_setsurf, n_state, surf_at, n_nsp. cbn [n_kind n_th n_phase n_energy n_chem n_inlet n_outlet n_wall n_surf n_mass n_vol n_T n_rho n_Y n_press n_enth].
  rewrite K, Th, Ph, En, Ch, In_, Out, Wl.
  rewrite (upd_surfs_sim _ _ _ _ Sf). rewrite K in Pr.
  destruct (constP (n_kind (w_nodes s i))); [rewrite (Pr eq_refl)|]; reflexivity.
Qed.

(* What updateState leaves alone. *)
Lemma updateState_frame s i y : let s' := snd (updateState s i y) in
  (forall j, j <> i -> w_nodes s' j = w_nodes s j) /\
  (forall j, n_wdot (w_nodes s' j) = n_wdot (w_nodes s j)) /\
  (forall x, x <> n_phase (w_nodes s i) -> w_phT s' x = w_phT s x) /\
  (phase_temperature (w_nodes s i) = true -> forall x, w_phT s' x = w_phT s x) /\
  w_time s' = w_time s /\
  (forall w, wl_time (w_walls s w) = w_time s \/
     (fst (updateState s i y) = Ok tt /\ In w (map fst (n_wall (w_nodes s i)))) -> wl_time (w_walls s' w) = w_time s) /\
  (fst (updateState s i y) = Ok tt -> w_phT s' (n_phase (w_nodes s i)) = n_T (w_nodes s' i)).
Proof.
  cbv zeta. unfold updateState. destruct (new_state _ _ _) as [ts| | |] eqn:N; cbn [fst snd];
    try (repeat split; try reflexivity; try discriminate; intros w [?|[? _]]; [assumption|discriminate]).
  unfold upd_connected. destruct (upd_devs _ _ _ _ _) as [[u| | |] devs]; cbn [fst snd s_nodes s_walls s_devs s_phT w_nodes w_phT w_walls w_time].
  1: { split; [intros j Hj; rewrite !updf_other by exact Hj; reflexivity|].
       split. { intros j. unfold updf at 1. destruct (Nat.eqb_spec j i); [subst; rewrite updf_same; reflexivity|].
                rewrite updf_other by assumption. reflexivity. }
       split; [intros x Hx; apply updf_other; exact Hx|].
       split. { intros U x. unfold updf. destruct (Nat.eqb_spec x (n_phase (w_nodes s i))); [|reflexivity].
                subst x. apply (new_state_T _ _ _ _ U N). }
       split; [reflexivity|]. split.
       - intros w H. apply set_times. destruct H as [H|[_ H]]; [left|right]; exact H.
       - intros _. rewrite !updf_same. reflexivity. }
  all: split; [intros j Hj; rewrite !updf_other by exact Hj; reflexivity|];
       split; [intros j; unfold updf; destruct (Nat.eqb_spec j i); [subst; reflexivity|reflexivity]|];
       split; [intros x Hx; apply updf_other; exact Hx|];
       split; [intros U x; unfold updf; destruct (Nat.eqb_spec x (n_phase (w_nodes s i))); [|reflexivity];
                subst x; apply (new_state_T _ _ _ _ U N)|];
       split; [reflexivity|]; split; [intros w [H|[H _]]; [exact H|discriminate]|discriminate].
Qed.

Lemma updateAll_frame order : forall s y, NoDup order -> let s' := snd (updateAll s order y) in
  (forall j, ~ In j order -> w_nodes s' j = w_nodes s j) /\
  (forall j, n_wdot (w_nodes s' j) = n_wdot (w_nodes s j)) /\
  (forall x, (forall j, In j order -> phase_temperature (w_nodes s j) = false -> x <> n_phase (w_nodes s j)) ->
       w_phT s' x = w_phT s x) /\
  w_time s' = w_time s /\
  (forall w, wl_time (w_walls s w) = w_time s \/
     (fst (updateAll s order y) = Ok tt /\ exists i, In i order /\ In w (map fst (n_wall (w_nodes s i)))) ->
     wl_time (w_walls s' w) = w_time s).
Proof.
  induction order as [|i order IH]; intros s y ND; cbv zeta.
  - cbn. repeat split; try reflexivity. intros w [H|[_ (i & [] & _)]]. exact H.
  - inversion ND as [|? ? Hi ND']; subst. cbn [updateAll].
    destruct (updateState_frame s i (firstn (neq (w_nodes s i)) y)) as (F1 & F2 & F3 & F4 & F5 & F6 & _).
    pose proof (updateState_static s i (firstn (neq (w_nodes s i)) y)) as St.
    assert (G3 : forall x, (forall j, In j (i :: order) -> phase_temperature (w_nodes s j) = false -> x <> n_phase (w_nodes s j)) ->
                 w_phT (snd (updateState s i (firstn (neq (w_nodes s i)) y))) x = w_phT s x).
    { intros x Hx. destruct (phase_temperature (w_nodes s i)) eqn:U; [apply F4; reflexivity|].
      apply F3. apply Hx; [left; reflexivity|exact U]. }
    assert (G1 : forall j, ~ In j (i :: order) -> w_nodes (snd (updateState s i (firstn (neq (w_nodes s i)) y))) j = w_nodes s j).
    { intros j Hj. apply F1. intros C. apply Hj. left. congruence. }
    destruct (updateState s i (firstn (neq (w_nodes s i)) y)) as [[[]| | |] s1]; cbn [fst snd] in *;
      try (split; [exact G1|]; split; [exact F2|]; split; [exact G3|]; split; [exact F5|];
           intros w [H|[H _]]; [apply F6; left; exact H|discriminate]).
    destruct (IH s1 (skipn (neq (w_nodes s i)) y) ND') as (I1 & I2 & I3 & I5 & I6).
    split. { intros j Hj. rewrite I1, G1; [reflexivity|exact Hj|]. intros C. apply Hj. right. exact C. }
    split. { intros j. rewrite I2, F2. reflexivity. }
    split. { intros x Hx. rewrite I3, G3; [reflexivity|exact Hx|]. intros j Hj U.
             destruct (static_node _ _ j St) as (_&->&_). apply Hx; [right; exact Hj|].
             rewrite <- (static_pt _ _ _ St). exact U. }
    split; [congruence|].
    intros w H. rewrite <- F5. apply I6. destruct H as [H|[Ho (j & [<-|Hj] & Hw)]].
    + left. rewrite F5. apply F6. left. exact H.
    + left. rewrite F5. apply F6. right. split; [reflexivity|exact Hw].
    + right. split; [exact Ho|]. exists j. split; [exact Hj|].
      rewrite F1; [exact Hw|]. intros C. congruence.
Qed.

Lemma updateAll_sim order : forall s s' y, NoDup order -> static s s' -> w_time s' = w_time s -> alone s order ->
  (forall i, In i order -> phase_temperature (w_nodes s i) = true ->
     w_phT s' (n_phase (w_nodes s i)) = w_phT s (n_phase (w_nodes s i))) ->
  fst (updateAll s' order y) = fst (updateAll s order y) /\
  (fst (updateAll s order y) = Ok tt -> forall i, In i order ->
   nowdot (w_nodes (snd (updateAll s' order y)) i) = nowdot (w_nodes (snd (updateAll s order y)) i)).
Proof.
  induction order as [|i order IH]; intros s s' y ND St Et Al Ep; [split; [reflexivity|intros _ i []]|].
  inversion ND as [|? ? Hi ND']; subst. cbn [updateAll].
  assert (Nq : neq (w_nodes s' i) = neq (w_nodes s i)).
  { destruct (nstrip_fields _ _ (st_node _ _ St i)) as (K & Th & _ & _ & _ & _ & _ & _ & Sf & _).
    unfold neq, surf_at, nsurf, n_nsp. rewrite K, Th. f_equal.
    assert (E : forall a, map sf_nk a = map sf_nk (map sstrip a)) by (intros a; rewrite map_map; reflexivity).
    rewrite (E (n_surf (w_nodes s' i))), Sf, <- E. reflexivity. }
  rewrite Nq. set (y1 := firstn (neq (w_nodes s i)) y). set (y2 := skipn (neq (w_nodes s i)) y).
  destruct (updateState_sim s s' i y1 St Et (Ep i (or_introl eq_refl))) as [X1 X2].
  destruct (updateState_frame s i y1) as (F1 & _ & F3 & F4 & F5 & _).
  destruct (updateState_frame s' i y1) as (F1' & _ & F3' & F4' & F5' & _).
  pose proof (updateState_static s i y1) as S1. pose proof (updateState_static s' i y1) as S1'.
  destruct (updateState s i y1) as [[[]| | |] s1]; destruct (updateState s' i y1) as [[[]| | |] s1'];
    cbn [fst snd] in *; try discriminate; try (split; [reflexivity|discriminate]).
  assert (St1 : static s1 s1').
  { eapply static_trans; [apply static_sym, S1|]. eapply static_trans; [exact St|exact S1']. }
  destruct (IH s1 s1' y2 ND' St1) as [Y1 Y2].
  - congruence.
  - intros a b Ha Hb. apply (alone_static s s1 (i :: order) S1 Al); right; assumption.
  - intros a Ha U. rewrite (static_pt _ _ _ S1) in U. destruct (static_node _ _ a S1) as (_&->&_).
    assert (Na : n_phase (w_nodes s i) <> n_phase (w_nodes s a)).
    { intros C. apply Hi. rewrite <- (Al a i (or_intror Ha) (or_introl eq_refl) U C). exact Ha. }
    rewrite F3', F3; [apply Ep; [right; exact Ha|exact U]|congruence|].
    destruct (static_node _ _ i St) as (_&->&_). congruence.
  - split; [exact Y1|]. intros O a [<-|Ha]; [|apply Y2; assumption].
    destruct (updateAll_frame order s1 y2 ND') as (G1 & _). destruct (updateAll_frame order s1' y2 ND') as (G1' & _).
    rewrite G1, G1' by exact Hi. apply X2. reflexivity.
Qed.

(** * eval *)
Record esim (l : list nat) (s s' : net) : Prop := {
  es_node : forall i, nowdot (w_nodes s' i) = nowdot (w_nodes s i);
  es_wdot : forall i, In i l -> n_chem (w_nodes s i) = false -> n_wdot (w_nodes s' i) = n_wdot (w_nodes s i);
  es_flow : forall i d, In i l -> In d (n_inlet (w_nodes s i)) \/ In d (n_outlet (w_nodes s i)) -> flow_of s' d = flow_of s d;
  es_wall : forall i w, In i l -> In w (map fst (n_wall (w_nodes s i))) -> w_walls s' w = w_walls s w
}.
Lemma nowdot_set a b : nowdot a = nowdot b -> a = n_setwdot b (n_wdot a).
Proof.
  intros H. destruct (nowdot_fields _ _ H) as ((H1&H2&H3&H4)&(H5&H6&H7&H8&H9)&(H10&H11&H12&H13&H14&H15&H16)).
  destruct a, b. unfold n_setwdot. cbn in *. subst. reflexivity.
Qed.
Lemma envOf_sim l s s' i : esim l s s' -> In i l -> envOf s' i = envOf s i.
Proof.
  intros E Hi. unfold envOf.
  destruct (nowdot_fields _ _ (es_node _ _ _ E i)) as ((H1&H2&H3&H4)&(H5&H6&H7&H8&H9)&(H10&H11&H12&H13&H14&H15&H16)).
  assert (Wt : evalWalls s' (w_nodes s' i) = evalWalls s (w_nodes s i)).
  { unfold evalWalls, wall_terms. rewrite H14. f_equal. apply oseq_ext. intros w Hw.
    rewrite (es_wall _ _ _ E i (fst w) Hi (in_map fst _ _ Hw)). unfold expansionRate, heatRate, press, temp.
    destruct (wl_ends (w_walls s (fst w))) as [[a b]|]; [|reflexivity].
    destruct (nowdot_fields _ _ (es_node _ _ _ E a)) as ((->&->&_)&_).
    destruct (nowdot_fields _ _ (es_node _ _ _ E b)) as ((->&->&_)&_). reflexivity. }
  assert (Fo : oseq (flow_of s') (n_outlet (w_nodes s' i)) = oseq (flow_of s) (n_outlet (w_nodes s i))).
  { rewrite H13. apply oseq_ext. intros d Hd. apply (es_flow _ _ _ E i d Hi). right. exact Hd. }
  assert (Fi : oseq (flow_of s') (n_inlet (w_nodes s' i)) = oseq (flow_of s) (n_inlet (w_nodes s i))).
  { rewrite H12. apply oseq_ext. intros d Hd. apply (es_flow _ _ _ E i d Hi). left. exact Hd. }
  assert (Su : evalSurfaces (molar (n_kind (w_nodes s' i))) (w_nodes s' i) (n_surf (w_nodes s' i)) (repeat 0 (n_nsp (w_nodes s' i)))
             = evalSurfaces (molar (n_kind (w_nodes s i))) (w_nodes s i) (n_surf (w_nodes s i)) (repeat 0 (n_nsp (w_nodes s i)))).
  { rewrite (nowdot_set _ _ (es_node _ _ _ E i)), evalSurfaces_nowdot. reflexivity. }
  cbv zeta. rewrite Wt, Fo, Fi, Su, H11, H6, H2, H7, H3.
  destruct (n_chem (w_nodes s i)) eqn:C; [reflexivity|]. rewrite (es_wdot _ _ _ E i Hi C). reflexivity.
Qed.
Lemma evalAll_sim order : forall s s', NoDup order -> esim order s s' -> fst (evalAll s' order) = fst (evalAll s order).
Proof.
  induction order as [|i order IH]; intros s s' ND E; [reflexivity|]. inversion ND as [|? ? Hi ND']; subst.
  cbn [evalAll]. pose proof (envOf_sim _ _ _ i E (or_introl eq_refl)) as Ev.
  destruct (evalOne s i) as [r1 s1] eqn:E1. destruct (evalOne s' i) as [r1' s1'] eqn:E1'.
  assert (Er : r1' = r1).
  { unfold evalOne in E1, E1'. rewrite Ev in E1'. rewrite (nowdot_set _ _ (es_node _ _ _ E i)) in E1'.
    destruct (envOf s i) as [e| | |]; try congruence. rewrite evalNode_nowdot in E1'. destruct (evalNode _ _).
    injection E1 as <- _. injection E1' as <- _. reflexivity. }
  subst r1'. destruct r1 as [v| | |]; try reflexivity.
  destruct (evalOne_spec _ _ _ _ E1) as (W1 & _ & F1). destruct (evalOne_spec _ _ _ _ E1') as (W1' & _ & F1').
  assert (E' : esim order s1 s1').
  { split.
    - intros j. rewrite (ws_node _ _ W1), (ws_node _ _ W1'). apply (es_node _ _ _ E).
    - intros j Hj. assert (Nj : j <> i) by congruence. rewrite F1, F1' by exact Nj. apply (es_wdot _ _ _ E). right. exact Hj.
    - intros j d Hj Hd. assert (Nj : j <> i) by congruence. rewrite F1 in Hd by exact Nj.
      rewrite (flow_of_sim _ _ _ W1), (flow_of_sim _ _ _ W1'). apply (es_flow _ _ _ E j); [right; exact Hj|exact Hd].
    - intros j w Hj Hw. assert (Nj : j <> i) by congruence. rewrite F1 in Hw by exact Nj.
      rewrite (ws_walls _ _ W1), (ws_walls _ _ W1'). apply (es_wall _ _ _ E j); [right; exact Hj|exact Hw]. }
  specialize (IH s1 s1' ND' E'). destruct (evalAll s1 order) as [[vs| | |] s2]; destruct (evalAll s1' order) as [[vs'| | |] s2'];
    cbn [fst] in *; congruence.
Qed.

Lemma wall_eq a b : wstrip a = wstrip b -> wl_time a = wl_time b -> a = b.
Proof.
  intros H T. destruct (wstrip_fields _ _ H) as (?&?&?&?&?&?&?). destruct a, b. cbn in *. subst. reflexivity.
Qed.

Lemma evalNet_after s s' t y : linked s -> primaries (w_devs s) -> NoDup (w_order s) -> alone s (w_order s) ->
  after (w_order s) s s' -> fst (evalNet s' t y) = fst (evalNet s t y).
Proof.
  intros L P ND Al A. pose proof (af_static _ _ _ A) as St. unfold evalNet.
  change (w_order (s_time s t)) with (w_order s). change (w_order (s_time s' t)) with (w_order s').
  rewrite (st_order _ _ St).
  assert (St0 : static (s_time s t) (s_time s' t)).
  { eapply static_trans; [|eapply static_trans; [exact St|]]; split; reflexivity. }
  destruct (updateAll_sim (w_order s) (s_time s t) (s_time s' t) y ND St0 eq_refl Al) as [X1 X2].
  { intros i Hi U. apply (af_phT _ _ _ A); assumption. }
  pose proof (updateAll_frame (w_order s) (s_time s t) y ND) as (G1 & G2 & _ & _ & G6).
  pose proof (updateAll_frame (w_order s) (s_time s' t) y ND) as (G1' & G2' & _ & _ & G6').
  pose proof (updateAll_static (w_order s) (s_time s t) y) as S1.
  pose proof (updateAll_static (w_order s) (s_time s' t) y) as S1'.
  destruct (updateAll (s_time s t) (w_order s) y) as [[[]| | |] s1] eqn:E1;
    destruct (updateAll (s_time s' t) (w_order s) y) as [[[]| | |] s1'] eqn:E1'; cbn [fst snd] in *; try discriminate; try reflexivity.
  assert (St1 : static s1 s1').
  { eapply static_trans; [apply static_sym, S1|]. eapply static_trans; [exact St0|exact S1']. }
  rewrite (st_order _ _ S1'), (st_order _ _ S1). cbn [s_time w_order]. rewrite (st_order _ _ St).
  assert (L0 : linked (s_time s t)) by (eapply linked_static; [|exact L]; split; reflexivity).
  assert (L0' : linked (s_time s' t)) by (eapply linked_static; [exact St0|exact L0]).
  assert (P' : primaries (w_devs (s_time s' t))) by exact (primaries_static s s' St P).
  assert (Law1 : lawful s1 t (w_order s)).
  { pose proof (updateAll_law _ _ _ _ [] L0 P E1) as H. rewrite app_nil_r in H. apply H. intros d i j _ [[]|[]]. }
  assert (Law1' : lawful s1' t (w_order s)).
  { pose proof (updateAll_law _ _ _ _ [] L0' P' E1') as H. rewrite app_nil_r in H. apply H. intros d i j _ [[]|[]]. }
  assert (Nd : forall i, nowdot (w_nodes s1' i) = nowdot (w_nodes s1 i)).
  { intros i. destruct (in_dec Nat.eq_dec i (w_order s)) as [Hi|Hi]; [apply X2; [reflexivity|exact Hi]|].
    rewrite G1, G1' by exact Hi. cbn [s_time w_nodes]. rewrite (af_out _ _ _ A) by exact Hi. reflexivity. }
  pose proof (linked_static _ _ S1 L0) as L1.
  apply evalAll_sim; [exact ND|]. split.
  - exact Nd.
  - intros i Hi C. rewrite G2, G2'. cbn [s_time w_nodes]. apply (af_wdot _ _ _ A).
    destruct (static_node _ _ i S1) as (_&_&_&E&_). rewrite E in C. exact C.
  - intros i d Hi Hd.
    assert (Hd' : exists a b, dv_ends (w_devs s1 d) = Some (a, b) /\ (a = i \/ b = i)).
    { destruct Hd as [Hd|Hd]; [apply (lk_in _ L1) in Hd|apply (lk_out _ L1) in Hd]; destruct Hd as (a & Hd); eauto. }
    destruct Hd' as (a & b & Eab & Hab).
    destruct (dstrip_fields _ _ (st_dev _ _ St1 d)) as (_ & Ee & _ & _ & _ & Em).
    assert (Hab' : In a (w_order s) \/ In b (w_order s)) by (destruct Hab; subst; tauto).
    assert (M1 : dv_mdot (w_devs s1 d) = Some (law s1 t d)) by (apply (Law1 d a b Eab Hab')).
    assert (M1' : dv_mdot (w_devs s1' d) = Some (law s1 t d)).
    { rewrite (Law1' d a b) by (try congruence; exact Hab'). f_equal. rewrite !law_lawd. apply lawd_strip.
      - intros x. apply (st_dev _ _ St1).
      - intros i0 o0 _. unfold press. destruct (nowdot_fields _ _ (Nd i0)) as ((->&_)&_).
        destruct (nowdot_fields _ _ (Nd o0)) as ((->&_)&_). tauto. }
    unfold flow_of. rewrite M1, M1', Ee, Eab, Em.
    destruct (nowdot_fields _ _ (Nd a)) as ((_&_&->&->)&_). reflexivity.
  - intros i w Hi Hw. apply wall_eq; [apply (st_wall _ _ St1)|].
    assert (Wl : n_wall (w_nodes s1 i) = n_wall (w_nodes s i)).
    { destruct (nstrip_fields _ _ (st_node _ _ S1 i)) as (_&_&_&_&_&_&_&H&_). exact H. }
    assert (Wl' : n_wall (w_nodes s' i) = n_wall (w_nodes s i)).
    { destruct (nstrip_fields _ _ (st_node _ _ St i)) as (_&_&_&_&_&_&_&H&_). exact H. }
    rewrite Wl in Hw. rewrite G6, G6'; [reflexivity|..]; right; (split; [reflexivity|]); exists i; (split; [exact Hi|]).
    + cbn [s_time w_nodes]. rewrite Wl'. exact Hw.
    + cbn [s_time w_nodes]. exact Hw.
Qed.

(** * An evaluation, also one that fails, is followed by a state like the one before. *)
Lemma evalOne_frame s i : let s' := snd (evalOne s i) in
  (forall j, j <> i -> w_nodes s' j = w_nodes s j) /\
  (forall j, nowdot (w_nodes s' j) = nowdot (w_nodes s j)) /\
  (forall j, n_chem (w_nodes s j) = false -> n_wdot (w_nodes s' j) = n_wdot (w_nodes s j)) /\
  (forall x, x <> n_phase (w_nodes s i) -> w_phT s' x = w_phT s x) /\
  w_phT s' (n_phase (w_nodes s i)) = n_T (w_nodes s i).
Proof.
  cbv zeta. unfold evalOne. destruct (envOf s i) as [e| | |] eqn:E;
    try (cbn; repeat split; try reflexivity; [intros x Hx; apply updf_other; exact Hx|apply updf_same]).
  destruct (evalNode _ _). cbn [snd s_nodes s_phT w_nodes w_phT].
  split; [intros j Hj; apply updf_other; exact Hj|].
  split. { intros j. unfold updf. destruct (Nat.eqb_spec j i); [subst; reflexivity|reflexivity]. }
  split. { intros j C. unfold updf. destruct (Nat.eqb_spec j i); [|reflexivity]. subst j. cbn [n_setwdot n_wdot].
           unfold envOf in E. cbv zeta in E.
           destruct (evalWalls s (w_nodes s i)); try discriminate. cbn [obind] in E.
           destruct (oseq (flow_of s) (n_outlet (w_nodes s i))); try discriminate. cbn [obind] in E.
           destruct (oseq (flow_of s) (n_inlet (w_nodes s i))); try discriminate. cbn [obind] in E.
           injection E as <-. cbn [en_wdot]. rewrite C. reflexivity. }
  split; [intros x Hx; apply updf_other; exact Hx|apply updf_same].
Qed.
Lemma evalAll_frame order : forall s, let s' := snd (evalAll s order) in
  (forall j, ~ In j order -> w_nodes s' j = w_nodes s j) /\
  (forall j, nowdot (w_nodes s' j) = nowdot (w_nodes s j)) /\
  (forall j, n_chem (w_nodes s j) = false -> n_wdot (w_nodes s' j) = n_wdot (w_nodes s j)) /\
  (forall x T, w_phT s x = T -> (forall j, In j order -> n_phase (w_nodes s j) = x -> n_T (w_nodes s j) = T) -> w_phT s' x = T).
Proof.
  induction order as [|i order IH]; intros s; cbv zeta; [cbn; repeat split; auto|]. cbn [evalAll].
  destruct (evalOne_frame s i) as (F1 & F2 & F3 & F4 & F5).
  assert (G4 : forall x T, w_phT s x = T -> (forall j, In j (i :: order) -> n_phase (w_nodes s j) = x -> n_T (w_nodes s j) = T) ->
     w_phT (snd (evalOne s i)) x = T).
  { intros x T H1 H2. destruct (Nat.eq_dec x (n_phase (w_nodes s i))) as [->|Hx]; [|rewrite F4 by exact Hx; exact H1].
    rewrite F5. apply H2; [left|]; reflexivity. }
  assert (G1 : forall j, ~ In j (i :: order) -> w_nodes (snd (evalOne s i)) j = w_nodes s j).
  { intros j Hj. apply F1. intros C. apply Hj. left. congruence. }
  destruct (evalOne s i) as [[v| | |] s1]; cbn [snd] in *;
    try (split; [exact G1|]; split; [exact F2|]; split; [exact F3|exact G4]).
  specialize (IH s1). cbv zeta in IH. destruct (evalAll s1 order) as [r s2] eqn:E2.
  assert (E3 : snd (match r with Ok vs => (Ok (v :: vs), s2) | Err => (Err, s2) | Exn => (Exn, s2) | UB => (UB, s2) end) = s2)
    by (destruct r; reflexivity).
  assert (E4 : snd (match (r, s2) with (Ok vs, s2) => (Ok (v :: vs), s2) | r => r end) = s2) by (destruct r; reflexivity).
  rewrite E4. cbn [snd] in IH. destruct IH as (I1 & I2 & I3 & I4).
  split. { intros j Hj. rewrite I1, G1; [reflexivity|exact Hj|]. intros C. apply Hj. right. exact C. }
  split; [intros j; rewrite I2; apply F2|].
  split. { intros j C. rewrite I3, F3; [reflexivity|exact C|]. destruct (nowdot_fields _ _ (F2 j)) as (_&_&(_&->&_)). exact C. }
  intros x T H1 H2. apply I4; [apply G4; assumption|].
  intros j Hj. destruct (nowdot_fields _ _ (F2 j)) as ((_&E&_)&_&H3). rewrite E.
  destruct H3 as (_&_&_&_&_&_&->). apply H2. right. exact Hj.
Qed.

Lemma updateAll_T order : forall s y, NoDup order -> alone s order -> fst (updateAll s order y) = Ok tt ->
  forall i, In i order -> phase_temperature (w_nodes s i) = true ->
    n_T (w_nodes (snd (updateAll s order y)) i) = w_phT s (n_phase (w_nodes s i)).
Proof.
  induction order as [|i order IH]; intros s y ND Al O j Hj U; [destruct Hj|].
  inversion ND as [|? ? Hi ND']; subst. cbn [updateAll] in *. set (y1 := firstn _ y) in *. set (y2 := skipn _ y) in *.
  destruct (updateState_frame s i y1) as (F1 & _ & F3 & F4 & _ & _ & F7).
  pose proof (updateState_static s i y1) as S1.
  destruct (updateState s i y1) as [[[]| | |] s1]; cbn [fst snd] in *; try discriminate.
  destruct Hj as [<-|Hj].
  - destruct (updateAll_frame order s1 y2 ND') as (G1 & _). rewrite G1 by exact Hi.
    rewrite <- (F7 eq_refl). apply F4. exact U.
  - rewrite IH; [|exact ND'| |exact O|exact Hj|rewrite (static_pt _ _ _ S1); exact U].
    + destruct (static_node _ _ j S1) as (_&->&_). apply F3. intros C. apply Hi.
      rewrite <- (Al j i (or_intror Hj) (or_introl eq_refl) U (eq_sym C)). exact Hj.
    + intros a b Ha Hb. apply (alone_static s s1 (i :: order) S1 Al); right; assumption.
Qed.

Lemma after_evalNet s t y : NoDup (w_order s) -> alone s (w_order s) -> after (w_order s) s (snd (evalNet s t y)).
Proof.
  intros ND Al. split; [apply evalNet_static|..]; unfold evalNet; change (w_order (s_time s t)) with (w_order s);
  pose proof (updateAll_frame (w_order s) (s_time s t) y ND) as (G1 & G2 & G3 & _ & _);
  pose proof (updateAll_static (w_order s) (s_time s t) y) as S1;
  pose proof (updateAll_T (w_order s) (s_time s t) y ND Al) as G4;
  destruct (updateAll (s_time s t) (w_order s) y) as [[[]| | |] s1]; cbn [fst snd] in *;
  try (pose proof (evalAll_frame (w_order s1) s1) as (H1 & H2 & H3 & H4); pose proof (st_order _ _ S1) as Eo; cbn [s_time w_order] in Eo).
  - intros j Hj. rewrite H1 by congruence. apply G1. exact Hj.
  - exact G1.
  - exact G1.
  - exact G1.
  - intros j C. rewrite H3; [apply G2|]. destruct (static_node _ _ j S1) as (_&_&_&->&_). exact C.
  - intros j _. apply G2.
  - intros j _. apply G2.
  - intros j _. apply G2.
  - intros i Hi U. apply H4.
    + apply G3. intros j Hj Uj C. cbn [s_time w_nodes] in *. assert (i = j) by (apply Al; auto). congruence.
    + intros j Hj Ep. destruct (static_node _ _ j S1) as (_&Ej&_). cbn [s_time w_nodes] in Ej. rewrite Ej in Ep.
      rewrite Eo in Hj. assert (E : i = j) by (apply Al; auto). subst j. apply G4; [reflexivity|exact Hi|exact U].
  - intros i Hi U. apply G3. intros j Hj Uj C. cbn [s_time w_nodes] in *. assert (i = j) by (apply Al; auto). congruence.
  - intros i Hi U. apply G3. intros j Hj Uj C. cbn [s_time w_nodes] in *. assert (i = j) by (apply Al; auto). congruence.
  - intros i Hi U. apply G3. intros j Hj Uj C. cbn [s_time w_nodes] in *. assert (i = j) by (apply Al; auto). congruence.
Qed.

Lemma evals_after evals : forall s, NoDup (w_order s) -> alone s (w_order s) ->
  after (w_order s) s (fold_left (fun s e => snd (evalNet s (fst e) (snd e))) evals s).
Proof.
  induction evals as [|[t y] evals IH]; intros s ND Al; [apply after_refl|]. cbn [fold_left fst snd].
  pose proof (after_evalNet s t y ND Al) as A. pose proof (af_static _ _ _ A) as St.
  set (s1 := snd (evalNet s t y)) in *. pose proof (st_order _ _ St) as Eo.
  eapply after_trans; [exact A|]. rewrite <- Eo. apply IH; rewrite Eo; [exact ND|]. eapply alone_static; eassumption.
Qed.
