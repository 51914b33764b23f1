(* The flow law of the devices. *)
From Coq Require Import String List Bool Reals Lra Lia Arith.
From Verif Require Import Base.Outcome Base.RSum ZeroD.NetModel ZeroD.NetSpec ZeroD.FrameProofs ZeroD.EvalProofs.
Import ListNotations.
Local Open Scope R_scope.
Local Open Scope list_scope.

(** * Flow rates are never negative *)
Definition nonneg (f : nat -> dev) : Prop := forall d m, dv_mdot (f d) = Some m -> 0 <= m.
Lemma nonneg_upd f d x : nonneg f -> (forall m, dv_mdot x = Some m -> 0 <= m) -> nonneg (updf f d x).
Proof. intros H X d' m. unfold updf. destruct (Nat.eqb d' d); [apply X|apply H]. Qed.
Lemma upd_dev_nonneg fuel p t : forall d devs, nonneg devs -> nonneg (snd (upd_dev fuel p t d devs)).
Proof.
  induction fuel as [|fuel IH]; intros d devs H; [exact H|]. cbn [upd_dev].
  assert (X : forall f z, nonneg f -> nonneg (updf f d (set_mdot (f d) (Rmax z 0)))).
  { intros f z Hf. apply nonneg_upd; [exact Hf|]. cbn. intros m E. injection E as <-. apply Rmax_r. }
  destruct (dv_ends (devs d)) as [[i o]|]; [|exact H].
  destruct (dv_kind (devs d)) as [|[q|]|]; [| |exact H|];
    try (destruct (tval _ _); [apply X; exact H|exact H|exact H|exact H]).
  specialize (IH q devs H). destruct (upd_dev fuel p t q devs) as [[u| | |] devs']; cbn [snd] in *; try exact IH.
  destruct (dv_mdot (devs' q)); [|exact IH]. apply X. exact IH.
Qed.
Lemma upd_devs_nonneg fuel p t ds : forall devs, nonneg devs -> nonneg (snd (upd_devs fuel p t ds devs)).
Proof.
  induction ds as [|d ds IH]; intros devs H; [exact H|]. cbn [upd_devs].
  pose proof (upd_dev_nonneg fuel p t d devs H) as X.
  destruct (upd_dev fuel p t d devs) as [[u| | |] devs']; cbn [snd] in *; try exact X. apply IH. exact X.
Qed.
Lemma updateState_nonneg s i y : nonneg (w_devs s) -> nonneg (w_devs (snd (updateState s i y))).
Proof.
  intros H. unfold updateState. destruct (new_state _ _ _); try exact H. unfold upd_connected.
  match goal with |- context [upd_devs ?fu ?p ?t ?ds ?dv] => pose proof (upd_devs_nonneg fu p t ds dv H) as X;
    destruct (upd_devs fu p t ds dv) as [[u| | |] devs] end; cbn [snd] in *; exact X.
Qed.
Lemma updateAll_nonneg order : forall s y, nonneg (w_devs s) -> nonneg (w_devs (snd (updateAll s order y))).
Proof.
  induction order as [|i order IH]; intros s y H; [exact H|]. cbn [updateAll].
  pose proof (updateState_nonneg s i (firstn (neq (w_nodes s i)) y) H) as X.
  destruct (updateState s i _) as [[u| | |] s1]; cbn [snd] in *; try exact X. apply IH. exact X.
Qed.
Lemma evalOne_devs s i : w_devs (snd (evalOne s i)) = w_devs s.
Proof. unfold evalOne. destruct (envOf s i); try reflexivity. destruct (evalNode _ _). reflexivity. Qed.
Lemma evalAll_devs order : forall s, w_devs (snd (evalAll s order)) = w_devs s.
Proof.
  induction order as [|i order IH]; intros s; [reflexivity|]. cbn [evalAll].
  pose proof (evalOne_devs s i) as X. destruct (evalOne s i) as [[v| | |] s1]; cbn [snd] in *; try exact X.
  specialize (IH s1). destruct (evalAll s1 order) as [[vs| | |] s2]; cbn [snd] in *; congruence.
Qed.
Lemma evalNet_nonneg s t y : nonneg (w_devs s) -> nonneg (w_devs (snd (evalNet s t y))).
Proof.
  intros H. unfold evalNet. pose proof (updateAll_nonneg (w_order s) (s_time s t) y H) as X.
  change (w_order (s_time s t)) with (w_order s).
  destruct (updateAll (s_time s t) (w_order s) y) as [[u| | |] s1]; cbn [snd] in *; try exact X.
  rewrite evalAll_devs. exact X.
Qed.
Lemma dev_op_nonneg s d o : (forall x, o = Ok x -> dv_mdot x = dv_mdot (w_devs s d)) ->
  nonneg (w_devs s) -> nonneg (w_devs (dev_op s d o)).
Proof.
  intros H N. unfold dev_op. destruct o as [x| | |]; try exact N. cbn. apply nonneg_upd; [exact N|].
  intros m. rewrite (H x eq_refl). apply N.
Qed.
Lemma step_nonneg s o : nonneg (w_devs s) -> nonneg (w_devs (step s o)).
Proof.
  intros H. destruct o; cbn [step].
  - exact H.
  - cbn. apply nonneg_upd; [exact H|discriminate].
  - destruct (_ && _); [|exact H]. unfold keep, install. destruct (dv_ends (w_devs s d)); [exact H|].
    cbn. apply nonneg_upd; [exact H|]. cbn. apply H.
  - exact H.
  - destruct (_ && _); [|exact H]. unfold installWall. destruct (wl_ends _); exact H.
  - destruct (n_kind _); try exact H; destruct (Nat.ltb _ _); exact H.
  - destruct (n_kind _); exact H.
  - destruct (n_kind _); exact H.
  - exact H.
  - apply dev_op_nonneg; [|exact H]. intros x. unfold setTimeFunction. destruct (dv_kind _); intros E; inversion E; reflexivity.
  - apply dev_op_nonneg; [|exact H]. intros x. unfold setPressureFunction. destruct (dv_kind _); intros E; inversion E; reflexivity.
  - apply dev_op_nonneg; [|exact H]. intros x E. inversion E. reflexivity.
  - apply dev_op_nonneg; [|exact H]. intros x. unfold setMassFlowRate.
    destruct (dv_kind (w_devs s d)), (dv_tf (w_devs s d)); intros E; inversion E; reflexivity.
  - apply dev_op_nonneg; [|exact H]. intros x. unfold setPrimary. destruct (dv_kind _); intros E; inversion E; reflexivity.
  - destruct (set_wall _ _); exact H.
  - apply evalNet_nonneg. exact H.
Qed.
Lemma run_nonneg ops : nonneg (w_devs (run ops)).
Proof.
  unfold run. assert (X : forall s, nonneg (w_devs s) -> nonneg (w_devs (fold_left step ops s))).
  { induction ops as [|o ops IH]; intros s H; [exact H|]. apply IH, step_nonneg, H. }
  apply X. intros d m. cbn. discriminate.
Qed.

(** * The law *)
Definition primaries (devs : nat -> dev) : Prop :=
  forall d p, dv_kind (devs d) = PCtrl (Some p) -> dv_kind (devs p) = MFC.
(* The law with given pressures and devices. *)
Definition lawd (p : nat -> R) (t : R) (devs : nat -> dev) (d : nat) : R :=
  let x := devs d in
  let drop := match dv_ends x with Some (i, o) => p i - p o | None => 0 - 0 end in
  match dv_kind x with
  | MFC => law_mfc x t
  | Valv => Rmax (dv_coeff x * time_factor x t * pval (dv_pf x) drop) 0
  | PCtrl (Some q) => Rmax (dv_coeff x * pval (dv_pf x) drop + law_mfc (devs q) t) 0
  | PCtrl None => 0
  end.
Lemma law_lawd s t d : law s t d = lawd (press s) t (w_devs s) d.
Proof.
  unfold law, lawd, up, down, press_o. cbv zeta. destruct (dv_ends (w_devs s d)) as [[i o]|]; reflexivity.
Qed.
Lemma law_mfc_strip a b t : dstrip a = dstrip b -> law_mfc a t = law_mfc b t.
Proof. intros H. apply dstrip_fields in H. destruct H as (_&_&H3&_&H5&_). unfold law_mfc, time_factor. rewrite H3, H5. reflexivity. Qed.
Lemma lawd_strip p p' t f g d : (forall x, dstrip (f x) = dstrip (g x)) ->
  (forall i o, dv_ends (f d) = Some (i, o) -> p i = p' i /\ p o = p' o) -> lawd p t f d = lawd p' t g d.
Proof.
  intros H E. unfold lawd. cbv zeta. pose proof (dstrip_fields _ _ (H d)) as (K1 & K2 & K3 & K4 & K5 & _).
  assert (D : match dv_ends (f d) with Some (i, o) => p i - p o | None => 0 - 0 end =
              match dv_ends (g d) with Some (i, o) => p' i - p' o | None => 0 - 0 end).
  { rewrite <- K2. destruct (dv_ends (f d)) as [[i o]|] eqn:X; [|reflexivity]. destruct (E i o eq_refl) as [-> ->]. reflexivity. }
  rewrite D, <- K1, <- K3, <- K4. unfold time_factor. rewrite <- K5.
  destruct (dv_kind (f d)) as [|[q|]|]; try reflexivity.
  - apply law_mfc_strip, H.
  - rewrite (law_mfc_strip (f q) (g q) t (H q)). reflexivity.
Qed.

Lemma tval_factor x t g : tval (dv_tf x) t = Ok g -> time_factor x t = g.
Proof. unfold tval, time_factor. destruct (dv_tf x); intros H; inversion H; reflexivity. Qed.

Lemma upd_mfc fuel p t d devs devs' : dv_kind (devs d) = MFC -> upd_dev fuel p t d devs = (Ok tt, devs') ->
  devs' = updf devs d (set_mdot (devs d) (law_mfc (devs d) t)).
Proof.
  destruct fuel as [|fuel]; [discriminate|]. cbn [upd_dev]. intros ->.
  destruct (dv_ends (devs d)) as [[i o]|]; [|discriminate].
  destruct (tval (dv_tf (devs d)) t) as [g| | |] eqn:E; try discriminate. intros H. injection H as <-.
  unfold law_mfc. rewrite (tval_factor _ _ _ E). reflexivity.
Qed.

Lemma upd_dev_law fuel p t d devs devs' : primaries devs -> upd_dev fuel p t d devs = (Ok tt, devs') ->
  dv_mdot (devs' d) = Some (lawd p t devs d) /\
  forall x, x <> d -> dv_mdot (devs' x) = dv_mdot (devs x) \/
                      (dv_kind (devs x) = MFC /\ dv_mdot (devs' x) = Some (law_mfc (devs x) t)).
Proof.
  intros P. destruct fuel as [|fuel]; [discriminate|]. cbn [upd_dev].
  destruct (dv_ends (devs d)) as [[i o]|] eqn:Ee; [|discriminate].
  destruct (dv_kind (devs d)) as [|[q|]|] eqn:Ek; try discriminate.
  - destruct (tval (dv_tf (devs d)) t) as [g| | |] eqn:E; try discriminate. intros H. injection H as <-.
    rewrite updf_same. split; [|intros x Hx; left; rewrite updf_other by exact Hx; reflexivity].
    unfold lawd. rewrite Ek. unfold law_mfc. rewrite (tval_factor _ _ _ E). reflexivity.
  - destruct (upd_dev fuel p t q devs) as [[u| | |] dv] eqn:E; try discriminate. destruct u.
    pose proof (upd_mfc _ _ _ _ _ _ (P d q Ek) E) as Eq.
    destruct (dv_mdot (dv q)) as [m|] eqn:Em; [|discriminate]. intros H. injection H as <-.
    rewrite Eq, updf_same in Em. injection Em as <-.
    assert (Hqd : q <> d). { intros C. subst q. pose proof (P d d Ek). congruence. }
    rewrite updf_same. split.
    + unfold lawd. cbv zeta. rewrite Ek, Ee. reflexivity.
    + intros x Hx. rewrite updf_other by exact Hx. rewrite Eq. unfold updf. destruct (Nat.eqb_spec x q).
      * subst x. right. split; [exact (P d q Ek)|reflexivity].
      * left. reflexivity.
  - destruct (tval (dv_tf (devs d)) t) as [g| | |] eqn:E; try discriminate. intros H. injection H as <-.
    rewrite updf_same. split; [|intros x Hx; left; rewrite updf_other by exact Hx; reflexivity].
    unfold lawd. rewrite Ek, Ee. rewrite (tval_factor _ _ _ E). reflexivity.
Qed.

Lemma primaries_strip f g : (forall x, dstrip (f x) = dstrip (g x)) -> primaries f -> primaries g.
Proof.
  intros H P d p K. pose proof (dstrip_fields _ _ (H d)) as (K1 & _). pose proof (dstrip_fields _ _ (H p)) as (K2 & _).
  rewrite <- K2. apply (P d). congruence.
Qed.

Lemma upd_devs_law fuel p t ds : forall devs devs', primaries devs -> upd_devs fuel p t ds devs = (Ok tt, devs') ->
  forall x, (In x ds -> dv_mdot (devs' x) = Some (lawd p t devs x)) /\
   (~ In x ds -> dv_mdot (devs' x) = dv_mdot (devs x) \/
                 (dv_kind (devs x) = MFC /\ dv_mdot (devs' x) = Some (law_mfc (devs x) t))).
Proof.
  induction ds as [|d ds IH]; intros devs devs' P H x.
  - cbn in H. injection H as <-. split; [intros []|]. intros _. left. reflexivity.
  - cbn [upd_devs] in H. destruct (upd_dev fuel p t d devs) as [[[]| | |] dv] eqn:E; try discriminate.
    assert (St : forall z, dstrip (dv z) = dstrip (devs z)).
    { intros z. pose proof (upd_dev_strip fuel p t d devs z) as X. rewrite E in X. exact X. }
    assert (P' : primaries dv) by (apply (primaries_strip devs); [intros z; symmetry; apply St|exact P]).
    assert (Lw : forall z, lawd p t dv z = lawd p t devs z) by (intros z; apply lawd_strip; [exact St|tauto]).
    destruct (upd_dev_law _ _ _ _ _ _ P E) as [D1 D2].
    specialize (IH _ _ P' H x). destruct IH as [I1 I2].
    pose proof (dstrip_fields _ _ (St x)) as (Kx & _).
    assert (Mx : law_mfc (dv x) t = law_mfc (devs x) t) by (apply law_mfc_strip, St).
    split.
    + intros Hin. destruct (in_dec Nat.eq_dec x ds) as [Hx|Hx]; [rewrite I1 by exact Hx; rewrite Lw; reflexivity|].
      destruct (Nat.eq_dec x d) as [->|Hd].
      * destruct (I2 Hx) as [->|[M ->]]; [exact D1|]. rewrite Mx. unfold lawd. cbv zeta. rewrite <- Kx, M. reflexivity.
      * exfalso. destruct Hin as [C|C]; congruence.
    + intros Hx. assert (Hd : x <> d) by (intros C; apply Hx; left; congruence).
      assert (Hs : ~ In x ds) by (intros C; apply Hx; right; exact C).
      destruct (I2 Hs) as [E2|[M E2]].
      * rewrite E2. apply D2. exact Hd.
      * right. rewrite <- Kx. split; [exact M|]. rewrite E2, Mx. reflexivity.
Qed.

(* After the reactors in done have been updated, their devices follow the law. *)
Definition lawful (s : net) (t : R) (l : list nat) : Prop :=
  forall d i j, dv_ends (w_devs s d) = Some (i, j) -> In i l \/ In j l -> dv_mdot (w_devs s d) = Some (law s t d).

Lemma updateState_law s i y s' l : linked s -> primaries (w_devs s) -> updateState s i y = (Ok tt, s') ->
  lawful s (w_time s) l -> lawful s' (w_time s) (i :: l).
Proof.
  intros L P H Law. destruct (updateState_node _ _ _ _ H) as (_ & _ & F & _).
  assert (St : static s s') by (pose proof (updateState_static s i y) as X; rewrite H in X; exact X).
  unfold updateState in H. destruct (new_state _ _ _) as [ts| | |]; try discriminate.
  unfold upd_connected in H.
  match type of H with context [upd_devs ?fu ?p ?t ?ds ?dv] =>
    set (p1 := p) in *; destruct (upd_devs fu p1 t ds dv) as [[[]| | |] devs] eqn:E end; try discriminate.
  injection H as H.
  assert (Ed : w_devs s' = devs) by (rewrite <- H; reflexivity).
  assert (Ep : forall j, press s' j = p1 j).
  { intros j. rewrite <- H. unfold p1, press. cbn [s_nodes s_walls s_devs s_phT w_nodes]. unfold updf.
    destruct (Nat.eqb j i) eqn:B; [|reflexivity]. rewrite Nat.eqb_refl. reflexivity. }
  assert (Po : forall j, j <> i -> press s' j = press s j).
  { intros j Hj. unfold press. rewrite F by exact Hj. reflexivity. }
  intros d a b Eab Hin. destruct (dstrip_fields _ _ (st_dev _ _ St d)) as (Kd & Ke & _).
  rewrite Ke in Eab. destruct (upd_devs_law _ _ _ _ _ _ P E d) as [U1 U2]. rewrite Ed.
  assert (Lw : lawd p1 (w_time s) (w_devs s) d = law s' (w_time s) d).
  { rewrite law_lawd. apply lawd_strip; [intros x; symmetry; apply (st_dev _ _ St)|].
    intros. rewrite !Ep. tauto. }
  destruct (in_dec Nat.eq_dec d (n_outlet (w_nodes s i) ++ n_inlet (w_nodes s i))) as [Hd|Hd].
  - rewrite (U1 Hd), Lw. reflexivity.
  - assert (Na : a <> i).
    { intros ->. apply Hd. apply in_or_app. left. apply (lk_out _ L). exists b. exact Eab. }
    assert (Nb : b <> i).
    { intros ->. apply Hd. apply in_or_app. right. apply (lk_in _ L). exists a. exact Eab. }
    destruct (U2 Hd) as [U|[U V]].
    + rewrite U. rewrite (Law d a b Eab).
      * f_equal. rewrite !law_lawd. apply lawd_strip; [intros x; symmetry; apply (st_dev _ _ St)|].
        intros i0 o0 E0. rewrite Eab in E0. injection E0 as <- <-. rewrite !Po by assumption. tauto.
      * destruct Hin as [[C|C]|[C|C]]; try congruence; tauto.
    + rewrite V. f_equal. rewrite <- Lw. unfold lawd. cbv zeta. rewrite U. reflexivity.
Qed.

Lemma primaries_static s s' : static s s' -> primaries (w_devs s) -> primaries (w_devs s').
Proof. intros St. apply primaries_strip. intros x. symmetry. apply (st_dev _ _ St). Qed.

Lemma updateAll_law order : forall s y s' l, linked s -> primaries (w_devs s) -> updateAll s order y = (Ok tt, s') ->
  lawful s (w_time s) l -> lawful s' (w_time s) (order ++ l).
Proof.
  induction order as [|i order IH]; intros s y s' l L P H Law.
  - cbn in H. injection H as <-. exact Law.
  - cbn [updateAll] in H. destruct (updateState s i (firstn (neq (w_nodes s i)) y)) as [[[]| | |] s1] eqn:E; try discriminate.
    pose proof (updateState_static s i (firstn (neq (w_nodes s i)) y)) as St. rewrite E in St. cbn [snd] in St.
    destruct (updateState_node _ _ _ _ E) as (_ & _ & _ & T).
    pose proof (updateState_law _ _ _ _ l L P E Law) as Law1. rewrite <- T in Law1.
    pose proof (IH _ _ _ (i :: l) (linked_static _ _ St L) (primaries_static _ _ St P) H Law1) as R.
    rewrite T in R. intros d a b Eab Hin. apply (R d a b Eab).
    cbn [app] in Hin. rewrite !in_app_iff in *. cbn [In] in *. rewrite !in_app_iff in *. tauto.
Qed.

Lemma law_sim s s' t d : wsim s s' -> law s' t d = law s t d.
Proof.
  intros W. rewrite !law_lawd, (ws_devs _ _ W). apply lawd_strip; [reflexivity|]. intros i o _. unfold press.
  destruct (nowdot_fields _ _ (ws_node _ _ W i)) as ((->&_)&_).
  destruct (nowdot_fields _ _ (ws_node _ _ W o)) as ((->&_)&_). tauto.
Qed.

Lemma evalNet_law s t y yd s' : linked s -> NoDup (w_order s) -> primaries (w_devs s) ->
  evalNet s t y = (Ok yd, s') -> lawful s' t (w_order s').
Proof.
  intros L ND P H. unfold evalNet in H.
  change (w_order (s_time s t)) with (w_order s) in H.
  destruct (updateAll (s_time s t) (w_order s) y) as [[[]| | |] s1] eqn:E1; try discriminate.
  pose proof (updateAll_static (w_order s) (s_time s t) y) as St1. rewrite E1 in St1. cbn [snd] in St1.
  pose proof (st_order _ _ St1) as Eo. cbn [s_time w_order] in Eo. rewrite Eo in H.
  assert (L0 : linked (s_time s t)) by (eapply linked_static; [|exact L]; split; reflexivity).
  assert (Law0 : lawful (s_time s t) (w_time (s_time s t)) []) by (intros d i j _ [[]|[]]).
  pose proof (updateAll_law _ _ _ _ _ L0 P E1 Law0) as Law1. rewrite app_nil_r in Law1. cbn [s_time w_time] in Law1.
  destruct (evalAll_spec _ _ _ _ ND H) as (W & _ & _).
  intros d i j. rewrite (ws_devs _ _ W), (ws_order _ _ W), Eo, (law_sim _ _ _ _ W). apply Law1.
Qed.
