(* What each part of the derivative computed by evalNet is, in terms of the state the
   network is left in. *)
From Coq Require Import String List Bool Reals Lra Lia Arith Permutation.
From Verif Require Import Base.Outcome Base.RSum ZeroD.NetModel ZeroD.NetSpec ZeroD.FrameProofs.
Import ListNotations.
Local Open Scope R_scope.
Local Open Scope list_scope.

Definition quot (lr : list R * list R) : list R :=
  map (fun p => fst p / snd p) (combine (snd lr) (fst lr)).

(* v is the derivative of reactor i, computed from the state s. *)
Definition settled (s : net) (i : nat) (v : list R) : Prop :=
  exists e, let n := w_nodes s i in
    v = quot (evalNode n e) /\ en_wdot e = n_wdot n /\
    (n_chem n = true -> n_wdot n = th_wdot (n_th n) (n_T n) (n_rho n) (n_Y n)) /\
    evalWalls s n = Ok (en_vdot e, en_Qdot e) /\
    oseq (flow_of s) (n_outlet n) = Ok (en_out e) /\
    oseq (flow_of s) (n_inlet n) = Ok (en_in e) /\
    evalSurfaces (molar (n_kind n)) n (n_surf n) (repeat 0 (n_nsp n)) = (en_surf e, en_sdot e).

Definition nowdot (n : node) : node := n_setwdot n [].
(* Equal but for m_wdot and the ThermoPhase objects. *)
Record wsim (s s' : net) : Prop := {
  ws_devs : w_devs s' = w_devs s; ws_walls : w_walls s' = w_walls s;
  ws_order : w_order s' = w_order s; ws_time : w_time s' = w_time s;
  ws_node : forall i, nowdot (w_nodes s' i) = nowdot (w_nodes s i)
}.
Lemma wsim_refl s : wsim s s.
Proof. split; reflexivity. Qed.
Lemma wsim_trans a b c : wsim a b -> wsim b c -> wsim a c.
Proof. intros [] []. split; intros; congruence. Qed.

Lemma nowdot_fields a b : nowdot a = nowdot b ->
  (n_press a = n_press b /\ n_T a = n_T b /\ n_Y a = n_Y b /\ n_enth a = n_enth b) /\
  (n_kind a = n_kind b /\ n_th a = n_th b /\ n_rho a = n_rho b /\ n_mass a = n_mass b /\ n_vol a = n_vol b) /\
  (n_energy a = n_energy b /\ n_chem a = n_chem b /\ n_inlet a = n_inlet b /\ n_outlet a = n_outlet b /\
   n_wall a = n_wall b /\ n_surf a = n_surf b /\ n_phase a = n_phase b).
Proof. unfold nowdot, n_setwdot. intros H. injection H as -> -> -> -> -> -> -> -> -> -> -> -> -> -> -> ->. tauto. Qed.

Lemma oseq_ext {A B} (f g : A -> outcome B) l : (forall a, In a l -> f a = g a) -> oseq f l = oseq g l.
Proof.
  induction l as [|a l IH]; intros H; [reflexivity|]. cbn [oseq]. rewrite (H a) by (left; reflexivity).
  rewrite IH; [reflexivity|]. intros b Hb. apply H. right. exact Hb.
Qed.
Lemma flow_of_sim s s' d : wsim s s' -> flow_of s' d = flow_of s d.
Proof.
  intros W. unfold flow_of. rewrite (ws_devs _ _ W). destruct (dv_mdot (w_devs s d)); [|reflexivity].
  destruct (dv_ends (w_devs s d)) as [[i o]|]; [|reflexivity].
  destruct (nowdot_fields _ _ (ws_node _ _ W i)) as ((_&_&->&->)&_). reflexivity.
Qed.
Lemma evalWalls_sim s s' n : wsim s s' -> evalWalls s' n = evalWalls s n.
Proof.
  intros W. unfold evalWalls, wall_terms. f_equal. apply oseq_ext. intros w _.
  rewrite (ws_walls _ _ W). unfold expansionRate, heatRate, press, temp.
  destruct (wl_ends (w_walls s (fst w))) as [[l r]|]; [|reflexivity].
  destruct (nowdot_fields _ _ (ws_node _ _ W l)) as ((->&->&_)&_).
  destruct (nowdot_fields _ _ (ws_node _ _ W r)) as ((->&->&_)&_). reflexivity.
Qed.
Lemma evalSurfaces_nowdot m n w ss : forall sd, evalSurfaces m (n_setwdot n w) ss sd = evalSurfaces m n ss sd.
Proof.
  induction ss as [|x ss IH]; intros sd; [reflexivity|]. cbn [evalSurfaces]. rewrite IH. reflexivity.
Qed.
Lemma evalNode_nowdot n w e : evalNode (n_setwdot n w) e = evalNode n e.
Proof. reflexivity. Qed.

Lemma settled_sim s s' i v : wsim s s' -> w_nodes s' i = w_nodes s i -> settled s i v -> settled s' i v.
Proof.
  intros W E (e & H). exists e. cbv zeta in *. rewrite E.
  destruct H as (H1 & H2 & H2' & H3 & H4 & H5 & H6).
  split; [exact H1|]. split; [exact H2|]. split; [exact H2'|]. split; [rewrite (evalWalls_sim s s' _ W); exact H3|].
  split; [rewrite <- H4; apply oseq_ext; intros; apply flow_of_sim; exact W|].
  split; [rewrite <- H5; apply oseq_ext; intros; apply flow_of_sim; exact W|]. exact H6.
Qed.

Lemma evalOne_spec s i v s' : evalOne s i = (Ok v, s') ->
  wsim s s' /\ settled s' i v /\ (forall j, j <> i -> w_nodes s' j = w_nodes s j).
Proof.
  unfold evalOne. destruct (envOf s i) as [e| | |] eqn:E; try discriminate.
  destruct (evalNode (w_nodes s i) e) as [l r] eqn:EN. intros H. injection H as <- <-.
  set (s' := s_nodes _ _).
  assert (W : wsim s s').
  { split; try reflexivity. intros j. unfold s'. cbn [s_nodes w_nodes]. unfold updf.
    destruct (Nat.eqb_spec j i); [subst; reflexivity|reflexivity]. }
  split; [exact W|]. split; [|intros j Hj; unfold s'; cbn [s_nodes w_nodes]; apply updf_other; exact Hj].
  assert (Ei : w_nodes s' i = n_setwdot (w_nodes s i) (en_wdot e)).
  { unfold s'. cbn [s_nodes w_nodes]. apply updf_same. }
  exists e. cbv zeta. rewrite Ei, evalNode_nowdot, EN, evalSurfaces_nowdot.
  unfold envOf in E. cbv zeta in E.
  destruct (evalWalls s (w_nodes s i)) as [[vd qd]| | |] eqn:E1; try discriminate. cbn [obind] in E.
  destruct (oseq (flow_of s) (n_outlet (w_nodes s i))) as [outs| | |] eqn:E2; try discriminate. cbn [obind] in E.
  destruct (oseq (flow_of s) (n_inlet (w_nodes s i))) as [ins| | |] eqn:E3; try discriminate. cbn [obind] in E.
  injection E as <-. cbn [en_wdot en_vdot en_Qdot en_out en_in en_surf en_sdot fst snd].
  split; [reflexivity|]. split; [reflexivity|].
  split; [cbn [n_chem n_wdot n_setwdot n_th n_T n_rho n_Y]; intros ->; reflexivity|].
  split; [rewrite (evalWalls_sim s s' _ W); exact E1|].
  split; [cbn [n_outlet n_setwdot]; rewrite <- E2; apply oseq_ext; intros; apply flow_of_sim; exact W|].
  split; [cbn [n_inlet n_setwdot]; rewrite <- E3; apply oseq_ext; intros; apply flow_of_sim; exact W|].
  cbn [n_kind n_surf n_setwdot n_nsp n_th]. apply surjective_pairing.
Qed.

Lemma evalAll_spec order : forall s yd s', NoDup order -> evalAll s order = (Ok yd, s') ->
  wsim s s' /\ Forall2 (settled s') order yd /\ (forall j, ~ In j order -> w_nodes s' j = w_nodes s j).
Proof.
  induction order as [|i order IH]; intros s yd s' ND H.
  - cbn in H. injection H as <- <-. split; [apply wsim_refl|]. split; [constructor|reflexivity].
  - cbn [evalAll] in H. inversion ND as [|? ? Hi ND']; subst.
    destruct (evalOne s i) as [[v| | |] s1] eqn:E1; try discriminate.
    destruct (evalAll s1 order) as [[vs| | |] s2] eqn:E2; try discriminate.
    injection H as <- <-.
    destruct (evalOne_spec _ _ _ _ E1) as (W1 & S1 & F1).
    destruct (IH _ _ _ ND' E2) as (W2 & S2 & F2).
    split; [eapply wsim_trans; eauto|]. split.
    + constructor; [|exact S2]. eapply settled_sim; [exact W2|apply F2; exact Hi|exact S1].
    + intros j Hj. rewrite F2, F1; [reflexivity|..]; intros C; apply Hj; [left|right]; congruence.
Qed.

(** * updateState: pressures and state of the reactors *)
Definition fresh_p (n : node) : Prop :=
  constP (n_kind n) = false -> n_press n = th_p (n_th n) (n_T n) (n_rho n) (n_Y n).
Definition fresh_h (n : node) : Prop := n_enth n = th_h (n_th n) (n_T n) (n_rho n) (n_Y n).

Lemma updateState_node s i y s' : updateState s i y = (Ok tt, s') ->
  fresh_p (w_nodes s' i) /\ fresh_h (w_nodes s' i) /\ (forall j, j <> i -> w_nodes s' j = w_nodes s j) /\
  w_time s' = w_time s.
Proof.
  unfold updateState. destruct (new_state _ _ _) as [ts| | |]; try discriminate.
  unfold upd_connected. destruct (upd_devs _ _ _ _ _) as [[u| | |] devs]; try discriminate.
  intros H. injection H as <-. cbn [s_nodes s_walls s_devs s_phT w_nodes w_time].
  rewrite !updf_same. split; [|split; [|split]].
  - unfold fresh_p. cbn [n_setsurf n_state n_kind n_press n_th n_T n_rho n_Y]. intros ->. reflexivity.
  - unfold fresh_h. reflexivity.
  - intros j Hj. rewrite !updf_other by exact Hj. reflexivity.
  - reflexivity.
Qed.
Lemma updateAll_node order : forall s y s', NoDup order -> updateAll s order y = (Ok tt, s') ->
  (forall i, In i order -> fresh_p (w_nodes s' i) /\ fresh_h (w_nodes s' i)) /\
  (forall j, ~ In j order -> w_nodes s' j = w_nodes s j) /\ w_time s' = w_time s.
Proof.
  induction order as [|i order IH]; intros s y s' ND H.
  - cbn in H. injection H as <-. split; [intros i []|]. split; reflexivity.
  - cbn [updateAll] in H. inversion ND as [|? ? Hi ND']; subst.
    destruct (updateState s i _) as [[[]| | |] s1] eqn:E1; try discriminate.
    destruct (updateState_node _ _ _ _ E1) as (P1 & H1 & F1 & T1).
    destruct (IH _ _ _ ND' H) as (P2 & F2 & T2). split; [|split].
    + intros j [<-|Hj]; [rewrite F2 by exact Hi; tauto|apply P2; exact Hj].
    + intros j Hj. rewrite F2, F1; [reflexivity|..]; intros C; apply Hj; [left|right]; congruence.
    + congruence.
Qed.

Lemma evalNet_spec s t y yd s' : NoDup (w_order s) -> evalNet s t y = (Ok yd, s') ->
  static s s' /\ Forall2 (settled s') (w_order s') yd /\
  (forall i, In i (w_order s') -> fresh_p (w_nodes s' i) /\ fresh_h (w_nodes s' i)) /\
  (forall j, ~ In j (w_order s') -> w_nodes s' j = w_nodes s j).
Proof.
  intros ND H. assert (St : static s s') by (rewrite <- (f_equal snd H : _ = s'); apply evalNet_static).
  split; [exact St|]. rewrite (st_order _ _ St). unfold evalNet in H.
  change (w_order (s_time s t)) with (w_order s) in H.
  destruct (updateAll (s_time s t) (w_order s) y) as [[[]| | |] s1] eqn:E1; try discriminate.
  pose proof (updateAll_static (w_order s) (s_time s t) y) as St1. rewrite E1 in St1. cbn [snd] in St1.
  pose proof (st_order _ _ St1) as Eo. cbn [s_time w_order] in Eo. rewrite Eo in H.
  destruct (updateAll_node _ _ _ _ ND E1) as (P & F & _).
  destruct (evalAll_spec _ _ _ _ ND H) as (W & Se & F').
  split; [exact Se|]. split.
  - intros i Hi. destruct (P i Hi) as [A B]. unfold fresh_p, fresh_h in *.
    destruct (nowdot_fields _ _ (ws_node _ _ W i)) as ((->&->&->&->)&(->&->&->&_)&_). tauto.
  - intros j Hj. rewrite F' by exact Hj. rewrite F by exact Hj. reflexivity.
Qed.

(** * Sums *)
Lemma fold_plus {A} (f : A -> R) l : forall a, fold_left (fun acc x => acc + f x) l a = a + sum_of f l.
Proof.
  induction l as [|x l IH]; intros a; cbn [fold_left]; [rewrite sum_of_nil; lra|].
  rewrite IH, sum_of_cons. lra.
Qed.
Lemma fold_minus {A} (f : A -> R) l : forall a, fold_left (fun acc x => acc - f x) l a = a - sum_of f l.
Proof.
  induction l as [|x l IH]; intros a; cbn [fold_left]; [rewrite sum_of_nil; lra|].
  rewrite IH, sum_of_cons. lra.
Qed.
Lemma sum_of_select f (P : nat -> bool) l n : NoDup l -> (forall d, In d l <-> P d = true) ->
  (forall d, In d l -> (d < n)%nat) -> sum_of f l = sum_n (fun d => if P d then f d else 0) n.
Proof.
  intros ND H B. unfold sum_n.
  assert (X : sum_of (fun d => if P d then f d else 0) (seq 0 n) = sum_of f (filter P (seq 0 n))).
  { induction (seq 0 n) as [|a m IH]; [reflexivity|]. cbn [filter]. rewrite sum_of_cons, IH.
    destruct (P a); [rewrite sum_of_cons; reflexivity|lra]. }
  rewrite X. apply sum_of_perm. apply NoDup_Permutation; [exact ND|apply NoDup_filter, seq_NoDup|].
  intros d. rewrite filter_In, in_seq, <- H. split; [intros Hd; split; [specialize (B d Hd); lia|exact Hd]|tauto].
Qed.
Lemma sum_ind_in f (o : option nat) (l : list nat) : NoDup l ->
  sum_of (fun i => if is_at o i then f i else 0) l =
  match o with Some j => if existsb (Nat.eqb j) l then f j else 0 | None => 0 end.
Proof.
  intros ND. unfold is_at. destruct o as [j|]; [|apply sum_of_0; reflexivity].
  induction ND as [|i l Hi ND IH]; [reflexivity|]. rewrite sum_of_cons, IH. cbn [existsb].
  destruct (Nat.eqb_spec j i) as [->|Hj].
  - cbn [orb]. assert (E : existsb (Nat.eqb i) l = false).
    { apply not_true_is_false. intros C. apply existsb_exists in C. destruct C as (x & Hx & E).
      apply Nat.eqb_eq in E. congruence. }
    rewrite E. lra.
  - cbn [orb]. lra.
Qed.
Lemma sum_Forall2 {A B} (P : A -> B -> Prop) (f : A -> B -> R) g la lb : Forall2 P la lb ->
  (forall a b, In a la -> P a b -> f a b = g a) ->
  sum_of (fun p => f (fst p) (snd p)) (combine la lb) = sum_of g la.
Proof.
  intros F. induction F as [|a b la lb H F IH]; intros E; [reflexivity|].
  cbn [combine]. rewrite !sum_of_cons. cbn [fst snd]. rewrite (E a b (or_introl eq_refl) H), IH; [reflexivity|].
  intros. apply E; [right|]; assumption.
Qed.

Lemma oseq_Ok {A B} (f : A -> outcome B) l : forall bs, oseq f l = Ok bs -> Forall2 (fun a b => f a = Ok b) l bs.
Proof.
  induction l as [|a l IH]; intros bs H; cbn [oseq] in H.
  - injection H as <-. constructor.
  - destruct (f a) as [b| | |] eqn:E; try discriminate. cbn [obind] in H.
    destruct (oseq f l) as [bs'| | |]; try discriminate. cbn [obind] in H. injection H as <-.
    constructor; [exact E|apply IH; reflexivity].
Qed.
Lemma sum_oseq {A B} (f : A -> outcome B) (g : B -> R) (h : A -> R) l bs : oseq f l = Ok bs ->
  (forall a b, In a l -> f a = Ok b -> g b = h a) -> sum_of g bs = sum_of h l.
Proof.
  intros H. apply oseq_Ok in H. induction H as [|a b l bs E F IH]; intros X; [reflexivity|].
  rewrite !sum_of_cons, (X a b (or_introl eq_refl) E), IH; [reflexivity|].
  intros. apply X; [right|]; assumption.
Qed.

Lemma at_nil k : at_ [] k = 0.
Proof. unfold at_. destruct k; reflexivity. Qed.
Lemma dot_sum a : forall b, dot a b = sum_n (fun k => at_ a k * at_ b k) (length a).
Proof.
  induction a as [|x a IH]; intros b; [reflexivity|]. cbn [length]. rewrite sum_n_shift.
  destruct b as [|z b].
  - unfold dot. cbn [combine map rsum]. unfold sum_n. rewrite sum_of_0; [rewrite at_nil; lra|]. intros k _. rewrite at_nil. lra.
  - unfold dot. cbn [combine map rsum fst snd]. fold (dot a b). rewrite IH. reflexivity.
Qed.
Lemma at_map_seq f n k : (k < n)%nat -> at_ (map f (seq 0 n)) k = f k.
Proof.
  intros H. unfold at_. rewrite nth_indep with (d' := f O) by (rewrite map_length, seq_length; exact H).
  rewrite map_nth, seq_nth by exact H. reflexivity.
Qed.
