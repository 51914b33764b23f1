(* Proofs about the damped Newton solver and time stepping. *)
From Coq Require Import Reals ZArith String List Bool Arith Lra Lia.
From Verif Require Import Base.Outcome Base.Fp OneD.LayoutModel OneD.LayoutSpec OneD.LayoutProofs OneD.NewtonModel OneD.NewtonSpec.
Import ListNotations.
Local Open Scope list_scope.
Local Open Scope R_scope.

Lemma pairs_in : forall nv np m j, In (m, j) (pairs nv np) <-> (m < nv /\ j < np)%nat.
Proof.
  intros nv np m j. unfold pairs. rewrite in_flat_map. split.
  - intros (a & A & B). apply in_map_iff in B. destruct B as (b & E & B). injection E as -> ->.
    apply in_seq in A, B. lia.
  - intros (A & B). exists m. split; [apply in_seq; lia|]. apply in_map_iff. exists j. split; [reflexivity|apply in_seq; lia].
Qed.

Section Bound.
  Context (x step : list R) (q : ndom).
  Definition val (p : nat * nat) : R := elem x (nd q) (fst p) (snd p).
  Definition ds_ (p : nat * nat) : R := elem step (nd q) (fst p) (snd p).
  Definition fine (p : nat * nat) (a : R) : Prop :=
    Rmin (val p) (nd_lo q (fst p)) <= val p + a * ds_ p <= Rmax (val p) (nd_up q (fst p)).
  Lemma div_le_iff : forall a u v, 0 < v -> (a <= u / v <-> a * v <= u).
  Proof.
    intros a u v V. split; intro H.
    - apply Rmult_le_compat_r with (r := v) in H; [|lra]. unfold Rdiv in H. rewrite Rmult_assoc, Rinv_l, Rmult_1_r in H by lra. exact H.
    - apply Rmult_le_reg_r with v; [exact V|]. unfold Rdiv. rewrite Rmult_assoc, Rinv_l, Rmult_1_r by lra. exact H.
  Qed.
  Lemma bound_one_general : forall fb p, nd_lo q (fst p) <= nd_up q (fst p) -> 0 < bound_one x step q fb p -> fb <= 1 ->
    bound_one x step q fb p <= fb /\ forall a, 0 <= a <= bound_one x step q fb p -> fine p a.
  Proof.
    intros fb p B H F. unfold bound_one in *. cbn zeta in *. fold (val p) (ds_ p) in *. unfold fine.
    set (v := val p) in *. set (s := ds_ p) in *. set (up := nd_up q (fst p)) in *. set (lo := nd_lo q (fst p)) in *.
    destruct (rltb up (v + s)) eqn:E1; [apply rltb_true in E1|].
    - assert (M : Rmax 0 (Rmin fb ((up - v) / (v + s - v))) = Rmin fb ((up - v) / (v + s - v))).
      { unfold Rmax in *. destruct (Rle_dec 0 _); [reflexivity|lra]. }
      rewrite M in *. split; [apply Rmin_l|]. intros a (A0 & A).
      assert (A1 : a <= 1) by (eapply Rle_trans; [exact A|]; eapply Rle_trans; [apply Rmin_l|exact F]).
      assert (Q : 0 < (up - v) / (v + s - v)) by (eapply Rlt_le_trans; [exact H|apply Rmin_r]).
      assert (A2 : a <= (up - v) / (v + s - v)) by (eapply Rle_trans; [exact A|apply Rmin_r]).
      replace (v + s - v) with s in * by ring.
      destruct (Rtotal_order s 0) as [S|[S|S]].
      + (* moving down, still above the upper bound *)
        split; [|eapply Rle_trans; [|apply Rmax_l]; nra].
        eapply Rle_trans; [apply Rmin_r|]. nra.
      + rewrite S in *. unfold Rdiv in Q. rewrite Rinv_0, Rmult_0_r in Q. lra.
      + apply div_le_iff in A2; [|exact S]. split; [eapply Rle_trans; [apply Rmin_l|nra]|].
        eapply Rle_trans; [|apply Rmax_r]. lra.
    - apply rltb_false in E1. destruct (rltb (v + s) lo) eqn:E2; [apply rltb_true in E2|apply rltb_false in E2].
      + split; [apply Rmin_l|]. intros a (A0 & A).
        assert (A1 : a <= 1) by (eapply Rle_trans; [exact A|]; eapply Rle_trans; [apply Rmin_l|exact F]).
        assert (Q : 0 < (v - lo) / (v - (v + s))) by (eapply Rlt_le_trans; [exact H|apply Rmin_r]).
        assert (A2 : a <= (v - lo) / (v - (v + s))) by (eapply Rle_trans; [exact A|apply Rmin_r]).
        replace (v - (v + s)) with (- s) in * by ring.
        destruct (Rtotal_order s 0) as [S|[S|S]].
        * apply div_le_iff in A2; [|lra]. split; [eapply Rle_trans; [apply Rmin_r|lra]|].
          eapply Rle_trans; [|apply Rmax_l]. nra.
        * rewrite S in *. unfold Rdiv in Q. rewrite Ropp_0, Rinv_0, Rmult_0_r in Q. lra.
        * split; [eapply Rle_trans; [apply Rmin_l|nra]|]. eapply Rle_trans; [|apply Rmax_r]. nra.
      + split; [lra|]. intros a (A0 & A). split.
        * destruct (Rle_dec 0 s); [eapply Rle_trans; [apply Rmin_l|nra]|eapply Rle_trans; [apply Rmin_r|nra]].
        * destruct (Rle_dec 0 s); [eapply Rle_trans; [|apply Rmax_r]; nra|eapply Rle_trans; [|apply Rmax_l]; nra].
  Qed.
  (* Once zero or negative, it stays so. *)
  Lemma bound_one_pos : forall fb p, 0 < bound_one x step q fb p -> 0 < fb.
  Proof.
    intros fb p. unfold bound_one. cbn zeta. destruct (rltb _ _); [|destruct (rltb _ _); [|tauto]]; intro H.
    - unfold Rmax, Rmin in H. repeat (destruct (Rle_dec _ _) in H); lra.
    - eapply Rlt_le_trans; [exact H|apply Rmin_l].
  Qed.
  Lemma bound_fold_pos : forall ps fb, 0 < fold_left (bound_one x step q) ps fb -> 0 < fb.
  Proof. induction ps as [|p ps IH]; intros fb H; [exact H|]. cbn in H. apply IH in H. eapply bound_one_pos; exact H. Qed.
  Lemma bound_fold : forall ps fb, (forall p, In p ps -> nd_lo q (fst p) <= nd_up q (fst p)) -> fb <= 1 ->
    0 < fold_left (bound_one x step q) ps fb ->
    fold_left (bound_one x step q) ps fb <= fb /\
    forall p a, In p ps -> 0 <= a <= fold_left (bound_one x step q) ps fb -> fine p a.
  Proof.
    induction ps as [|p ps IH]; intros fb B F H; cbn [fold_left] in *; [split; [lra|contradiction]|].
    pose proof (bound_fold_pos _ _ H) as P1.
    destruct (bound_one_general fb p (B p (or_introl eq_refl)) P1 F) as (L & G).
    destruct (IH (bound_one x step q fb p)) as (L' & G'); [intros r R; apply B; right; exact R|lra|exact H|].
    split; [lra|]. intros r a [<-|R] A; [apply G; lra|apply G'; assumption].
  Qed.
  Lemma bound_le1 : forall ps fb, fb <= 1 -> fold_left (bound_one x step q) ps fb <= 1.
  Proof.
    induction ps as [|p ps IH]; intros fb F; [exact F|]. cbn. apply IH. unfold bound_one. cbn zeta.
    destruct (rltb _ _); [|destruct (rltb _ _); [|exact F]].
    - apply Rmax_lub; [lra|]. eapply Rle_trans; [apply Rmin_l|exact F].
    - eapply Rle_trans; [apply Rmin_l|exact F].
  Qed.
  (* From inside the bounds: exact. *)
  Definition inside (p : nat * nat) (a : R) : Prop := nd_lo q (fst p) <= val p + a * ds_ p <= nd_up q (fst p).
  Lemma bound_one_exact : forall fb p, 0 <= fb -> inside p 0 ->
    0 <= bound_one x step q fb p /\ forall a, 0 <= a <= 1 -> (a <= bound_one x step q fb p <-> a <= fb /\ inside p a).
  Proof.
    intros fb p F I. unfold inside, bound_one in *. cbn zeta in *. fold (val p) (ds_ p) in *.
    set (v := val p) in *. set (s := ds_ p) in *. set (up := nd_up q (fst p)) in *. set (lo := nd_lo q (fst p)) in *.
    destruct (rltb up (v + s)) eqn:E1; [apply rltb_true in E1|].
    - assert (S : 0 < s) by lra. replace (v + s - v) with s by ring.
      assert (Q : 0 <= (up - v) / s) by (apply div_le_iff; [exact S|lra]).
      assert (M : Rmax 0 (Rmin fb ((up - v) / s)) = Rmin fb ((up - v) / s)).
      { apply Rmax_right. apply Rmin_glb; assumption. }
      rewrite M. split; [apply Rmin_glb; assumption|]. intros a A. split.
      + intro L. assert (a <= (up - v) / s) by (eapply Rle_trans; [exact L|apply Rmin_r]). rewrite div_le_iff in H by exact S.
        split; [eapply Rle_trans; [exact L|apply Rmin_l]|]. nra.
      + intros (L & _ & B). apply Rmin_glb; [exact L|]. apply div_le_iff; [exact S|lra].
    - apply rltb_false in E1. destruct (rltb (v + s) lo) eqn:E2; [apply rltb_true in E2|apply rltb_false in E2].
      + assert (S : 0 < - s) by lra. replace (v - (v + s)) with (- s) by ring.
        assert (Q : 0 <= (v - lo) / - s) by (apply div_le_iff; [exact S|lra]).
        split; [apply Rmin_glb; assumption|]. intros a A. split.
        * intro L. assert (a <= (v - lo) / - s) by (eapply Rle_trans; [exact L|apply Rmin_r]). rewrite div_le_iff in H by exact S.
          split; [eapply Rle_trans; [exact L|apply Rmin_l]|]. nra.
        * intros (L & B & _). apply Rmin_glb; [exact L|]. apply div_le_iff; [exact S|lra].
      + split; [exact F|]. intros a A. split; [intro L; split; [exact L|nra]|tauto].
  Qed.
  Lemma bound_fold_exact : forall ps fb, 0 <= fb -> (forall p, In p ps -> inside p 0) ->
    0 <= fold_left (bound_one x step q) ps fb /\
    forall a, 0 <= a <= 1 -> (a <= fold_left (bound_one x step q) ps fb <-> a <= fb /\ forall p, In p ps -> inside p a).
  Proof.
    induction ps as [|p ps IH]; intros fb F I; cbn [fold_left].
    - split; [exact F|]. intros a A. split; [intro L; split; [exact L|contradiction]|tauto].
    - destruct (bound_one_exact fb p F (I p (or_introl eq_refl))) as (G & E).
      destruct (IH _ G (fun r R => I r (or_intror R))) as (G' & E'). split; [exact G'|].
      intros a A. rewrite (E' a A), (E a A). split.
      + intros ((L & P) & R). split; [exact L|]. intros r [<-|Hr]; [exact P|apply R; exact Hr].
      + intros (L & R). split; [split; [exact L|apply R; left; reflexivity]|]. intros r Hr. apply R. right. exact Hr.
  Qed.
End Bound.

(* All domains. *)
Lemma min_fold : forall (f : ndom -> R) ds fb a, (a <= fold_left (fun fb q => Rmin fb (f q)) ds fb <-> a <= fb /\ forall q, In q ds -> a <= f q).
Proof.
  intros f. induction ds as [|q ds IH]; intros fb a; cbn [fold_left].
  - split; [intro L; split; [exact L|contradiction]|tauto].
  - rewrite IH. split.
    + intros (L & H). split; [eapply Rle_trans; [exact L|apply Rmin_l]|]. intros r [<-|R]; [eapply Rle_trans; [exact L|apply Rmin_r]|apply H; exact R].
    + intros (L & H). split; [apply Rmin_glb; [exact L|apply H; left; reflexivity]|]. intros r R. apply H. right. exact R.
Qed.

(* An unknown as the loops see it. *)
Lemma elem_at : forall ops ds n j c q x, sim ops ds -> unknown (shape_of ops) n j c -> nth_error ds n = Some q ->
  elem x (nd q) c j = comp x (position (shape_of ops) n j c) /\ (c < d_nv (nd q) /\ j < d_np (nd q))%nat.
Proof.
  intros ops ds n j c q x (S0 & E) U Q. destruct (place_of ops n j c U) as (d & D & _ & J & C & _ & _ & P & _).
  rewrite <- E, nth_error_map, Q in D. injection D as <-. split; [|split; assumption].
  unfold elem, comp. rewrite P. unfold start. destruct (Nat.eqb_spec (d_nv (nd q)) 0) as [Z|_]; [lia|].
  f_equal. lia.
Qed.
Lemma unknown_of : forall ops ds q c j, sim ops ds -> In q ds -> (c < d_nv (nd q))%nat -> (j < d_np (nd q))%nat ->
  exists n, nth_error ds n = Some q /\ unknown (shape_of ops) n j c.
Proof.
  intros ops ds q c j (S0 & E) I C J. apply In_nth_error in I. destruct I as (n & N). exists n. split; [exact N|].
  destruct (inv_run ops) as (_ & Sh). exists (d_nv (nd q)), (d_np (nd q)). split; [|auto].
  rewrite <- Sh. apply shp_nth. rewrite <- E, nth_error_map, N. reflexivity.
Qed.
Lemma sim_size : forall ops ds, sim ops ds -> o_size (lrun ops) = unknowns_in (shape_of ops).
Proof. intros ops ds (S0 & _). destruct (settled_good ops S0) as ((_ & _ & _ & _ & Z) & _). exact Z. Qed.
(* Statements over unknowns and over the loops' pairs. *)
Lemma each_pairs : forall ops ds (P : ndom -> nat -> nat -> Prop) (Q : ndom -> nat * nat -> Prop), sim ops ds ->
  (forall n j c q, unknown (shape_of ops) n j c -> nth_error ds n = Some q -> (P q c (position (shape_of ops) n j c) <-> Q q (c, j))) ->
  (each ops ds P <-> forall q p, In q ds -> In p (pairs (d_nv (nd q)) (d_np (nd q))) -> Q q p).
Proof.
  intros ops ds P Q S0 Eq. split.
  - intros H q (c, j) I Ip. apply pairs_in in Ip. destruct (unknown_of ops ds q c j S0 I) as (n & N & U); [lia|lia|].
    apply (Eq n j c q U N). apply H; assumption.
  - intros H n j c q U N. apply (Eq n j c q U N). apply H; [eapply nth_error_In; exact N|].
    apply pairs_in. apply (elem_at ops ds n j c q [] S0 U N).
Qed.
Lemma damped_moved : forall a x step, length step = length x -> moved a x step (damped a x step).
Proof.
  intros a. unfold moved, comp. induction x as [|v x IH]; intros [|s step] L; cbn in *; try discriminate.
  - split; [reflexivity|]. intros i H. lia.
  - destruct (IH step) as (A & B); [lia|]. split; [lia|]. intros [|i] H; [reflexivity|]. apply B. lia.
Qed.

Lemma bound_factor : forall ops ds x step, sim ops ds -> length x = o_size (lrun ops) -> length step = length x ->
  in_bounds ops ds x -> forall a, 0 <= a <= 1 -> (a <= boundStep ds x step <-> in_bounds ops ds (damped a x step)).
Proof.
  intros ops ds x step S0 L Ls I a A. destruct (damped_moved a x step Ls) as (_ & Mv).
  unfold boundStep. rewrite min_fold.
  assert (I0 : forall q p, In q ds -> In p (pairs (d_nv (nd q)) (d_np (nd q))) -> inside x step q p 0).
  { refine (proj1 (each_pairs ops ds _ (fun q p => inside x step q p 0) S0 _) I). intros n j c q U N. unfold inside, val, ds_. cbn [fst snd].
    destruct (elem_at ops ds n j c q x S0 U N) as (-> & _). split; intros; lra. }
  assert (Ia : in_bounds ops ds (damped a x step) <-> forall q p, In q ds -> In p (pairs (d_nv (nd q)) (d_np (nd q))) -> inside x step q p a).
  { apply each_pairs; [exact S0|]. intros n j c q U N. unfold inside, val, ds_. cbn [fst snd].
    destruct (elem_at ops ds n j c q x S0 U N) as (-> & _), (elem_at ops ds n j c q step S0 U N) as (-> & _).
    rewrite Mv; [tauto|]. rewrite L, (sim_size ops ds S0). apply position_lt. exact U. }
  rewrite Ia. unfold bound_step. split.
  - intros (_ & H) q p Q P. specialize (H q Q).
    destruct (bound_fold_exact x step q (pairs (d_nv (nd q)) (d_np (nd q))) 1 ltac:(lra) (fun r R => I0 q r Q R)) as (_ & E).
    apply E in H; [|exact A]. apply H. exact P.
  - intros H. split; [lra|]. intros q Q.
    destruct (bound_fold_exact x step q (pairs (d_nv (nd q)) (d_np (nd q))) 1 ltac:(lra) (fun r R => I0 q r Q R)) as (_ & E).
    apply E; [exact A|]. split; [lra|]. intros p P. apply H; assumption.
Qed.
Lemma boundStep_le1 : forall ds x step, boundStep ds x step <= 1.
Proof. intros. apply (proj1 (min_fold (bound_step x step) ds 1 (boundStep ds x step)) (Rle_refl _)). Qed.
Lemma bound_no_worse : forall ops ds x step, sim ops ds -> length x = o_size (lrun ops) -> length step = length x ->
  (each ops ds (fun q c _ => nd_lo q c <= nd_up q c)) -> 0 < boundStep ds x step ->
  forall a, 0 <= a <= boundStep ds x step -> no_worse ops ds x (damped a x step).
Proof.
  intros ops ds x step S0 L Ls B H a A. destruct (damped_moved a x step Ls) as (_ & Mv).
  assert (B' : forall q p, In q ds -> In p (pairs (d_nv (nd q)) (d_np (nd q))) -> nd_lo q (fst p) <= nd_up q (fst p)).
  { refine (proj1 (each_pairs ops ds _ (fun q p => nd_lo q (fst p) <= nd_up q (fst p)) S0 _) B). intros; cbn [fst]; tauto. }
  apply (each_pairs ops ds _ (fun q p => fine x step q p a) S0).
  - intros n j c q U N. unfold fine, val, ds_. cbn [fst snd].
    destruct (elem_at ops ds n j c q x S0 U N) as (-> & _), (elem_at ops ds n j c q step S0 U N) as (-> & _).
    rewrite Mv; [tauto|]. rewrite L, (sim_size ops ds S0). apply position_lt. exact U.
  - intros q p Q P. pose proof (proj2 (proj1 (min_fold (bound_step x step) ds 1 (boundStep ds x step)) (Rle_refl _)) q Q) as Bq.
    unfold bound_step in Bq.
    destruct (bound_fold x step q (pairs (d_nv (nd q)) (d_np (nd q))) 1 (fun r R => B' q r Q R) ltac:(lra)) as (_ & G); [lra|].
    apply G; [exact P|lra].
Qed.

(* ---------------------------------------------------------------- *)
(** * dampStep and solve *)
Lemma no_worse_refl : forall ops ds x, no_worse ops ds x x.
Proof. intros ops ds x n j c q U N. split; [apply Rmin_l|apply Rmax_l]. Qed.
Lemma no_worse_trans : forall ops ds x y z, no_worse ops ds x y -> no_worse ops ds y z -> no_worse ops ds x z.
Proof.
  intros ops ds x y z A B n j c q U N. specialize (A n j c q U N). specialize (B n j c q U N).
  cbn in *. destruct A as (A1 & A2), B as (B1 & B2). split.
  - eapply Rle_trans; [|exact B1]. apply Rmin_glb; [exact A1|apply Rmin_r].
  - eapply Rle_trans; [exact B2|]. apply Rmax_lub; [exact A2|apply Rmax_r].
Qed.
Lemma no_worse_bounds : forall ops ds x y, in_bounds ops ds x -> no_worse ops ds x y -> in_bounds ops ds y.
Proof.
  intros ops ds x y A B n j c q U N. specialize (A n j c q U N). specialize (B n j c q U N). cbn in *.
  destruct A, B. rewrite Rmin_right in * by assumption. rewrite Rmax_right in * by assumption. lra.
Qed.

Section SolverProofs.
  Context {J : Type} (stp : J -> list R -> outcome (list R)) (res : list R -> list R) (newJ : list R -> J).
  Context (ops : list lop) (ds : list ndom) (maxDamp : nat) (dampFactor : R).
  Context (S0 : sim ops ds).
  Let size := o_size (lrun ops).
  Context (Stp : forall jac x s, length x = size -> stp jac x = Ok s -> length s = size).
  Context (Bd : each ops ds (fun q c _ => nd_lo q c <= nd_up q c)) (Df : 1 <= dampFactor).

  Definition tried (jac : J) (x0 step0 : list R) (alpha : R) (s : R) : Prop :=
    exists step1, stp jac (damped alpha x0 step0) = Ok step1 /\ s = norm2 ds size (damped alpha x0 step0) step1.
  Definition accepts (s0 s : R) : Prop := s < 1 \/ s < s0.
  Lemma damp_loop_ok : forall log jac x0 step0 s0 n alpha x1 step1 s1 d,
    damp_loop stp res ds size dampFactor log jac x0 step0 s0 alpha n x1 step1 s1 = Ok d ->
    (dr_status d = (-2)%Z /\ (forall k, (k < n)%nat -> exists s, tried jac x0 step0 (alpha / dampFactor ^ k) s /\ ~ accepts s0 s)) \/
    exists k stepn, (k < n)%nat /\ dr_x1 d = damped (alpha / dampFactor ^ k) x0 step0 /\
      stp jac (dr_x1 d) = Ok stepn /\ dr_s1 d = norm2 ds size (dr_x1 d) stepn /\ dr_step1 d = (if log then res (dr_x1 d) else stepn) /\
      accepts s0 (dr_s1 d) /\
      (forall i, (i < k)%nat -> exists s, tried jac x0 step0 (alpha / dampFactor ^ i) s /\ ~ accepts s0 s) /\
      (dr_status d = 1%Z /\ dr_s1 d <= 1 \/ dr_status d = 0%Z /\ 1 < dr_s1 d).
  Proof.
    intros log jac x0 step0 s0. induction n as [|n IH]; intros alpha x1 step1 s1 d H; cbn [damp_loop] in H.
    - injection H as <-. left. split; [reflexivity|]. intros k K. lia.
    - destruct (stp jac (damped alpha x0 step0)) as [stepn| | |] eqn:E; try discriminate. cbn [obind] in H. cbn zeta in H.
      assert (A0 : alpha / dampFactor ^ 0 = alpha) by (cbn; field).
      destruct (rltb (norm2 ds size (damped alpha x0 step0) stepn) 1 || rltb (norm2 ds size (damped alpha x0 step0) stepn) s0) eqn:T.
      + injection H as <-. right. exists 0%nat, stepn. cbn [dr_x1 dr_s1 dr_step1 dr_status]. rewrite A0.
        split; [lia|]. split; [reflexivity|]. split; [exact E|]. split; [reflexivity|]. split; [reflexivity|].
        split; [apply orb_true_iff in T; rewrite !rltb_true in T; exact T|]. split; [intros i I; lia|].
        destruct (rltb 1 _) eqn:G; [apply rltb_true in G; right; split; [reflexivity|exact G]|apply rltb_false in G; left; split; [reflexivity|lra]].
      + assert (R : exists s, tried jac x0 step0 (alpha / dampFactor ^ 0) s /\ ~ accepts s0 s).
        { rewrite A0. eexists. split; [exists stepn; split; [exact E|reflexivity]|].
          apply orb_false_iff in T. rewrite !rltb_false in T. unfold accepts. lra. }
        assert (Sh : forall k, alpha / dampFactor / dampFactor ^ k = alpha / dampFactor ^ (S k)).
        { intro k. cbn [pow]. field. split; [apply pow_nonzero|]; lra. }
        apply IH in H. destruct H as [(St & N)|(k & st & K & D1 & D2 & D3 & D4 & D5 & D6 & D7)].
        * left. split; [exact St|]. intros [|k] K; [exact R|]. rewrite <- Sh. apply N. lia.
        * right. exists (S k), st. rewrite <- Sh. split; [lia|]. split; [exact D1|]. split; [exact D2|]. split; [exact D3|]. split; [exact D4|].
          split; [exact D5|]. split; [|exact D7]. intros [|i] I; [exact R|]. rewrite <- Sh. apply D6. lia.
  Qed.
  Lemma pow_ge1 : forall k, 1 <= dampFactor ^ k.
  Proof. induction k; cbn; [lra|]. nra. Qed.
  Lemma div_pow : forall f k, 0 <= f -> 0 <= f / dampFactor ^ k <= f.
  Proof.
    intros f k F. pose proof (pow_ge1 k) as P. split.
    - apply Rmult_le_pos; [exact F|]. apply Rlt_le, Rinv_0_lt_compat. lra.
    - unfold Rdiv. rewrite <- (Rmult_1_r f) at 2. apply Rmult_le_compat_l; [exact F|].
      rewrite <- Rinv_1. apply Rinv_le_contravar; lra.
  Qed.
  Lemma damp_status : forall log jac x0 step0 x1 step1 s1 d,
    length x0 = size -> length step0 = size ->
    dampStep stp res ds size maxDamp dampFactor log jac x0 step0 x1 step1 s1 = Ok d ->
    let fb := boundStep ds x0 step0 in let s0 := norm2 ds size x0 step0 in
    (dr_status d = (-3)%Z /\ fb < / 10 ^ 10 /\ dr_x1 d = x1) \/
    (/ 10 ^ 10 <= fb /\
     ((dr_status d = (-2)%Z /\ forall k, (k < maxDamp)%nat -> exists s, tried jac x0 step0 (fb / dampFactor ^ k) s /\ ~ accepts s0 s) \/
      (exists k stepn, (k < maxDamp)%nat /\ dr_x1 d = damped (fb / dampFactor ^ k) x0 step0 /\
        no_worse ops ds x0 (dr_x1 d) /\ length (dr_x1 d) = size /\
        stp jac (dr_x1 d) = Ok stepn /\ dr_s1 d = norm2 ds size (dr_x1 d) stepn /\ dr_step1 d = (if log then res (dr_x1 d) else stepn) /\
        accepts s0 (dr_s1 d) /\
        (forall i, (i < k)%nat -> exists s, tried jac x0 step0 (fb / dampFactor ^ i) s /\ ~ accepts s0 s) /\
        (dr_status d = 1%Z /\ dr_s1 d <= 1 \/ dr_status d = 0%Z /\ 1 < dr_s1 d)))).
  Proof.
    intros log jac x0 step0 x1 step1 s1 d Lx Ls H fb s0. unfold dampStep in H. cbn zeta in H. fold fb s0 in H.
    destruct (rltb fb (/ 10 ^ 10)) eqn:E.
    - left. apply rltb_true in E. injection H as <-. auto.
    - right. apply rltb_false in E. split; [exact E|]. rewrite Rmult_1_r in H. apply damp_loop_ok in H.
      destruct H as [H|(k & st & K & D1 & D2 & D3 & D4 & D5 & D6 & D7)]; [left; exact H|right].
      assert (P0 : 0 < / 10 ^ 10) by (apply Rinv_0_lt_compat; apply pow_lt; lra).
      assert (P : 0 < fb) by (eapply Rlt_le_trans; [exact P0|exact E]).
      exists k, st. split; [exact K|]. split; [exact D1|]. split.
      { rewrite D1. apply bound_no_worse; [exact S0|exact Lx|congruence|exact Bd|exact P|]. apply div_pow. apply Rlt_le. exact P. }
      split. { rewrite D1. rewrite (proj1 (damped_moved _ x0 step0 ltac:(congruence))). exact Lx. }
      auto 10.
  Qed.

  Lemma solve_ok : forall fuel log steady maxAge s r,
    length (ns_x s) = size ->
    solve_loop stp res newJ ds size maxDamp dampFactor fuel log steady maxAge s = Some (Ok r) ->
    match r with (status, x1, jac, age) =>
      length x1 = size /\ no_worse ops ds (ns_x s) x1 /\
      (status = 1%Z /\ (exists stepn, stp jac x1 = Ok stepn /\ norm2 ds size x1 stepn <= 1) \/
       (status = (-2)%Z \/ status = (-3)%Z) /\
       exists step0, stp jac x1 = Ok step0 /\
         (status = (-3)%Z -> boundStep ds x1 step0 < / 10 ^ 10) /\
         (status = (-2)%Z -> forall k, (k < maxDamp)%nat -> exists v,
             tried jac x1 step0 (boundStep ds x1 step0 / dampFactor ^ k) v /\ 1 <= v /\ norm2 ds size x1 step0 <= v))
    end.
  Proof.
    induction fuel as [|fuel IH]; intros log steady maxAge s r Lx H; [discriminate|]. cbn [solve_loop] in H. cbn zeta in H.
    set (force := ns_force s || (maxAge <? ns_age s)%Z) in *.
    set (jac := if force then newJ (ns_x s) else ns_jac s) in *.
    destruct (stp jac (ns_x s)) as [step0| | |] eqn:Es; try discriminate.
    pose proof (Stp jac _ _ Lx Es) as Ls.
    destruct (dampStep _ _ _ _ _ _ _ _ _ _ _ _ _) as [d| | |] eqn:Ed; try discriminate.
    pose proof (damp_status _ _ _ _ _ _ _ _ Lx Ls Ed) as D. cbn zeta in D.
    destruct D as [(St & Fb & _)|(Fb & [(St & N)|(k & st & K & D1 & D2 & D3 & D4 & D5 & D6 & D7 & _ & [(St & D8)|(St & D8)])])]; rewrite St in H; cbn [Z.eqb Pos.eqb] in H.
    - (* -3 *)
      assert (Fin : r = ((-3)%Z, ns_x s, jac, if force then 1%Z else (ns_age s + 1)%Z) \/
        solve_loop stp res newJ ds size maxDamp dampFactor fuel log steady maxAge
          (NS (ns_x s) (dr_x1 d) (dr_step1 d) (dr_s1 d) jac ((if force then 0 else ns_age s) + 1) true (S (ns_reeval s))) = Some (Ok r)).
      { destruct (1 <? _)%Z; [destruct (3 <? _)%nat|]; try (right; exact H); left; injection H as <-; destruct force; reflexivity. }
      destruct Fin as [->|Go]; [|apply IH in Go; [exact Go|exact Lx]].
      split; [exact Lx|]. split; [apply no_worse_refl|]. right. split; [right; reflexivity|]. exists step0. split; [exact Es|].
      split; [intros _; exact Fb|]. intro C. discriminate C.
    - assert (Fin : r = ((-2)%Z, ns_x s, jac, if force then 1%Z else (ns_age s + 1)%Z) \/
        solve_loop stp res newJ ds size maxDamp dampFactor fuel log steady maxAge
          (NS (ns_x s) (dr_x1 d) (dr_step1 d) (dr_s1 d) jac ((if force then 0 else ns_age s) + 1) true (S (ns_reeval s))) = Some (Ok r)).
      { destruct (1 <? _)%Z; [destruct (3 <? _)%nat|]; try (right; exact H); left; injection H as <-; destruct force; reflexivity. }
      destruct Fin as [->|Go]; [|apply IH in Go; [exact Go|exact Lx]].
      split; [exact Lx|]. split; [apply no_worse_refl|]. right. split; [left; reflexivity|]. exists step0. split; [exact Es|].
      split; [intro C; discriminate C|]. intros _ k K. destruct (N k K) as (v & T & A). exists v. split; [exact T|].
      unfold accepts in A. lra.
    - injection H as <-. split; [exact D3|]. split; [exact D2|]. left. split; [reflexivity|]. exists st. split; [exact D4|].
      rewrite <- D5. exact D8.
    - apply IH in H; [|exact D3]. cbn [ns_x] in H. destruct r as [[[status x1'] jac'] age']. destruct H as (A & B & C).
      split; [exact A|]. split; [eapply no_worse_trans; [exact D2|exact B]|exact C].
  Qed.
End SolverProofs.

(* ---------------------------------------------------------------- *)
(** * The norm *)
Lemma sumR_app : forall l, sumR l = fold_right Rplus 0 l.
Proof.
  intro l. unfold sumR. assert (G : forall a, fold_left Rplus l a = a + fold_right Rplus 0 l).
  { induction l as [|b l IH]; intro a; cbn; [ring|]. rewrite IH. ring. }
  rewrite G. ring.
Qed.
Lemma sum_ge : forall l v, In v l -> (forall w, In w l -> 0 <= w) -> v <= fold_right Rplus 0 l.
Proof.
  induction l as [|a l IH]; intros v I P; [contradiction|]. cbn.
  assert (Q : 0 <= fold_right Rplus 0 l).
  { clear -P. induction l as [|b l IH]; cbn; [lra|]. pose proof (P b (or_intror (or_introl eq_refl))).
    assert (0 <= fold_right Rplus 0 l); [|lra]. apply IH. intros w [->|W]; [apply P; left; reflexivity|apply P; right; right; exact W]. }
  destruct I as [->|I]; [lra|]. pose proof (P a (or_introl eq_refl)). specialize (IH v I (fun w W => P w (or_intror W))). lra.
Qed.
Lemma sum_nonneg : forall l, (forall w, In w l -> 0 <= w) -> 0 <= fold_right Rplus 0 l.
Proof. induction l as [|a l IH]; intro P; cbn; [lra|]. pose proof (P a (or_introl eq_refl)). specialize (IH (fun w W => P w (or_intror W))). lra. Qed.
Lemma norm_square_ge : forall x step q c j, (c < d_nv (nd q))%nat -> (j < d_np (nd q))%nat ->
  (elem step (nd q) c j / weight x q c) * (elem step (nd q) c j / weight x q c) <= norm_square x step q.
Proof.
  intros x step q c j C J. unfold norm_square. rewrite sumR_app. apply sum_ge.
  - apply in_map_iff. exists (c, j). split; [reflexivity|]. apply pairs_in. auto.
  - intros w W. apply in_map_iff in W. destruct W as (p & <- & _). cbn zeta. apply Rle_0_sqr.
Qed.
Lemma norm_square_pos : forall x step q, 0 <= norm_square x step q.
Proof.
  intros. unfold norm_square. rewrite sumR_app. apply sum_nonneg. intros w W. apply in_map_iff in W. destruct W as (p & <- & _). apply Rle_0_sqr.
Qed.
Lemma norm2_bound : forall ops ds x step b, sim ops ds -> (0 < o_size (lrun ops))%nat -> 0 <= b ->
  norm2 ds (o_size (lrun ops)) x step <= b ->
  forall n j c q, unknown (shape_of ops) n j c -> nth_error ds n = Some q -> 0 < weight x q c ->
  Rabs (comp step (position (shape_of ops) n j c)) <= b * sqrt (INR (o_size (lrun ops))) * weight x q c.
Proof.
  intros ops ds x step b S0 Sz B H n j c q U N W.
  destruct (elem_at ops ds n j c q step S0 U N) as (E & C & Jn).
  pose proof (norm_square_ge x step q c j C Jn) as G. rewrite E in G.
  set (e := comp step (position (shape_of ops) n j c)) in *. set (w := weight x q c) in *.
  assert (Sn : 0 < INR (o_size (lrun ops))) by (apply lt_0_INR; exact Sz).
  unfold norm2 in H. rewrite sumR_app in H.
  assert (T : norm_square x step q <= fold_right Rplus 0 (map (norm_square x step) ds)).
  { apply sum_ge; [apply in_map; eapply nth_error_In; exact N|]. intros v V. apply in_map_iff in V. destruct V as (r & <- & _). apply norm_square_pos. }
  set (S := fold_right Rplus 0 (map (norm_square x step) ds)) in *.
  assert (Sp : 0 <= S / INR (o_size (lrun ops))).
  { apply Rmult_le_pos; [pose proof (norm_square_pos x step q); lra|apply Rlt_le, Rinv_0_lt_compat; exact Sn]. }
  assert (Q : S / INR (o_size (lrun ops)) <= b * b).
  { rewrite <- (sqrt_sqrt _ Sp). apply Rmult_le_compat; try apply sqrt_pos; exact H. }
  assert (Q' : S <= b * b * INR (o_size (lrun ops))).
  { apply Rmult_le_compat_r with (r := INR (o_size (lrun ops))) in Q; [|lra]. unfold Rdiv in Q. rewrite Rmult_assoc, Rinv_l, Rmult_1_r in Q by lra. exact Q. }
  assert (X : e * e <= (b * sqrt (INR (o_size (lrun ops))) * w) * (b * sqrt (INR (o_size (lrun ops))) * w)).
  { replace (b * sqrt (INR (o_size (lrun ops))) * w * (b * sqrt (INR (o_size (lrun ops))) * w))
      with (b * b * (sqrt (INR (o_size (lrun ops))) * sqrt (INR (o_size (lrun ops)))) * (w * w)) by ring.
    rewrite sqrt_sqrt by lra.
    replace (e * e) with (e / w * (e / w) * (w * w)) by (field; lra).
    apply Rmult_le_compat_r; [nra|lra]. }
  assert (P : 0 <= b * sqrt (INR (o_size (lrun ops))) * w) by (apply Rmult_le_pos; [apply Rmult_le_pos; [exact B|apply sqrt_pos]|lra]).
  apply Rsqr_incr_0_var; [|exact P]. rewrite <- Rsqr_abs. exact X.
Qed.
Lemma weight_mean : forall ops ds n q c x, sim ops ds -> nth_error ds n = Some q -> (c < d_nv (nd q))%nat ->
  weight x q c = nd_rtol q c * mean_size ops n c x + nd_atol q c.
Proof.
  intros ops ds n q c x S0 N C. unfold weight, mean_size. f_equal. unfold Rdiv. rewrite Rmult_assoc. f_equal.
  assert (E : nth n (shape_of ops) (0, 0)%nat = (d_nv (nd q), d_np (nd q))).
  { destruct S0 as (_ & S1). destruct (inv_run ops) as (_ & Sh). apply nth_error_nth. rewrite <- Sh. apply shp_nth. rewrite <- S1, nth_error_map, N. reflexivity. }
  rewrite E. cbn [snd]. f_equal. rewrite sumR_app. f_equal. apply map_ext_in. intros j Hj. apply in_seq in Hj. f_equal.
  destruct S0 as (S1 & S2). apply (elem_at ops ds n j c q x (conj S1 S2)); [|exact N].
  exists (d_nv (nd q)), (d_np (nd q)). split; [|split; [lia|exact C]].
  destruct (inv_run ops) as (_ & Sh). rewrite <- Sh. apply shp_nth. rewrite <- S2, nth_error_map, N. reflexivity.
Qed.

(* ---------------------------------------------------------------- *)
(** * Time stepping *)
Section TimeProofs.
  Context (try : nat -> R -> list R -> attempt) (resetBad : list R -> list R).
  Context (tmin tmax tfactor : R) (nmax : Z).
  Context (Tm : 0 < tmin) (Tf : 0 < tfactor < 1).
  Notation step := (tstep try resetBad tmin tmax tfactor nmax).
  Notation run := (trun try resetBad tmin tmax tfactor nmax).
  Definition ends (nsteps : Z) (s : tstate) : Prop := exists fuel r, run fuel nsteps s = Some r.
  Lemma ends_more : forall nsteps s s', step nsteps s = TMore s' -> ends nsteps s' -> ends nsteps s.
  Proof. intros nsteps s s' E (f & r & H). exists (S f), r. cbn. rewrite E. exact H. Qed.
  Lemma ends_now : forall nsteps s, (forall s', step nsteps s <> TMore s') -> ends nsteps s.
  Proof.
    intros nsteps s N. destruct (step nsteps s) as [s'|s'|s'] eqn:E; [exfalso; apply (N s'); reflexivity| |];
      (exists 1%nat; eexists; cbn; rewrite E; reflexivity).
  Qed.
  Lemma small_power : forall d, exists k, d * tfactor ^ k < tmin.
  Proof.
    intros d. destruct (Rle_dec d 0) as [H|H]; [exists 0%nat; cbn; lra|].
    assert (A : Rabs tfactor < 1) by (rewrite Rabs_pos_eq; lra).
    assert (Y : 0 < tmin / d) by (apply Rmult_lt_0_compat; [lra|apply Rinv_0_lt_compat; lra]).
    destruct (pow_lt_1_zero tfactor A (tmin / d) Y) as (N & HN).
    exists N. specialize (HN N (le_n N)). rewrite Rabs_pos_eq in HN by (apply pow_le; lra).
    apply Rmult_lt_compat_l with (r := d) in HN; [|lra]. replace (d * (tmin / d)) with tmin in HN by (field; lra). exact HN.
  Qed.
  Lemma ends_all : forall m nsteps s, (Z.to_nat (nsteps - ts_n s) <= m)%nat -> ends nsteps s.
  Proof.
    induction m as [|m IHm]; intros nsteps s M.
    - apply ends_now. intros s' E. unfold tstep in E. destruct (Z.ltb_spec (ts_n s) nsteps); [lia|discriminate].
    - (* successes lead to a state that ends *)
      assert (Suc : forall s s', step nsteps s = TMore s' -> ts_n s' = (ts_n s + 1)%Z -> (Z.to_nat (nsteps - ts_n s) <= S m)%nat -> ends nsteps s).
      { intros t t' E N Mt. eapply ends_more; [exact E|]. apply IHm. rewrite N.
        unfold tstep in E. destruct (Z.ltb_spec (ts_n t) nsteps); [lia|discriminate]. }
      (* failures *)
      assert (G : forall k b t, (if (2 <? S (ts_fail t))%nat then 1 else 0)%nat = b -> ts_dt t * tfactor ^ k < tmin ->
                  (Z.to_nat (nsteps - ts_n t) <= S m)%nat -> ends nsteps t).
      { induction k as [|k IHk].
        - assert (Z0 : forall t, (2 <? S (ts_fail t))%nat = false -> ts_dt t < tmin -> (Z.to_nat (nsteps - ts_n t) <= S m)%nat -> ends nsteps t).
          { intros t F D Mt. destruct (step nsteps t) as [t'|t'|t'] eqn:E; [|apply ends_now; rewrite E; discriminate..].
            pose proof E as E'. unfold tstep in E. destruct (ts_n t <? nsteps)%Z; [|discriminate].
            destruct (a_ok _); [destruct (nmax <=? _)%Z; [discriminate|]; injection E as <-; eapply Suc; [exact E'|reflexivity|exact Mt]|].
            rewrite F in E. cbn zeta in E. destruct (rltb (ts_dt t * tfactor) tmin) eqn:L; [discriminate|]. apply rltb_false in L. exfalso.
            destruct (Rle_dec (ts_dt t) 0); nra. }
          intros b t _ D Mt. cbn in D. rewrite Rmult_1_r in D. destruct (2 <? S (ts_fail t))%nat eqn:F; [|apply Z0; assumption].
          destruct (step nsteps t) as [t'|t'|t'] eqn:E; [|apply ends_now; rewrite E; discriminate..].
          pose proof E as E'. unfold tstep in E. destruct (ts_n t <? nsteps)%Z; [|discriminate].
          destruct (a_ok _); [destruct (nmax <=? _)%Z; [discriminate|]; injection E as <-; eapply Suc; [exact E'|reflexivity|exact Mt]|].
          rewrite F in E. injection E as <-. eapply ends_more; [exact E'|]. apply Z0; [reflexivity|exact D|exact Mt].
        - assert (Z0 : forall t, (2 <? S (ts_fail t))%nat = false -> ts_dt t * tfactor ^ S k < tmin -> (Z.to_nat (nsteps - ts_n t) <= S m)%nat -> ends nsteps t).
          { intros t F D Mt. destruct (step nsteps t) as [t'|t'|t'] eqn:E; [|apply ends_now; rewrite E; discriminate..].
            pose proof E as E'. unfold tstep in E. destruct (ts_n t <? nsteps)%Z; [|discriminate].
            destruct (a_ok _); [destruct (nmax <=? _)%Z; [discriminate|]; injection E as <-; eapply Suc; [exact E'|reflexivity|exact Mt]|].
            rewrite F in E. cbn zeta in E. destruct (rltb (ts_dt t * tfactor) tmin) eqn:L; [discriminate|]. injection E as <-.
            eapply ends_more; [exact E'|]. eapply IHk; [reflexivity| |exact Mt]. cbn [ts_dt]. cbn [pow] in D. lra. }
          intros b t _ D Mt. destruct (2 <? S (ts_fail t))%nat eqn:F; [|apply Z0; assumption].
          destruct (step nsteps t) as [t'|t'|t'] eqn:E; [|apply ends_now; rewrite E; discriminate..].
          pose proof E as E'. unfold tstep in E. destruct (ts_n t <? nsteps)%Z; [|discriminate].
          destruct (a_ok _); [destruct (nmax <=? _)%Z; [discriminate|]; injection E as <-; eapply Suc; [exact E'|reflexivity|exact Mt]|].
          rewrite F in E. injection E as <-. eapply ends_more; [exact E'|]. apply Z0; [reflexivity|exact D|exact Mt]. }
      destruct (small_power (ts_dt s)) as (k & K). exact (G k _ s eq_refl K M).
  Qed.

  (* An invariant of the loop is an invariant of the result. *)
  Lemma run_inv : forall (P : tstate -> Prop) nsteps,
    (forall s, P s -> match step nsteps s with TMore s' => P s' | _ => True end) ->
    forall fuel s b s', P s -> run fuel nsteps s = Some (b, s') ->
    exists t, P t /\ (b = true /\ s' = t /\ (nsteps <= ts_n t)%Z \/ b = false /\ step nsteps t = TThrow s').
  Proof.
    intros P nsteps Inv. induction fuel as [|fuel IH]; intros s b s' Ps H; [discriminate|]. cbn in H.
    destruct (step nsteps s) as [t|t|t] eqn:E.
    - specialize (Inv s Ps). rewrite E in Inv. exact (IH t b s' Inv H).
    - injection H as <- <-. exists s. split; [exact Ps|]. left. unfold tstep in E.
      destruct (Z.ltb_spec (ts_n s) nsteps); [|injection E as <-; split; [reflexivity|split; [reflexivity|lia]]].
      destruct (a_ok _); [destruct (nmax <=? _)%Z; discriminate|]. destruct (2 <? _)%nat; [discriminate|]. cbn zeta in E. destruct (rltb _ _); discriminate.
    - injection H as <- <-. exists s. split; [exact Ps|]. right. auto.
  Qed.
  Lemma rmin_Rmin : forall a b, rmin a b = Rmin a b.
  Proof.
    intros a b. unfold rmin, Rmin. destruct (Rle_dec a b) as [H|H].
    - destruct (rltb b a) eqn:E; [apply rltb_true in E; lra|reflexivity].
    - rewrite (proj2 (rltb_true b a)) by lra. reflexivity.
  Qed.
  (* One step, described by cases. *)
  Lemma step_cases : forall nsteps s, (ts_n s < nsteps)%Z ->
    (exists a, a = try (ts_calls s) (ts_dt s) (ts_x s) /\ a_ok a = true /\
       exists s', ts_n s' = (ts_n s + 1)%Z /\ ts_total s' = (ts_total s + 1)%Z /\ ts_x s' = a_x a /\ ts_fail s' = 0%nat /\ ts_calls s' = S (ts_calls s) /\
         ts_dt s' = Rmin (if a_newjac a then ts_dt s else ts_dt s * (3 / 2)) tmax /\
         ((nmax <= ts_total s')%Z /\ step nsteps s = TThrow s' \/ (ts_total s' < nmax)%Z /\ step nsteps s = TMore s')) \/
    (a_ok (try (ts_calls s) (ts_dt s) (ts_x s)) = false /\
       exists s', ts_n s' = ts_n s /\ ts_total s' = ts_total s /\ ts_calls s' = S (ts_calls s) /\
         ((2 <= ts_fail s)%nat /\ ts_fail s' = 0%nat /\ ts_dt s' = ts_dt s /\ ts_x s' = resetBad (ts_x s) /\ step nsteps s = TMore s' \/
          (ts_fail s < 2)%nat /\ ts_fail s' = S (ts_fail s) /\ ts_dt s' = ts_dt s * tfactor /\ ts_x s' = ts_x s /\
            (ts_dt s' < tmin /\ step nsteps s = TThrow s' \/ tmin <= ts_dt s' /\ step nsteps s = TMore s'))).
  Proof.
    intros nsteps s N. unfold tstep. rewrite (proj2 (Z.ltb_lt _ _) N). cbn zeta. set (a := try _ _ _).
    destruct (a_ok a) eqn:A.
    - left. exists a. split; [reflexivity|]. split; [exact A|].
      exists (TS (ts_n s + 1) (S (ts_calls s)) 0 (rmin (if a_newjac a then ts_dt s else ts_dt s * (3 / 2)) tmax) (a_x a) (ts_total s + 1)).
      rewrite <- rmin_Rmin. cbn [ts_n ts_total ts_x ts_fail ts_calls ts_dt]. do 6 (split; [reflexivity|]).
      destruct (Z.leb_spec nmax (ts_total s + 1)); [left|right]; auto.
    - right. split; [reflexivity|]. destruct (2 <? S (ts_fail s))%nat eqn:F; [apply Nat.ltb_lt in F|apply Nat.ltb_ge in F].
      + eexists. cbn [ts_n ts_total ts_x ts_fail ts_calls ts_dt].
        split; [|split; [|split; [|left; split; [lia|split; [|split; [|split; [|reflexivity]]]]]]]; reflexivity.
      + exists (TS (ts_n s) (S (ts_calls s)) (S (ts_fail s)) (ts_dt s * tfactor) (ts_x s) (ts_total s)). cbn [ts_n ts_total ts_x ts_fail ts_calls ts_dt].
        do 3 (split; [reflexivity|]). right. split; [lia|]. do 3 (split; [reflexivity|]).
        destruct (rltb (ts_dt s * tfactor) tmin) eqn:L; [left; apply rltb_true in L|right; apply rltb_false in L; split; [lra|reflexivity]]. auto.
  Qed.
  Lemma step_done : forall nsteps s, (nsteps <= ts_n s)%Z -> step nsteps s = TDone s.
  Proof. intros. unfold tstep. destruct (Z.ltb_spec (ts_n s) nsteps); [lia|reflexivity]. Qed.
End TimeProofs.
