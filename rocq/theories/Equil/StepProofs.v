(** Proofs about Equil/ReactModel.v: steps along the reaction vectors. *)
From Coq Require Import Reals List Bool Arith Lia Lra Permutation.
From Verif Require Import Base.Fp Base.RSum Equil.ReactModel Equil.ReactSpec Equil.ReactProofs.
Import ListNotations.
Local Open Scope R_scope.

Lemma perm_surj n o s : is_perm n o -> (s < n)%nat -> exists k, (k < n)%nat /\ o k = s.
Proof.
  intros P Hs. assert (I : In s (map o (seq 0 n))).
  { eapply Permutation_in; [apply Permutation_sym, perm_list, P|]. apply in_seq. lia. }
  apply in_map_iff in I as (k & E & I). apply in_seq in I. exists k. split; [lia|auto].
Qed.

Lemma fold_upd {A} (n : nat) (o : nat -> nat) (F : nat -> A -> A) (f0 : nat -> A) : is_perm n o ->
  forall i, (i < n)%nat ->
  fold_left (fun f ik => upd f (o ik) (F ik (f (o ik)))) (seq 0 n) f0 (o i) = F i (f0 (o i)).
Proof.
  intros [_ I].
  assert (G : forall m, (m <= n)%nat -> forall i, (i < n)%nat ->
     fold_left (fun f ik => upd f (o ik) (F ik (f (o ik)))) (seq 0 m) f0 (o i)
     = if (i <? m)%nat then F i (f0 (o i)) else f0 (o i)).
  { induction m as [|m IH]; intros Hm i Hi; [reflexivity|].
    rewrite seq_S, fold_left_app. cbn [fold_left plus]. unfold upd at 1.
    destruct (Nat.eqb_spec (o i) (o m)) as [E|E].
    - apply I in E; [|lia|lia]. subst i. rewrite IH by lia. rewrite Nat.ltb_irrefl.
      destruct (Nat.ltb_spec m (S m)); [auto|lia].
    - rewrite IH by lia. destruct (Nat.ltb_spec i m), (Nat.ltb_spec i (S m)); try lia; auto.
      assert (i = m) by lia. subst. congruence. }
  intros i Hi. rewrite G by lia. destruct (Nat.ltb_spec i n); [auto|lia].
Qed.

Section S.
Context (nel nsp : nat) (at_ : nat -> nat -> R).
Let nF := nFree nel nsp.

Definition balanced (N : mat) (o : nat -> nat) : Prop :=
  forall m j, (m < nel)%nat -> (j < nF)%nat -> sum_n (fun k => at_ (o k) m * N k j) nsp = 0.
Definition formed (N : mat) : Prop :=
  forall n j, (nel <= n < nsp)%nat -> N n j = if (n =? j + nel)%nat then 1 else 0.

Lemma nF_lt j : (j < nF)%nat -> (nel < nsp)%nat /\ (j + nel < nsp)%nat.
Proof. unfold nF, nFree. destruct (Nat.ltb_spec nel nsp); lia. Qed.

Lemma components_ok pref moles : ordering nsp pref -> separated nel nsp at_ ->
  let '(N, o, _) := getComponents nel nsp at_ pref moles in ordering nsp o /\ balanced N o /\ formed N.
Proof.
  intros PO SEP. unfold getComponents.
  assert (G := gauss_spec nel nsp at_ nel 0 (composition_matrix at_ pref) pref moles (fun i => i)
                 eq_refl ltac:(lia) PO).
  destruct (gauss nel nsp nel 0 (composition_matrix at_ pref) pref moles) as [[A o] r].
  destruct G as (G1 & G2 & G3 & G4 & G5 & sg & G6 & G7 & G8).
  - split; auto.
  - intros x Hx. exact Hx.
  - intros j Hj; lia.
  - intros i Hi. exists (fun _ => 0). intros k Hk. unfold composition_matrix. unfold sum_n. cbn. ring.
  - split; [exact G3|]. split.
    + intros m j Hm Hj. destruct (nF_lt j Hj) as [H1 H2].
      assert (BL : below nel nsp A r).
      { intros i k Hi Hk. destruct (G7 i Hi) as (c & C).
        set (c0 := fun l => sum_n (fun j => if (sg j =? l)%nat then c j else 0) r).
        assert (S0 : forall s, sum_n (fun l => c0 l * at_ s l) nel = sum_n (fun j => c j * at_ s (sg j)) r).
        { intros s. unfold c0, sum_n.
          rewrite (sum_of_ext _ (fun l => sum_of (fun j => (if (sg j =? l)%nat then c j else 0) * at_ s l) (seq 0 r))).
          2:{ intros l _. now rewrite sum_of_scal_r. }
          rewrite sum_of_swap. apply sum_of_ext. intros j' Hj'. apply in_seq in Hj'.
          change (sum_n (fun l => (if (sg j' =? l)%nat then c j' else 0) * at_ s l) nel = c j' * at_ s (sg j')).
          rewrite (sum_n_single _ nel (sg j')).
          - now rewrite Nat.eqb_refl.
          - apply G6. lia.
          - intros l _ Hl. destruct (Nat.eqb_spec (sg j') l); [congruence|ring]. }
        assert (Z : c0 (sg i) = 0).
        { unfold c0, sum_n. apply sum_of_0. intros j' Hj'. apply in_seq in Hj'.
          destruct (Nat.eqb_spec (sg j') (sg i)) as [E|]; [|auto]. apply G6 in E; lia. }
        assert (Q := SEP (sg i) c0 (proj1 G6 i ltac:(lia)) Z).
        rewrite (C k Hk), <- S0. apply Q; [|apply G3; auto].
        intros s Hs. destruct (perm_surj nsp o s G3 Hs) as (k' & Hk' & <-).
        rewrite S0, <- C by auto. destruct (Nat.lt_ge_cases k' r) as [L|L].
        - destruct (G5 k' L) as [_ Lo]. rewrite (Lo i) by lia. rewrite Rabs_R0.
          apply Rlt_le, Rinv_0_lt_compat, pow_lt. lra.
        - apply G8; lia. }
      assert (AB : above A r (Nat.min nel nsp - 1)) by (intros j' Hj'; lia).
      destruct (backsolve_spec nel nsp at_ r o (Nat.min nel nsp - 1) A) as (K & SH & BL' & AB'); auto; try lia.
      apply (K (fun k => stoich nel (backsolve (Nat.min nel nsp - 1) A) k j)); auto.
      intros i Hi. apply (stoich_kernel nel nsp _ r); auto; lia.
    + intros n j Hn. unfold stoich. destruct (Nat.ltb_spec n nel); [lia|auto].
Qed.

Lemma unsort_at o x k : ordering nsp o -> (k < nsp)%nat -> unsort nsp o x (o k) = x k.
Proof. intros P Hk. unfold unsort. apply (fold_upd nsp o (fun ik _ => x ik) x P k Hk). Qed.

Lemma total_order o n m : ordering nsp o ->
  total nsp at_ n m = sum_n (fun k => at_ (o k) m * n (o k)) nsp.
Proof. intros P. unfold total. symmetry. apply (sum_n_perm nsp o (fun k => at_ k m * n k) P). Qed.

(** Moving along the reaction vectors changes no total. *)
Lemma total_extents N o x m : ordering nsp o -> balanced N o -> (m < nel)%nat ->
  sum_n (fun k => at_ (o k) m * extents nel nsp N x k) nsp = 0.
Proof.
  intros P B Hm. unfold extents. fold nF.
  transitivity (sum_n (fun j => x j * sum_n (fun k => at_ (o k) m * N k j) nsp) nF).
  - unfold sum_n. rewrite (sum_of_ext _ (fun k => sum_of (fun j => x j * (at_ (o k) m * N k j)) (seq 0 nF))).
    2:{ intros k _. rewrite <- sum_of_scal. apply sum_of_ext. intros; ring. }
    rewrite sum_of_swap. apply sum_of_ext. intros j _. now rewrite sum_of_scal.
  - unfold sum_n at 1. apply sum_of_0. intros j Hj. apply in_seq in Hj. rewrite B by (auto; lia). ring.
Qed.

Definition new_moles (o : nat -> nat) (major : nat -> bool) (dG : vec) (om : R) (w moles : vec) (ik : nat) : R :=
  if (ik <? nel)%nat || major (o ik) then moles (o ik) + om * w (o ik)
  else Rabs (moles (o ik)) * Rmin 10 (exp (- dG (ik - nel)%nat)).
Lemma step_at o major dG om w moles ik : ordering nsp o -> (ik < nsp)%nat ->
  step nel nsp o major dG om w moles (o ik) = new_moles o major dG om w moles ik.
Proof.
  intros P Hk. unfold step, step1, new_moles.
  refine (eq_trans (fold_upd nsp o (fun ik v => if (ik <? nel)%nat then v + om * w (o ik)
     else if major (o ik) then v + om * w (o ik) else Rabs v * Rmin 10 (exp (- dG (ik - nel)%nat))) moles P ik Hk) _).
  cbv beta.
  destruct (ik <? nel)%nat; cbn [orb]; [reflexivity|]. now destruct (major (o ik)).
Qed.
Lemma majors_at o ds moles ik : ordering nsp o -> (ik < nsp)%nat ->
  majors nel nsp o ds moles (o ik) = is_major nel ds moles ik (o ik).
Proof. intros P Hk. unfold majors. apply (fold_upd nsp o (fun ik _ => is_major nel ds moles ik (o ik)) (fun _ => true) P ik Hk). Qed.

(** The change of a total in one step comes from the species updated by a factor. *)
Lemma step_total N o ds dG om x moles m : ordering nsp o -> balanced N o -> (m < nel)%nat ->
  let w := unsort nsp o (extents nel nsp N x) in
  let n' := step nel nsp o (majors nel nsp o ds moles) dG om w moles in
  total nsp at_ n' m - total nsp at_ moles m
  = sum_n (fun ik => if (ik <? nel)%nat || is_major nel ds moles ik (o ik) then 0
                     else at_ (o ik) m * (n' (o ik) - moles (o ik) - om * w (o ik))) nsp.
Proof.
  intros P B Hm w n'. rewrite !(total_order o) by auto.
  transitivity (sum_n (fun k => at_ (o k) m * n' (o k)) nsp - sum_n (fun k => at_ (o k) m * moles (o k)) nsp
                - om * sum_n (fun k => at_ (o k) m * extents nel nsp N x k) nsp).
  { rewrite (total_extents N o x m P B Hm). ring. }
  unfold sum_n. rewrite <- sum_of_scal, <- !sum_of_minus. apply sum_of_ext. intros ik Hk. apply in_seq in Hk.
  assert (W : w (o ik) = extents nel nsp N x ik) by (apply unsort_at; auto; lia).
  rewrite <- W.
  assert (E : n' (o ik) = new_moles o (majors nel nsp o ds moles) dG om w moles ik) by (apply step_at; auto; lia).
  unfold new_moles in E. rewrite majors_at in E by (auto; lia).
  destruct ((ik <? nel)%nat || is_major nel ds moles ik (o ik)).
  - rewrite E. ring.
  - ring.
Qed.

(** Lower bounds. *)
Lemma Tiny_pos : 0 < Tiny.
Proof. unfold Tiny. apply Rinv_0_lt_compat, pow_lt. lra. Qed.
Lemma MAJOR_pos : 0 < MAJOR.
Proof. unfold MAJOR. apply Rinv_0_lt_compat, pow_lt. lra. Qed.

Definition constrained (ds : nat -> bool) (moles w : vec) (ik k : nat) : bool :=
  if ds k then (rltb MAJOR (moles k) || (ik <? nel)%nat) && rltb (w k) 0
  else rltb (w k) 0 && rltb 0 (moles k).
Definition limit (ds : nat -> bool) (moles w : vec) (ik k : nat) : R :=
  if ds k then moles k * (if (ik <? nel)%nat then 99 / 100 else 9 / 10) / (Rabs (w k) + Tiny)
  else - moles k / w k.
Lemma omega_bound_eq ds moles w ik k om :
  omega_bound nel ds moles w ik k om
  = if constrained ds moles w ik k && rltb (limit ds moles w ik k) om then limit ds moles w ik k else om.
Proof.
  unfold omega_bound, constrained, limit. cbv zeta. destruct (ds k).
  - destruct (rltb MAJOR (moles k) || (ik <? nel)%nat), (rltb (w k) 0); cbn [andb]; reflexivity.
  - destruct (rltb (w k) 0 && rltb 0 (moles k)); reflexivity.
Qed.
Lemma omega_max_bounds o ds moles w :
  (forall ik, (ik < nsp)%nat -> constrained ds moles w ik (o ik) = true -> 0 <= limit ds moles w ik (o ik)) ->
  let om := omega_max nel nsp o ds moles w in
  0 <= om /\ forall ik, (ik < nsp)%nat -> constrained ds moles w ik (o ik) = true -> om <= limit ds moles w ik (o ik).
Proof.
  intros L. cbv zeta. unfold omega_max.
  assert (G : forall n, (n <= nsp)%nat ->
     let om := fold_left (fun om ik => omega_bound nel ds moles w ik (o ik) om) (seq 0 n) 1 in
     0 <= om /\ forall ik, (ik < n)%nat -> constrained ds moles w ik (o ik) = true -> om <= limit ds moles w ik (o ik)).
  { induction n as [|n IH]; intros Hn; cbv zeta.
    - cbn. split; [lra|intros; lia].
    - rewrite seq_S, fold_left_app. cbn [fold_left plus]. destruct (IH ltac:(lia)) as [I1 I2].
      set (om := fold_left _ _ 1) in *. rewrite omega_bound_eq.
      destruct (constrained ds moles w n (o n)) eqn:C; cbn [andb].
      + destruct (rltb (limit ds moles w n (o n)) om) eqn:F.
        * apply rltb_true in F. split; [apply L; auto|]. intros ik Hik Ci.
          destruct (Nat.eq_dec ik n) as [->|]; [lra|]. specialize (I2 ik ltac:(lia) Ci). lra.
        * apply rltb_false in F. split; [auto|]. intros ik Hik Ci.
          destruct (Nat.eq_dec ik n) as [->|]; [lra|]. apply I2; auto; lia.
      + split; [auto|]. intros ik Hik Ci. destruct (Nat.eq_dec ik n) as [->|]; [congruence|]. apply I2; auto; lia. }
  apply (G nsp). lia.
Qed.

Lemma extents_free N x n : formed N -> (nel <= n < nsp)%nat -> extents nel nsp N x n = x (n - nel)%nat.
Proof.
  intros Fm Hn. unfold extents. rewrite (sum_n_single _ _ (n - nel)%nat).
  - rewrite Fm by auto. replace (n - nel + nel)%nat with n by lia. rewrite Nat.eqb_refl. ring.
  - unfold nFree. destruct (Nat.ltb_spec nel nsp); lia.
  - intros k Hk Hk'. rewrite Fm by auto. destruct (Nat.eqb_spec n (k + nel)); [lia|ring].
Qed.

(** Where the solver's own rules leave a species without moles, its change is not negative. *)
Lemma no_loss N o ds moles dG other ik : formed N -> ordering nsp o -> (ik < nsp)%nat ->
  moles (o ik) <= 0 -> (ik < nel)%nat \/ ds (o ik) = false ->
  0 <= extents nel nsp N (reaction_steps nel N o moles ds dG other) ik.
Proof.
  intros Fm P Hk Hm C. destruct (Nat.lt_ge_cases ik nel) as [LT|GE].
  - unfold extents, sum_n. apply sum_of_nonneg. intros j _. unfold reaction_steps. cbv zeta.
    match goal with |- context [existsb ?f ?l] => destruct (existsb f l) eqn:E end; [lra|].
    apply Rnot_lt_le. intros NEG. rewrite <- not_true_iff_false in E. apply E. apply existsb_exists.
    exists ik. split; [apply in_seq; lia|]. apply andb_true_iff. split.
    + apply negb_true_iff. apply rltb_false. auto.
    + apply rltb_true. auto.
  - destruct C as [C|C]; [lia|]. rewrite extents_free by (auto; lia). unfold reaction_steps. cbv zeta.
    replace (ik - nel + nel)%nat with ik by lia. rewrite C. cbn [negb].
    match goal with |- context [existsb ?f ?l] => destruct (existsb f l) end; [lra|].
    destruct (rltb 0 (moles (o ik))) eqn:F; [apply rltb_true in F; lra|]. cbn [negb andb].
    destruct (rltb 0 (dG (ik - nel)%nat)) eqn:Q; [lra|]. apply rltb_false in Q. lra.
Qed.

Lemma compose_spec N o ds dG other g0 g1 moles : formed N -> ordering nsp o ->
  exists om, 0 <= om <= 1 /\
  stepComposition nel nsp N o ds dG other g0 g1 moles
  = Some (step nel nsp o (majors nel nsp o ds moles) dG om
            (unsort nsp o (extents nel nsp N (reaction_steps nel N o moles ds dG other))) moles) /\
  forall k, (k < nsp)%nat -> Rmin 0 (moles k) <=
    step nel nsp o (majors nel nsp o ds moles) dG om
      (unsort nsp o (extents nel nsp N (reaction_steps nel N o moles ds dG other))) moles k.
Proof.
  intros Fm P. unfold stepComposition. cbv zeta.
  set (x := reaction_steps nel N o moles ds dG other). set (w := unsort nsp o (extents nel nsp N x)).
  assert (W : forall ik, (ik < nsp)%nat -> w (o ik) = extents nel nsp N x ik) by (intros; apply unsort_at; auto).
  assert (PosL : forall ik, (ik < nsp)%nat -> constrained ds moles w ik (o ik) = true ->
     0 < moles (o ik) /\ w (o ik) < 0 /\ 0 <= limit ds moles w ik (o ik)).
  { intros ik Hk C. assert (Q : 0 < moles (o ik) /\ w (o ik) < 0).
    { unfold constrained in C. destruct (ds (o ik)) eqn:D.
      - apply andb_true_iff in C as [C1 C2]. apply rltb_true in C2. split; [|auto].
        apply orb_true_iff in C1 as [C1|C1]; [apply rltb_true in C1; pose proof MAJOR_pos; lra|].
        apply Nat.ltb_lt in C1. apply Rnot_le_lt. intros Z.
        pose proof (no_loss N o ds moles dG other ik Fm P Hk Z (or_introl C1)). fold x in H. rewrite <- W in H by auto. lra.
      - apply andb_true_iff in C as [C1 C2]. apply rltb_true in C1, C2. auto. }
    destruct Q as [Q1 Q2]. do 2 (split; [auto|]). unfold limit. pose proof Tiny_pos.
    destruct (ds (o ik)).
    - apply Rmult_le_pos; [destruct (ik <? nel)%nat; nra|]. apply Rlt_le, Rinv_0_lt_compat.
      pose proof (Rabs_pos (w (o ik))). lra.
    - unfold Rdiv. assert (/ w (o ik) < 0) by (now apply Rinv_lt_0_compat). nra. }
  destruct (omega_max_bounds o ds moles w) as [O1 O2]; [intros; now apply PosL|].
  assert (O3 : omega_max nel nsp o ds moles w <= 1).
  { unfold omega_max. assert (G : forall l a, fold_left (fun om ik => omega_bound nel ds moles w ik (o ik) om) l a <= a).
    { induction l as [|b l IH]; intros a; cbn; [lra|]. eapply Rle_trans; [apply IH|].
      rewrite omega_bound_eq. destruct (constrained _ _ _ _ _); cbn [andb]; [|lra].
      match goal with |- context [if ?b then _ else _] => destruct b eqn:F end; [apply rltb_true in F|]; lra. }
    apply G. }
  set (om0 := omega_max nel nsp o ds moles w) in *.
  assert (LB : forall om, 0 <= om <= om0 -> forall k, (k < nsp)%nat ->
     Rmin 0 (moles k) <= step nel nsp o (majors nel nsp o ds moles) dG om w moles k).
  { intros om Hom k Hk. destruct (perm_surj nsp o k P Hk) as (ik & Hik & <-).
    rewrite step_at by auto. unfold new_moles. rewrite majors_at by auto.
    pose proof (Rmin_l 0 (moles (o ik))) as M1. pose proof (Rmin_r 0 (moles (o ik))) as M2.
    destruct ((ik <? nel)%nat || is_major nel ds moles ik (o ik)) eqn:E.
    - destruct (Rle_lt_dec 0 (w (o ik))) as [Wp|Wn]; [nra|].
      assert (C : constrained ds moles w ik (o ik) = true).
      { unfold constrained. assert (Wb : rltb (w (o ik)) 0 = true) by (now apply rltb_true). rewrite Wb.
        destruct (ds (o ik)) eqn:D.
        - rewrite andb_true_r. unfold is_major in E. rewrite D in E.
          destruct (ik <? nel)%nat; [apply orb_true_r|]. rewrite orb_false_r. cbn [orb] in E.
          now rewrite orb_false_r in E.
        - cbn [andb]. apply rltb_true. apply Rnot_le_lt. intros Z.
          pose proof (no_loss N o ds moles dG other ik Fm P Hik Z (or_intror D)). fold x in H. rewrite <- W in H by auto. lra. }
      destruct (PosL ik Hik C) as (Q1 & Q2 & Q3). specialize (O2 ik Hik C).
      assert (L : om <= limit ds moles w ik (o ik)) by lra.
      assert (G : - moles (o ik) <= om * w (o ik)); [|lra].
      unfold limit in L. destruct (ds (o ik)).
      + pose proof Tiny_pos. assert (AB : Rabs (w (o ik)) = - w (o ik)) by (now apply Rabs_left).
        rewrite AB in L. set (a := moles (o ik)) in *. set (b := - w (o ik)) in *.
        assert (Hb : 0 < b) by (unfold b; lra).
        assert (L2 : om * (b + Tiny) <= a).
        { apply Rle_trans with (a * (if (ik <? nel)%nat then 99 / 100 else 9 / 10)).
          - apply (Rmult_le_compat_r (b + Tiny)) in L; [|lra]. unfold Rdiv in L at 1.
            rewrite Rmult_assoc, Rinv_l, Rmult_1_r in L by lra. exact L.
          - destruct (ik <? nel)%nat; nra. }
        replace (w (o ik)) with (- b) by (unfold b; ring). nra.
      + assert (L2 : om * - w (o ik) <= moles (o ik)); [|lra].
        apply (Rmult_le_compat_r (- w (o ik))) in L; [|lra].
        replace (- moles (o ik) / w (o ik) * - w (o ik)) with (moles (o ik)) in L by (field; lra). exact L.
    - apply Rle_trans with 0; [auto|]. apply Rmult_le_pos; [apply Rabs_pos|].
      apply Rmin_glb; [lra|]. apply Rlt_le, exp_pos. }
  assert (N0 : rltb om0 0 = false) by (apply rltb_false; lra). rewrite N0.
  destruct (rltb 0 g1) eqn:G1.
  - apply rltb_true in G1. set (om2 := om0 * (Rabs g0 / (g1 + Rabs g0))).
    pose proof (Rabs_pos g0) as A0.
    assert (R1 : 0 <= Rabs g0 / (g1 + Rabs g0) <= 1).
    { split; [apply Rmult_le_pos; [auto|apply Rlt_le, Rinv_0_lt_compat; lra]|].
      apply (Rmult_le_reg_r (g1 + Rabs g0)); [lra|]. unfold Rdiv. rewrite Rmult_assoc, Rinv_l by lra. lra. }
    assert (B2 : 0 <= om2 <= om0) by (unfold om2; nra).
    assert (N2 : rltb om2 0 = false) by (apply rltb_false; lra). rewrite N2.
    exists om2. split; [lra|]. split; [auto|]. apply LB; auto.
  - exists om0. split; [lra|]. split; [auto|]. apply LB; lra.
Qed.

(** setInitialMoles. *)
Lemma run_reaction_at N o fwd moles j ik : ordering nsp o -> (ik < nsp)%nat ->
  run_reaction nsp N o fwd moles j (o ik)
  = moles (o ik) + N ik j * (if fwd j then 1 else -1) * max_extent nsp N o moles j (if fwd j then 1 else -1).
Proof.
  intros P Hk. unfold run_reaction. cbv zeta.
  apply (fold_upd nsp o (fun ik v => v + N ik j * (if fwd j then 1 else -1) * max_extent nsp N o moles j (if fwd j then 1 else -1)) moles P ik Hk).
Qed.
Lemma run_reaction_total N o fwd moles j m : ordering nsp o -> balanced N o -> (m < nel)%nat -> (j < nF)%nat ->
  total nsp at_ (run_reaction nsp N o fwd moles j) m = total nsp at_ moles m.
Proof.
  intros P B Hm Hj. rewrite !(total_order o) by auto.
  set (c := (if fwd j then 1 else -1) * max_extent nsp N o moles j (if fwd j then 1 else -1)).
  transitivity (sum_n (fun k => at_ (o k) m * moles (o k)) nsp + c * sum_n (fun k => at_ (o k) m * N k j) nsp).
  - unfold sum_n. rewrite <- sum_of_scal, <- sum_of_plus. apply sum_of_ext. intros k Hk. apply in_seq in Hk.
    rewrite run_reaction_at by (auto; lia). unfold c. ring.
  - rewrite B by auto. ring.
Qed.
Lemma max_extent_bounds N o moles j idir :
  0 <= max_extent nsp N o moles j idir /\
  forall ik, (ik < nsp)%nat -> N ik j * idir < 0 ->
    max_extent nsp N o moles j idir <= Rabs (99 / 100 * moles (o ik) / N ik j).
Proof.
  unfold max_extent.
  assert (G : forall n, (n <= nsp)%nat ->
    let d := fold_left (fun d ik => if rltb (N ik j * idir) 0 then Rmin d (Rabs (99 / 100 * moles (o ik) / N ik j)) else d) (seq 0 n) (10 ^ 10) in
    0 <= d /\ forall ik, (ik < n)%nat -> N ik j * idir < 0 -> d <= Rabs (99 / 100 * moles (o ik) / N ik j)).
  { induction n as [|n IH]; intros Hn; cbv zeta.
    - cbn [fold_left seq]. split; [apply pow_le; lra|intros; lia].
    - rewrite seq_S, fold_left_app. cbn [fold_left plus]. destruct (IH ltac:(lia)) as [I1 I2].
      set (d := fold_left _ _ (10 ^ 10)) in *.
      destruct (rltb (N n j * idir) 0) eqn:F.
      + split; [apply Rmin_glb; [auto|apply Rabs_pos]|]. intros ik Hik Ci.
        destruct (Nat.eq_dec ik n) as [->|]; [apply Rmin_r|]. eapply Rle_trans; [apply Rmin_l|]. apply I2; auto; lia.
      + apply rltb_false in F. split; [auto|]. intros ik Hik Ci.
        destruct (Nat.eq_dec ik n) as [->|]; [lra|]. apply I2; auto; lia. }
  apply (G nsp). lia.
Qed.
Lemma run_reaction_nonneg N o fwd moles j : ordering nsp o -> (forall k, (k < nsp)%nat -> 0 <= moles k) ->
  forall k, (k < nsp)%nat -> 0 <= run_reaction nsp N o fwd moles j k.
Proof.
  intros P H k Hk. destruct (perm_surj nsp o k P Hk) as (ik & Hik & <-). rewrite run_reaction_at by auto.
  set (idir := if fwd j then 1 else -1). destruct (max_extent_bounds N o moles j idir) as [D0 D1].
  set (d := max_extent nsp N o moles j idir) in *. specialize (H (o ik) Hk).
  destruct (Rlt_le_dec (N ik j * idir) 0) as [NEG|NN]; [|nra].
  specialize (D1 ik Hik NEG).
  assert (A1 : Rabs (N ik j * idir) = Rabs (N ik j)).
  { rewrite Rabs_mult. unfold idir. destruct (fwd j); [rewrite Rabs_R1; ring|].
    replace (Rabs (-1)) with 1; [ring|]. rewrite Rabs_left; lra. }
  assert (NZ : N ik j <> 0). { intros Z. rewrite Z in NEG. lra. }
  assert (B : Rabs (N ik j) * d <= 99 / 100 * moles (o ik)).
  { apply Rle_trans with (Rabs (N ik j) * Rabs (99 / 100 * moles (o ik) / N ik j)).
    - apply Rmult_le_compat_l; [apply Rabs_pos|auto].
    - rewrite <- Rabs_mult. replace (N ik j * (99 / 100 * moles (o ik) / N ik j)) with (99 / 100 * moles (o ik)) by (field; auto).
      rewrite Rabs_right; lra. }
  rewrite <- A1, (Rabs_left (N ik j * idir)) in B by auto. lra.
Qed.
End S.
