From Coq Require Import Reals String List Bool Arith Lia Lra.
From Verif Require Import Base.Fp Base.Outcome Base.RSum Base.Map2 Units.Model Units.Proofs Surf.Model Surf.Spec.
From Verif Require Import IdealGas.Proofs.
Import ListNotations.
Local Open Scope list_scope.
Local Open Scope R_scope.

Lemma nth_map0 (f : R -> R) l k : (k < length l)%nat -> nth k (map f l) 0 = f (nth k l 0).
Proof. intros K. rewrite (nth_indep _ 0 (f 0)) by (rewrite map_length; auto). apply map_nth. Qed.
Lemma rsum_map_nth (f : R -> R) l : rsum (map f l) = sum_n (fun k => f (nth k l 0)) (length l).
Proof. rewrite rsum_nth, map_length. apply sum_n_ext. intros. apply nth_map0; auto. Qed.
Lemma nth_map2 (f : R -> R -> R) a b k : length a = length b -> (k < length b)%nat -> nth k (map2 f a b) 0 = f (nth k a 0) (nth k b 0).
Proof. intros L K. apply (map2_nth f 0 0 0); auto; lia. Qed.
Lemma rsum_map2_nth (f : R -> R -> R) a b : length a = length b -> rsum (map2 f a b) = sum_n (fun k => f (nth k a 0) (nth k b 0)) (length b).
Proof. intros L. rewrite rsum_nth, map2_length by auto. apply sum_n_ext. intros. apply nth_map2; auto. Qed.
Lemma sum_n_nonneg f n : (forall k, (k < n)%nat -> 0 <= f k) -> 0 <= sum_n f n.
Proof. intros H. apply sum_of_nonneg. intros y Y. apply in_seq in Y. apply H. lia. Qed.
Lemma sum_n_pos1 f n k : (k < n)%nat -> (forall k, (k < n)%nat -> 0 <= f k) -> 0 < f k -> 0 < sum_n f n.
Proof.
  intros K H P. apply (sum_of_pos f (seq 0 n) k); [|apply in_seq; lia|exact P]. intros y Y. apply in_seq in Y. apply H. lia.
Qed.
(* A positive sum has a positive term. *)
Lemma sum_n_pos_inv f n : 0 < sum_n f n -> exists k, (k < n)%nat /\ 0 < f k.
Proof.
  induction n; intros H; [unfold sum_n, sum_of, rsum in H; cbn in H; lra|]. rewrite sum_n_S in H.
  destruct (Rlt_dec 0 (f n)); [exists n; auto|]. destruct IHn as (k & K & P); [lra|exists k; auto].
Qed.

Section Surf.
Context (mw sz : list R) (HM : positive mw) (HS : positive sz) (L : length sz = length mw).
Notation K := (length mw).
Definition pos (l : list R) (k : nat) : R := Rmax (nth k l 0) 0.
Lemma pos_nonneg l k : 0 <= pos l k.
Proof. apply Rmax_r. Qed.
Lemma pos_pos l k : 0 < nth k l 0 -> 0 < pos l k.
Proof. intros. unfold pos. rewrite Rmax_left; lra. Qed.
Definition wpos (x : list R) : R := sum_n (fun k => nth k mw 0 * pos x k) K.
Definition npos (x : list R) : R := sum_n (pos x) K.

(* setMoleFractions with something positive. *)
Lemma setX_ok s x : length x = K -> 0 < vN0 s -> (exists k, (k < K)%nat /\ 0 < nth k x 0) ->
  setMoleFractions mw s x = (Ok tt, SST (vT s) (vN0 s) (vLogN0 s) (map (fun v => v * (1 / wpos x)) (map (fun v => Rmax v 0) x)) (wpos x / npos x) (vN0 s * (wpos x / npos x)) (vP s) false)
  /\ 0 < wpos x /\ 0 < npos x.
Proof.
  intros LX N0 (k & HK & P).
  assert (W : 0 < wpos x).
  { apply sum_n_pos1 with k; auto; [intros; apply Rmult_le_pos; [apply Rlt_le, HM; auto|apply pos_nonneg]|]. apply Rmult_lt_0_compat; [apply HM; auto|apply pos_pos; auto]. }
  assert (N : 0 < npos x) by (apply sum_n_pos1 with k; auto; [intros; apply pos_nonneg|apply pos_pos; auto]).
  split; [|auto]. unfold setMoleFractions.
  assert (E1 : rsum (map2 Rmult mw (map (fun v => Rmax v 0) x)) = wpos x).
  { rewrite rsum_map2_nth by (rewrite map_length; auto). rewrite map_length, LX. apply sum_n_ext. intros j J. rewrite nth_map0 by lia. reflexivity. }
  assert (E2 : rsum (map (fun v => Rmax v 0) x) = npos x) by (rewrite rsum_map_nth, LX; reflexivity).
  rewrite E1, E2. rewrite (proj2 (reqb_false _ _)) by lra. rewrite (proj2 (reqb_false (npos x) _)) by lra. cbn [orb].
  unfold compositionChanged, with_comp, assignDensity. cbn.
  rewrite (proj2 (rltb_true _ _)); [reflexivity|]. apply Rmult_lt_0_compat; auto. apply Rdiv_lt_0_compat; auto.
Qed.
Lemma X_after x T n l d p k : length x = K -> (k < K)%nat -> 0 < wpos x -> 0 < npos x ->
  X (SST T n l (map (fun v => v * (1 / wpos x)) (map (fun v => Rmax v 0) x)) (wpos x / npos x) d p false) k = pos x k / npos x.
Proof.
  intros LX HK W N. unfold X, getMoleFractions. cbn. rewrite map_map, map_map. rewrite nth_map0 by lia. fold (pos x k). field. lra.
Qed.
Lemma surface_after s x : surface K s -> length x = K -> 0 < wpos x -> 0 < npos x ->
  surface K (SST (vT s) (vN0 s) (vLogN0 s) (map (fun v => v * (1 / wpos x)) (map (fun v => Rmax v 0) x)) (wpos x / npos x) (vN0 s * (wpos x / npos x)) (vP s) false).
Proof.
  intros [A B C D E F] LX W N. split; cbn; auto.
  - apply Rdiv_lt_0_compat; auto.
  - rewrite !map_length. auto.
Qed.

(* Composition of a consistent surface. *)
Lemma X_len s : surface K s -> length (getMoleFractions s) = K.
Proof. intros S. unfold getMoleFractions. rewrite map_length. apply S. Qed.
Lemma C_X s k : surface K s -> (k < K)%nat -> C s k = vN0 s * X s k.
Proof.
  intros S HK. unfold C, X, getConcentrations, getMoleFractions. rewrite !nth_map0 by (rewrite (f_len K s S); auto). rewrite (f_D K s S). ring.
Qed.
Lemma coverage_nth s k : surface K s -> (k < K)%nat ->
  nth k (getCoverages sz s) 0 = X s k * (nth k sz 0 * sum_n (X s) K / sum_n (fun j => X s j * nth j sz 0) K).
Proof.
  intros S HK. unfold getCoverages. pose proof (X_len s S) as LX.
  rewrite nth_map2 by lia. rewrite (rsum_nth (getMoleFractions s)), LX. rewrite rsum_map2_nth by lia. rewrite L. reflexivity.
Qed.

(* Coverages. *)
Lemma setCov_X s theta : surface K s -> length theta = K -> 0 < rsum (map2 Rdiv theta sz) ->
  exists s', setCoverages mw sz s theta = (Ok tt, s') /\ surface K s' /\ same_but_composition s s' /\
    let c := sum_n (fun j => pos theta j / nth j sz 0) K in
    0 < c /\ forall k, (k < K)%nat -> X s' k = pos theta k / nth k sz 0 / c.
Proof.
  intros S LT P. unfold setCoverages. rewrite (proj2 (rltb_true _ _) P).
  set (sum := rsum (map2 Rdiv theta sz)) in *. set (x := map2 (fun t z => t / (sum * z)) theta sz).
  assert (LX : length x = K) by (unfold x; rewrite map2_length; lia).
  assert (XN : forall k, (k < K)%nat -> nth k x 0 = nth k theta 0 / nth k sz 0 / sum).
  { intros k HK. unfold x. rewrite nth_map2 by lia. pose proof (HS k ltac:(lia)). field. lra. }
  assert (XP : forall k, (k < K)%nat -> pos x k = pos theta k / nth k sz 0 / sum).
  { intros k HK. unfold pos. rewrite XN by auto. pose proof (HS k ltac:(lia)) as Z.
    replace (nth k theta 0 / nth k sz 0 / sum) with (/ (nth k sz 0 * sum) * nth k theta 0) by (field; lra).
    replace (Rmax (nth k theta 0) 0 / nth k sz 0 / sum) with (/ (nth k sz 0 * sum) * Rmax (nth k theta 0) 0) by (field; lra).
    rewrite <- RmaxRmult by (apply Rlt_le, Rinv_0_lt_compat; nra). rewrite Rmult_0_r. reflexivity. }
  destruct (sum_n_pos_inv (fun k => nth k theta 0 / nth k sz 0) K) as (k0 & K0 & P0).
  { unfold sum in P. rewrite rsum_map2_nth in P by lia. rewrite L in P. exact P. }
  destruct (setX_ok s x LX (f_n0 K s S)) as (E & W & N).
  { exists k0. split; auto. rewrite XN by auto. apply Rdiv_lt_0_compat; auto. }
  rewrite E. eexists. split; [reflexivity|]. split; [apply surface_after; auto|]. split; [repeat split|].
  cbv zeta. set (c := sum_n (fun j => pos theta j / nth j sz 0) K). assert (NC : npos x = c / sum).
  { unfold npos, c. unfold Rdiv. rewrite <- sum_n_scal_r. apply sum_n_ext. intros. rewrite XP by auto. reflexivity. }
  assert (CP : 0 < c). { apply (Rmult_lt_reg_r (/ sum)); [apply Rinv_0_lt_compat; auto|]. rewrite Rmult_0_l. change (0 < c / sum). rewrite <- NC. exact N. }
  split; [exact CP|]. intros k HK. rewrite X_after by auto. rewrite XP by auto. rewrite NC. pose proof (HS k ltac:(lia)). field. lra.
Qed.
Lemma cov_of_X s theta c : surface K s -> 0 < c -> (forall k, (k < K)%nat -> X s k = theta k / nth k sz 0 / c) ->
  c = sum_n (fun j => theta j / nth j sz 0) K -> 0 < sum_n theta K ->
  forall k, (k < K)%nat -> nth k (getCoverages sz s) 0 = theta k / sum_n theta K.
Proof.
  intros S CP HX EC TP k HK. rewrite coverage_nth by auto.
  assert (SX : sum_n (X s) K = 1).
  { rewrite (sum_n_ext _ (fun j => theta j / nth j sz 0 * / c)) by (intros; rewrite HX by auto; reflexivity). rewrite sum_n_scal_r, <- EC. apply Rinv_r. lra. }
  assert (SS : sum_n (fun j => X s j * nth j sz 0) K = sum_n theta K / c).
  { unfold Rdiv at 1. rewrite <- sum_n_scal_r. apply sum_n_ext. intros j J. rewrite HX by auto. pose proof (HS j ltac:(lia)). field. lra. }
  rewrite SX, SS, HX by auto. pose proof (HS k ltac:(lia)). field. lra.
Qed.
Lemma positive_part theta : length theta = K -> 0 < rsum (map2 Rdiv theta sz) -> 0 < sum_n (pos theta) K.
Proof.
  intros LT P. rewrite rsum_map2_nth in P by lia. rewrite L in P. destruct (sum_n_pos_inv _ _ P) as (k & HK & Q).
  apply sum_n_pos1 with k; auto; [intros; apply pos_nonneg|]. apply pos_pos. pose proof (HS k ltac:(lia)) as Z.
  apply (Rmult_lt_reg_r (/ nth k sz 0)); [apply Rinv_0_lt_compat; auto|]. rewrite Rmult_0_l. exact Q.
Qed.

(* Not normalised. *)
Lemma setCovNN s theta s' : surface K s -> length theta = K -> setCoveragesNoNorm mw sz s theta = (Ok tt, s') ->
  surface K s' /\ same_but_composition s s' /\ let c := sum_n (fun j => nth j theta 0 / nth j sz 0) K in
  0 < c /\ sum_n (fun j => nth j theta 0) K <> 0 /\
  forall k, (k < K)%nat -> X s' k = nth k theta 0 * sum_n (fun j => nth j theta 0) K / nth k sz 0 / c.
Proof.
  intros S LT H. unfold setCoveragesNoNorm in H. destruct (rltb 0 (rsum (map2 Rdiv theta sz))) eqn:P; [|discriminate H]. apply rltb_true in P.
  set (sum := rsum (map2 Rdiv theta sz)) in *. set (x := map2 (fun t z => t * rsum theta / (sum * z)) theta sz) in *.
  assert (LX : length x = K) by (unfold x; rewrite map2_length; lia).
  assert (ES : sum = sum_n (fun j => nth j theta 0 / nth j sz 0) K) by (unfold sum; rewrite rsum_map2_nth by lia; rewrite L; reflexivity).
  assert (ET : rsum theta = sum_n (fun j => nth j theta 0) K) by (rewrite rsum_nth, LT; reflexivity).
  unfold setMoleFractions_NoNorm, compositionChanged, with_comp, assignDensity in H. cbn [vNaN vN0 vW] in H.
  destruct (reqb (rsum (map2 Rmult x mw)) 0) eqn:Z; [discriminate H|]. apply reqb_false in Z.
  destruct (rltb 0 (vN0 s * rsum (map2 Rmult x mw))) eqn:Q; [|discriminate H]. apply rltb_true in Q.
  set (m := rsum (map2 Rmult x mw)) in *. cbn in H. injection H as <-.
  pose proof (f_n0 K s S) as N0. assert (MP : 0 < m) by nra.
  assert (XN : forall k, (k < K)%nat -> nth k x 0 = nth k theta 0 * rsum theta / nth k sz 0 / sum).
  { intros k HK. unfold x. rewrite nth_map2 by lia. pose proof (HS k ltac:(lia)). field. lra. }
  split; [|split; [repeat split|split; [|split]]].
  - split; cbn; auto; [rewrite map_length; auto|apply S].
  - rewrite <- ES. exact P.
  - rewrite <- ET. intros E0. apply Z. unfold m. rewrite rsum_map2_nth by lia.
    rewrite (sum_n_ext _ (fun _ => 0 * 0)).
    + rewrite sum_n_scal. ring.
    + intros j J. rewrite XN by auto. rewrite E0. unfold Rdiv. ring.
  - intros k HK. unfold X, getMoleFractions. cbn. rewrite map_map, nth_map0 by lia. rewrite XN by auto. rewrite <- ES, <- ET.
    pose proof (HS k ltac:(lia)). field. lra.
Qed.

(* Every call keeps the surface consistent, or throws. *)
Lemma step_surface s o r s' : surface K s -> fits K o -> sstep mw sz s o = (r, s') -> r = Ok tt \/ writes o = false -> surface K s'.
Proof.
  intros S F H R. assert (SX : forall x, length x = K -> setMoleFractions mw s x = (Ok tt, s') -> surface K s').
  { intros x LX E. destruct (existsb (fun v => rltb 0 v) x) eqn:EX.
    - apply existsb_exists in EX as (v & V & P). apply rltb_true in P. apply (In_nth _ _ 0) in V as (k & HK & <-).
      destruct (setX_ok s x LX (f_n0 K s S)) as (E2 & W & N); [exists k; rewrite <- LX; auto|]. rewrite E2 in E. injection E as <-. apply surface_after; auto.
    - exfalso. unfold setMoleFractions, compositionChanged, with_comp in E. cbn [vNaN] in E.
      assert (Z : rsum (map (fun v => Rmax v 0) x) = 0).
      { rewrite rsum_map_nth. rewrite (sum_n_ext _ (fun _ => 0 * 0)); [rewrite sum_n_scal; ring|]. intros j J.
        rewrite Rmax_right; [ring|]. assert (A : rltb 0 (nth j x 0) = false).
        { destruct (rltb 0 (nth j x 0)) eqn:B; auto. rewrite <- EX. symmetry. apply existsb_exists. exists (nth j x 0). split; auto. apply nth_In; auto. }
        apply rltb_false in A. exact A. }
      rewrite Z in E. rewrite (proj2 (reqb_true 0 0) eq_refl), orb_true_r in E. discriminate E. }
  assert (SC : forall t, length t = K -> setCoverages mw sz s t = (Ok tt, s') -> surface K s').
  { intros t LT E. pose proof E as E0. unfold setCoverages in E0. destruct (rltb 0 (rsum (map2 Rdiv t sz))) eqn:P; [|discriminate E0].
    apply rltb_true in P. destruct (setCov_X s t S LT P) as (s2 & E2 & S2 & _). congruence. }
  destruct o; cbn [sstep writes fits] in *; try (destruct R as [->|R]; [|discriminate R]).
  - unfold setSiteDensity, assignDensity in H. destruct (rltb 0 n) eqn:N; [|discriminate H]. apply rltb_true in N. cbn in H.
    destruct (rltb 0 (n * vW s)) eqn:Q; cbn in H; [|discriminate H]. rewrite (f_nan K s S) in H. injection H as <-.
    destruct S as [A B C D E G]. split; cbn; auto. intros l Hl. congruence.
  - apply (SC t); auto.
  - apply (setCovNN s t s' S F H).
  - unfold setCoveragesByName in H. destruct (existsb _ _); [|discriminate H]. eapply SC; [|exact H]. rewrite !map_length. exact F.
  - apply (SX x); auto.
  - unfold setTemperature in H. destruct (rltb 0 t); injection H as _ <-; auto. destruct S; split; auto.
  - unfold setPressure in H. injection H as _ <-. destruct S; split; auto.
  - injection H as _ <-. auto.
  - injection H as _ <-. auto.
Qed.
Lemma calls_surface h : forall s l s', surface K s -> Forall (fits K) h -> calls mw sz s h = (l, s') ->
  (forall i o, nth_error h i = Some o -> writes o = true -> nth_error l i = Some (Ok tt)) -> surface K s'.
Proof.
  induction h as [|o h IH]; intros s l s' SS F H W; cbn in H.
  - injection H as _ <-. exact SS.
  - destruct (sstep mw sz s o) as [r s1] eqn:E1. destruct (calls mw sz s1 h) as [l2 s2] eqn:E2. injection H as <- <-. inversion F; subst.
    apply (IH s1 l2 s2); auto.
    + apply (step_surface s o r s1); auto. destruct (writes o) eqn:WO; auto. left. specialize (W 0%nat o eq_refl WO). cbn in W. congruence.
    + intros i o' N. apply (W (S i) o' N).
Qed.
Lemma new_surface t : (0 < K)%nat -> surface K (new_phase mw sz t) /\ forall k, (k < K)%nat -> X (new_phase mw sz t) k = if Nat.eqb k 0 then 1 else 0.
Proof.
  intros KP. unfold new_phase. destruct mw as [|w ws] eqn:EM; [cbn in KP; lia|]. rewrite <- EM in *.
  set (th := 1 :: repeat 0 (length mw - 1)). assert (LT : length th = K) by (unfold th; cbn; rewrite repeat_length; lia).
  assert (TH : forall k, nth k th 0 = if Nat.eqb k 0 then 1 else 0) by (intros [|k]; cbn; auto; apply nth_repeat).
  assert (P : 0 < rsum (map2 Rdiv th sz)).
  { rewrite rsum_map2_nth by lia. rewrite L. apply sum_n_pos1 with 0%nat; auto.
    - intros k HK. rewrite TH. pose proof (HS k ltac:(lia)). destruct (Nat.eqb k 0); [apply Rlt_le, Rdiv_lt_0_compat; lra|unfold Rdiv; lra].
    - rewrite TH. cbn. apply Rdiv_lt_0_compat; [lra|apply HS; lia]. }
  (* same steps as setCov_X, from a state without composition *)
  set (st0 := SST t 1 None [] 0 0 OneAtm true).
  unfold setCoverages. rewrite (proj2 (rltb_true _ _) P). set (sum := rsum (map2 Rdiv th sz)) in *. set (x := map2 (fun t z => t / (sum * z)) th sz).
  assert (LX : length x = K) by (unfold x; rewrite map2_length; lia).
  assert (XN : forall k, (k < K)%nat -> nth k x 0 = if Nat.eqb k 0 then / (sum * nth 0 sz 0) else 0).
  { intros k HK. unfold x. rewrite nth_map2 by lia. rewrite TH. destruct (Nat.eqb_spec k 0); subst; unfold Rdiv; ring. }
  assert (Z : 0 < / (sum * nth 0 sz 0)) by (apply Rinv_0_lt_compat, Rmult_lt_0_compat; auto; apply HS; lia).
  destruct (setX_ok st0 x LX) as (E & W & N); [cbn; lra|exists 0%nat; split; auto; rewrite XN by auto; exact Z|]. rewrite E. cbn [snd].
  split.
  - split; cbn; auto; try lra; [apply Rdiv_lt_0_compat; auto|rewrite !map_length; auto|discriminate].
  - intros k HK. rewrite X_after by auto.
    assert (PX : forall k, (k < K)%nat -> pos x k = if Nat.eqb k 0 then / (sum * nth 0 sz 0) else 0).
    { intros j J. unfold pos. rewrite XN by auto. destruct (Nat.eqb j 0); [rewrite Rmax_left; lra|rewrite Rmax_left; lra]. }
    assert (NE : npos x = / (sum * nth 0 sz 0)).
    { unfold npos. rewrite (sum_n_single _ _ 0%nat); auto; [rewrite PX; auto|]. intros j J NJ. rewrite PX by auto. destruct (Nat.eqb_spec j 0); [contradiction|auto]. }
    rewrite PX, NE by auto. destruct (Nat.eqb k 0); [apply Rinv_r; lra|unfold Rdiv; ring].
Qed.
End Surf.
