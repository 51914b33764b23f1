(* C27: grid refinement. *)
From Coq Require Import Reals ZArith List Bool Arith Lia Lra.
From Verif Require Import Base.Outcome Base.Fp Base.Map2 OneD.RefineModel OneD.RefineSpec OneD.RefineProofs.
Import ListNotations.
Local Open Scope list_scope.
Local Open Scope R_scope.

(* ---------------------------------------------------------------- *)
Section Decide.
  Context (s : sim1) (n : nat) (d : rdom) (r : refiner).
  Context (N2 : (2 <= np d)%nat) (A : analyze d (s_x s) (dstart (s_dom s) n) = Ok r).
  Lemma r_eq : r = analysis (g_crit d) (np d) (g_nv d) (zat d) (value_at (s_x s) (dstart (s_dom s) n) d) (g_active d) (protects d).
  Proof. unfold analyze in A. destruct (c_npmax (g_crit d) <=? np d)%nat; [discriminate|]. destruct (Nat.leb_spec (np d) 1); [lia|]. injection A as <-. reflexivity. Qed.
  Lemma ins_wants j : newPointNeeded r j = true <-> wants s n d j.
  Proof. rewrite r_eq. apply analysis_ins. exact N2. Qed.
  Lemma required_special j :
    required (g_crit d) (np d) (zat d) (value_at (s_x s) (dstart (s_dom s) n) d) (used (g_nv d) (g_active d)) (special (protects d)) j <->
    required (g_crit d) (length (g_z d)) (coordinate d) (value_of s n d) (counts d) (special_at d) j.
  Proof.
    pose proof (protects_special d (zat d j)) as P. unfold required, special. 
    change (zat d) with (coordinate d) in *. change (np d) with (length (g_z d)). change (value_at (s_x s) (dstart (s_dom s) n) d) with (value_of s n d).
    change (used (g_nv d) (g_active d)) with (counts d). rewrite P. reflexivity.
  Qed.
  Lemma keep_removes j : keepPoint r j = false <-> removes s n d j.
  Proof.
    induction j as [|j IH].
    - split; [|intros []]. rewrite r_eq. intro K. apply analysis_keep in K; [|exact N2]. destruct K as (_ & K & _). apply K. left. reflexivity.
    - rewrite r_eq. rewrite analysis_keep by exact N2. rewrite <- r_eq. cbn [Nat.sub]. rewrite Nat.sub_0_r.
      change (removes s n d (S j)) with (idle (g_crit d) (length (g_z d)) (coordinate d) (value_of s n d) (counts d) (S j) /\
        ~ required (g_crit d) (length (g_z d)) (coordinate d) (value_of s n d) (counts d) (special_at d) (S j) /\ ~ removes s n d j).
      rewrite required_special, <- IH. destruct (keepPoint r j); intuition congruence.
  Qed.
End Decide.

(* C27: which points the refined grid has, exactly. *)
Theorem C27_points : forall s k s' n d, wellformed s -> refine s = (Ok k, s') -> nth_error (s_dom s) n = Some d -> (2 <= length (g_z d))%nat ->
  forall q, In q (points s' n) <->
    (exists j, (j < length (g_z d))%nat /\ ~ removes s n d j /\ q = nth j (points s n) (0, [])) \/
    (exists j, (j + 1 < length (g_z d))%nat /\ ~ removes s n d j /\ wants s n d j /\ q = midpoint (nth j (points s n) (0, [])) (nth (j + 1) (points s n) (0, []))).
Proof.
  intros s k s' n d W H N N2 q. destruct (refine_domain s k s' n d W H N) as (r & d' & A & _ & P & _). rewrite P, (points_dpts s n d N).
  set (start := dstart (s_dom s) n) in *.
  assert (Pt : forall j, (j < np d)%nat -> nth j (dpts (s_x s) start d) (0, []) = pt_at (s_x s) start d j).
  { intros j Hj. unfold dpts. rewrite (nth_indep _ _ (pt_at (s_x s) start d 0)) by (rewrite map_length, seq_length; exact Hj).
    rewrite map_nth, seq_nth by exact Hj. reflexivity. }
  unfold new_points. rewrite in_flat_map. split.
  - intros (j & Hj & Hq). apply in_seq in Hj. unfold new_points_at in Hq. destruct (keepPoint r j) eqn:K; [|destruct Hq].
    assert (Rm : ~ removes s n d j) by (intro X; apply (keep_removes s n d r N2 A) in X; congruence).
    destruct Hq as [<-|Hq].
    + left. exists j. split; [unfold np in *; lia|]. split; [exact Rm|]. rewrite Pt by lia. reflexivity.
    + right. destruct (newPointNeeded r j) eqn:I; [|destruct Hq]. destruct (Nat.ltb_spec (S j) (np d)) as [L|]; [|destruct Hq]. destruct Hq as [<-|[]].
      exists j. rewrite Nat.add_1_r. split; [exact L|]. split; [exact Rm|]. split; [apply (ins_wants s n d r N2 A); exact I|]. rewrite !Pt by lia. apply mid_point.
  - intros [(j & Hj & Rm & ->)|(j & Hj & Rm & Wt & ->)].
    + exists j. split; [apply in_seq; unfold np; lia|]. unfold new_points_at.
      destruct (keepPoint r j) eqn:K; [|exfalso; apply Rm; apply (keep_removes s n d r N2 A); exact K]. left. rewrite Pt by exact Hj. reflexivity.
    + rewrite Nat.add_1_r in *. exists j. split; [apply in_seq; unfold np; lia|]. unfold new_points_at.
      destruct (keepPoint r j) eqn:K; [|exfalso; apply Rm; apply (keep_removes s n d r N2 A); exact K]. right.
      apply (ins_wants s n d r N2 A) in Wt. rewrite Wt. destruct (Nat.ltb_spec (S j) (np d)) as [L|L]; [|unfold np in L; lia]. left. rewrite !Pt by (unfold np in *; lia). apply mid_point.
Qed.
Print Assumptions C27_points.

(* C27: the shape of the refined grid; the simulation stays well formed. *)
Theorem C27_refine : forall s k s', wellformed s -> refine s = (Ok k, s') ->
  wellformed s' /\ (k = 0 \/ k = 1)%Z /\ length (s_dom s') = length (s_dom s) /\
  forall n d, nth_error (s_dom s) n = Some d ->
    (exists d', nth_error (s_dom s') n = Some d' /\ same_domain d d') /\
    increasing (points s' n) /\
    forall h, spaced h (points s n) ->
      spaced (Rmin (c_gridmin (g_crit d)) h) (points s' n) /\
      refines (fun a b => 2 * Rmin (c_gridmin (g_crit d)) h <= fst b - fst a) (fun b => 0 < c_prune (g_crit d) /\ ~ special_at d (fst b)) (points s n) (points s' n).
Proof.
  intros s k s' W H. split; [exact (refine_wf s k s' W H)|]. split; [|split; [apply (refine_shape s k s' W H)|]].
  { destruct (refine_ok s k s' W H) as (ds & pts & a & b & _ & _ & ->). match goal with |- context [if ?b then _ else _] => destruct b end; auto. }
  intros n d N. destruct (refine_domain s k s' n d W H N) as (r & d' & A & N' & P & E).
  pose proof W as (W0 & W1). destruct (W1 n d N) as (Z & I & Sn & K0).
  split; [exists d'; split; [exact N'|]; rewrite E; repeat split; reflexivity|].
  assert (X : forall h, spaced h (points s n) -> refines (fun a b => 2 * Rmin (c_gridmin (g_crit d)) h <= fst b - fst a) (fun b => 0 < c_prune (g_crit d) /\ ~ special_at d (fst b)) (points s n) (points s' n)).
  { intros h Sp. rewrite P, (points_dpts s n d N). rewrite (points_dpts s n d N) in I, Sp. apply domain_refines; try assumption. apply np_pos. exact Z. }
  split.
  - destruct (spaced_ex _ I) as (h & Sp). exact (refines_increasing _ _ _ _ (X h Sp) I).
  - intros h Sp. split; [|apply X; exact Sp]. eapply refines_spaced; [| |apply X; exact Sp|exact I|exact Sp]; [apply Rmin_r|]. auto.
Qed.
Print Assumptions C27_refine.

(* C27: refinement throws only at the limit on the number of points; then grids and solution are
   as before. *)
Theorem C27_total : forall s, wellformed s ->
  match refine s with
  | (Ok _, _) => True
  | (o, s') => o = Err /\ s_x s' = s_x s /\ (forall n, points s' n = points s n) /\
      exists n d, nth_error (s_dom s) n = Some d /\ (c_npmax (g_crit d) <= length (g_z d))%nat
  end.
Proof.
  intros s W. destruct (refine s) as [o s'] eqn:E. destruct o; [exact I| | |];
  (destruct (refine_err s _ s' W E ltac:(intros; discriminate)) as (A & B & C & D & _); split; [exact A|]; split; [exact C|]; split; [exact D|exact B]).
Qed.
Print Assumptions C27_total.
Theorem C27_succeeds : forall s, wellformed s -> (forall n d, nth_error (s_dom s) n = Some d -> (length (g_z d) < c_npmax (g_crit d))%nat) ->
  exists k s', refine s = (Ok k, s').
Proof. intros s W H. apply refine_total; assumption. Qed.
Print Assumptions C27_succeeds.

(* C27: the first and the last point, special points and, without pruning, all points stay with
   their values; every new point is the middle of two neighbours; numbers of points. *)
Theorem C27_kept : forall s k s' n d, wellformed s -> refine s = (Ok k, s') -> nth_error (s_dom s) n = Some d ->
  hd_error (points s' n) = hd_error (points s n) /\
  (forall u, last (points s' n) u = last (points s n) u) /\
  (forall q, In q (points s n) -> special_at d (fst q) \/ c_prune (g_crit d) <= 0 -> In q (points s' n)) /\
  (forall q, In q (points s' n) -> In q (points s n) \/ exists a b, neighbours (points s n) a b /\ q = midpoint a b) /\
  (length (points s' n) <= 2 * length (points s n) - 1 /\ length (points s n) <= 2 * length (points s' n) - 1)%nat.
Proof.
  intros s k s' n d W H N. destruct (C27_refine s k s' W H) as (_ & _ & _ & X). destruct (X n d N) as (_ & _ & Y).
  pose proof W as (W0 & W1). destruct (W1 n d N) as (Z & I & Sn & K0). destruct (spaced_ex _ I) as (h & Sp). destruct (Y h Sp) as (_ & Rf).
  split; [destruct (refines_hd _ _ _ _ Rf) as (x & t & t' & -> & ->); reflexivity|].
  split; [intro u; exact (refines_last _ _ _ _ Rf u)|].
  split; [|split; [|exact (refines_length _ _ _ _ Rf)]].
  - intros q Hq C. destruct (refines_kept _ _ _ _ Rf q Hq) as [V|(P & V)]; [exact V|]. destruct C as [C|C]; [contradiction|lra].
  - intros q Hq. destruct (refines_points _ _ _ _ Rf q Hq) as [V|(l1 & a & b & l2 & E & _ & V)]; [left; exact V|]. right. exists a, b. split; [exists l1, l2; exact E|exact V].
Qed.
Print Assumptions C27_kept.

(* C27: when the result is zero nothing has changed and no criterion asks for a point; adjacent
   intervals do not differ by more than the ratio, and components do not change by more than
   allowed between points that are not already too close. *)
Theorem C27_done : forall s s', wellformed s -> refine s = (Ok 0%Z, s') ->
  s_x s' = s_x s /\ (forall n, points s' n = points s n) /\
  forall n d, nth_error (s_dom s) n = Some d -> (2 <= length (g_z d))%nat ->
    (forall j, ~ wants s n d j /\ ~ removes s n d j) /\
    (forall j, (j + 2 < length (g_z d))%nat ->
       gap (coordinate d) (j + 1) <= c_ratio (g_crit d) * gap (coordinate d) j /\ gap (coordinate d) j <= c_ratio (g_crit d) * gap (coordinate d) (j + 1)) /\
    (forall i j lo hi, counts d i -> (j + 1 < length (g_z d))%nat -> spans (map (value_of s n d i) (seq 0 (length (g_z d)))) lo hi ->
       varies (c_range (g_crit d)) lo hi -> 2 * c_gridmin (g_crit d) <= gap (coordinate d) j ->
       Rabs (value_of s n d i (j + 1) - value_of s n d i j) <= c_slope (g_crit d) * (hi - lo) + c_thresh (g_crit d)).
Proof.
  intros s s' W H. destruct (refine_zero s s' W H) as (A & B & C). split; [exact A|]. split; [exact B|]. intros n d N N2.
  destruct (refine_domain s _ s' n d W H N) as (r & d' & An & _). destruct (C n d r N An) as (C1 & C2).
  assert (Nw : forall j, ~ wants s n d j).
  { intros j X. apply (ins_wants s n d r N2 An) in X. unfold newPointNeeded in X. rewrite C1 in X. discriminate. }
  split; [|split].
  - intro j. split; [apply Nw|]. intro X. apply (keep_removes s n d r N2 An) in X.
    destruct (Nat.lt_ge_cases j (np d)) as [L|L]; [rewrite C2 in X by exact L; discriminate|].
    destruct W as (_ & W). destruct (W n d N) as (Z & I & Sn & K0). rewrite (points_dpts s n d N) in I.
    destruct (keep_false d _ _ r An I Sn (np_pos d Z) K0 j X) as [(_ & Y & _)|(Y & _)]; unfold np in *; lia.
  - intros j Hj. split; apply Rnot_lt_le; intro X.
    + apply (Nw (j + 1)%nat). right. right. left. split; [lia|]. split; [lia|]. replace (j + 1 - 1)%nat with j by lia. exact X.
    + apply (Nw j). right. right. right. split; [lia|exact X].
  - intros i j lo hi Ci Hj Sp V G. apply Rnot_lt_le. intro X. apply (Nw j). left. exists i. eexists.
    split; [split; [exact Ci|]; split; [exact Hj|]; exists lo, hi; split; [exact Sp|]; split; [exact V|reflexivity]|]. split; [|exact G].
    destruct W as (_ & W). destruct (W n d N) as (_ & _ & (_ & S1 & _ & S2 & _) & _). destruct Sp as (_ & Sh & Sb). specialize (Sb hi Sh).
    assert (P : 0 < c_slope (g_crit d) * (hi - lo) + c_thresh (g_crit d)) by nra.
    apply (Rmult_lt_reg_r _ _ _ P). unfold Rdiv. rewrite Rmult_assoc, Rinv_l by lra. lra.
Qed.
Print Assumptions C27_done.

(* C27: the grid and the solution from before a refinement can be brought back. *)
Theorem C27_restore : forall s k s', wellformed s -> s_x s <> [] -> refine s = (Ok k, s') ->
  exists s'', restoreSteadySolution s' = Ok s'' /\ s_x s'' = s_x s /\ forall n, points s'' n = points s n.
Proof.
  intros s k s' W Nx H. destruct (refine_ok s k s' W H) as (ds & pts & a & b & L & (-> & F) & _).
  unfold restoreSteadySolution. cbn [s_xss s_dom s_gridss].
  destruct (Nat.eqb_spec (length (s_x s)) 0) as [E|_]; [destruct (s_x s); [congruence|discriminate]|].
  assert (X : exists ds'', restore_grids (map2 regridded ds pts) (map g_z (s_dom s)) = Ok ds'' /\ Forall2 (fun d d' => exists r, d' = set_ref d r) (s_dom s) ds'').
  { pose proof (wf_fine s W) as Fn. revert Fn F. generalize (s_x s) L. clear. intros x L. revert L. generalize (s_dom s). intros l L.
    induction L as [start|start d ds0 r ds' pts' a' b' An L IH]; intros Fn F; [exists []; split; [reflexivity|constructor]|].
    inversion F as [|? ? ? ? F1 F2 Ea Eb]; subst. destruct IH as (ds'' & E & Fa); [|exact F2|].
    { intros n e Ne. specialize (Fn (S n) e Ne). rewrite dstart_cons in Fn. rewrite Nat.add_assoc in Fn. exact Fn. }
    specialize (Fn 0%nat d eq_refl). change (dstart (d :: ds0) 0) with 0%nat in Fn. rewrite Nat.add_0_r in Fn.
    destruct Fn as (Z & I & Sn & K0).
    cbn [map2 map restore_grids].
    assert (Rg : forall p : list pt, p <> [] -> (length (g_z d) <= 1 -> length p <= 1)%nat -> (length p <= 1 -> map fst p = g_z d)%nat -> setupGrid (regridded (set_ref d r) p) (g_z d) = Ok (set_ref d r)).
    { intros p Np1 Np2 Np3. unfold setupGrid, regridded. cbn [g_flow set_grid set_ref].
      assert (Ez : map fst (dpts x start d) = g_z d) by (unfold dpts, pt_at, np, zat; rewrite map_map; cbn [fst]; apply map_nth_seq).
      assert (O : ordered (g_z d) = true) by (rewrite <- Ez; apply ordered_increasing; exact I). rewrite O.
      assert (Eg : forall z, set_grid (set_grid (set_ref d r) z) (g_z d) = set_ref d r) by (intro z; destruct d; reflexivity).
      destruct (g_flow d); [rewrite Eg; reflexivity|]. destruct (Nat.ltb_spec 1 (length (g_z d))) as [Lz|Lz]; [rewrite Eg; reflexivity|].
      rewrite Np3 by auto. destruct d; reflexivity. }
    destruct (spaced_ex _ I) as (h & Sp). pose proof (domain_refines d x start r An I Sn (np_pos d Z) K0 h Sp) as Rf.
    destruct (refines_length _ _ _ _ Rf) as (L1 & L2). unfold dpts in L1, L2. rewrite map_length, seq_length in L1, L2. unfold np in L1, L2.
    assert (Lp : (length (g_z d) <= 1 -> length (new_points r x start d) <= 1)%nat) by lia.
    rewrite Rg; [|destruct (refines_hd _ _ _ _ Rf) as (? & ? & ? & _ & ->); discriminate|exact Lp|].
    - cbn [obind]. rewrite E. cbn [obind]. exists (set_ref d r :: ds''). split; [reflexivity|]. constructor; [exists r; reflexivity|exact Fa].
    - intro L3. destruct (g_z d) as [|z0 [|z1 zs]] eqn:Gz; [congruence| |cbn [length] in L2; lia].
      destruct (refines_hd _ _ _ _ Rf) as (q & t & t' & E1 & E2). unfold dpts, np in E1. rewrite Gz in E1. cbn [length seq map] in E1. injection E1 as <- <-.
      rewrite E2 in L3 |- *. destruct t'; [|cbn in L3; lia]. cbn. unfold zat. rewrite Gz. reflexivity. }
  destruct X as (ds'' & -> & Fa). eexists. split; [reflexivity|]. cbn [s_x]. split; [reflexivity|]. intro n. unfold points. cbn [s_dom s_x].
  destruct (nth_error (s_dom s) n) as [d|] eqn:N.
  - destruct (Forall2_nth _ _ _ Fa n d N) as (d' & N' & r & ->). rewrite N', (setref_dstart _ _ Fa). reflexivity.
  - replace (nth_error ds'' n) with (@None rdom); [reflexivity|]. symmetry. apply nth_error_None. apply nth_error_None in N. rewrite <- (F2_length _ _ _ Fa). exact N.
Qed.
Print Assumptions C27_restore.

(* ---------------------------------------------------------------- *)
(** * Concrete simulations *)
Definition crit1 (prune : R) : crit := Crit 10 1 (1/2) prune (/ 1000) (/ 100) (/ 1000) 1000.
Definition dom1 (prune : R) : rdom := RD 1 [0; 1; 2; 3] true false 0 0 [] (crit1 prune) (fun _ => true) refiner0.
Definition sim1_ex (prune : R) : sim1 := S1 [dom1 prune] [0; 0; 0; 1] [] [].
Lemma ex_wf prune : wellformed (sim1_ex prune).
Proof.
  split; [reflexivity|]. intros [|[|n]] d N; try discriminate. injection N as <-. split; [discriminate|].
  split; [cbn; lra|]. split; [unfold sound; cbn; lra|discriminate].
Qed.
Lemma ex_val prune j : value_of (sim1_ex prune) 0 (dom1 prune) 0 j = nth j [0; 0; 0; 1] 0.
Proof. unfold value_of. cbn [dom1 g_nv sim1_ex s_x s_dom]. f_equal. unfold dstart. cbn [firstn fold_right]. lia. Qed.
Lemma spans_unique l lo hi lo' hi' : spans l lo hi -> spans l lo' hi' -> lo = lo' /\ hi = hi'.
Proof. intros (A & B & C) (A' & B' & C'). pose proof (C _ A'). pose proof (C _ B'). pose proof (C' _ A). pose proof (C' _ B). lra. Qed.
Lemma ex_vals prune : spans (map (value_of (sim1_ex prune) 0 (dom1 prune) 0) (seq 0 4)) 0 1.
Proof. cbn [seq map]. rewrite !ex_val. cbn [nth]. repeat split; cbn; try tauto; try (intros [->|[<-|[<-|[<-|[]]]]]; lra); intros; cbn in *; destruct H as [<-|[<-|[<-|[<-|[]]]]]; lra. Qed.
Lemma ex_gap prune j : (j < 3)%nat -> gap (coordinate (dom1 prune)) j = 1.
Proof. intro H. unfold gap, coordinate. cbn [dom1 g_z]. destruct j as [|[|[|j]]]; try lia; cbn [Nat.add nth]; lra. Qed.
Lemma ex_rate prune j : (j < 3)%nat -> rate (coordinate (dom1 prune)) (value_of (sim1_ex prune) 0 (dom1 prune)) 0 j = nth j [0; 0; 1] 0.
Proof. intro H. unfold rate. rewrite ex_gap by exact H. rewrite !ex_val. destruct j as [|[|[|j]]]; try lia; cbn [Nat.add nth]; lra. Qed.
Lemma ex_rates prune : spans (map (rate (coordinate (dom1 prune)) (value_of (sim1_ex prune) 0 (dom1 prune)) 0) (seq 0 3)) 0 1.
Proof. cbn [seq map]. rewrite !ex_rate by lia. cbn [nth]. repeat split; cbn; try tauto; intros; destruct H as [<-|[<-|[<-|[]]]]; lra. Qed.
Lemma ex_change prune i j q : change (crit1 prune) 4 (value_of (sim1_ex prune) 0 (dom1 prune)) (counts (dom1 prune)) i j q -> (j < 2)%nat /\ q = 0 \/ j = 2%nat /\ q = 1000 / 1001.
Proof.
  intros ((I & _) & J & lo & hi & Sp & _ & ->). cbn [dom1 g_nv] in I. destruct i as [|i]; [|lia]. destruct (spans_unique _ _ _ _ _ Sp (ex_vals prune)) as (-> & ->).
  rewrite !ex_val. destruct j as [|[|[|j]]]; try lia; cbn [Nat.add nth crit1 c_slope c_thresh].
  - left. split; [lia|]. rewrite Rminus_diag_eq, Rabs_R0 by reflexivity. lra.
  - left. split; [lia|]. rewrite Rminus_diag_eq, Rabs_R0 by reflexivity. lra.
  - right. split; [reflexivity|]. rewrite Rminus_0_r, Rabs_R1. field.
Qed.
Lemma ex_bend prune i j q : bend (crit1 prune) 4 (coordinate (dom1 prune)) (value_of (sim1_ex prune) 0 (dom1 prune)) (counts (dom1 prune)) i j q -> j = 0%nat /\ q = 0 \/ j = 1%nat /\ q = 1000 / 501.
Proof.
  intros ((I & _) & J & lo & hi & Sp & _ & ->). cbn [dom1 g_nv] in I. destruct i as [|i]; [|lia]. destruct (spans_unique _ _ _ _ _ Sp (ex_rates prune)) as (-> & ->).
  rewrite !ex_rate, ex_gap by lia. destruct j as [|[|j]]; try lia; cbn [Nat.add nth crit1 c_curve c_thresh].
  - left. split; [lia|]. rewrite Rminus_diag_eq, Rabs_R0 by reflexivity. lra.
  - right. split; [reflexivity|]. rewrite Rminus_0_r, Rabs_R1. field.
Qed.
Lemma ex_bend1 prune : bend (crit1 prune) 4 (coordinate (dom1 prune)) (value_of (sim1_ex prune) 0 (dom1 prune)) (counts (dom1 prune)) 0 1 (1000 / 501).
Proof.
  split; [split; [cbn; lia|reflexivity]|]. split; [lia|]. exists 0, 1. split; [apply ex_rates|]. split; [unfold varies; cbn [crit1 c_range]; rewrite Rabs_R1, Rabs_R0, Rmax_left by lra; lra|].
  rewrite !ex_rate, ex_gap by lia. cbn [Nat.add nth crit1 c_curve c_thresh]. rewrite Rminus_0_r, Rabs_R1. field.
Qed.
Lemma ex_wants prune j : wants (sim1_ex prune) 0 (dom1 prune) j <-> (j = 1 \/ j = 2)%nat.
Proof.
  unfold wants. cbn [dom1 g_z length]. split.
  - intros [(i & q & C & G & _)|[(i & k & q & C & G & _ & _ & J)|[(A & B & G)|(A & G)]]].
    + apply ex_change in C. lra.
    + apply ex_bend in C. destruct C as [(-> & ->)|(-> & _)]; [lra|lia].
    + exfalso. rewrite !(ex_gap prune) in G by lia. cbn in G. lra.
    + exfalso. rewrite !(ex_gap prune) in G by lia. cbn in G. lra.
  - intro J. right. left. exists 0%nat, 1%nat, (1000 / 501). split; [apply ex_bend1|]. split; [lra|].
    change (1 + 1)%nat with 2%nat. rewrite !(ex_gap prune) by lia. cbn [dom1 g_crit crit1 c_gridmin]. 
    split; [lra|]. split; [lra|]. exact J.
Qed.
Lemma ex_removes j : removes (sim1_ex (/ 10)) 0 (dom1 (/ 10)) j <-> j = 1%nat.
Proof.
  assert (G : forall k, (k < 3)%nat -> gap (coordinate (dom1 (/ 10))) k = 1) by (apply ex_gap).
  assert (I1 : idle (crit1 (/10)) 4 (coordinate (dom1 (/ 10))) (value_of (sim1_ex (/ 10)) 0 (dom1 (/ 10))) (counts (dom1 (/ 10))) 1).
  { left. exists 0%nat, 0. split; [|cbn; lra]. split; [split; [cbn; lia|reflexivity]|]. split; [lia|]. exists 0, 1. split; [apply ex_vals|].
    split; [unfold varies; cbn [crit1 c_range]; rewrite Rabs_R1, Rabs_R0, Rmax_left by lra; lra|]. rewrite !ex_val. cbn [Nat.add nth]. rewrite Rminus_diag_eq, Rabs_R0 by reflexivity. lra. }
  assert (R1 : ~ required (crit1 (/10)) 4 (coordinate (dom1 (/ 10))) (value_of (sim1_ex (/ 10)) 0 (dom1 (/ 10))) (counts (dom1 (/ 10))) (special_at (dom1 (/ 10))) 1).
  { intros [A|[A|[(i & k & q & C & B & J)|[(i & k & q & C & B & J)|[(k & A & B & C & D)|[(k & A & B & C & D)|[(A & _)|[(A & B & C)|(A & B & C)]]]]]]]]; try lia.
    - apply ex_change in C. cbn [crit1 c_prune] in B. destruct C as [(_ & ->)|(-> & ->)]; [lra|lia].
    - apply ex_bend in C. cbn [crit1 c_prune] in B. destruct C as [(_ & ->)|(-> & ->)]; [lra|lia].
    - rewrite !G in C by lia. cbn in C. lra.
    - rewrite !G in C by lia. cbn in C. lra.
    - rewrite !G in C by lia. cbn in C. lra.
    - destruct C as [(C & _)|[]]. discriminate. }
  assert (X1 : removes (sim1_ex (/ 10)) 0 (dom1 (/ 10)) 1) by (split; [exact I1|split; [exact R1|intros []]]).
  split; [|intros ->; exact X1].
  destruct j as [|[|[|[|j]]]]; [intros []|reflexivity| | |]; intro X; exfalso.
  - destruct X as (_ & _ & X). contradiction.
  - destruct X as (_ & X & _). apply X. right. left. reflexivity.
  - destruct X as ([(i & q & C & _)|(i & k & q & C & _ & J)] & _).
    + apply ex_change in C. lia.
    + apply ex_bend in C. lia.
Qed.
Lemma ex_kept0 j : removes (sim1_ex (- / 10)) 0 (dom1 (- / 10)) j <-> False.
Proof.
  split; [|intros []]. destruct j as [|j]; [intros []|]. intros (I & _). destruct I as [(i & q & C & G)|(i & k & q & C & G & _)].
  - apply ex_change in C. cbn in G. lra.
  - apply ex_bend in C. cbn in G. lra.
Qed.
Example C27_nonvacuous prune : exists k s', wellformed (sim1_ex prune) /\ refine (sim1_ex prune) = (Ok k, s').
Proof.
  destruct (C27_succeeds (sim1_ex prune) (ex_wf prune)) as (k & s' & E); [|exists k, s'; split; [apply ex_wf|exact E]].
  intros [|[|n]] d N; try discriminate. injection N as <-. cbn. lia.
Qed.
(* The analysis asks for a point between 1 and 2, its result says that points were added, but the
   point 1 is removed and the new one with it: the grid becomes 0, 2, 5/2, 3. *)
Theorem C27_lost_insertion_refuted : exists s k s' d, wellformed s /\ refine s = (Ok k, s') /\ nth_error (s_dom s) 0 = Some d /\ wants s 0 d 1 /\
  map fst (points s 0) = [0; 1; 2; 3] /\
  (forall q, In q (points s' 0) <-> q = (0, [0]) \/ q = (2, [0]) \/ q = (5/2, [1/2]) \/ q = (3, [1])).
Proof.
  destruct (C27_nonvacuous (/ 10)) as (k & s' & W & E). exists (sim1_ex (/ 10)), k, s', (dom1 (/ 10)).
  split; [exact W|]. split; [exact E|]. split; [reflexivity|]. split; [apply ex_wants; auto|]. split; [reflexivity|].
  intro q. rewrite (C27_points _ _ _ 0%nat (dom1 (/ 10)) W E eq_refl); [|cbn; lia].
  assert (P : points (sim1_ex (/ 10)) 0 = [(0, [0]); (1, [0]); (2, [0]); (3, [1])]) by reflexivity. rewrite P.
  assert (M : midpoint (2, [0]) (3, [1]) = (5/2, [1/2])) by (unfold midpoint; cbn; f_equal; [lra|f_equal; lra]).
  split.
  - intros [(j & J & Rm & ->)|(j & J & Rm & Wt & ->)]; rewrite ex_removes in Rm; cbn [dom1 g_z length] in J.
    + destruct j as [|[|[|[|j]]]]; try lia; cbn [nth]; auto.
    + apply ex_wants in Wt. destruct j as [|[|[|j]]]; try lia. cbn [nth Nat.add]. rewrite M. auto.
  - intros [->|[->|[->| ->]]].
    + left. exists 0%nat. rewrite ex_removes. split; [cbn; lia|]. split; [lia|reflexivity].
    + left. exists 2%nat. rewrite ex_removes. split; [cbn; lia|]. split; [lia|reflexivity].
    + right. exists 2%nat. rewrite ex_removes. split; [cbn; lia|]. split; [lia|]. split; [apply ex_wants; auto|]. cbn [nth Nat.add]. rewrite M. reflexivity.
    + left. exists 3%nat. rewrite ex_removes. split; [cbn; lia|]. split; [lia|reflexivity].
Qed.
Print Assumptions C27_lost_insertion_refuted.
(* The result is documented to be the number of points added: two points are added here and the
   result is 1. *)
Theorem C27_result_refuted : exists s s', wellformed s /\ refine s = (Ok 1%Z, s') /\ length (points s 0) = 4%nat /\ length (points s' 0) = 6%nat.
Proof.
  destruct (C27_nonvacuous (- / 10)) as (k & s' & W & E). exists (sim1_ex (- / 10)), s'. split; [exact W|].
  assert (P : points (sim1_ex (- / 10)) 0 = [(0, [0]); (1, [0]); (2, [0]); (3, [1])]) by reflexivity.
  destruct (refine_domain _ _ _ 0%nat (dom1 (- / 10)) W E eq_refl) as (r & d' & A & _ & Pt & _).
  assert (N2 : (2 <= np (dom1 (- / 10)))%nat) by (cbn; lia).
  assert (K : forall j, keepPoint r j = true).
  { intro j. destruct (keepPoint r j) eqn:X; [reflexivity|]. apply (keep_removes _ 0 _ r N2 A) in X. apply ex_kept0 in X. destruct X. }
  assert (I : forall j, newPointNeeded r j = orb (j =? 1)%nat (j =? 2)%nat).
  { intro j. pose proof (ins_wants _ 0 _ r N2 A j) as X. rewrite ex_wants in X. destruct (Nat.eqb_spec j 1), (Nat.eqb_spec j 2); cbn; try (apply X; auto).
    destruct (newPointNeeded r j); [|reflexivity]. exfalso. destruct (proj1 X eq_refl); contradiction. }
  assert (L : length (points s' 0) = 6%nat).
  { rewrite Pt. unfold new_points. cbn [dom1 np g_z length seq flat_map]. unfold new_points_at. rewrite !K, !I. reflexivity. }
  split; [|split; [rewrite P; reflexivity|exact L]].
  destruct (C27_refine _ _ _ W E) as (_ & [->| ->] & _); [|exact E].
  destruct (C27_done _ _ W E) as (_ & X & _). rewrite (X 0%nat), P in L. discriminate.
Qed.
Print Assumptions C27_result_refuted.
(* The saved grids are incomplete when an analysis throws in a domain that is not the last: going
   back to the last solution then reads past the end. *)
Definition inlet1 : rdom := RD 1 [0] false false 0 0 [] (crit1 0) (fun _ => true) refiner0.
Definition full1 : rdom := RD 1 [0; 1; 2; 3] true false 0 0 [] (Crit 10 1 (1/2) 0 (/ 1000) (/ 100) (/ 1000) 4) (fun _ => true) refiner0.
Theorem C27_restore_refuted : exists s s', wellformed s /\ refine s = (Err, s') /\ restoreSteadySolution s' = UB.
Proof.
  exists (S1 [inlet1; full1; inlet1] [0; 0; 0; 0; 0; 0] [] []). eexists. split.
  - split; [reflexivity|]. intros [|[|[|[|n]]]] d N; try discriminate; injection N as <-; (split; [discriminate|]); (split; [cbn; lra|]); (split; [unfold sound; cbn; lra|discriminate]).
  - split; [reflexivity|]. unfold restoreSteadySolution. cbn -[ordered]. 
    assert (O : ordered [0; 1; 2; 3] = true) by (apply (ordered_increasing [(0, []); (1, []); (2, []); (3, [])]); cbn; lra).
    cbn. cbn in O. rewrite O. reflexivity.
Qed.
Print Assumptions C27_restore_refuted.
