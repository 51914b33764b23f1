(* The numbering of unknowns of a one-dimensional simulation, and its Jacobian. *)
From Coq Require Import Reals ZArith String List Bool Arith Lra Lia.
From Verif Require Import Base.Outcome Base.Fp OneD.LayoutModel OneD.LayoutSpec OneD.LayoutProofs.
Import ListNotations.
Local Open Scope string_scope.
Local Open Scope list_scope.
Local Open Scope nat_scope.

(** C38. After any calls that add domains and change their components or points, every element of
    the solution vector is exactly one component at exactly one point of exactly one domain, and
    every such component has an element. *)
Theorem C38_partition ops : settled ops ->
  o_size (lrun ops) = unknowns_in (shape_of ops) /\
  (forall n j c, unknown (shape_of ops) n j c -> position (shape_of ops) n j c < o_size (lrun ops)) /\
  forall i, i < o_size (lrun ops) ->
    exists n j c, (unknown (shape_of ops) n j c /\ i = position (shape_of ops) n j c) /\
      forall n' j' c', unknown (shape_of ops) n' j' c' -> i = position (shape_of ops) n' j' c' -> n' = n /\ j' = j /\ c' = c.
Proof.
  intros S0. destruct (settled_good ops S0) as ((_ & _ & _ & _ & Z) & _). cbn in Z. rewrite Z.
  split; [reflexivity|]. split; [apply position_lt|]. intros i H.
  destruct (position_onto _ _ H) as (n & j & c & U & E). exists n, j, c. split; [split; assumption|].
  intros n' j' c' U' E'. apply (position_inj (shape_of ops)); congruence.
Qed.
Print Assumptions C38_partition.

(** The tables by global point: how many points, how many unknowns each has and where they start;
    the domain's own start and first point; the element used by [value] and [setValue]. *)
Theorem C38_tables ops n j c nv np d : settled ops -> nth_error (shape_of ops) n = Some (nv, np) -> j < np -> c < nv ->
  nth_error (o_dom (lrun ops)) n = Some d ->
  d_nv d = nv /\ d_np d = np /\ d_jstart d = points_in (firstn n (shape_of ops)) /\
  o_pts (lrun ops) = points_in (shape_of ops) /\
  nth_error (o_nvars (lrun ops)) (d_jstart d + j) = Some nv /\
  nth_error (o_loc (lrun ops)) (d_jstart d + j) = Some (position (shape_of ops) n j 0) /\
  value_index (lrun ops) n c j = Ok (position (shape_of ops) n j c).
Proof.
  intros S0 H J C D. destruct (settled_good ops S0) as ((T1 & T2 & T3 & T4 & T5) & _). cbn in T1, T2, T3, T4, T5.
  assert (U : unknown (shape_of ops) n j c) by (exists nv, np; auto).
  destruct (place_of _ _ _ _ U) as (d' & D' & E1 & E2 & E3 & E4 & E5 & E6 & _). rewrite D in D'. injection D' as <-.
  rewrite (nth_error_nth _ _ (0, 0) H) in E1. cbn [fst] in E1.
  destruct (inv_run ops) as (_ & Sh). pose proof (shp_nth _ _ _ D) as Sd. rewrite Sh, H in Sd. injection Sd as Sn Sp.
  split; [exact E1|]. split; [symmetry; exact Sp|]. split; [exact E5|]. split; [exact T4|].
  pose proof (point_lt _ _ _ _ _ H J) as Pl. unfold point_number in Pl. rewrite E5.
  pose proof (nvs_nth _ _ _ _ _ H J) as Nv. pose proof (psum_nvs _ _ _ _ j H ltac:(lia)) as Ps. unfold point_number in Nv, Ps.
  split; [|split].
  - rewrite T1. rewrite (nth_error_nth' _ 0) by (rewrite nvs_length; exact Pl). f_equal. exact Nv.
  - rewrite (nth_error_nth' _ 0) by lia. f_equal. rewrite T3 by exact Pl. rewrite Ps. unfold position.
    rewrite (nth_error_nth _ _ (0, 0) H). cbn. lia.
  - unfold value_index. rewrite D. unfold d_index. pose proof (position_lt _ _ _ _ U) as L. rewrite <- T5 in L. rewrite E6 in *.
    rewrite Nat.add_assoc. rewrite (proj2 (Nat.ltb_lt _ _) L). reflexivity.
Qed.
Print Assumptions C38_tables.

(** Looking an element up gives its domain back; the report of a singular row names the domain,
    the component and the point of that row. *)
Theorem C38_lookup ops n j c d : unknown (shape_of ops) n j c -> nth_error (o_dom (lrun ops)) n = Some d ->
  pointDomain (lrun ops) (position (shape_of ops) n j c) = Some n /\
  singular (lrun ops) (position (shape_of ops) n j c) = Some (d_id d, d_componentName d c, j).
Proof.
  intros U D. split; [apply pointDomain_at; exact U|].
  destruct (singular_at ops n j c U) as (d' & D' & E). rewrite D in D'. injection D' as <-. exact E.
Qed.
Print Assumptions C38_lookup.
Theorem C38_lookup_none ops i : unknowns_in (shape_of ops) <= i -> singular (lrun ops) i = None.
Proof.
  intros H. unfold singular. destruct (find _ _) as [d|] eqn:E; [|reflexivity]. exfalso.
  apply find_some in E. destruct E as (I & T). apply andb_true_iff in T. rewrite Nat.leb_le, Nat.ltb_lt in T.
  apply In_nth_error in I. destruct I as (n & D). destruct (inv_run ops) as (I0 & Sh).
  destruct (placed_nth _ _ _ _ _ I0 D) as (A & _). cbn [Nat.add] in A. rewrite Sh in A.
  pose proof (shp_nth _ _ _ D) as Sd. rewrite Sh in Sd. pose proof (unknowns_S _ _ _ _ Sd) as U.
  pose proof (unknowns_mono (shape_of ops) (S n) (length (shape_of ops))) as M.
  rewrite firstn_all in M. assert (S n <= length (shape_of ops)) by (apply nth_error_Some; congruence). specialize (M H0). lia.
Qed.
Print Assumptions C38_lookup_none.

(** [component(i)] names the domain, the point and the component of element i, provided every
    domain to the right has components. Otherwise it divides by zero. *)
Theorem C38_component ops n j c d : unknown (shape_of ops) n j c -> nth_error (o_dom (lrun ops)) n = Some d ->
  ((forall m nv np, n < m -> nth_error (shape_of ops) m = Some (nv, np) -> nv <> 0) ->
   component (lrun ops) (position (shape_of ops) n j c) = omap (fun nm => (d_id d, j, nm)) (d_componentName d c)) /\
  ((exists m np, n < m /\ nth_error (shape_of ops) m = Some (0, np)) ->
   component (lrun ops) (position (shape_of ops) n j c) = UB).
Proof.
  intros U D. split.
  - intros N. apply component_at; assumption.
  - intros (m & np & M & H). eapply component_zero; eassumption.
Qed.
Print Assumptions C38_component.

(** The names are there when every domain is added with as many names as components. *)
Theorem C38_names ops n j c d : (forall e, In (LAdd e) ops -> length (d_names e) = d_nv e) ->
  unknown (shape_of ops) n j c -> nth_error (o_dom (lrun ops)) n = Some d ->
  exists nm, nth_error (d_names d) c = Some nm /\ d_componentName d c = Ok (if String.eqb nm "" then "component " ++ decimal c else nm)%string.
Proof.
  intros N U D. pose proof (named_run ops N) as F. rewrite Forall_forall in F. specialize (F d (nth_error_In _ _ D)).
  destruct (place_of _ _ _ _ U) as (d' & D' & _ & _ & C & _). rewrite D in D'. injection D' as <-.
  unfold named in F. destruct (nth_error (d_names d) c) as [nm|] eqn:E.
  - exists nm. split; [reflexivity|]. unfold d_componentName. rewrite E. destruct (String.eqb nm ""); reflexivity.
  - apply nth_error_None in E. lia.
Qed.
Print Assumptions C38_names.

(** The bandwidth covers every pair of unknowns of the same or of neighbouring points, across
    domains as well, when domains have the default bandwidth or one at least that wide. *)
Theorem C38_bandwidth ops r c : settled ops ->
  (forall d, In d (o_dom (lrun ops)) -> d_bw d = None \/ exists b, d_bw d = Some b /\ 2 * d_nv d <= b + 1) ->
  coupled (shape_of ops) r c -> (Z.abs (Z.of_nat r - Z.of_nat c) <= o_bw (lrun ops))%Z.
Proof.
  intros S0 W. apply bandwidth_covers; [exact S0|]. apply Forall_forall. intros d I. unfold wide.
  destruct (W d I) as [E|(b & E & B)]; rewrite E; auto.
Qed.
Print Assumptions C38_bandwidth.

(** It is no larger than needed for the widest domain, if no two domains without components are
    next to one another. *)
Theorem C38_bandwidth_bound ops M : settled ops -> 1 <= M -> (2 * Z.of_nat M <= 2 ^ 64)%Z ->
  (forall d, In d (o_dom (lrun ops)) -> d_bw d = None /\ d_nv d <= M) ->
  (forall n np np', nth_error (shape_of ops) n = Some (0, np) -> nth_error (shape_of ops) (S n) = Some (0, np') -> False) ->
  (o_bw (lrun ops) <= 2 * Z.of_nat M - 1)%Z.
Proof.
  intros S0 M1 M2 W A. destruct (settled_good ops S0) as (_ & R). rewrite <- R. unfold resize. cbn [o_bw].
  apply bw_le.
  - lia.
  - cbn [t_bw]. lia.
  - intros d I. destruct (W d I) as (E & L). unfold own_bw. rewrite E. lia.
  - intros p d (a & b & E).
    assert (Np : nth_error (o_dom (lrun ops)) (length a) = Some p) by (rewrite E, nth_error_app2, Nat.sub_diag by lia; reflexivity).
    assert (Nd : nth_error (o_dom (lrun ops)) (S (length a)) = Some d).
    { rewrite E, nth_error_app2 by lia. replace (S (length a) - length a) with 1 by lia. reflexivity. }
    destruct (W p (nth_error_In _ _ Np)) as (Bp & Lp), (W d (nth_error_In _ _ Nd)) as (Bd & Ld).
    unfold link_bw. rewrite Bp. unfold wrap.
    destruct (inv_run ops) as (_ & Sh). pose proof (shp_nth _ _ _ Np) as Sp. pose proof (shp_nth _ _ _ Nd) as Sd. rewrite Sh in Sp, Sd.
    assert (Nz : d_nv p = 0 -> d_nv d = 0 -> False).
    { intros Vp Vd. rewrite Vp in Sp. rewrite Vd in Sd. exact (A _ _ _ Sp Sd). }
    rewrite Z.mod_small; [lia|]. change (2 ^ 64)%Z with 18446744073709551616%Z in *. lia.
Qed.
Print Assumptions C38_bandwidth_bound.

(* ---------------------------------------------------------------- *)
(** * Evaluation of the Jacobian *)

Definition jacobian (F : option nat -> list R -> list R) (rel abs thresh : R) (ops : list lop) (x : list R) (J : jac) : jac :=
  fold_left (j_set (o_bw (lrun ops))) (snd (evalJacobian F rel abs thresh (lrun ops) x)) (j_reset J).
Definition wide_enough (ops : list lop) : Prop :=
  forall d, In d (o_dom (lrun ops)) -> d_bw d = None \/ exists b, d_bw d = Some b /\ 2 * d_nv d <= b + 1.

(** Evaluating the Jacobian leaves the solution as it was. Every element that couples the same or
    neighbouring points is the difference quotient of the residual (or zero where the change is
    within the threshold, off the diagonal); every other element is zero; nothing is left from
    the matrix before. *)
Theorem C38_jacobian F rel abs thresh ops x J : settled ops -> wide_enough ops ->
  evaluates_near (shape_of ops) F -> length x = o_size (lrun ops) ->
  fst (evalJacobian F rel abs thresh (lrun ops) x) = x /\
  (forall r c, coupled (shape_of ops) r c ->
     j_mat (jacobian F rel abs thresh ops x J) r c =
     if Rlt_dec thresh (Rabs (change (F None) rel abs x r c)) then quotient (F None) rel abs x r c
     else if Nat.eqb r c then quotient (F None) rel abs x r c else 0%R) /\
  (forall r c, ~ coupled (shape_of ops) r c -> j_mat (jacobian F rel abs thresh ops x J) r c = 0%R) /\
  (forall r, r < o_size (lrun ops) -> j_diag (jacobian F rel abs thresh ops x J) r = quotient (F None) rel abs x r r).
Proof.
  intros S0 W Ev L. assert (Sz : o_size (lrun ops) = unknowns_in (shape_of ops)) by apply (C38_partition ops S0).
  rewrite Sz in L. pose proof (out_in F rel abs thresh ops S0 Ev x L) as In0.
  pose proof (out_functional F rel abs thresh ops S0 Ev x L) as Fn.
  split; [rewrite evalJacobian_eq; reflexivity|]. unfold jacobian. split; [|split].
  - intros r c C. pose proof (C38_bandwidth ops r c S0 W C) as B.
    assert (Ib : in_band (o_bw (lrun ops)) r c = true) by (apply Z.leb_le; exact B).
    assert (Set_ : chosen thresh r c (change (F None) rel abs x r c) ->
       j_mat (fold_left (j_set (o_bw (lrun ops))) (snd (evalJacobian F rel abs thresh (lrun ops) x)) (j_reset J)) r c = quotient (F None) rel abs x r c).
    { intro Ch. apply set_in; [exact Fn| |exact Ib]. apply In0. auto. }
    destruct (Rlt_dec thresh _) as [T|T]; [apply Set_; left; exact T|].
    destruct (Nat.eqb_spec r c) as [E|E]; [apply Set_; right; exact E|].
    rewrite set_out; [reflexivity|]. intros v I. apply In0 in I. destruct I as (_ & [H|H] & _); contradiction.
  - intros r c N. rewrite set_out; [reflexivity|]. intros v I. apply In0 in I. apply N. apply I.
  - intros r H. rewrite Sz in H. apply diag_in; [exact Fn|]. apply In0.
    destruct (position_onto _ _ H) as (n & j & k & U & E).
    split; [|split; [right; reflexivity|reflexivity]].
    exists n, j, k, n, j, k. repeat split; auto. left. reflexivity.
Qed.
Print Assumptions C38_jacobian.

(** With the default threshold of zero, and a residual in which each row depends only on its own
    and neighbouring points, the matrix is the difference quotient at every position. *)
Theorem C38_jacobian_full F rel abs ops x J r c : settled ops -> wide_enough ops ->
  evaluates_near (shape_of ops) F -> depends_near (shape_of ops) (F None) -> length x = o_size (lrun ops) ->
  r < o_size (lrun ops) -> c < o_size (lrun ops) ->
  j_mat (jacobian F rel abs 0 ops x J) r c = quotient (F None) rel abs x r c.
Proof.
  intros S0 W Ev Dn L Hr Hc. destruct (C38_jacobian F rel abs 0 ops x J S0 W Ev L) as (_ & A & B & _).
  assert (Sz : o_size (lrun ops) = unknowns_in (shape_of ops)) by apply (C38_partition ops S0). rewrite Sz in *.
  assert (Zero : forall d, ~ (0 < Rabs d)%R -> d = 0%R).
  { intros d H. destruct (Req_dec d 0) as [E|E]; [exact E|]. exfalso. apply H. apply Rabs_pos_lt. exact E. }
  destruct (coupled_dec (shape_of ops) r c Hr Hc) as [C|C].
  - rewrite (A r c C). destruct (Rlt_dec 0 _) as [T|T]; [reflexivity|]. destruct (Nat.eqb r c); [reflexivity|].
    unfold quotient. rewrite (Zero _ T). unfold Rdiv. ring.
  - rewrite (B r c C). unfold quotient, change. rewrite (Dn x r c _ L Hr Hc C). unfold Rdiv. ring.
Qed.
Print Assumptions C38_jacobian_full.

(** For a residual that is linear, with each row depending only on its own and neighbouring
    points, the matrix is exactly its matrix of coefficients, whatever the solution. *)
Definition linear (n : nat) (A : nat -> nat -> R) (b : nat -> R) (f : list R -> list R) : Prop :=
  forall x r, length x = n -> r < n ->
    comp (f x) r = (fold_right Rplus 0 (map (fun c => A r c * comp x c) (seq 0 n)) + b r)%R.
Lemma nth_put : forall x c v i, c < length x -> nth i (put x c v) 0%R = if Nat.eqb i c then v else nth i x 0%R.
Proof.
  induction x as [|a x IH]; intros [|c] v [|i] H; cbn in *; try lia; try reflexivity. apply IH. lia.
Qed.
Lemma sum_diff : forall (A y : nat -> R) v c l, NoDup l ->
  (fold_right Rplus 0 (map (fun i => A i * (if Nat.eqb i c then v else y i)) l) - fold_right Rplus 0 (map (fun i => A i * y i) l)
   = if in_dec Nat.eq_dec c l then A c * (v - y c) else 0)%R.
Proof.
  intros A y v c l N. induction N as [|a l I N IH]; [cbn; ring|].
  cbn [map fold_right].
  set (S1 := fold_right Rplus 0%R (map (fun i => A i * (if Nat.eqb i c then v else y i))%R l)) in *.
  set (S2 := fold_right Rplus 0%R (map (fun i => A i * y i)%R l)) in *.
  destruct (in_dec Nat.eq_dec c l) as [J|J], (in_dec Nat.eq_dec c (a :: l)) as [K|K].
  - destruct (Nat.eqb_spec a c) as [E|E]; [congruence|]. lra.
  - exfalso. apply K. right. exact J.
  - destruct K as [K|K]; [|contradiction]. subst a. rewrite Nat.eqb_refl. lra.
  - destruct (Nat.eqb_spec a c) as [E|E]; [exfalso; apply K; left; exact E|]. lra.
Qed.
Theorem C38_jacobian_linear F rel abs ops x J A b r c : settled ops -> wide_enough ops ->
  evaluates_near (shape_of ops) F -> length x = o_size (lrun ops) ->
  linear (o_size (lrun ops)) A b (F None) ->
  (forall r c, ~ coupled (shape_of ops) r c -> r < o_size (lrun ops) -> c < o_size (lrun ops) -> A r c = 0%R) -> (0 <= rel)%R -> (0 < abs)%R ->
  r < o_size (lrun ops) -> c < o_size (lrun ops) ->
  j_mat (jacobian F rel abs 0 ops x J) r c = A r c.
Proof.
  intros S0 W Ev L Li Z Hrel Habs Hr Hc.
  assert (Sz : o_size (lrun ops) = unknowns_in (shape_of ops)) by apply (C38_partition ops S0).
  assert (Diff : forall v r x c, length x = o_size (lrun ops) -> r < o_size (lrun ops) -> c < o_size (lrun ops) ->
    (comp (F None (with_value x c v)) r - comp (F None x) r = A r c * (v - comp x c))%R).
  { clear -Li. intros v r x c L Hr Hc. assert (Lw : length (with_value x c v) = o_size (lrun ops)).
    { unfold with_value. rewrite app_length. cbn [length]. rewrite firstn_length, skipn_length. lia. }
    rewrite (Li _ r Lw Hr), (Li _ r L Hr). rewrite <- L in Hc |- *. clear -Hc.
    pose proof (sum_diff (A r) (comp x) v c (seq 0 (length x)) (seq_NoDup _ _)) as D.
    destruct (in_dec Nat.eq_dec c (seq 0 (length x))) as [_|N]; [|exfalso; apply N; apply in_seq; lia].
    rewrite <- D. rewrite (map_ext (fun i => A r i * comp (with_value x c v) i)%R (fun i => A r i * (if Nat.eqb i c then v else comp x i))%R).
    - ring.
    - intros i. f_equal. rewrite <- (put_with x c v Hc). apply nth_put. exact Hc. }
  assert (P : forall v, perturbation rel abs v <> 0%R).
  { intros v. unfold perturbation. pose proof (Rabs_pos v). pose proof (Rmult_le_pos _ _ H Hrel). destruct (Rlt_dec v 0); lra. }
  rewrite (C38_jacobian_full F rel abs ops x J r c S0 W Ev); [|clear r c Hr Hc|exact L|exact Hr|exact Hc].
  - unfold quotient, change. rewrite Diff by assumption. field. apply P.
  - intros y r c v Ly Hr Hc N. rewrite <- Sz in Ly, Hr, Hc. pose proof (Diff v r y c Ly Hr Hc) as D. rewrite (Z r c N Hr Hc) in D. lra.
Qed.
Print Assumptions C38_jacobian_linear.

(** Adding the transient term subtracts mask * rdt from the diagonal of the steady-state matrix,
    however often it was done before with other time steps. *)
Theorem C38_transient F rel abs thresh ops x J steps mask rdt : settled ops -> wide_enough ops ->
  evaluates_near (shape_of ops) F -> length x = o_size (lrun ops) ->
  let J0 := jacobian F rel abs thresh ops x J in
  let J1 := j_transient (o_size (lrun ops)) mask rdt
              (fold_left (fun K (p : (nat -> R) * R) => j_transient (o_size (lrun ops)) (fst p) (snd p) K) steps J0) in
  forall r c, r < o_size (lrun ops) ->
  j_mat J1 r c = (j_mat J0 r c - (if Nat.eqb r c then mask r * rdt else 0))%R.
Proof.
  intros S0 W Ev L J0 J1 r c Hr.
  assert (G : forall steps K, j_diag (fold_left (fun K (p : (nat -> R) * R) => j_transient (o_size (lrun ops)) (fst p) (snd p) K) steps K) = j_diag K /\
     (r <> c -> j_mat (fold_left (fun K (p : (nat -> R) * R) => j_transient (o_size (lrun ops)) (fst p) (snd p) K) steps K) r c = j_mat K r c)).
  { clear. induction steps as [|p steps IH]; intros K; [auto|]. cbn [fold_left].
    destruct (IH (j_transient (o_size (lrun ops)) (fst p) (snd p) K)) as (A & B). split; [rewrite A; reflexivity|].
    intros N. rewrite (B N). cbn [j_transient j_mat]. destruct (Nat.eqb_spec r c); [contradiction|reflexivity]. }
  unfold J1. destruct (G steps J0) as (A & B). cbn [j_transient j_mat].
  destruct (Nat.eqb_spec r c) as [E|E]; cbn [andb].
  - rewrite (proj2 (Nat.ltb_lt _ _) Hr), A. subst c. f_equal.
    destruct (C38_jacobian F rel abs thresh ops x J S0 W Ev L) as (_ & C & _ & D).
    unfold J0. rewrite (D r Hr). rewrite C.
    + rewrite Nat.eqb_refl. destruct (Rlt_dec _ _); reflexivity.
    + assert (Sz : o_size (lrun ops) = unknowns_in (shape_of ops)) by apply (C38_partition ops S0). rewrite Sz in Hr.
      destruct (position_onto _ _ Hr) as (n & j & k & U & Er). exists n, j, k, n, j, k. repeat split; auto. left. reflexivity.
  - rewrite (B E). ring.
Qed.
Print Assumptions C38_transient.

(* ---------------------------------------------------------------- *)
(** * A flame: inlet, flow with two components, outlet *)
Definition inlet : dom := Dom "inlet" 0 1 None [] 0 0.
Definition flow : dom := Dom "flame" 2 3 None ["u"; "T"] 0 0.
Definition outlet : dom := Dom "outlet" 0 1 None [] 0 0.
Definition surface : dom := Dom "surface" 1 1 None ["theta"] 0 0.
Definition demo : list lop := [LAdd inlet; LAdd flow; LAdd surface; LDomain 1 2 4; LResize].
Lemma not_last {A} (l l' : list A) a b : a <> b -> l ++ [a] <> l' ++ [b].
Proof. intros N E. apply app_inj_tail in E. apply N. apply E. Qed.
Example demo_settled : settled demo.
Proof. intros l n nv np. apply (not_last [LAdd inlet; LAdd flow; LAdd surface; LDomain 1 2 4]). discriminate. Qed.
Example demo_shape : shape_of demo = [(0, 1); (2, 4); (1, 1)]. Proof. reflexivity. Qed.
Example demo_state : o_size (lrun demo) = 9 /\ o_nvars (lrun demo) = [0; 2; 2; 2; 2; 1] /\
  o_loc (lrun demo) = [0; 0; 2; 4; 6; 8] /\ o_bw (lrun demo) = 3%Z.
Proof. repeat split. Qed.
Example demo_unknown : unknown (shape_of demo) 1 2 1 /\ position (shape_of demo) 1 2 1 = 5.
Proof. split; [exists 2, 4; repeat split; lia|reflexivity]. Qed.
Example demo_component : component (lrun demo) 5 = Ok ("flame", 2, "T").
Proof. reflexivity. Qed.
Example demo_wide : wide_enough demo.
Proof. intros d [<-|[<-|[<-|[]]]]; left; reflexivity. Qed.
Example demo_coupled : coupled (shape_of demo) 8 7.
Proof.
  exists 2, 0, 0, 1, 3, 1. split; [exists 1, 1; repeat split; lia|]. split; [exists 2, 4; repeat split; lia|].
  split; [reflexivity|]. split; [reflexivity|]. right. left. reflexivity.
Qed.
(* A residual: each row is x_(r-1) - 2 x_r + 1, so it depends on its own and the previous
   unknown; evaluated everywhere in any case. *)
Definition demo_F (o : option nat) (x : list R) : list R :=
  map (fun r => ((match r with O => 0 | S q => comp x q end) - 2 * comp x r + 1)%R) (seq 0 9).
Example demo_near : evaluates_near (shape_of demo) demo_F.
Proof. intros x n j n' j' k _ _ _ _ _. reflexivity. Qed.
Example demo_linear : linear (o_size (lrun demo)) (fun r c => if Nat.eqb r c then (-2)%R else if Nat.eqb r (S c) then 1%R else 0%R) (fun _ => 1%R) (demo_F None).
Proof.
  intros x r L H. cbn in H. do 9 (destruct r as [|r]; [cbn; lra|]). lia.
Qed.
Example demo_coeffs : forall r c, ~ coupled (shape_of demo) r c -> r < 9 -> c < 9 ->
  (if Nat.eqb r c then (-2)%R else if Nat.eqb r (S c) then 1%R else 0%R) = 0%R.
Proof.
  intros r c N Hr Hc. rewrite demo_shape in N.
  assert (U : forall i, i < 9 -> exists n j k, unknown [(0, 1); (2, 4); (1, 1)] n j k /\ i = position [(0, 1); (2, 4); (1, 1)] n j k /\
             point_number [(0, 1); (2, 4); (1, 1)] n j = 1 + i / 2).
  { intros i Hi. destruct (Nat.eq_dec i 8) as [->|D].
    - exists 2, 0, 0. split; [exists 1, 1; repeat split; lia|]. split; reflexivity.
    - exists 1, (i / 2), (i mod 2). pose proof (Nat.mod_upper_bound i 2 ltac:(lia)). pose proof (Nat.div_mod i 2 ltac:(lia)) as E.
      split; [exists 2, 4; split; [reflexivity|]; split; [lia|lia]|]. split; [|reflexivity].
      unfold position. change (unknowns_in (firstn 1 [(0, 1); (2, 4); (1, 1)])) with 0. change (fst (nth 1 [(0, 1); (2, 4); (1, 1)] (0, 0))) with 2. lia. }
  destruct (Nat.eqb_spec r c) as [E|E]; [|destruct (Nat.eqb_spec r (S c)) as [E'|E']; [|reflexivity]]; exfalso; apply N;
    destruct (U r Hr) as (n & j & k & U1 & P1 & Q1), (U c Hc) as (n' & j' & k' & U2 & P2 & Q2); exists n, j, k, n', j', k'; repeat split; auto; unfold near; rewrite Q1, Q2.
  - left. congruence.
  - subst r. assert (c / 2 <= S c / 2 <= S (c / 2)); [|lia]. split; [apply Nat.div_le_mono; lia|].
    replace (S (c / 2)) with ((c + 1 * 2) / 2) by (rewrite Nat.div_add by lia; lia). apply Nat.div_le_mono; lia.
Qed.

(* ---------------------------------------------------------------- *)
(** * What does not hold *)

(** With an outlet (no components) as last domain, as in every freely propagating flame,
    [component] divides by zero for every element. *)
Theorem C38_component_refuted : let ops := [LAdd inlet; LAdd flow; LAdd outlet] in
  o_size (lrun ops) = 6 /\ forall i, i < 6 -> component (lrun ops) i = UB.
Proof. cbn zeta. split; [reflexivity|]. intros i H. do 6 (destruct i as [|i]; [reflexivity|]). lia. Qed.
Print Assumptions C38_component_refuted.

(** Two neighbouring domains without components make the bandwidth the largest size_t. *)
Theorem C38_bandwidth_overflow_refuted : exists ops, settled ops /\ o_size (lrun ops) = 0 /\ o_bw (lrun ops) = npos.
Proof.
  exists [LAdd inlet; LAdd outlet]. split; [|split; reflexivity].
  intros l n nv np. apply (not_last [LAdd inlet]). discriminate.
Qed.
Print Assumptions C38_bandwidth_overflow_refuted.

(** A bandwidth given for a domain is not checked: it can leave coupled unknowns outside the band,
    and then their derivative is not stored. *)
Theorem C38_bandwidth_given_refuted : exists ops r c, settled ops /\ coupled (shape_of ops) r c /\
  (o_bw (lrun ops) < Z.abs (Z.of_nat r - Z.of_nat c))%Z.
Proof.
  exists [LAdd (Dom "flame" 2 3 (Some 1) ["u"; "T"] 0 0)], 3, 0. split; [|split].
  - intros l n nv np. apply (not_last []). discriminate.
  - exists 0, 1, 1, 0, 0, 0. split; [exists 2, 3; repeat split; lia|]. split; [exists 2, 3; repeat split; lia|].
    split; [reflexivity|]. split; [reflexivity|]. right. left. reflexivity.
  - cbn. lia.
Qed.
Print Assumptions C38_bandwidth_given_refuted.

(** Until the simulation is resized, its size and point tables are those of the old grid. *)
Theorem C38_stale_refuted : exists ops n j c, unknown (shape_of ops) n j c /\
  value_index (lrun ops) n c j = Err /\ o_size (lrun ops) <> unknowns_in (shape_of ops).
Proof.
  exists [LAdd inlet; LAdd flow; LDomain 1 2 4], 1, 3, 1. split; [exists 2, 4; repeat split; lia|].
  split; [reflexivity|]. cbn. lia.
Qed.
Print Assumptions C38_stale_refuted.
