(* C59: the fixed temperature of a free flame. C58: the hybrid solver. *)
From Coq Require Import Reals ZArith List Bool Arith Lia Lra.
From Verif Require Import Base.Outcome Base.Fp Base.Map2 OneD.RefineModel OneD.RefineSpec OneD.RefineProofs OneD.RefineProps.
Import ListNotations.
Local Open Scope list_scope.
Local Open Scope R_scope.

(* ---------------------------------------------------------------- *)
(** * The search *)
Definition closeT (t : R) (T : nat -> R) (j i : nat) : Prop := Rabs (T i - t) <= Rmin 1 ((T (S j) - T j) / 10).
Lemma find_fixed_spec t T z : forall k m,
  match find_fixed t T z m k with
  | None => forall j, (m <= j < m + k)%nat -> ~ (T j < t < T (S j)) /\ ~ closeT t T j j /\ ~ closeT t T j (S j)
  | Some (zf, None) => exists j i, (m <= j < m + k)%nat /\ (i = j \/ i = S j) /\ zf = z i /\ closeT t T j i
  | Some (zf, Some j) => (m <= j < m + k)%nat /\ T j < t < T (S j) /\ zf = (z j - z (S j)) / (T j - T (S j)) * (t - T (S j)) + z (S j)
  end.
Proof.
  induction k as [|k IH]; intro m; cbn [find_fixed]; [intros; lia|].
  set (th := if rltb (/ 10 * (T (S m) - T m)) 1 then / 10 * (T (S m) - T m) else 1).
  assert (Th : th = Rmin 1 ((T (S m) - T m) / 10)).
  { unfold th. destruct (rltb (/ 10 * (T (S m) - T m)) 1) eqn:E; [apply rltb_true in E; rewrite Rmin_right by lra; lra|apply rltb_false in E; rewrite Rmin_left by lra; reflexivity]. }
  clearbody th. destruct (rltb th (Rabs (t - T m))) eqn:E1; cbn [negb].
  2:{ apply rltb_false in E1. exists m, m. split; [lia|]. split; [auto|]. split; [reflexivity|]. unfold closeT. rewrite <- Th, Rabs_minus_sym. exact E1. }
  apply rltb_true in E1. destruct (rltb th (Rabs (T (S m) - t))) eqn:E2; cbn [negb].
  2:{ apply rltb_false in E2. exists m, (S m). split; [lia|]. split; [auto|]. split; [reflexivity|]. unfold closeT. rewrite <- Th. exact E2. }
  apply rltb_true in E2. destruct (rltb (T m) t && rltb t (T (S m))) eqn:E3.
  { apply andb_prop in E3. destruct E3 as (E3 & E4). apply rltb_true in E3, E4. split; [lia|]. split; [lra|reflexivity]. }
  specialize (IH (S m)). destruct (find_fixed t T z (S m) k) as [[zf [j|]]|].
  - destruct IH as (A & B). split; [lia|exact B].
  - destruct IH as (j & i & A & B). exists j, i. split; [lia|exact B].
  - intros j Hj. destruct (Nat.eq_dec j m) as [->|Nj]; [|apply IH; lia]. split; [|unfold closeT; rewrite <- Th, Rabs_minus_sym; lra].
    intros (A & B). apply rltb_true in A, B. rewrite A, B in E3. discriminate.
Qed.

(* ---------------------------------------------------------------- *)
(** * One domain *)
Lemma dpts_split x start d j : (S j < np d)%nat ->
  dpts x start d = map (pt_at x start d) (seq 0 j) ++ pt_at x start d j :: pt_at x start d (S j) :: map (pt_at x start d) (seq (S (S j)) (np d - S (S j))).
Proof.
  intro H. unfold dpts. replace (np d) with (j + S (S (np d - S (S j))))%nat at 1 by lia. rewrite seq_app, map_app. reflexivity.
Qed.
Lemma neighbours_dpts x start d a b : neighbours (dpts x start d) a b <-> exists j, (S j < np d)%nat /\ a = pt_at x start d j /\ b = pt_at x start d (S j).
Proof.
  split.
  - intros (l1 & l2 & E). exists (length l1).
    assert (L : (length l1 + S (S (length l2)) = np d)%nat) by (apply (f_equal (@length _)) in E; unfold dpts in E; rewrite map_length, seq_length, app_length in E; cbn [length] in E; lia).
    assert (Nt : forall i, (i < np d)%nat -> nth_error (dpts x start d) i = Some (pt_at x start d i)).
    { intros i Hi. unfold dpts. rewrite nth_error_map. rewrite nth_error_nth' with (d := 0%nat) by (rewrite seq_length; exact Hi). rewrite seq_nth by exact Hi. reflexivity. }
    split; [lia|]. pose proof (Nt (length l1) ltac:(lia)) as N1. pose proof (Nt (S (length l1)) ltac:(lia)) as N2. rewrite E in N1, N2.
    rewrite nth_error_app2 in N1, N2 by lia. rewrite Nat.sub_diag in N1. replace (S (length l1) - length l1)%nat with 1%nat in N2 by lia. cbn in N1, N2. split; congruence.
  - intros (j & H & -> & ->). eexists _, _. apply dpts_split. exact H.
Qed.
Lemma temp_pt x start d j : (3 <= g_nv d)%nat -> temperature (pt_at x start d j) = value_at x start d 2 j.
Proof.
  intro H. unfold temperature, pt_at, row. cbn [snd]. rewrite (nth_indep _ 0 (value_at x start d 0 j)) by (rewrite map_length, seq_length; lia).
  rewrite (map_nth (fun i => value_at x start d i j)), seq_nth by lia. reflexivity.
Qed.
Lemma increasing_app : forall l1 (a b : pt) l2, increasing (l1 ++ a :: b :: l2) <-> increasing (l1 ++ [a]) /\ fst a < fst b /\ increasing (b :: l2).
Proof.
  induction l1 as [|c l1 IH]; intros a b l2; [cbn [app increasing]; tauto|]. cbn [app]. destruct l1 as [|c' l1]; [cbn [app increasing]; tauto|].
  cbn [app] in *. specialize (IH a b l2). cbn [increasing] in *. tauto.
Qed.
Lemma inserted_increasing p q p' : inserted p q p' -> increasing p -> increasing p'.
Proof.
  intros (l1 & a & b & l2 & f & -> & -> & F & ->) I. apply increasing_app in I. destruct I as (I1 & I2 & I3). apply increasing_app. split; [exact I1|].
  unfold between. cbn [fst]. split; [nra|]. cbn [increasing fst]. split; [nra|exact I3].
Qed.
Lemma flat_map_single {A B} (f : A -> list B) (g : A -> B) l : (forall a, In a l -> f a = [g a]) -> flat_map f l = map g l.
Proof. induction l as [|a l IH]; intro H; [reflexivity|]. cbn. rewrite H by (left; reflexivity). cbn. f_equal. apply IH. intros b Hb. apply H. right. exact Hb. Qed.
Lemma fix_one_spec t x start d : increasing (dpts x start d) -> (0 < np d)%nat -> (g_flow d = true -> g_free d = true -> (3 <= g_nv d)%nat) ->
  let '(d', p', k) := fix_one t x start d in
  (g_flow d && g_free d = false -> d' = d /\ p' = dpts x start d) /\
  (g_flow d && g_free d = true -> fixes t d (dpts x start d) d' p') /\
  (exists zf tf, d' = set_fixed d zf tf) /\ rows_of (g_nv d) p' /\ increasing p' /\ p' <> [] /\ (length p' <= 1 -> g_z d = map fst p')%nat /\
  Z.of_nat (length p') = (Z.of_nat (length (dpts x start d)) + k)%Z.
Proof.
  intros I Np H3. unfold fix_one.
  assert (Rw : rows_of (g_nv d) (dpts x start d)).
  { intros q Hq. unfold dpts in Hq. apply in_map_iff in Hq. destruct Hq as (j & <- & _). unfold pt_at, row. cbn. rewrite map_length, seq_length. reflexivity. }
  assert (Ez : map fst (dpts x start d) = g_z d) by (unfold dpts, pt_at, np, zat; rewrite map_map; cbn [fst]; apply map_nth_seq).
  assert (Ne : dpts x start d <> []) by (intro E; apply (f_equal (@length _)) in E; unfold dpts in E; rewrite map_length, seq_length in E; cbn in E; lia).
  assert (Sf : d = set_fixed d (g_zfixed d) (g_tfixed d)) by (destruct d; reflexivity).
  destruct (g_flow d && g_free d) eqn:FF.
  2:{ rewrite (flat_map_single _ (pt_at x start d)) by reflexivity. fold (dpts x start d).
      split; [split; reflexivity|]. split; [discriminate|]. split; [eauto|]. split; [exact Rw|]. split; [exact I|]. split; [exact Ne|]. split; [congruence|lia]. }
  apply andb_prop in FF. destruct FF as (F1 & F2). specialize (H3 F1 F2).
  pose proof (find_fixed_spec t (value_at x start d offset_T) (zat d) (np d - 1) 0) as Sp.
  destruct (find_fixed t (value_at x start d offset_T) (zat d) 0 (np d - 1)) as [[zf [j|]]|].
  - destruct Sp as (J & Tj & Zf). unfold offset_T in *. assert (Hj : (S j < np d)%nat) by lia.
    set (q := between ((t - value_at x start d 2 (S j)) / (value_at x start d 2 j - value_at x start d 2 (S j))) (pt_at x start d j) (pt_at x start d (S j))).
    set (f := (t - value_at x start d 2 (S j)) / (value_at x start d 2 j - value_at x start d 2 (S j))) in *.
    assert (Z : zat d j < zat d (S j)) by (apply (dpts_gap x start d); assumption).
    assert (Hf : 0 < f < 1).
    { assert (Ef : f = (value_at x start d 2 (S j) - t) / (value_at x start d 2 (S j) - value_at x start d 2 j)) by (unfold f; field; lra).
      rewrite Ef. split; [apply Rmult_lt_0_compat; [lra|apply Rinv_0_lt_compat; lra]|]. apply (Rmult_lt_reg_r (value_at x start d 2 (S j) - value_at x start d 2 j)); [lra|].
      unfold Rdiv. rewrite Rmult_assoc, Rinv_l by lra. lra. }
    assert (Zq : zf = zat d (S j) + f * (zat d j - zat d (S j))) by (rewrite Zf; unfold f; field; lra).
    assert (Fq : (zf - zat d (S j)) / (zat d j - zat d (S j)) = f) by (rewrite Zq; field; lra).
    assert (Ep : flat_map (fun m => (zat d m, row x start d m) ::
        (if (m =? j)%nat then [(zf, map (fun i => (zf - zat d (S j)) / (zat d j - zat d (S j)) * (value_at x start d i m - value_at x start d i (S m)) + value_at x start d i (S m)) (seq 0 (g_nv d)))] else [])) (seq 0 (np d)) =
      map (pt_at x start d) (seq 0 j) ++ pt_at x start d j :: q :: pt_at x start d (S j) :: map (pt_at x start d) (seq (S (S j)) (np d - S (S j)))).
    { replace (np d) with (j + S (S (np d - S (S j))))%nat at 1 by lia. rewrite seq_app, flat_map_app. cbn [Nat.add seq flat_map]. f_equal.
      - apply flat_map_single. intros m Hm. apply in_seq in Hm. destruct (Nat.eqb_spec m j); [lia|reflexivity].
      - rewrite Nat.eqb_refl. cbn [app]. f_equal.
        rewrite Fq. f_equal.
        + unfold q, between, pt_at, row. cbn [fst snd]. f_equal; [exact Zq|]. rewrite map2_map_l, map2_map_r.
          generalize (seq 0 (g_nv d)). intro l. induction l as [|i l IHl]; [reflexivity|]. cbn. rewrite IHl. f_equal. ring.
        + destruct (Nat.eqb_spec (S j) j); [lia|]. cbn [app]. f_equal. apply flat_map_single. intros m Hm. apply in_seq in Hm. destruct (Nat.eqb_spec m j); [lia|reflexivity]. }
    cbv beta. match goal with |- context [flat_map ?f ?l] => change (flat_map f l) with (flat_map (fun m => (zat d m, row x start d m) ::
        (if (m =? j)%nat then [(zf, map (fun i => (zf - zat d (S j)) / (zat d j - zat d (S j)) * (value_at x start d i m - value_at x start d i (S m)) + value_at x start d i (S m)) (seq 0 (g_nv d)))] else [])) (seq 0 (np d))) end.
    rewrite Ep. clear Ep.
    assert (In1 : inserted (dpts x start d) q (map (pt_at x start d) (seq 0 j) ++ pt_at x start d j :: q :: pt_at x start d (S j) :: map (pt_at x start d) (seq (S (S j)) (np d - S (S j))))).
    { eexists _, _, _, _, f. split; [apply dpts_split; exact Hj|]. split; [reflexivity|]. split; [exact Hf|reflexivity]. }
    split; [discriminate|]. split.
    { intros _. right. right. exists q. split; [exact In1|]. cbn [set_fixed g_zfixed g_tfixed]. split; [|split; [exact Zq|reflexivity]].
      unfold q, temperature, between. cbn [snd]. unfold pt_at, row. cbn [snd]. rewrite map2_map_l, map2_map_r.
      assert (Mg : forall l, map2 (fun a b => value_at x start d b (S j) + f * (value_at x start d a j - value_at x start d b (S j))) l l = map (fun a => value_at x start d a (S j) + f * (value_at x start d a j - value_at x start d a (S j))) l)
        by (induction l as [|i l IHl]; [reflexivity|]; cbn; rewrite IHl; reflexivity). rewrite Mg.
      rewrite (nth_indep _ 0 (value_at x start d 0 (S j) + f * (value_at x start d 0 j - value_at x start d 0 (S j)))) by (rewrite map_length, seq_length; lia).
      rewrite (map_nth (fun a => value_at x start d a (S j) + f * (value_at x start d a j - value_at x start d a (S j)))), seq_nth by lia. cbn [Nat.add]. unfold f. field. lra. }
    split; [eauto|]. split.
    { intros q' Hq. apply in_app_or in Hq. destruct Hq as [Hq|[<-|[<-|Hq]]].
      - apply Rw. rewrite (dpts_split x start d j Hj). apply in_or_app. left. exact Hq.
      - unfold pt_at, row. cbn. rewrite map_length, seq_length. reflexivity.
      - unfold q, between, pt_at, row. cbn [snd fst]. rewrite map2_map_l, map2_map_r. rewrite map2_length_min by reflexivity. apply seq_length.
      - apply Rw. rewrite (dpts_split x start d j Hj). apply in_or_app. right. right. exact Hq. }
    split; [eapply inserted_increasing; [exact In1|exact I]|].
    split; [intro E; apply app_eq_nil in E; destruct E as (_ & E); discriminate|].
    rewrite (dpts_split x start d j Hj), !app_length. cbn [length]. split; intros; lia.
  - destruct Sp as (j & i & J & Ji & -> & C). unfold offset_T in *. rewrite (flat_map_single _ (pt_at x start d)) by reflexivity. fold (dpts x start d).
    split; [discriminate|]. split.
    { intros _. right. left. exists (pt_at x start d j), (pt_at x start d (S j)), (pt_at x start d i). split; [apply neighbours_dpts; exists j; split; [lia|auto]|].
      split; [destruct Ji as [->| ->]; auto|]. split; [unfold near; rewrite !temp_pt by exact H3; exact C|]. repeat split. }
    split; [eauto|]. split; [exact Rw|]. split; [exact I|]. split; [exact Ne|]. split; [congruence|lia].
  - unfold offset_T in *. rewrite (flat_map_single _ (pt_at x start d)) by reflexivity. fold (dpts x start d).
    split; [discriminate|]. split.
    { intros _. left. split; [reflexivity|]. split; [reflexivity|]. split; [reflexivity|]. intros a b Nb. apply neighbours_dpts in Nb. destruct Nb as (j & Hj & -> & ->).
      unfold near. rewrite !temp_pt by exact H3. apply Sp. lia. }
    split; [eauto|]. split; [exact Rw|]. split; [exact I|]. split; [exact Ne|]. split; [congruence|lia].
Qed.

(* ---------------------------------------------------------------- *)
(** * All domains *)
Definition fix_rel (t : R) (x : list R) (start : nat) (d d' : rdom) (p' : list pt) : Prop :=
  (g_flow d && g_free d = false -> d' = d /\ p' = dpts x start d) /\
  (g_flow d && g_free d = true -> fixes t d (dpts x start d) d' p') /\
  (exists zf tf, d' = set_fixed d zf tf) /\ rows_of (g_nv d) p' /\ increasing p' /\ p' <> [] /\ (length p' <= 1 -> g_z d = map fst p')%nat.
Lemma fix_loop_spec t x : forall ds start, (forall n d, nth_error ds n = Some d -> increasing (dpts x (start + dstart ds n) d) /\ (0 < np d)%nat /\ (g_flow d = true -> g_free d = true -> (3 <= g_nv d)%nat)) ->
  let '(ds', ps, k) := fix_loop t x start ds in
  length ds' = length ds /\ length ps = length ds /\
  (forall n d, nth_error ds n = Some d -> exists d' p, nth_error ds' n = Some d' /\ nth_error ps n = Some p /\ fix_rel t x (start + dstart ds n) d d' p) /\
  fold_right (fun p a => Z.of_nat (length p) + a)%Z 0%Z ps = (fold_right (fun d a => Z.of_nat (np d) + a)%Z 0%Z ds + k)%Z.
Proof.
  induction ds as [|d ds IH]; intros start H; cbn [fix_loop]; [repeat split; intros [|n] d; discriminate|].
  destruct (H 0%nat d eq_refl) as (H1 & H2 & H3). change (dstart (d :: ds) 0) with 0%nat in H1. rewrite Nat.add_0_r in H1.
  pose proof (fix_one_spec t x start d H1 H2 H3) as F. destruct (fix_one t x start d) as [[d' p] k].
  specialize (IH (start + g_nv d * np d)%nat). destruct (fix_loop t x (start + g_nv d * np d) ds) as [[ds' ps] k'].
  destruct IH as (L1 & L2 & Nn & S). { intros n e Ne. specialize (H (Datatypes.S n) e Ne). rewrite dstart_cons, Nat.add_assoc in H. exact H. }
  destruct F as (F1 & F2 & F3 & F4 & F5 & F6 & F7 & F8). cbn [length fold_right]. split; [congruence|]. split; [congruence|]. split.
  - intros [|n] e Ne.
    + injection Ne as <-. exists d', p. change (dstart (d :: ds) 0) with 0%nat. rewrite Nat.add_0_r. split; [reflexivity|]. split; [reflexivity|]. repeat split; try assumption; apply F1 || apply F2; assumption.
    + rewrite dstart_cons, Nat.add_assoc. apply Nn. exact Ne.
  - rewrite S, F8. unfold dpts. rewrite map_length, seq_length. lia.
Qed.
Lemma Forall2_of_nth {A B} (P : A -> B -> Prop) : forall l m, length l = length m -> (forall n a b, nth_error l n = Some a -> nth_error m n = Some b -> P a b) -> Forall2 P l m.
Proof.
  induction l as [|a l IH]; intros [|b m] L H; try discriminate; [constructor|]. constructor; [apply (H 0%nat); reflexivity|].
  apply IH; [cbn in L; lia|]. intros n. apply (H (S n)).
Qed.
Lemma fold_np ds ps : length ds = length ps -> fold_right (fun d a => Z.of_nat (np d) + a)%Z 0%Z (map2 regridded ds ps) = fold_right (fun (p : list pt) a => Z.of_nat (length p) + a)%Z 0%Z ps.
Proof. revert ps. induction ds as [|d ds IH]; intros [|p ps] L; try discriminate; [reflexivity|]. cbn [map2 fold_right]. rewrite IH by (cbn in L; lia). unfold np, regridded. cbn. rewrite map_length. reflexivity. Qed.

(* C59: setting the fixed temperature always succeeds on a well-formed simulation whose flow
   domains have a temperature; each free flow gets its fixed point as described by [fixes], other
   domains are not touched, grids stay ordered, and the result is the number of points added. *)
Theorem C59_fixed : forall t s, wellformed s ->
  (forall n d, nth_error (s_dom s) n = Some d -> g_flow d = true -> g_free d = true -> (3 <= g_nv d)%nat) ->
  exists k s', setFixedTemperature t s = Ok (k, s') /\ wellformed s' /\ length (s_dom s') = length (s_dom s) /\
    fold_right (fun d a => Z.of_nat (length (g_z d)) + a)%Z 0%Z (s_dom s') = (fold_right (fun d a => Z.of_nat (length (g_z d)) + a)%Z 0%Z (s_dom s) + k)%Z /\
    forall n d, nth_error (s_dom s) n = Some d -> exists d', nth_error (s_dom s') n = Some d' /\
      (g_nv d' = g_nv d /\ g_flow d' = g_flow d /\ g_free d' = g_free d /\ g_ctrl d' = g_ctrl d /\ g_crit d' = g_crit d) /\
      (g_flow d && g_free d = false -> g_zfixed d' = g_zfixed d /\ g_tfixed d' = g_tfixed d /\ points s' n = points s n) /\
      (g_flow d && g_free d = true -> fixes t d (points s n) d' (points s' n)).
Proof.
  intros t s W H3. unfold setFixedTemperature.
  pose proof (fix_loop_spec t (s_x s) (s_dom s) 0) as F. destruct (fix_loop t (s_x s) 0 (s_dom s)) as [[ds ps] k].
  destruct F as (L1 & L2 & Nn & S).
  { intros n d N. destruct (wf_fine s W n d N) as (A & B & _). split; [exact B|]. split; [apply np_pos; exact A|apply (H3 n d N)]. }
  assert (R1 : Forall2 (fun d p => increasing p /\ p <> [] /\ ((length p <= 1)%nat -> g_z d = map fst p)) ds ps).
  { apply Forall2_of_nth; [congruence|]. intros n d' p N1 N2. destruct (nth_error (s_dom s) n) as [d|] eqn:N.
    - destruct (Nn n d N) as (d1 & p1 & M1 & M2 & (_ & _ & (zf & tf & E) & _ & I & Ne & G)). rewrite N1 in M1. rewrite N2 in M2. injection M1 as <-. injection M2 as <-.
      split; [exact I|]. split; [exact Ne|]. rewrite E. exact G.
    - exfalso. apply nth_error_None in N. assert (n < length ds)%nat by (apply nth_error_Some; congruence). lia. }
  assert (R2 : Forall2 (fun d p => rows_of (g_nv d) p) ds ps).
  { apply Forall2_of_nth; [congruence|]. intros n d' p N1 N2. destruct (nth_error (s_dom s) n) as [d|] eqn:N.
    - destruct (Nn n d N) as (d1 & p1 & M1 & M2 & (_ & _ & (zf & tf & E) & Rw & _)). rewrite N1 in M1. rewrite N2 in M2. injection M1 as <-. injection M2 as <-. rewrite E. exact Rw.
    - exfalso. apply nth_error_None in N. assert (n < length ds)%nat by (apply nth_error_Some; congruence). lia. }
  rewrite (regrid_ok _ _ R1). cbn [omap]. eexists k, _. split; [reflexivity|].
  assert (Lm : length (map2 regridded ds ps) = length (s_dom s)) by (rewrite map2_length_min; congruence).
  assert (Dn : forall n d, nth_error (s_dom s) n = Some d -> exists d' p, nth_error (map2 regridded ds ps) n = Some (regridded d' p) /\
     points (S1 (map2 regridded ds ps) (flatten ps) (s_xss s) (s_gridss s)) n = p /\ fix_rel t (s_x s) (dstart (s_dom s) n) d d' p).
  { intros n d N. destruct (Nn n d N) as (d' & p & M1 & M2 & Fr). exists d', p. split; [rewrite map2_nth_error, M1, M2; reflexivity|]. split; [|exact Fr]. apply flatten_points; assumption. }
  split; [|split; [exact Lm|split]].
  - split; [cbn [s_x s_dom]; rewrite Lm, <- L1; apply flatten_length; exact R2|]. cbn [s_dom]. intros n e Ne. destruct (nth_error (s_dom s) n) as [d|] eqn:N.
    2:{ exfalso. apply nth_error_None in N. assert (n < length (map2 regridded ds ps))%nat by (apply nth_error_Some; congruence). lia. }
    destruct (Dn n d N) as (d' & p & N' & P & (_ & _ & (zf & tf & E) & _ & I & Nz & _)). rewrite Ne in N'. injection N' as ->. rewrite P. destruct W as (_ & W). destruct (W n d N) as (_ & _ & Sn & K0).
    rewrite E. cbn [regridded set_grid set_fixed g_z g_crit g_ref]. split; [destruct p; [congruence|discriminate]|]. auto.
  - cbn [s_dom]. change (fun d a => (Z.of_nat (length (g_z d)) + a)%Z) with (fun d a => (Z.of_nat (np d) + a)%Z). rewrite fold_np by congruence. exact S.
  - intros n d N. destruct (Dn n d N) as (d' & p & N' & P & (F1 & F2 & (zf & tf & E) & _ & I & Nz & _)). exists (regridded d' p). split; [exact N'|]. rewrite P.
    split; [rewrite E; repeat split|]. rewrite (points_dpts s n d N). split.
    + intro X. destruct (F1 X) as (-> & ->). repeat split.
    + intro X. specialize (F2 X). exact F2.
Qed.
Print Assumptions C59_fixed.
Definition free1 : rdom := RD 3 [0; 1; 2] true true 0 0 [] (crit1 0) (fun _ => true) refiner0.
Definition flame1 : sim1 := S1 [free1] [0; 0; 300; 0; 0; 1000; 0; 0; 2000] [] [].
Example C59_nonvacuous : wellformed flame1 /\ (forall n d, nth_error (s_dom flame1) n = Some d -> g_flow d = true -> g_free d = true -> (3 <= g_nv d)%nat) /\
  exists k s', setFixedTemperature 500 flame1 = Ok (k, s') /\ length (points s' 0) = 4%nat.
Proof.
  assert (W : wellformed flame1).
  { split; [reflexivity|]. intros [|[|n]] d N; try discriminate. injection N as <-. split; [discriminate|]. split; [cbn; lra|]. split; [unfold sound; cbn; lra|discriminate]. }
  assert (H3 : forall n d, nth_error (s_dom flame1) n = Some d -> g_flow d = true -> g_free d = true -> (3 <= g_nv d)%nat).
  { intros [|[|n]] d N; try discriminate. injection N as <-. cbn. lia. }
  split; [exact W|]. split; [exact H3|]. destruct (C59_fixed 500 flame1 W H3) as (k & s' & E & _ & _ & _ & Q). exists k, s'. split; [exact E|].
  destruct (Q 0%nat free1 eq_refl) as (d' & _ & _ & _ & Fx). specialize (Fx eq_refl).
  assert (P : points flame1 0 = [(0, [0; 0; 300]); (1, [0; 0; 1000]); (2, [0; 0; 2000])]) by reflexivity. rewrite P in Fx.
  destruct Fx as [(_ & _ & _ & X)|[(a & b & q & (l1 & l2 & X) & Qq & Nr & _)|(q & (l1 & a & b & l2 & f & X & -> & _) & _)]].
  - exfalso. destruct (X (0, [0; 0; 300]) (1, [0; 0; 1000])) as (Y & _); [exists [], [(2, [0; 0; 2000])]; reflexivity|]. apply Y. unfold temperature. cbn. lra.
  - exfalso. unfold near, temperature in Nr. destruct l1 as [|c [|c' l1]].
    + injection X as <- <- <-. cbn [snd nth] in Nr. rewrite Rmin_left in Nr by lra. destruct Qq as [->| ->]; cbn [snd nth] in Nr.
      * rewrite Rabs_left in Nr by lra. lra.
      * rewrite Rabs_right in Nr by lra. lra.
    + injection X as <- <- <- <-. cbn [snd nth] in Nr. rewrite Rmin_left in Nr by lra. destruct Qq as [->| ->]; cbn [snd nth] in Nr; rewrite Rabs_right in Nr by lra; lra.
    + exfalso. injection X as _ _ X. destruct l1; [discriminate X|]. injection X as _ X. destruct l1; discriminate.
  - apply (f_equal (@length _)) in X. rewrite !app_length in *. cbn [length] in *. lia.
Qed.
(* The domain may be left without the temperature that was asked for, with no error: the
   temperature never reaches it. *)
Theorem C59_silent_refuted : exists t s k s', wellformed s /\ setFixedTemperature t s = Ok (k, s') /\
  exists d, nth_error (s_dom s') 0 = Some d /\ g_flow d = true /\ g_free d = true /\ g_tfixed d <> t.
Proof.
  destruct C59_nonvacuous as (W & H3 & _). destruct (C59_fixed 9000 flame1 W H3) as (k & s' & E & _ & _ & _ & Q).
  exists 9000, flame1, k, s'. split; [exact W|]. split; [exact E|]. destruct (Q 0%nat free1 eq_refl) as (d' & N & (_ & D1 & D2 & _) & _ & Fx). specialize (Fx eq_refl).
  exists d'. split; [exact N|]. split; [exact D1|]. split; [exact D2|].
  assert (P : points flame1 0 = [(0, [0; 0; 300]); (1, [0; 0; 1000]); (2, [0; 0; 2000])]) by reflexivity. rewrite P in Fx.
  assert (Nb : forall a b, neighbours [(0, [0; 0; 300]); (1, [0; 0; 1000]); (2, [0; 0; 2000])] a b -> temperature b - temperature a > 0 /\ temperature a <= 2000 /\ temperature b <= 2000).
  { intros a b (l1 & l2 & X). unfold temperature. destruct l1 as [|c [|c' l1]].
    - injection X as <- <- <-. cbn. lra.
    - injection X as <- <- <- <-. cbn. lra.
    - exfalso. injection X as _ _ X. destruct l1; [discriminate X|]. injection X as _ X. destruct l1; discriminate. }
  destruct Fx as [(_ & -> & _)|[(a & b & q & X & Qq & Nr & _)|(q & (l1 & a & b & l2 & f & X & _ & Hf & ->) & Tq & _)]].
  - cbn. lra.
  - exfalso. destruct (Nb a b X) as (A & B & C). unfold near in Nr. pose proof (Rmin_l 1 ((temperature b - temperature a) / 10)).
    assert (Y : Rabs (temperature q - 9000) <= 1) by lra. assert (Z : temperature q <= 2000) by (destruct Qq as [->| ->]; assumption).
    rewrite Rabs_left in Y by lra. lra.
  - exfalso. destruct (Nb a b) as (A & B & C); [exists l1, l2; exact X|]. unfold temperature, between in Tq. cbn [snd] in Tq.
    destruct l1 as [|c [|c' l1]].
    + injection X as <- <- <-. cbn in Tq. lra.
    + injection X as <- <- <- <-. cbn in Tq. lra.
    + injection X as _ _ X. destruct l1; [discriminate X|]. injection X as _ X. destruct l1; discriminate.
Qed.
Print Assumptions C59_silent_refuted.

(* ---------------------------------------------------------------- *)
(** * The hybrid solver *)
Lemma refine_again s s' : wellformed s -> refine s = (Ok 0%Z, s') -> refine s' = (Ok 0%Z, s').
Proof.
  intros W H. destruct (refine_ok s _ s' W H) as (ds & pts & a & b & L & (-> & F) & K).
  destruct (loop_counts _ _ _ _ _ _ _ L) as ((P1 & P2) & _). assert (E : a = 0%Z /\ b = 0%Z).
  { destruct (Z.eqb_spec a 0) as [Ea|Ea], (Z.eqb_spec (- b) 0) as [Eb|Eb]; cbn in K; try discriminate. lia. }
  destruct E as (-> & ->). pose proof (refine_zero s _ W H) as (X & _). cbn [s_x] in X. destruct W as (W0 & W).
  destruct (loop_zero _ _ _ _ _ _ _ L eq_refl eq_refl) as (Z1 & Z2); [cbn; lia|]. rewrite Z2, X.
  assert (Lp : forall x start l l' pts a b, loop_ok x start l l' pts a b -> refine_loop x start l' = (l', map g_z l, Some (pts, a, b))).
  { clear. induction 1 as [start|start d ds r ds' pts a b An L IH]; [reflexivity|]. cbn [refine_loop].
    assert (An' : analyze (set_ref d r) x start = Ok r).
    { unfold analyze in *. change (np (set_ref d r)) with (np d). cbn [set_ref g_crit g_ref]. destruct (c_npmax (g_crit d) <=? np d)%nat; [discriminate|]. destruct (np d <=? 1)%nat; [reflexivity|].
      exact An. }
    rewrite An'. change (g_nv (set_ref d r) * np (set_ref d r))%nat with (g_nv d * np d)%nat. rewrite IH. reflexivity. }
  unfold refine. cbn [s_x s_dom]. rewrite (Lp _ _ _ _ _ _ _ L). 
  assert (Fn : forall n d, nth_error (s_dom s) n = Some d -> fine (s_x s) (0 + dstart (s_dom s) n) d) by (apply wf_fine; split; assumption).
  destruct (loop_all _ _ _ _ _ _ _ L Fn) as (F1 & F2). rewrite (regrid_ok _ _ F1), Z2, X. reflexivity.
Qed.
Lemma wf_set_x s x : wellformed s -> length x = length (s_x s) -> wellformed (set_x s x).
Proof.
  intros (W0 & W) L. split; [cbn [set_x s_x s_dom]; congruence|]. intros n d N. cbn [set_x s_dom] in N. destruct (W n d N) as (A & B & C). split; [exact A|]. split; [|exact C].
  apply (increasing_fst (points s n)); [|exact B]. unfold points, set_x. cbn [s_dom s_x]. rewrite N, !map_map. reflexivity.
Qed.
Section Solve.
  Context (newton : nat -> sim1 -> option (list R)) (stepping : nat -> Z -> R -> sim1 -> option (R * list R)).
  Context (Hn : forall i s x, newton i s = Some x -> length x = length (s_x s)).
  Context (Hs : forall i k dt s dt' x, stepping i k dt s = Some (dt', x) -> length x = length (s_x s)).
  Lemma hybrid_spec rg steps ts tm : steps <> [] -> forall fuel calls istep dt s, wellformed s ->
    match hybrid newton stepping fuel rg steps ts tm calls istep dt s with
    | None => True
    | Some (Ok (c, s')) => wellformed s' /\ (calls < c)%nat /\
        (exists i s0, (calls <= i < c)%nat /\ wellformed s0 /\ newton i s0 = Some (s_x s') /\ (forall n, map fst (points s' n) = map fst (points s0 n))) /\
        (rg = true -> refine s' = (Ok 0%Z, s')) /\ (rg = false -> s_dom s' = s_dom s)
    | Some o => o = Err /\ ((exists i k dt s0, wellformed s0 /\ newton i s0 = None /\ stepping i k dt s0 = None) \/
        rg = true /\ exists s0 n d, wellformed s0 /\ nth_error (s_dom s0) n = Some d /\ (c_npmax (g_crit d) <= length (g_z d))%nat)
    end.
  Proof.
    intro Ns. induction fuel as [|fuel IH]; intros calls istep dt s W; cbn [hybrid]; [exact I|]. destruct steps as [|s0 steps]; [congruence|].
    destruct (newton calls s) as [x|] eqn:Nw.
    - pose proof (wf_set_x s x W (Hn _ _ _ Nw)) as Wx. destruct rg.
      + destruct (refine (set_x s x)) as [o s'] eqn:Rf. destruct o as [k| | |].
        * pose proof (refine_wf _ _ _ Wx Rf) as W'. destruct (Z.ltb_spec 0 k) as [Lk|Lk].
          -- specialize (IH (S calls) 0%nat ts s' W'). destruct (hybrid newton stepping fuel true (s0 :: steps) ts tm (S calls) 0 ts s') as [[[c s'']| | |]|]; try exact IH; try exact I.
             destruct IH as (A & B & (i & u & C & D) & E). split; [exact A|]. split; [lia|]. split; [exists i, u; split; [lia|exact D]|]. split; [apply E|discriminate].
          -- destruct (C27_refine _ _ _ Wx Rf) as (_ & [->| ->] & _); [|lia]. destruct (refine_zero _ _ Wx Rf) as (X & P & _).
             split; [exact W'|]. split; [lia|]. split; [|split; [intros _; apply (refine_again _ _ Wx Rf)|discriminate]].
             exists calls, s. split; [lia|]. split; [exact W|]. split; [rewrite X; exact Nw|]. intro n. rewrite P. unfold points, set_x. cbn [s_dom s_x].
             destruct (nth_error (s_dom s) n); [rewrite !map_map; reflexivity|reflexivity].
        * destruct (refine_err _ _ _ Wx Rf ltac:(discriminate)) as (_ & (n & d & A & B) & _). split; [reflexivity|]. right. split; [reflexivity|]. exists (set_x s x), n, d. auto.
        * destruct (refine_err _ _ _ Wx Rf ltac:(discriminate)) as (E & _). discriminate.
        * destruct (refine_err _ _ _ Wx Rf ltac:(discriminate)) as (E & _). discriminate.
      + split; [exact Wx|]. split; [lia|]. split; [|split; [discriminate|reflexivity]].
        exists calls, s. split; [lia|]. split; [exact W|]. split; [exact Nw|]. intro n. unfold points, set_x. cbn [s_dom s_x]. destruct (nth_error (s_dom s) n); [rewrite !map_map; reflexivity|reflexivity].
    - destruct (stepping calls (steps_at (s0 :: steps) istep) dt s) as [[dt' x]|] eqn:St.
      + set (dt1 := if rltb tm dt' then tm else dt'). specialize (IH (S calls) (S istep) dt1 (set_x s x) (wf_set_x s x W (Hs _ _ _ _ _ _ St))).
        destruct (hybrid newton stepping fuel rg (s0 :: steps) ts tm (S calls) (S istep) dt1 (set_x s x)) as [[[c s'']| | |]|]; try exact IH; try exact I.
        destruct IH as (A & B & (i & u & C & D) & E). split; [exact A|]. split; [lia|]. split; [exists i, u; split; [lia|exact D]|exact E].
      + split; [reflexivity|]. left. exists calls, (steps_at (s0 :: steps) istep), dt, s. auto.
  Qed.

(* C58: when the hybrid solver returns, the solution is what a steady Newton solve returned on the
   same grid, whatever happened before, and with refinement another refinement finds nothing to
   do. It throws only when time stepping throws or the limit on the number of points is reached. *)
Theorem C58_solve : forall fuel rg steps ts tm s, steps <> [] -> wellformed s ->
  match solve1 newton stepping fuel rg steps ts tm s with
  | None => True
  | Some (Ok (c, s')) => wellformed s' /\
      (exists i s0, (i < c)%nat /\ wellformed s0 /\ newton i s0 = Some (s_x s') /\ (forall n, map fst (points s' n) = map fst (points s0 n))) /\
      (rg = true -> refine s' = (Ok 0%Z, s')) /\ (rg = false -> s_dom s' = s_dom s)
  | Some o => o = Err /\ ((exists i k dt s0, wellformed s0 /\ newton i s0 = None /\ stepping i k dt s0 = None) \/
      rg = true /\ exists s0 n d, wellformed s0 /\ nth_error (s_dom s0) n = Some d /\ (c_npmax (g_crit d) <= length (g_z d))%nat)
  end.
Proof.
  intros fuel rg steps ts tm s Ns W. unfold solve1. pose proof (hybrid_spec rg steps ts tm Ns fuel 0 0 ts s W) as H.
  destruct (hybrid newton stepping fuel rg steps ts tm 0 0 ts s) as [[[c s']| | |]|]; try exact H; try exact I.
  destruct H as (A & B & (i & s0 & C & D) & E). split; [exact A|]. split; [exists i, s0; split; [lia|exact D]|exact E].
Qed.
Print Assumptions C58_solve.
(* C58: spelled out: the returned solution meets the refinement criteria on every domain. *)
Theorem C58_criteria : forall fuel steps ts tm s c s', steps <> [] -> wellformed s -> solve1 newton stepping fuel true steps ts tm s = Some (Ok (c, s')) ->
  forall n d, nth_error (s_dom s') n = Some d -> (2 <= length (g_z d))%nat ->
    (forall j, ~ wants s' n d j) /\
    (forall j, (j + 2 < length (g_z d))%nat ->
       gap (coordinate d) (j + 1) <= c_ratio (g_crit d) * gap (coordinate d) j /\ gap (coordinate d) j <= c_ratio (g_crit d) * gap (coordinate d) (j + 1)).
Proof.
  intros fuel steps ts tm s c s' Ns W H n d N N2. pose proof (C58_solve fuel true steps ts tm s Ns W) as Q. rewrite H in Q. destruct Q as (W' & _ & R & _).
  destruct (C27_done s' s' W' (R eq_refl)) as (_ & _ & X). destruct (X n d N N2) as (A & B & _). split; [intro j; apply A|exact B].
Qed.
Print Assumptions C58_criteria.
End Solve.
(* C58: the time stepper is only asked for numbers of steps from the given list and for sizes that
   are the initial one or do not exceed the maximum: what it would do otherwise does not matter. *)
Theorem C58_steps : forall newton stepping stepping' fuel rg steps ts tm s,
  (forall i k dt s0, In k steps -> dt = ts \/ dt <= tm -> stepping i k dt s0 = stepping' i k dt s0) ->
  solve1 newton stepping fuel rg steps ts tm s = solve1 newton stepping' fuel rg steps ts tm s.
Proof.
  intros newton st st' fuel rg steps ts tm s H. unfold solve1.
  enough (G : forall calls istep dt s, dt = ts \/ dt <= tm -> hybrid newton st fuel rg steps ts tm istep calls dt s = hybrid newton st' fuel rg steps ts tm istep calls dt s) by (apply G; auto). clear s.
  induction fuel as [|fuel IH]; intros calls istep dt s D; cbn [hybrid]; [reflexivity|]. destruct steps as [|a l] eqn:Es; [reflexivity|]. rewrite <- Es in *.
  destruct (newton istep s) as [x|].
  - destruct rg; [|reflexivity]. destruct (refine (set_x s x)) as [[k| | |] s']; try reflexivity. destruct (0 <? k)%Z; [|reflexivity]. apply IH. auto.
  - rewrite H; [|unfold steps_at; destruct (nth_in_or_default calls steps (last steps 0%Z)) as [X| ->]; [exact X|]; subst steps; rewrite (app_removelast_last 0%Z (l := a :: l)) at 2 by discriminate; apply in_or_app; right; left; reflexivity|exact D].
    destruct (st' istep (steps_at steps calls) dt s) as [[dt' x]|]; [|reflexivity]. apply IH. right. destruct (rltb tm dt') eqn:E; [lra|apply rltb_false in E; exact E].
Qed.
Print Assumptions C58_steps.
(* A Newton solver that fails once. *)
Example C58_nonvacuous : exists newton stepping c s', (forall i s x, newton i s = Some x -> length x = length (s_x s)) /\
  (forall i k dt s dt' x, stepping i k dt s = Some (dt', x) -> length x = length (s_x s)) /\
  solve1 newton stepping 5 false [10%Z] 1 100 flame1 = Some (Ok (c, s')) /\ c = 2%nat.
Proof.
  exists (fun i (s : sim1) => if (i =? 0)%nat then None else Some (s_x s)), (fun i k dt (s : sim1) => Some (dt, s_x s)), 2%nat.
  eexists. split; [intros i s x H; destruct (i =? 0)%nat; [discriminate|injection H as <-; reflexivity]|]. split; [intros i k dt s dt' x H; injection H as _ <-; reflexivity|].
  split; reflexivity.
Qed.
