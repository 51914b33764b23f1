(* Array2D and BandMatrix address the entries they should. *)
From Coq Require Import Reals List Bool Arith Lra Lia.
From Verif Require Import Base.Outcome Base.Fp Base.RSum Numerics.Model Numerics.Spec.
Import ListNotations.
Local Open Scope R_scope.

Lemma set_nth_length l i v : length (set_nth l i v) = length l.
Proof. revert i; induction l as [|x l IH]; intros [|i]; cbn; auto. Qed.
Lemma nth_error_set_nth l i v k :
  (i < length l)%nat -> nth_error (set_nth l i v) k = if Nat.eqb k i then Some v else nth_error l k.
Proof.
  revert i k; induction l as [|x l IH]; intros [|i] k H; cbn in H; try lia.
  - destruct k; reflexivity.
  - destruct k as [|k]; [reflexivity|]. cbn [set_nth nth_error]. rewrite IH by lia. reflexivity.
Qed.
Lemma wr_ok l i v : (i < length l)%nat -> wr l i v = Ok (set_nth l i v).
Proof. intros H. unfold wr. rewrite (proj2 (Nat.ltb_lt _ _) H). reflexivity. Qed.

Lemma nth_error_vresize n v l k :
  nth_error (vresize n v l) k =
  if Nat.ltb k n then (if Nat.ltb k (length l) then nth_error l k else Some v) else None.
Proof.
  unfold vresize. destruct (Nat.ltb_spec k n) as [H|H].
  - destruct (Nat.ltb_spec k (length l)) as [H'|H'].
    + rewrite nth_error_app1 by (rewrite firstn_length; lia).
      revert l k H H'. induction n as [|n IH]; intros l k H H'; [lia|].
      destruct l as [|x l]; [cbn in H'; lia|]. destruct k as [|k]; [reflexivity|].
      cbn [firstn nth_error]. apply IH; cbn in H'; lia.
    + rewrite nth_error_app2 by (rewrite firstn_length; lia). rewrite firstn_length.
      rewrite nth_error_repeat by lia. reflexivity.
  - apply nth_error_None. rewrite app_length, firstn_length, repeat_length. lia.
Qed.
Lemma vresize_length n v l : length (vresize n v l) = n.
Proof. unfold vresize. rewrite app_length, firstn_length, repeat_length. lia. Qed.

Lemma write_all_ok l : forall d,
  (forall k v, In (k, v) l -> (k < length d)%nat) ->
  NoDup (map fst l) ->
  exists d', write_all l d = Ok d' /\ length d' = length d /\
    (forall k v, In (k, v) l -> nth_error d' k = Some v) /\
    (forall k, ~ In k (map fst l) -> nth_error d' k = nth_error d k).
Proof.
  induction l as [|[k v] l IH]; intros d Hk Hn.
  - exists d. split; [reflexivity|]. split; [reflexivity|]. split; [intros ? ? []|reflexivity].
  - cbn [write_all]. cbn [map fst] in Hn. inversion Hn as [|? ? N1 N2]; subst.
    assert (K : (k < length d)%nat) by (apply (Hk k v); left; reflexivity).
    rewrite wr_ok by exact K. cbn [obind].
    destruct (IH (set_nth d k v)) as (d' & E & L & A & B); [|exact N2|].
    { intros k' v' H. rewrite set_nth_length. apply (Hk k' v'). right. exact H. }
    exists d'. split; [exact E|]. split; [rewrite L, set_nth_length; reflexivity|]. split.
    + intros k' v' [H|H].
      * injection H as <- <-. rewrite B by exact N1. rewrite nth_error_set_nth by exact K.
        rewrite Nat.eqb_refl. reflexivity.
      * apply A. exact H.
    + intros k' H. rewrite B by (intros X; apply H; right; exact X).
      rewrite nth_error_set_nth by exact K. destruct (Nat.eqb_spec k' k) as [->|_]; [|reflexivity].
      exfalso. apply H. left. reflexivity.
Qed.

Lemma read_all_ok l d (g : nat -> R) :
  (forall k, In k l -> nth_error d k = Some (g k)) -> read_all l d = Ok (map g l).
Proof.
  induction l as [|k l IH]; intros H; [reflexivity|]. cbn [read_all map].
  unfold rd. rewrite (H k) by (left; reflexivity). cbn [obind].
  rewrite IH by (intros; apply H; right; assumption). reflexivity.
Qed.

Lemma idx_lt nr nc i j : (i < nr)%nat -> (j < nc)%nat -> (nr * j + i < nr * nc)%nat.
Proof. nia. Qed.
Lemma idx_inj nr i j i' j' :
  (i < nr)%nat -> (i' < nr)%nat -> (nr * j + i = nr * j' + i')%nat -> i = i' /\ j = j'.
Proof.
  intros H H' E.
  assert (j = j').
  { apply (Nat.div_unique (nr * j + i) nr j i) in H as D1; [|reflexivity].
    apply (Nat.div_unique (nr * j + i) nr j' i') in H' as D2; [|exact E]. congruence. }
  subst. split; [lia|reflexivity].
Qed.

(* ---------------- Array2D ---------------- *)

Definition rep (a : arr2) (m : matrix) : Prop :=
  a_nr a = M_nr m /\ a_nc a = M_nc m /\ length (a_data a) = (a_nr a * a_nc a)%nat /\
  forall i j, (i < M_nr m)%nat -> (j < M_nc m)%nat ->
    nth_error (a_data a) (M_nr m * j + i) = Some (M_at m i j).

Lemma rep_new m n v : rep (arr_new m n v) (Matrix m n (fun _ _ => v)).
Proof.
  unfold rep, arr_new. cbn. split; [reflexivity|]. split; [reflexivity|]. split.
  - rewrite repeat_length. lia.
  - intros i j Hi Hj. apply nth_error_repeat. pose proof (idx_lt m n i j Hi Hj). lia.
Qed.

Lemma rep_step a m o :
  rep a m -> arr_pre m o -> exists a', astep a o = Ok a' /\ rep a' (arr_step m o).
Proof.
  intros (H1 & H2 & H3 & H4) Hp.
  destruct o as [i j v|n c v|n rw|c col| |c]; cbn [astep arr_step arr_pre] in *.
  - destruct Hp as [Hi Hj]. unfold arr_set. rewrite wr_ok.
    2:{ rewrite H3, H1, H2. apply idx_lt; assumption. }
    cbn [omap obind]. eexists. split; [reflexivity|]. unfold rep. cbn.
    split; [exact H1|]. split; [exact H2|]. split; [rewrite set_nth_length; exact H3|].
    intros i' j' Hi' Hj'. rewrite H1. rewrite nth_error_set_nth by (rewrite H3, H1, H2; apply idx_lt; assumption).
    destruct (Nat.eqb_spec (M_nr m * j' + i') (M_nr m * j + i)) as [E|E].
    + apply idx_inj in E; try assumption. destruct E as [-> ->]. rewrite !Nat.eqb_refl. reflexivity.
    + destruct (Nat.eqb_spec i' i) as [->|]; [|cbn; apply H4; assumption].
      destruct (Nat.eqb_spec j' j) as [->|]; [congruence|cbn; apply H4; assumption].
  - subst n. eexists. split; [reflexivity|]. unfold rep, arr_resize. cbn [a_data a_nr a_nc M_nr M_nc M_at].
    split; [reflexivity|]. split; [reflexivity|]. split; [apply vresize_length|].
    intros i j Hi Hj. rewrite nth_error_vresize.
    pose proof (idx_lt _ _ _ _ Hi Hj) as L. rewrite (proj2 (Nat.ltb_lt _ _) L).
    destruct (Nat.ltb_spec j (M_nc m)) as [Hc|Hc].
    + rewrite (proj2 (Nat.ltb_lt _ _)).
      2:{ rewrite H3, H1, H2. apply idx_lt; assumption. }
      apply H4; assumption.
    + rewrite (proj2 (Nat.ltb_ge _ _)); [reflexivity|]. rewrite H3, H1, H2. nia.
  - unfold setRow.
    destruct (write_all_ok (map (fun j => ((a_nr a * j + n)%nat, rw j)) (seq 0 (a_nc a))) (a_data a))
      as (d' & E & L & A & B).
    { intros k v H. apply in_map_iff in H as (j & Ej & Hj). injection Ej as <- <-.
      apply in_seq in Hj. rewrite H3, H1, H2. apply idx_lt; [exact Hp|lia]. }
    { rewrite map_map. cbn [fst]. apply FinFun.Injective_map_NoDup; [|apply seq_NoDup].
      intros x y E. apply idx_inj in E; [apply E| |]; lia. }
    rewrite E. cbn [omap obind]. eexists. split; [reflexivity|]. unfold rep. cbn.
    split; [exact H1|]. split; [exact H2|]. split; [congruence|].
    intros i j Hi Hj. destruct (Nat.eqb_spec i n) as [->|Hne].
    + apply A. apply in_map_iff. exists j. rewrite H1. split; [reflexivity|]. apply in_seq. lia.
    + rewrite B; [apply H4; assumption|]. rewrite map_map. cbn [fst]. intros X.
      apply in_map_iff in X as (j' & Ej & Hj'). rewrite H1 in Ej.
      apply idx_inj in Ej; [|assumption|assumption]. destruct Ej; congruence.
  - unfold setColumn.
    destruct (write_all_ok (map (fun i => ((a_nr a * c + i)%nat, col i)) (seq 0 (a_nr a))) (a_data a))
      as (d' & E & L & A & B).
    { intros k v H. apply in_map_iff in H as (i & Ei & Hi). injection Ei as <- <-.
      apply in_seq in Hi. rewrite H3, H2. apply idx_lt; [lia|exact Hp]. }
    { rewrite map_map. cbn [fst]. apply FinFun.Injective_map_NoDup; [|apply seq_NoDup].
      intros x y E. lia. }
    rewrite E. cbn [omap obind]. eexists. split; [reflexivity|]. unfold rep. cbn.
    split; [exact H1|]. split; [exact H2|]. split; [congruence|].
    intros i j Hi Hj. destruct (Nat.eqb_spec j c) as [->|Hne].
    + apply A. apply in_map_iff. exists i. rewrite H1. split; [reflexivity|]. apply in_seq. lia.
    + rewrite B; [apply H4; assumption|]. rewrite map_map. cbn [fst]. intros X.
      apply in_map_iff in X as (i' & Ej & Hj'). apply in_seq in Hj'. rewrite H1 in *.
      apply idx_inj in Ej; [|lia|assumption]. destruct Ej; congruence.
  - eexists. split; [reflexivity|]. unfold rep, arr_zero. cbn.
    split; [exact H1|]. split; [exact H2|]. split; [rewrite repeat_length; exact H3|].
    intros i j Hi Hj. apply nth_error_repeat. rewrite H3, H1, H2. apply idx_lt; assumption.
  - eexists. split; [reflexivity|]. unfold rep, arr_scale. cbn.
    split; [exact H1|]. split; [exact H2|]. split; [rewrite map_length; exact H3|].
    intros i j Hi Hj. rewrite nth_error_map, H4 by assumption. reflexivity.
Qed.

Lemma rep_run ops : forall a m,
  rep a m -> arr_ok ops m -> exists a', arun ops a = Ok a' /\ rep a' (fold_left arr_step ops m).
Proof.
  induction ops as [|o ops IH]; intros a m H Ho; [exists a; split; [reflexivity|exact H]|].
  destruct Ho as [Hp Ho]. destruct (rep_step a m o H Hp) as (a1 & E & H1).
  destruct (IH a1 _ H1 Ho) as (a2 & E2 & H2). exists a2. cbn [arun fold_left]. rewrite E.
  split; assumption.
Qed.

Lemma rep_get a m i j :
  rep a m -> (i < M_nr m)%nat -> (j < M_nc m)%nat -> arr_get a i j = Ok (M_at m i j).
Proof. intros (H1 & H2 & H3 & H4) Hi Hj. unfold arr_get, rd. rewrite H1, H4 by assumption. reflexivity. Qed.

Lemma rep_row a m i :
  rep a m -> (i < M_nr m)%nat -> getRow a i = Ok (map (fun j => M_at m i j) (seq 0 (M_nc m))).
Proof.
  intros (H1 & H2 & H3 & H4) Hi. unfold getRow. rewrite H1, H2.
  assert (G : forall l, (forall j, In j l -> (j < M_nc m)%nat) ->
    read_all (map (fun j => (M_nr m * j + i)%nat) l) (a_data a) = Ok (map (fun j => M_at m i j) l)).
  { induction l as [|j l IH]; intros H; [reflexivity|]. cbn [map read_all]. unfold rd.
    rewrite H4 by (try assumption; apply H; left; reflexivity). cbn [obind].
    rewrite IH by (intros; apply H; right; assumption). reflexivity. }
  apply G. intros j Hj. apply in_seq in Hj. lia.
Qed.
Lemma rep_column a m j :
  rep a m -> (j < M_nc m)%nat -> getColumn a j = Ok (map (fun i => M_at m i j) (seq 0 (M_nr m))).
Proof.
  intros (H1 & H2 & H3 & H4) Hj. unfold getColumn. rewrite H1.
  assert (G : forall l, (forall i, In i l -> (i < M_nr m)%nat) ->
    read_all (map (fun i => (M_nr m * j + i)%nat) l) (a_data a) = Ok (map (fun i => M_at m i j) l)).
  { induction l as [|i l IH]; intros H; [reflexivity|]. cbn [map read_all]. unfold rd.
    rewrite H4 by (try assumption; apply H; left; reflexivity). cbn [obind].
    rewrite IH by (intros; apply H; right; assumption). reflexivity. }
  apply G. intros i Hi. apply in_seq in Hi. lia.
Qed.

Lemma osum_ok (f : nat -> outcome R) g l : forall acc,
  (forall k, In k l -> f k = Ok (g k)) -> osum f l acc = Ok (acc + sum_of g l).
Proof.
  induction l as [|k l IH]; intros acc H.
  - cbn. rewrite Rplus_0_r. reflexivity.
  - cbn [osum]. rewrite H by (left; reflexivity). cbn [obind].
    rewrite IH by (intros; apply H; right; assumption). rewrite sum_of_cons. f_equal. ring.
Qed.
Lemma omapM_ok {A B} (f : A -> outcome B) g l :
  (forall k, In k l -> f k = Ok (g k)) -> omapM f l = Ok (map g l).
Proof.
  induction l as [|k l IH]; intros H; [reflexivity|]. cbn [omapM map].
  rewrite H by (left; reflexivity). cbn [obind].
  rewrite IH by (intros; apply H; right; assumption). reflexivity.
Qed.

Lemma rep_leftMult a m v :
  rep a m -> dense_leftMult a v =
    Ok (map (fun j => sum_n (fun i => M_at m i j * v i) (M_nr m)) (seq 0 (M_nc m))).
Proof.
  intros H. pose proof H as (H1 & H2 & H3 & H4). unfold dense_leftMult. rewrite H2.
  apply omapM_ok. intros j Hj. apply in_seq in Hj. rewrite H1.
  rewrite (osum_ok _ (fun i => M_at m i j * v i)).
  - rewrite Rplus_0_l. reflexivity.
  - intros i Hi. apply in_seq in Hi. rewrite (rep_get a m) by (try assumption; lia). reflexivity.
Qed.

(* ---------------- BandMatrix ---------------- *)

Lemma in_bandb_iff kl ku i j : in_bandb kl ku i j = true <-> in_band kl ku i j.
Proof. unfold in_bandb, in_band. rewrite andb_true_iff, !Nat.leb_le. reflexivity. Qed.

Definition repb (b : band) (m : bmatrix) : Prop :=
  b_n b = B_n m /\ b_kl b = B_kl m /\ b_ku b = B_ku m /\
  length (b_data b) = (b_n b * ldim (b_kl b) (b_ku b))%nat /\
  (forall i j, (i < B_n m)%nat -> (j < B_n m)%nat -> in_band (B_kl m) (B_ku m) i j ->
     nth_error (b_data b) (bindex b i j) = Some (B_at m i j)) /\
  (forall i j, ~ in_band (B_kl m) (B_ku m) i j -> B_at m i j = 0).

Lemma oob_spec b m i j :
  b_kl b = B_kl m -> b_ku b = B_ku m ->
  out_of_band b i j = negb (in_bandb (B_kl m) (B_ku m) i j).
Proof.
  unfold out_of_band, in_bandb. intros -> ->.
  destruct (Nat.ltb_spec (i + B_ku m) j), (Nat.ltb_spec (j + B_kl m) i),
    (Nat.leb_spec j (i + B_ku m)), (Nat.leb_spec i (j + B_kl m)); cbn; try reflexivity; lia.
Qed.

Lemma bindex_lt n kl ku i j :
  (i < n)%nat -> (j < n)%nat -> in_band kl ku i j ->
  ((2 * kl + ku) * j + kl + ku + i < n * ldim kl ku)%nat.
Proof. unfold in_band, ldim. intros Hi Hj [H1 H2]. nia. Qed.
Lemma bindex_inj kl ku i j i' j' :
  in_band kl ku i j -> in_band kl ku i' j' ->
  ((2 * kl + ku) * j + kl + ku + i = (2 * kl + ku) * j' + kl + ku + i')%nat -> i = i' /\ j = j'.
Proof.
  unfold in_band. intros [A1 A2] [B1 B2] E.
  (* position inside the column of length 2 kl + ku + 1 *)
  assert (E' : ((2 * kl + ku + 1) * j + (kl + ku + i - j) = (2 * kl + ku + 1) * j' + (kl + ku + i' - j'))%nat).
  { nia. }
  apply (idx_inj (2 * kl + ku + 1) (kl + ku + i - j) j (kl + ku + i' - j') j') in E'; [|lia|lia].
  destruct E' as [E1 E2]. subst j'. split; [lia|reflexivity].
Qed.

Lemma repb_const n kl ku v z f l : repb (Band (repeat v (n * ldim kl ku)) n kl ku z f l) (constant_band n kl ku v).
Proof.
  unfold repb, constant_band. cbn. repeat (split; [first [reflexivity | apply repeat_length]|]). split.
  - intros i j Hi Hj Hb. unfold bindex. cbn. pose proof (bindex_lt n kl ku i j Hi Hj Hb) as L.
    rewrite nth_error_repeat by (cbn in L; lia). rewrite (proj2 (in_bandb_iff _ _ _ _) Hb). reflexivity.
  - intros i j Hb. destruct (in_bandb kl ku i j) eqn:E; [|reflexivity].
    apply in_bandb_iff in E. contradiction.
Qed.

Lemma repb_flags b m z f l :
  repb b m -> repb (Band (b_data b) (b_n b) (b_kl b) (b_ku b) z f l) m.
Proof. intros H. exact H. Qed.

Lemma repb_step fok b m o :
  repb b m -> band_pre m o -> exists b', bstep fok b o = Ok b' /\ repb b' (band_step m o).
Proof.
  intros H Hp. pose proof H as (H1 & H2 & H3 & H4 & H5 & H6).
  destruct o as [i j v|i j|v|n kl ku v| |]; cbn [bstep band_step band_pre] in *.
  - destruct Hp as [Hi Hj]. unfold band_set.
    rewrite (oob_spec (clear_flag b) m i j H2 H3).
    destruct (in_bandb (B_kl m) (B_ku m) i j) eqn:E; cbn [negb].
    + apply in_bandb_iff in E. pose proof (bindex_lt _ _ _ _ _ Hi Hj E) as L.
      assert (L' : (bindex (clear_flag b) i j < length (b_data (clear_flag b)))%nat).
      { unfold bindex, clear_flag. cbn [b_kl b_ku b_n b_data]. rewrite H4, H1, H2, H3. exact L. }
      rewrite wr_ok by exact L'. cbn [omap obind]. eexists. split; [reflexivity|].
      unfold repb. cbn [b_kl b_ku b_n b_data B_n B_kl B_ku B_at clear_flag]. repeat (split; [assumption|]).
      rewrite set_nth_length.
      split; [exact H4|]. split.
      * intros i' j' Hi' Hj' Hb'. change (b_data b) with (b_data (clear_flag b)).
        rewrite nth_error_set_nth by exact L'. unfold bindex. cbn [b_kl b_ku b_n b_data clear_flag].
        rewrite H2, H3. rewrite andb_true_r.
        destruct (Nat.eqb_spec ((2 * B_kl m + B_ku m) * j' + B_kl m + B_ku m + i')
                    ((2 * B_kl m + B_ku m) * j + B_kl m + B_ku m + i)) as [Eq|Ne].
        -- apply bindex_inj in Eq; [|assumption|assumption]. destruct Eq as [-> ->].
           rewrite !Nat.eqb_refl. reflexivity.
        -- assert (X : Nat.eqb i' i && Nat.eqb j' j = false).
           { destruct (Nat.eqb_spec i' i) as [->|]; [|reflexivity].
             destruct (Nat.eqb_spec j' j) as [->|]; [congruence|reflexivity]. }
           rewrite X. specialize (H5 i' j' Hi' Hj' Hb'). unfold bindex in H5. rewrite H2, H3 in H5.
           exact H5.
      * intros i' j' Hb'. rewrite andb_true_r.
        destruct (Nat.eqb_spec i' i) as [->|]; [|apply H6; exact Hb'].
        destruct (Nat.eqb_spec j' j) as [->|]; [contradiction|apply H6; exact Hb'].
    + eexists. split; [reflexivity|].
      unfold repb. cbn [b_kl b_ku b_n b_data B_n B_kl B_ku B_at clear_flag].
      repeat (split; [assumption|]). split.
      * intros i' j' Hi' Hj' Hb'. rewrite andb_false_r. apply H5; assumption.
      * intros i' j' Hb'. rewrite andb_false_r. apply H6; assumption.
  - destruct Hp as [Hi Hj]. unfold band_ref_get. rewrite (oob_spec (clear_flag b) m i j H2 H3).
    destruct (in_bandb (B_kl m) (B_ku m) i j) eqn:E; cbn [negb].
    + apply in_bandb_iff in E. unfold rd.
      replace (nth_error (b_data (clear_flag b)) (bindex (clear_flag b) i j)) with (Some (B_at m i j)).
      2:{ symmetry. apply H5; assumption. }
      cbn [omap obind fst]. eexists. split; [reflexivity|exact H].
    + cbn [omap obind fst]. eexists. split; [reflexivity|exact H].
  - eexists. split; [reflexivity|]. unfold band_fill. rewrite H4, H1, H2, H3. apply repb_const.
  - eexists. split; [reflexivity|]. unfold band_resize. apply repb_const.
  - eexists. split; [reflexivity|]. unfold factor. destruct (fok (b_data b)); exact H.
  - eexists. split; [reflexivity|]. unfold solve, factor.
    destruct (b_factored b); [exact H|]. destruct (fok (b_data b)); exact H.
Qed.

Lemma repb_run fok ops : forall b m,
  repb b m -> band_ok ops m -> exists b', brun fok ops b = Ok b' /\ repb b' (fold_left band_step ops m).
Proof.
  induction ops as [|o ops IH]; intros a m H Ho; [exists a; split; [reflexivity|exact H]|].
  destruct Ho as [Hp Ho]. destruct (repb_step fok a m o H Hp) as (a1 & E & H1).
  destruct (IH a1 _ H1 Ho) as (a2 & E2 & H2). exists a2. cbn [brun fold_left]. rewrite E.
  split; assumption.
Qed.

Lemma repb_get b m i j :
  repb b m -> (i < B_n m)%nat -> (j < B_n m)%nat -> band_get b i j = Ok (B_at m i j).
Proof.
  intros (H1 & H2 & H3 & H4 & H5 & H6) Hi Hj. unfold band_get. rewrite (oob_spec b m i j H2 H3).
  destruct (in_bandb (B_kl m) (B_ku m) i j) eqn:E; cbn [negb].
  - apply in_bandb_iff in E. unfold rd. rewrite H5 by assumption. reflexivity.
  - rewrite H6; [reflexivity|]. intros X. apply in_bandb_iff in X. congruence.
Qed.

Lemma repb_raw b m i j :
  repb b m -> (i < B_n m)%nat -> (j < B_n m)%nat -> in_band (B_kl m) (B_ku m) i j ->
  raw b i j = Ok (B_at m i j).
Proof.
  intros (H1 & H2 & H3 & H4 & H5 & H6) Hi Hj Hb. unfold raw, rd. rewrite H5 by assumption. reflexivity.
Qed.

Lemma window f n start stop :
  (start <= stop <= n)%nat ->
  (forall k, (k < n)%nat -> (k < start \/ stop <= k)%nat -> f k = 0) ->
  sum_of f (seq start (stop - start)) = sum_n f n.
Proof.
  intros [H1 H2] Hz. unfold sum_n.
  replace n with (start + ((stop - start) + (n - stop)))%nat by lia.
  rewrite !seq_app, !sum_of_app, Nat.add_0_l.
  rewrite (sum_of_0 f (seq 0 start)) by (intros k Hk; apply in_seq in Hk; apply Hz; lia).
  rewrite (sum_of_0 f (seq (start + (stop - start)) (n - stop)))
    by (intros k Hk; apply in_seq in Hk; apply Hz; lia).
  ring.
Qed.

Lemma row_window b m i f :
  repb b m -> (i < B_n m)%nat ->
  (forall j, (j < B_n m)%nat -> ~ in_band (B_kl m) (B_ku m) i j -> f j = 0) ->
  let start := if Nat.leb (b_kl b) i then (i - b_kl b)%nat else O in
  let stop := Nat.min (i + b_ku b + 1) (b_n b) in
  sum_of f (seq start (stop - start)) = sum_n f (B_n m) /\
  forall j, In j (seq start (stop - start)) <-> ((j < B_n m)%nat /\ in_band (B_kl m) (B_ku m) i j).
Proof.
  intros (H1 & H2 & H3 & _) Hi Hz start stop. unfold start, stop. rewrite H1, H2, H3. split.
  - apply window.
    + destruct (Nat.leb_spec (B_kl m) i); lia.
    + intros k Hk Hs. apply Hz; [exact Hk|]. unfold in_band. destruct (Nat.leb_spec (B_kl m) i); lia.
  - intros j. rewrite in_seq. unfold in_band. destruct (Nat.leb_spec (B_kl m) i); lia.
Qed.
Lemma col_window b m j f :
  repb b m -> (j < B_n m)%nat ->
  (forall i, (i < B_n m)%nat -> ~ in_band (B_kl m) (B_ku m) i j -> f i = 0) ->
  let start := if Nat.leb (b_ku b) j then (j - b_ku b)%nat else O in
  let stop := Nat.min (j + b_kl b + 1) (b_n b) in
  sum_of f (seq start (stop - start)) = sum_n f (B_n m) /\
  forall i, In i (seq start (stop - start)) <-> ((i < B_n m)%nat /\ in_band (B_kl m) (B_ku m) i j).
Proof.
  intros (H1 & H2 & H3 & _) Hi Hz start stop. unfold start, stop. rewrite H1, H2, H3. split.
  - apply window.
    + destruct (Nat.leb_spec (B_ku m) j); lia.
    + intros k Hk Hs. apply Hz; [exact Hk|]. unfold in_band. destruct (Nat.leb_spec (B_ku m) j); lia.
  - intros i. rewrite in_seq. unfold in_band. destruct (Nat.leb_spec (B_ku m) j); lia.
Qed.

Lemma repb_zero b m i j : repb b m -> ~ in_band (B_kl m) (B_ku m) i j -> B_at m i j = 0.
Proof. intros (_ & _ & _ & _ & _ & H). apply H. Qed.

Lemma repb_mult b m v :
  repb b m -> band_mult b v =
    Ok (map (fun i => sum_n (fun j => B_at m i j * v j) (B_n m)) (seq 0 (B_n m))).
Proof.
  intros H. unfold band_mult. replace (seq 0 (b_n b)) with (seq 0 (B_n m)) by (f_equal; symmetry; apply H).
  apply omapM_ok. intros i Hi. apply in_seq in Hi.
  destruct (row_window b m i (fun j => B_at m i j * v j) H ltac:(lia)) as [W1 W2].
  { intros j Hj Hb. rewrite (repb_zero b m i j H Hb). ring. }
  rewrite (osum_ok _ (fun j => B_at m i j * v j)).
  - rewrite Rplus_0_l. f_equal. exact W1.
  - intros j Hj. apply W2 in Hj. rewrite (repb_raw b m) by (try assumption; try lia; apply Hj). reflexivity.
Qed.
Lemma repb_leftMult b m v :
  repb b m -> band_leftMult b v =
    Ok (map (fun j => sum_n (fun i => B_at m i j * v i) (B_n m)) (seq 0 (B_n m))).
Proof.
  intros H. unfold band_leftMult. replace (seq 0 (b_n b)) with (seq 0 (B_n m)) by (f_equal; symmetry; apply H).
  apply omapM_ok. intros j Hi. apply in_seq in Hi.
  destruct (col_window b m j (fun i => B_at m i j * v i) H ltac:(lia)) as [W1 W2].
  { intros i Hj Hb. rewrite (repb_zero b m i j H Hb). ring. }
  rewrite (osum_ok _ (fun i => B_at m i j * v i)).
  - rewrite Rplus_0_l. f_equal. exact W1.
  - intros i Hj. apply W2 in Hj. rewrite (repb_raw b m) by (try assumption; try lia; apply Hj). reflexivity.
Qed.

Lemma max_over_ok f g l : forall acc,
  (forall k, In k l -> f k = Ok (g k)) ->
  exists v, max_over f l acc = Ok v /\ acc <= v /\ (forall k, In k l -> g k <= v) /\
    (v = acc \/ exists k, In k l /\ v = g k).
Proof.
  induction l as [|k l IH]; intros acc H.
  - exists acc. split; [reflexivity|]. split; [lra|]. split; [intros ? []|left; reflexivity].
  - cbn [max_over]. rewrite H by (left; reflexivity). cbn [obind].
    set (acc' := if rltb (g k) acc then acc else g k).
    assert (A : acc <= acc' /\ g k <= acc' /\ (acc' = acc \/ acc' = g k)).
    { unfold acc'. destruct (rltb (g k) acc) eqn:E.
      - apply rltb_true in E. split; [lra|]. split; [lra|left; reflexivity].
      - apply rltb_false in E. split; [lra|]. split; [lra|right; reflexivity]. }
    destruct (IH acc') as (v & E1 & E2 & E3 & E4); [intros; apply H; right; assumption|].
    exists v. split; [exact E1|]. split; [lra|]. split.
    + intros k' [<-|Hk']; [lra|apply E3; exact Hk'].
    + destruct E4 as [->|(k' & K1 & K2)]; [|right; exists k'; split; [right; exact K1|exact K2]].
      destruct A as (_ & _ & [->| ->]); [left; reflexivity|right; exists k; split; [left; reflexivity|reflexivity]].
Qed.

Lemma repb_norm b m :
  repb b m -> exists v, oneNorm b = Ok v /\
    (forall j, (j < B_n m)%nat -> sum_n (fun i => Rabs (B_at m i j)) (B_n m) <= v) /\
    ((0 < B_n m)%nat -> exists j, (j < B_n m)%nat /\ v = sum_n (fun i => Rabs (B_at m i j)) (B_n m)).
Proof.
  intros H. unfold oneNorm. replace (seq 0 (b_n b)) with (seq 0 (B_n m)) by (f_equal; symmetry; apply H).
  set (g := fun j => sum_n (fun i => Rabs (B_at m i j)) (B_n m)).
  edestruct (max_over_ok (fun j =>
    let start := if Nat.leb (b_ku b) j then (j - b_ku b)%nat else O in
    let stop := Nat.min (j + b_kl b + 1) (b_n b) in
    osum (fun i => omap Rabs (raw b i j)) (seq start (stop - start)) 0) g (seq 0 (B_n m)) 0)
    as (v & E1 & E2 & E3 & E4).
  { intros j Hj. apply in_seq in Hj.
    destruct (col_window b m j (fun i => Rabs (B_at m i j)) H ltac:(lia)) as [W1 W2].
    { intros i Hi Hb. rewrite (repb_zero b m i j H Hb). apply Rabs_R0. }
    cbn zeta. rewrite (osum_ok _ (fun i => Rabs (B_at m i j))).
    - rewrite Rplus_0_l. f_equal. exact W1.
    - intros i Hi. apply W2 in Hi. rewrite (repb_raw b m) by (try assumption; try lia; apply Hi). reflexivity. }
  exists v. split; [exact E1|]. split.
  - intros j Hj. apply E3. apply in_seq. lia.
  - intros Hn. destruct E4 as [->|(j & J1 & J2)].
    + exists 0%nat. split; [exact Hn|]. apply Rle_antisym.
      * apply sum_of_nonneg. intros. apply Rabs_pos.
      * apply (E3 0%nat). apply in_seq. lia.
    + exists j. apply in_seq in J1. split; [lia|exact J2].
Qed.

Lemma smallest_ok f g l : forall best v,
  (forall k, In k l -> f k = Ok (g k) /\ 0 <= g k) ->
  exists r, smallest f l best v = Ok r /\
    ((r = (best, v) /\ forall k, In k l -> v <= g k) \/
     (exists l1 i l2, l = l1 ++ i :: l2 /\ r = (Some i, g i) /\ g i < v /\
        (forall k, In k l1 -> g i < g k) /\ (forall k, In k l2 -> g i <= g k))).
Proof.
  induction l as [|i l IH]; intros best v H.
  - exists (best, v). split; [reflexivity|]. left. split; [reflexivity|intros ? []].
  - cbn [smallest]. destruct (H i (or_introl eq_refl)) as [Ei Pi]. rewrite Ei. cbn [obind].
    assert (H' : forall k, In k l -> f k = Ok (g k) /\ 0 <= g k) by (intros; apply H; right; assumption).
    destruct (rltb (g i) v) eqn:E.
    + apply rltb_true in E. destruct (reqb (g i) 0) eqn:Z.
      * apply reqb_true in Z. eexists. split; [reflexivity|]. right. exists [], i, l.
        split; [reflexivity|]. split; [reflexivity|]. split; [exact E|]. split; [intros ? []|].
        intros k Hk. destruct (H' k Hk). lra.
      * destruct (IH (Some i) (g i) H') as (r & R1 & [[R2 R3]|(l1 & i' & l2 & R2 & R3 & R4 & R5 & R6)]).
        -- exists r. split; [exact R1|]. right. exists [], i, l. split; [reflexivity|].
           split; [exact R2|]. split; [exact E|]. split; [intros ? []|exact R3].
        -- exists r. split; [exact R1|]. right. exists (i :: l1), i', l2. subst l.
           split; [reflexivity|]. split; [exact R3|]. split; [lra|]. split; [|exact R6].
           intros k [<-|Hk]; [exact R4|apply R5; exact Hk].
    + apply rltb_false in E.
      destruct (IH best v H') as (r & R1 & [[R2 R3]|(l1 & i' & l2 & R2 & R3 & R4 & R5 & R6)]).
      * exists r. split; [exact R1|]. left. split; [exact R2|]. intros k [<-|Hk]; [exact E|apply R3; exact Hk].
      * exists r. split; [exact R1|]. right. exists (i :: l1), i', l2. subst l.
        split; [reflexivity|]. split; [exact R3|]. split; [exact R4|]. split; [|exact R6].
        intros k [<-|Hk]; [lra|apply R5; exact Hk].
Qed.

Lemma line_max_ex a n l f :
  (0 < n)%nat -> (forall k, In k l -> f k = Ok (Rabs (a k)) /\ (k < n)%nat) ->
  (forall k, (k < n)%nat -> ~ In k l -> a k = 0) -> (exists k, In k l) ->
  exists v, max_over f l 0 = Ok v /\ line_max a n v /\ 0 <= v.
Proof.
  intros Hn Hf Hz (k0 & K0).
  destruct (max_over_ok f (fun k => Rabs (a k)) l 0) as (v & E1 & E2 & E3 & E4).
  { intros k Hk. apply Hf. exact Hk. }
  exists v. split; [exact E1|]. split; [|exact E2]. split.
  - intros k Hk. destruct (in_dec Nat.eq_dec k l) as [Hi|Hi]; [apply E3; exact Hi|].
    rewrite (Hz k Hk Hi), Rabs_R0. exact E2.
  - destruct E4 as [->|(k & K1 & K2)].
    + exists k0. split; [apply Hf; exact K0|]. apply Rle_antisym; [apply E3; exact K0|apply Rabs_pos].
    + exists k. split; [apply Hf; exact K1|symmetry; exact K2].
Qed.

Lemma leb_ltb_start kl i :
  (if Nat.ltb kl i then (i - kl)%nat else O) = (if Nat.leb kl i then (i - kl)%nat else O).
Proof. destruct (Nat.ltb_spec kl i), (Nat.leb_spec kl i); lia. Qed.

(* Choice of the line maxima as a function. *)
Lemma maxima n (a : nat -> nat -> R) (F : nat -> outcome R) :
  (forall i, (i < n)%nat -> exists v, F i = Ok v /\ line_max (a i) n v /\ 0 <= v) ->
  exists g, forall i, (i < n)%nat -> F i = Ok (g i) /\ line_max (a i) n (g i) /\ 0 <= g i.
Proof.
  intros H. exists (fun i => match F i with Ok v => v | _ => 0 end).
  intros i Hi. destruct (H i Hi) as (v & E & L). rewrite E. split; [reflexivity|exact L].
Qed.

Lemma weakest_ok n a F :
  (forall i, (i < n)%nat -> exists v, F i = Ok v /\ line_max (a i) n v /\ 0 <= v) ->
  exists r, smallest F (seq 0 n) None huge300 = Ok r /\ weakest a n r.
Proof.
  intros H. destruct (maxima n a F H) as [g G].
  destruct (smallest_ok F g (seq 0 n) None huge300) as (r & R1 & R2).
  { intros k Hk. apply in_seq in Hk. destruct (G k) as (A & B & C); [lia|]. split; assumption. }
  exists r. split; [exact R1|]. destruct R2 as [[-> R3]|(l1 & i & l2 & E & -> & R4 & R5 & R6)].
  - split; [reflexivity|]. intros k Hk. exists (g k). split; [apply G; exact Hk|].
    apply R3. apply in_seq. lia.
  - assert (Ei : i = length l1 /\ (length l1 < n)%nat).
    { assert (L : (length l1 < n)%nat).
      { pose proof (f_equal (@length nat) E) as L. rewrite seq_length, app_length in L. cbn in L. lia. }
      split; [|exact L]. assert (N : nth_error (seq 0 n) (length l1) = Some i).
      { rewrite E, nth_error_app2, Nat.sub_diag by lia. reflexivity. }
      apply nth_error_nth with (d := 0%nat) in N. rewrite seq_nth in N by lia. lia. }
    destruct Ei as [-> L].
    assert (E1 : l1 = seq 0 (length l1)).
    { replace l1 with (firstn (length l1) (l1 ++ length l1 :: l2)) at 1 by (rewrite firstn_app, Nat.sub_diag, firstn_all, app_nil_r; reflexivity).
      rewrite <- E. replace n with (length l1 + (n - length l1))%nat at 1 by lia.
      rewrite seq_app, firstn_app, seq_length, Nat.sub_diag. cbn [firstn].
      rewrite app_nil_r. rewrite firstn_all2; [reflexivity|rewrite seq_length; lia]. }
    split; [exact L|]. split; [apply G; exact L|]. split; [exact R4|]. split.
    + intros k Hk. exists (g k). split; [apply G; lia|]. apply R5. rewrite E1. apply in_seq. lia.
    + intros k Hk. exists (g k). split; [apply G; lia|].
      assert (In k (seq 0 n)) as I by (apply in_seq; lia). rewrite E in I.
      apply in_app_iff in I as [I|[I|I]].
      * rewrite E1 in I. apply in_seq in I. lia.
      * lia.
      * apply R6. exact I.
Qed.

Lemma repb_rows b m :
  repb b m -> exists r, checkRows b = Ok r /\ weakest (B_at m) (B_n m) r.
Proof.
  intros H. unfold checkRows. replace (seq 0 (b_n b)) with (seq 0 (B_n m)) by (f_equal; symmetry; apply H).
  apply weakest_ok. intros i Hi. rewrite leb_ltb_start.
  destruct (row_window b m i (fun j => B_at m i j) H Hi) as [_ W].
  { intros j Hj Hb. apply (repb_zero b m i j H Hb). }
  apply line_max_ex; [lia| | |].
  - intros j Hj. apply W in Hj. split; [|apply Hj].
    rewrite (repb_raw b m) by (try assumption; apply Hj). reflexivity.
  - intros j Hj Hn. apply (repb_zero b m i j H). intros Hb. apply Hn. apply W. split; assumption.
  - exists i. apply W. split; [exact Hi|]. unfold in_band. lia.
Qed.
Lemma repb_columns b m :
  repb b m -> exists r, checkColumns b = Ok r /\ weakest (fun j i => B_at m i j) (B_n m) r.
Proof.
  intros H. unfold checkColumns. replace (seq 0 (b_n b)) with (seq 0 (B_n m)) by (f_equal; symmetry; apply H).
  apply weakest_ok. intros j Hj. rewrite leb_ltb_start.
  destruct (col_window b m j (fun i => B_at m i j) H Hj) as [_ W].
  { intros i Hi Hb. apply (repb_zero b m i j H Hb). }
  apply line_max_ex; [lia| | |].
  - intros i Hi. apply W in Hi. split; [|apply Hi].
    rewrite (repb_raw b m) by (try assumption; apply Hi). reflexivity.
  - intros i Hi Hn. apply (repb_zero b m i j H). intros Hb. apply Hn. apply W. split; assumption.
  - exists j. apply W. split; [exact Hj|]. unfold in_band. lia.
Qed.

Lemma repb_pointer b m i j :
  repb b m -> (i < B_n m)%nat -> (j < B_n m)%nat -> in_band (B_kl m) (B_ku m) i j ->
  column_get b j (B_kl m + B_ku m + i - j) = Ok (B_at m i j).
Proof.
  intros H Hi Hj Hb. pose proof H as (H1 & H2 & H3 & _). unfold column_get. rewrite H2, H3.
  rewrite <- (repb_raw b m i j H Hi Hj Hb). unfold raw, bindex. rewrite H2, H3.
  f_equal. unfold ldim. unfold in_band in Hb. nia.
Qed.

(* ---------------- factorisations ---------------- *)

Definition fresh (fok : list R -> bool) (b : band) : Prop :=
  b_factored b = true -> b_lu b = Some (b_data b) /\ fok (b_data b) = true.

Lemma fresh_step fok b o b' : fresh fok b -> bstep fok b o = Ok b' -> fresh fok b'.
Proof.
  unfold fresh. intros Hf. destruct o as [i j v|i j|v|n kl ku v| |]; cbn [bstep].
  - unfold band_set. destruct (out_of_band (clear_flag b) i j).
    + intros E. injection E as <-. discriminate.
    + destruct (wr _ _ v); cbn [omap obind]; intros E; inversion E; subst. discriminate.
  - unfold band_ref_get. destruct (out_of_band (clear_flag b) i j); cbn [omap obind fst].
    + intros E. injection E as <-. discriminate.
    + destruct (rd _ _); cbn [omap obind]; intros E; inversion E; subst. discriminate.
  - intros E. injection E as <-. discriminate.
  - intros E. injection E as <-. discriminate.
  - unfold factor. destruct (fok (b_data b)) eqn:K; intros E; injection E as <-; cbn.
    + intros _. split; [reflexivity|exact K].
    + intros Fb. destruct (Hf Fb). congruence.
  - unfold solve, factor. destruct (b_factored b) eqn:Fb.
    + intros E. injection E as <-. intros _. apply Hf. reflexivity.
    + destruct (fok (b_data b)) eqn:K; intros E; injection E as <-; cbn.
      * intros _. split; [reflexivity|exact K].
      * intros X. discriminate X.
Qed.
Lemma fresh_run fok ops : forall b b', fresh fok b -> brun fok ops b = Ok b' -> fresh fok b'.
Proof.
  induction ops as [|o ops IH]; intros b b' Hf E; [injection E as <-; exact Hf|].
  cbn [brun] in E. destruct (bstep fok b o) as [b1| | |] eqn:Eb; try discriminate E.
  cbn [obind] in E. apply (IH b1 b'); [|exact E]. apply (fresh_step fok b o); assumption.
Qed.
