(* P-log rates: the look-up and its cache compute the documented value. *)
From Coq Require Import Reals List Lra Lia Bool Permutation Sorted.
From Verif Require Import Base.Outcome Base.Fp Base.RSum Rates.Model Rates.Spec.
Import ListNotations.
Local Open Scope R_scope.

Lemma evalRate_arrhenius a T : evalRate a (ln T) (/ T) = arrhenius a T.
Proof.
  unfold evalRate, arrhenius, Rpower. rewrite Rmult_assoc, <- exp_plus.
  replace (ab a * ln T + - (aE a / T)) with (ab a * ln T - aE a * / T)
    by (unfold Rdiv; ring). reflexivity.
Qed.

(* ---------------- multimap ---------------- *)

Definition mm_sorted (l : list (R * arr)) := StronglySorted (fun x y => fst x <= fst y) l.

Lemma mm_insert_perm x l : Permutation (x :: l) (mm_insert x l).
Proof.
  induction l as [|y l IH]; simpl; [reflexivity|].
  destruct (rltb (fst x) (fst y)); [reflexivity|].
  rewrite perm_swap. constructor. exact IH.
Qed.

Lemma mm_insert_sorted x l : mm_sorted l -> mm_sorted (mm_insert x l).
Proof.
  unfold mm_sorted. induction l as [|y l IH]; intros H; simpl.
  - repeat constructor.
  - apply StronglySorted_inv in H as [H1 H2].
    destruct (rltb (fst x) (fst y)) eqn:E.
    + apply rltb_true in E. constructor.
      * constructor; assumption.
      * constructor; [lra|]. rewrite Forall_forall in *. intros z Hz.
        specialize (H2 z Hz). simpl in *. lra.
    + apply rltb_false in E. constructor; [auto|].
      rewrite Forall_forall in *. intros z Hz.
      apply (Permutation_in _ (Permutation_sym (mm_insert_perm x l))) in Hz.
      destruct Hz as [<-|Hz]; [exact E|auto].
Qed.

Lemma fold_insert_perm l m :
  Permutation (l ++ m) (fold_left (fun m x => mm_insert x m) l m).
Proof.
  revert m. induction l as [|x l IH]; intros m; simpl; [reflexivity|].
  rewrite <- IH, <- mm_insert_perm. apply Permutation_middle.
Qed.

Lemma fold_insert_sorted l m :
  mm_sorted m -> mm_sorted (fold_left (fun m x => mm_insert x m) l m).
Proof.
  revert m. induction l as [|x l IH]; intros m H; simpl; [exact H|].
  apply IH, mm_insert_sorted, H.
Qed.

Lemma multimap_perm l : Permutation l (multimap_of l).
Proof. unfold multimap_of. rewrite <- fold_insert_perm, app_nil_r. reflexivity. Qed.
Lemma multimap_sorted l : mm_sorted (multimap_of l).
Proof. apply fold_insert_sorted. constructor. Qed.

(* ---------------- specification is order independent ---------------- *)

Lemma rate_at_sum tab p T :
  rate_at tab p T = sum_of (fun x => if Req_EM_T (fst x) p then arrhenius (snd x) T else 0) tab.
Proof.
  induction tab as [|[q a] tab IH]; [reflexivity|].
  rewrite sum_of_cons. cbn [rate_at fst snd]. rewrite IH. reflexivity.
Qed.
Lemma rate_at_perm t1 t2 p T : Permutation t1 t2 -> rate_at t1 p T = rate_at t2 p T.
Proof. intros H. rewrite !rate_at_sum. apply sum_of_perm, H. Qed.
Lemma listed_perm t1 t2 p : Permutation t1 t2 -> listed t1 p <-> listed t2 p.
Proof.
  intros H. split; intros [a Ha]; exists a.
  - eapply Permutation_in; eassumption.
  - eapply Permutation_in; [apply Permutation_sym|]; eassumption.
Qed.

Lemma spec_perm t1 t2 T P k : Permutation t1 t2 -> plog_spec t1 T P k -> plog_spec t2 T P k.
Proof.
  intros Hp Hs.
  assert (K : forall p, knot t1 p T = knot t2 p T)
    by (intros p; unfold knot; rewrite (rate_at_perm t1 t2 p T Hp); reflexivity).
  assert (L : forall p, listed t1 p <-> listed t2 p) by (intros p; apply listed_perm, Hp).
  destruct Hs as [p H1 H2 H3|p1 p2 H1 H2 H3 H4|p H1 H2 H3]; rewrite ?K.
  - apply PS_below; [apply L, H1| |exact H3]. intros q Hq. apply H2, L, Hq.
  - apply PS_between; [apply L, H1|apply L, H2|exact H3|]. intros q Hq. apply H4, L, Hq.
  - apply PS_above; [apply L, H1| |exact H3]. intros q Hq. apply H2, L, Hq.
Qed.

(* ---------------- the map of groups ---------------- *)

Definition ksorted (m : list (R * range)) := StronglySorted (fun x y => fst x < fst y) m.

Definition slice (i1 i2 : nat) (l : list (R * arr)) := firstn (i2 - i1) (skipn i1 l).

Lemma sum_rates_slice (l : list (R * arr)) i n logT recipT acc :
  (i + n <= length l)%nat ->
  sum_rates (map (fun x => Some (snd x)) l) i n logT recipT acc =
  Ok (Some (acc + sum_of (fun x => evalRate (snd x) logT recipT) (firstn n (skipn i l)))).
Proof.
  revert i acc. induction n as [|n IH]; intros i acc H.
  - simpl. rewrite sum_of_nil, Rplus_0_r. reflexivity.
  - cbn [sum_rates]. rewrite nth_error_map.
    destruct (nth_error l i) as [x|] eqn:E.
    2:{ apply nth_error_None in E. lia. }
    cbn [option_map]. rewrite IH by lia.
    assert (S : skipn i l = x :: skipn (S i) l).
    { clear - E. revert l E. induction i as [|i IH]; intros [|y l] E; try discriminate.
      - injection E as ->. reflexivity.
      - cbn [nth_error] in E. cbn [skipn]. rewrite (IH l E). reflexivity. }
    rewrite S. cbn [firstn]. rewrite sum_of_cons. do 2 f_equal. ring.
Qed.

Definition feq (p : R) (x : R * arr) : bool := reqb (fst x) p.

Lemma rate_at_filter tab p T :
  sum_of (fun x => evalRate (snd x) (ln T) (/ T)) (filter (feq p) tab) = rate_at tab p T.
Proof.
  induction tab as [|[q a] tab IH]; [reflexivity|].
  cbn [filter rate_at]. unfold feq at 1. cbn [fst]. unfold reqb.
  destruct (Req_EM_T q p).
  - rewrite sum_of_cons, IH. cbn [snd]. rewrite evalRate_arrhenius. reflexivity.
  - rewrite IH. ring.
Qed.

(* One group of the table: the indices pick exactly the rates listed at p. *)
Definition group (pre : list (R * arr)) (p : R) (r : range) : Prop :=
  (fst r < snd r <= length pre)%nat /\ slice (fst r) (snd r) pre = filter (feq p) pre.

Definition groups (pre : list (R * arr)) (ps : list (R * range)) : Prop :=
  ksorted ps /\
  (forall e, In e ps -> exists p, listed pre p /\ fst e = ln p /\ group pre p (snd e)) /\
  (forall p, listed pre p -> exists e, In e ps /\ fst e = ln p).

Lemma ksorted_app m1 m2 :
  ksorted (m1 ++ m2) <->
  ksorted m1 /\ ksorted m2 /\ (forall x y, In x m1 -> In y m2 -> fst x < fst y).
Proof.
  unfold ksorted. induction m1 as [|e m1 IH]; simpl.
  - split.
    + intros H. split; [constructor|]. split; [exact H|]. intros x y [].
    + intros (_ & H & _). exact H.
  - split.
    + intros H. apply StronglySorted_inv in H as [H1 H2].
      apply IH in H1 as (A & B & C). rewrite Forall_app, !Forall_forall in H2.
      destruct H2 as [D E].
      split; [constructor; [exact A|rewrite Forall_forall; exact D]|].
      split; [exact B|]. intros x y [<-|Hx] Hy; auto.
    + intros (A & B & C). apply StronglySorted_inv in A as [A1 A2].
      constructor.
      * apply IH. split; [exact A1|]. split; [exact B|]. intros x y Hx Hy. apply C; auto.
      * rewrite Forall_app. split; [exact A2|]. rewrite Forall_forall. intros y Hy. apply C; auto.
Qed.

Lemma map_set_end k v m :
  (forall e, In e m -> fst e < k) -> map_set k v m = m ++ [(k, v)].
Proof.
  induction m as [|[k' v'] m IH]; intros H; [reflexivity|].
  pose proof (H (k', v') (or_introl eq_refl)) as H0. cbn [fst] in H0.
  cbn [map_set]. replace (rltb k k') with false by (symmetry; apply rltb_false; lra).
  replace (rltb k' k) with true by (symmetry; apply rltb_true; lra).
  rewrite IH; [reflexivity|]. intros e He. apply H. right. exact He.
Qed.
Lemma map_set_last k v v0 m :
  (forall e, In e m -> fst e < k) -> map_set k v (m ++ [(k, v0)]) = m ++ [(k, v)].
Proof.
  induction m as [|[k' v'] m IH]; intros H.
  - cbn [app map_set]. replace (rltb k k) with false by (symmetry; apply rltb_false; lra).
    reflexivity.
  - pose proof (H (k', v') (or_introl eq_refl)) as H0. cbn [fst] in H0.
    cbn [map_set app]. replace (rltb k k') with false by (symmetry; apply rltb_false; lra).
    replace (rltb k' k) with true by (symmetry; apply rltb_true; lra).
    rewrite IH; [reflexivity|]. intros e He. apply H. right. exact He.
Qed.
Lemma map_get_last k v m :
  (forall e, In e m -> fst e < k) -> map_get k (m ++ [(k, v)]) = v.
Proof.
  induction m as [|[k' v'] m IH]; intros H.
  - cbn [app map_get]. replace (reqb k k) with true by (symmetry; apply reqb_true; reflexivity).
    reflexivity.
  - pose proof (H (k', v') (or_introl eq_refl)) as H0. cbn [fst] in H0.
    cbn [map_get app]. replace (reqb k k') with false by (symmetry; apply reqb_false; lra).
    apply IH. intros e He. apply H. right. exact He.
Qed.
Lemma map_insert_end k v m :
  (forall e, In e m -> fst e < k) -> map_insert k v m = m ++ [(k, v)].
Proof.
  induction m as [|[k' v'] m IH]; intros H; [reflexivity|].
  pose proof (H (k', v') (or_introl eq_refl)) as H0. cbn [fst] in H0.
  cbn [map_insert]. replace (rltb k k') with false by (symmetry; apply rltb_false; lra).
  replace (rltb k' k) with true by (symmetry; apply rltb_true; lra).
  rewrite IH; [reflexivity|]. intros e He. apply H. right. exact He.
Qed.
Lemma map_insert_front k v m :
  (forall e, In e m -> k < fst e) -> map_insert k v m = (k, v) :: m.
Proof.
  destruct m as [|[k' v'] m]; intros H; [reflexivity|].
  pose proof (H (k', v') (or_introl eq_refl)) as H0. cbn [fst] in H0.
  cbn [map_insert]. replace (rltb k k') with true by (symmetry; apply rltb_true; lra).
  reflexivity.
Qed.

Lemma map_last_app m x : map_last (m ++ [x]) = Some x.
Proof. unfold map_last. rewrite rev_app_distr. reflexivity. Qed.

Lemma slice_app i1 i2 l x :
  (i1 <= i2)%nat -> (i2 <= length l)%nat -> slice i1 i2 (l ++ [x]) = slice i1 i2 l.
Proof.
  intros H1 H. unfold slice. rewrite skipn_app, firstn_app, skipn_length.
  replace (i2 - i1 - (length l - i1))%nat with O by lia.
  rewrite firstn_O, app_nil_r. reflexivity.
Qed.
Lemma slice_snoc i l x :
  (i <= length l)%nat -> slice i (S (length l)) (l ++ [x]) = slice i (length l) l ++ [x].
Proof.
  intros H. unfold slice. rewrite skipn_app, firstn_app, skipn_length.
  replace (i - length l)%nat with O by lia. cbn [skipn].
  replace (S (length l) - i - (length l - i))%nat with 1%nat by lia. cbn [firstn].
  rewrite !firstn_all2 by (rewrite skipn_length; lia). reflexivity.
Qed.

Lemma filter_none {A} (f : A -> bool) l : (forall x, In x l -> f x = false) -> filter f l = [].
Proof.
  induction l as [|x l IH]; intros H; [reflexivity|].
  cbn [filter]. rewrite (H x (or_introl eq_refl)). apply IH. intros y Hy. apply H. right. exact Hy.
Qed.

(* State of the loop after the entries "pre" (sorted, positive pressures). *)
Definition loop_inv (pre : list (R * arr)) (st : nat * list (R * range) * list (option arr)) : Prop :=
  let '(j, ps, rs) := st in
  j = length pre /\ rs = map (fun x => Some (snd x)) pre /\ groups pre ps /\
  (pre = [] -> ps = []) /\
  (forall pre' x, pre = pre' ++ [x] ->
     exists ps0 i, ps = ps0 ++ [(ln (fst x), (i, length pre))]).

Lemma set_step_inv pre x st :
  (forall y, In y (pre ++ [x]) -> 0 < fst y) ->
  (forall y, In y pre -> fst y <= fst x) ->
  loop_inv pre st -> loop_inv (pre ++ [x]) (set_step st x).
Proof.
  intros Hpos Hsort. destruct st as [[j ps] rs].
  intros (Hj & Hrs & (Hs & Hg & Hc) & Hnil & Hlast). subst j rs.
  assert (Px : 0 < fst x) by (apply Hpos, in_or_app; right; left; reflexivity).
  assert (Lst : forall y, listed (pre ++ [x]) y <-> listed pre y \/ y = fst x).
  { intros y. split.
    - intros [a Ha]. apply in_app_or in Ha as [Ha|[Ha|[]]]; [left; exists a; exact Ha|].
      right. rewrite Ha. reflexivity.
    - intros [[a Ha]|E]; [exists a; apply in_or_app; left; exact Ha|].
      exists (snd x). apply in_or_app. right. left. rewrite E. destruct x; reflexivity. }
  assert (Plist : forall q, listed pre q -> 0 < q).
  { intros q [a Ha]. apply (Hpos (q, a)). apply in_or_app. left. exact Ha. }
  assert (Keep : forall p r, p <> fst x -> group pre p r -> group (pre ++ [x]) p r).
  { intros p r Hp [[G1 G2] G3]. split.
    - rewrite app_length. simpl. lia.
    - rewrite slice_app by lia. rewrite G3, filter_app. cbn [filter].
      unfold feq at 3. replace (reqb (fst x) p) with false by (symmetry; apply reqb_false; congruence).
      rewrite app_nil_r. reflexivity. }
  assert (Hfreshpart :
    (forall e, In e ps -> fst e < ln (fst x)) ->
    (forall y, In y pre -> fst y < fst x) ->
    loop_inv (pre ++ [x])
      (S (length pre), map_set (ln (fst x)) (length pre, S (length pre)) ps,
       map (fun y => Some (snd y)) pre ++ [Some (snd x)])).
  { intros Hlt Hlt2. rewrite (map_set_end _ _ _ Hlt).
    unfold loop_inv. split; [rewrite app_length; simpl; lia|].
    split; [rewrite map_app; reflexivity|]. split; [|split].
    - split; [|split].
      + apply ksorted_app. split; [exact Hs|]. split; [repeat constructor|].
        intros a b Ha [<-|[]]. cbn [fst]. apply Hlt, Ha.
      + intros e He. apply in_app_or in He as [He|[<-|[]]].
        * destruct (Hg e He) as (p & P1 & P2 & P3). exists p.
          split; [apply Lst; left; exact P1|]. split; [exact P2|].
          apply Keep; [|exact P3]. intros E. rewrite E in P2. specialize (Hlt e He). lra.
        * exists (fst x). split; [apply Lst; right; reflexivity|]. split; [reflexivity|].
          cbn [fst snd]. split; cbn [fst snd]; [rewrite app_length; simpl; lia|].
          rewrite slice_snoc by lia.
          replace (slice (length pre) (length pre) pre) with (@nil (R * arr))
            by (unfold slice; rewrite Nat.sub_diag; reflexivity).
          rewrite filter_app. rewrite (filter_none (feq (fst x)) pre).
          2:{ intros y Hy. apply reqb_false. specialize (Hlt2 y Hy). lra. }
          cbn [filter app]. unfold feq. replace (reqb (fst x) (fst x)) with true
            by (symmetry; apply reqb_true; reflexivity). reflexivity.
      + intros p Hp. apply Lst in Hp as [Hp|Hp].
        * destruct (Hc p Hp) as (e & E1 & E2). exists e. split; [apply in_or_app; left; exact E1|exact E2].
        * eexists. split; [apply in_or_app; right; left; reflexivity|]. rewrite Hp. reflexivity.
    - intros E. destruct pre; discriminate.
    - intros pre' y E. apply app_inj_tail in E as [E1 E2]. subst y.
      exists ps, (length pre). rewrite app_length. simpl. replace (length pre + 1)%nat with (S (length pre)) by lia.
      reflexivity. }
  unfold set_step. cbn [fst snd].
  destruct pre as [|z pre0] eqn:Epre.
  - rewrite (Hnil eq_refl) in *. cbn [map_last rev]. apply Hfreshpart.
    + intros e [].
    + intros y [].
  - rewrite <- Epre in *.
    destruct (@exists_last _ pre) as [pre' [y Ey]]; [rewrite Epre; discriminate|].
    destruct (Hlast pre' y Ey) as (ps0 & i & Eps).
    rewrite Eps. rewrite map_last_app. cbn [fst snd].
    assert (Hs' := Hs). rewrite Eps in Hs'. apply ksorted_app in Hs' as (S1 & _ & S2).
    assert (S3 : forall e, In e ps0 -> fst e < ln (fst y)).
    { intros e He. apply (S2 e (ln (fst y), (i, length pre)) He). left. reflexivity. }
    assert (Yp : 0 < fst y).
    { apply Hpos, in_or_app. left. rewrite Ey. apply in_or_app. right. left. reflexivity. }
    assert (Yx : fst y <= fst x).
    { apply Hsort. rewrite Ey. apply in_or_app. right. left. reflexivity. }
    destruct (reqb (ln (fst y)) (ln (fst x))) eqn:Eq; cbn [negb].
    + apply reqb_true in Eq. apply ln_inv in Eq; [|assumption|assumption].
      rewrite <- Eq. rewrite (map_get_last _ _ _ S3), (map_set_last _ _ _ _ S3). cbn [fst].
      assert (Gy : group pre (fst y) (i, length pre)).
      { destruct (Hg (ln (fst y), (i, length pre))) as (p & P1 & P2 & P3).
        - rewrite Eps. apply in_or_app. right. left. reflexivity.
        - cbn [fst snd] in *. apply ln_inv in P2; [|assumption|auto]. rewrite P2. exact P3. }
      unfold loop_inv. split; [rewrite app_length; simpl; lia|].
      split; [rewrite map_app; reflexivity|]. split; [|split].
      * split; [|split].
        -- apply ksorted_app. split; [exact S1|]. split; [repeat constructor|].
           intros a b Ha [<-|[]]. cbn [fst]. apply S3, Ha.
        -- intros e He. apply in_app_or in He as [He|[<-|[]]].
           ++ destruct (Hg e) as (p & P1 & P2 & P3); [rewrite Eps; apply in_or_app; left; exact He|].
              exists p. split; [apply Lst; left; exact P1|]. split; [exact P2|].
              apply Keep; [|exact P3]. intros E. rewrite <- Eq in E. rewrite E in P2.
              specialize (S3 e He). lra.
           ++ exists (fst y). split; [apply Lst; right; exact Eq|]. split; [reflexivity|].
              destruct Gy as [[G1 G2] G3]. cbn [fst snd] in *. split; cbn [fst snd].
              ** rewrite app_length. simpl. lia.
              ** rewrite slice_snoc by lia. rewrite G3, filter_app. cbn [filter].
                 unfold feq at 3. rewrite <- Eq.
                 replace (reqb (fst y) (fst y)) with true by (symmetry; apply reqb_true; reflexivity).
                 reflexivity.
        -- intros p Hp. apply Lst in Hp as [Hp|Hp].
           ++ destruct (Hc p Hp) as (e & E1 & E2). rewrite Eps in E1.
              apply in_app_or in E1 as [E1|[E1|[]]].
              ** exists e. split; [apply in_or_app; left; exact E1|exact E2].
              ** eexists. split; [apply in_or_app; right; left; reflexivity|].
                 cbn [fst]. rewrite <- E1 in E2. exact E2.
           ++ eexists. split; [apply in_or_app; right; left; reflexivity|].
              cbn [fst]. rewrite Hp, Eq. reflexivity.
      * intros E. destruct pre; discriminate.
      * intros p2 y2 E. apply app_inj_tail in E as [E1 E2]. subst y2.
        exists ps0, i. rewrite app_length, <- Eq. simpl.
        replace (length pre + 1)%nat with (S (length pre)) by lia. reflexivity.
    + apply reqb_false in Eq. rewrite <- Eps.
      assert (Yx' : fst y < fst x).
      { destruct (Rle_lt_or_eq_dec _ _ Yx) as [H|H]; [exact H|]. rewrite H in Eq. congruence. }
      apply Hfreshpart.
      * intros e He. assert (H1 : fst e <= ln (fst y)).
        { rewrite Eps in He. apply in_app_or in He as [He|[<-|[]]]; [left; auto|right; reflexivity]. }
        assert (H2 : ln (fst y) < ln (fst x)) by (apply ln_increasing; assumption). lra.
      * intros z' Hz. rewrite Ey in Hz. apply in_app_or in Hz as [Hz|[<-|[]]]; [|exact Yx'].
        (* keys: z' listed, its key is in ps, so at most ln y *)
        assert (Lz : listed pre (fst z')).
        { exists (snd z'). rewrite Ey. apply in_or_app. left. destruct z'; exact Hz. }
        destruct (Hc _ Lz) as (e & E1 & E2).
        assert (H1 : fst e <= ln (fst y)).
        { rewrite Eps in E1. apply in_app_or in E1 as [E1|[<-|[]]]; [left; auto|right; reflexivity]. }
        rewrite E2 in H1. assert (0 < fst z') by (apply Plist, Lz).
        destruct (Rlt_le_dec (fst z') (fst x)) as [H2|H2]; [exact H2|].
        assert (ln (fst y) < ln (fst z')) by (apply ln_increasing; lra). lra.
Qed.

Lemma fold_set_inv rest pre st :
  (forall y, In y (pre ++ rest) -> 0 < fst y) ->
  mm_sorted (pre ++ rest) -> loop_inv pre st ->
  loop_inv (pre ++ rest) (fold_left set_step rest st).
Proof.
  revert pre st. induction rest as [|x rest IH]; intros pre st Hp Hs H.
  - rewrite app_nil_r. exact H.
  - cbn [fold_left]. replace (pre ++ x :: rest) with ((pre ++ [x]) ++ rest) in *
      by (rewrite <- app_assoc; reflexivity).
    apply IH; [exact Hp|exact Hs|]. apply set_step_inv.
    + intros y Hy. apply Hp, in_or_app. left. exact Hy.
    + intros y Hy. clear - Hs Hy. rewrite <- app_assoc in Hs. cbn [app] in Hs.
      induction pre as [|z pre IH]; [destruct Hy|]. cbn [app] in Hs.
      apply StronglySorted_inv in Hs as [H1 H2]. destruct Hy as [<-|Hy]; [|apply IH; assumption].
      rewrite Forall_forall in H2. apply H2, in_or_app. right. left. reflexivity.
    + exact H.
Qed.

(* The object built from a usable table. *)
Lemma plog_of_shape tab :
  usable_table tab ->
  exists ps, plog_of tab =
    Plog ((-1000, snd (hd (0, (0, 0)%nat) ps)) :: ps ++ [(1000, snd (last ps (0, (0, 0)%nat)))])
         (map (fun x => Some (snd x)) (multimap_of tab))
         (-1000) 1000 (-1000) None None (-1) /\
    ps <> [] /\ groups (multimap_of tab) ps /\
    (forall e, In e ps -> -1000 < fst e < 1000).
Proof.
  intros [Hne Hr].
  set (mm := multimap_of tab).
  assert (Pm : Permutation tab mm) by apply multimap_perm.
  assert (Hr' : forall q, listed mm q -> in_double_range q).
  { intros q Hq. apply Hr, (listed_perm tab mm q Pm), Hq. }
  assert (Hpos : forall y, In y mm -> 0 < fst y).
  { intros [q a] Hy. cbn [fst]. destruct (Hr' q (ex_intro _ a Hy)) as [H _].
    pose proof (exp_pos (-1000)). lra. }
  pose proof (fold_set_inv mm [] (0%nat, [], []) Hpos (multimap_sorted tab)) as HI.
  cbn [app] in HI.
  assert (H0 : loop_inv [] (0%nat, [], [])).
  { unfold loop_inv. split; [reflexivity|]. split; [reflexivity|]. split; [|split].
    - split; [constructor|]. split; [intros e []|]. intros p [a []].
    - reflexivity.
    - intros pre' x E. destruct pre'; discriminate. }
  specialize (HI H0). unfold plog_of, setRates. fold mm.
  destruct (fold_left set_step mm (0%nat, [], [])) as [[j ps] rs].
  destruct HI as (Hj & Hrs & HG & Hnil & Hlast).
  assert (Hmm : mm <> []).
  { intros E. rewrite E in Pm. apply Permutation_sym, Permutation_nil in Pm. auto. }
  assert (Hkey : forall e, In e ps -> -1000 < fst e < 1000).
  { intros e He. destruct HG as (_ & Hg & _). destruct (Hg e He) as (p & P1 & P2 & _).
    destruct (Hr' p P1) as [A B]. rewrite P2.
    rewrite <- (ln_exp (-1000)), <- (ln_exp 1000).
    split; apply ln_increasing; try assumption; [apply exp_pos|].
    pose proof (exp_pos (-1000)). lra. }
  assert (Hps : ps <> []).
  { destruct (@exists_last _ mm Hmm) as [m' [x Ex]].
    destruct (Hlast _ _ Ex) as (ps0 & i & E). rewrite E. destruct ps0; discriminate. }
  exists ps. split; [|split; [exact Hps|split; [exact HG|exact Hkey]]].
  destruct mm as [|x mm0] eqn:Emm; [congruence|]. rewrite <- Emm in *.
  assert (MH : forall q : list (R * range), match q with [] => (0%nat, 0%nat) | x0 :: _ => snd x0 end
    = snd (hd (0, (0, 0)%nat) q)) by (intros [|? ?]; reflexivity).
  rewrite MH.
  rewrite (map_insert_front (-1000)) by (intros e He; apply Hkey, He).
  assert (ML : map_last ((-1000, snd (hd (0, (0%nat, 0%nat)) ps)) :: ps)
               = Some (last ps (0, (0,0)%nat))).
  { destruct (@exists_last _ ps Hps) as [ps' [x' E']]. rewrite E'.
    rewrite last_last. change (?a :: ps' ++ [x']) with ((a :: ps') ++ [x']).
    apply map_last_app. }
  rewrite ML. rewrite map_insert_end.
  - cbn [plog_new pl_logP pl_logP1 pl_logP2 pl_low pl_high pl_rDelta]. rewrite Hrs. reflexivity.
  - intros e [<-|He]; [cbn [fst]; lra|]. apply Hkey, He.
Qed.

(* ---------------- the look-up and its cache ---------------- *)

Definition adjacent (m : list (R * range)) (lo hi : R * range) : Prop :=
  exists m1 m2, m = m1 ++ lo :: hi :: m2.

Definition located (m : list (R * range)) (s : plog) : Prop :=
  exists lo hi, adjacent m lo hi /\ pl_logP1 s = fst lo /\ pl_logP2 s = fst hi /\
    pl_low s = Some (snd lo) /\ pl_high s = Some (snd hi) /\
    pl_rDelta s = / (fst hi - fst lo) /\ fst lo <= pl_logP s < fst hi.

Definition cache (m : list (R * range)) (rs : list (option arr)) (s : plog) : Prop :=
  pl_pressures s = m /\ pl_rates s = rs /\
  ((pl_logP s = -1000 /\ pl_logP1 s = 1000 /\ pl_logP2 s = -1000) \/ located m s).

Lemma upper_found x prev lo m1 m2 hi :
  (forall e, In e m1 -> fst e <= x) -> fst lo <= x -> x < fst hi ->
  upper x prev (m1 ++ lo :: hi :: m2) = Some (Some lo, hi).
Proof.
  revert prev. induction m1 as [|e m1 IH]; intros prev H1 H2 H3; cbn [app upper].
  - replace (rltb x (fst lo)) with false by (symmetry; apply rltb_false; exact H2).
    replace (rltb x (fst hi)) with true by (symmetry; apply rltb_true; exact H3). reflexivity.
  - replace (rltb x (fst e)) with false
      by (symmetry; apply rltb_false; apply H1; left; reflexivity).
    apply IH; [|exact H2|exact H3]. intros e' He. apply H1. right. exact He.
Qed.

Lemma split_at x (m : list (R * range)) e0 :
  fst e0 <= x -> (exists e, In e m /\ x < fst e) ->
  exists m1 lo hi m2, e0 :: m = m1 ++ lo :: hi :: m2 /\
    (forall e, In e m1 -> fst e <= x) /\ fst lo <= x /\ x < fst hi.
Proof.
  revert e0. induction m as [|e m IH]; intros e0 H0 [e' [He Hx]]; [destruct He|].
  destruct (Rlt_le_dec x (fst e)) as [H|H].
  - exists [], e0, e, m. split; [reflexivity|]. split; [intros ? []|]. split; assumption.
  - destruct He as [<-|He]; [lra|].
    destruct (IH e H (ex_intro _ e' (conj He Hx))) as (m1 & lo & hi & m2 & E & A & B & C).
    exists (e0 :: m1), lo, hi, m2. rewrite E. split; [reflexivity|].
    split; [|split; assumption]. intros d [<-|Hd]; auto.
Qed.

Lemma update_located m rs s x :
  cache m rs s ->
  (exists e0 m', m = e0 :: m' /\ fst e0 = -1000 /\ exists e, In e m' /\ fst e = 1000) ->
  -1000 < x < 1000 ->
  exists s', plog_update x s = Ok s' /\ cache m rs s' /\ located m s' /\ pl_logP s' = x.
Proof.
  intros (Hm & Hr & Hc) (e0 & m' & Em & E0 & e1 & I1 & E1) Hx.
  unfold plog_update. destruct (reqb x (pl_logP s)) eqn:Eq.
  - apply reqb_true in Eq. exists s. split; [reflexivity|].
    destruct Hc as [(A & _)|L]; [lra|]. split; [|split; [exact L|symmetry; exact Eq]].
    split; [exact Hm|]. split; [exact Hr|]. right. exact L.
  - assert (Fresh : exists s',
      (match upper x None (pl_pressures s) with
      | None => Err
      | Some (None, _) => Err
      | Some (Some lo, hi) =>
          Ok (Plog (pl_pressures s) (pl_rates s) x (fst lo) (fst hi)
                   (Some (snd lo)) (Some (snd hi)) (/ (fst hi - fst lo)))
      end) = Ok s' /\ cache m rs s' /\ located m s' /\ pl_logP s' = x).
    { rewrite Hm, Em.
      destruct (split_at x m' e0) as (m1 & lo & hi & m2 & E & A & B & C).
      { lra. } { exists e1. split; [exact I1|lra]. }
      rewrite E, (upper_found x None lo m1 m2 hi A B C).
      eexists. split; [reflexivity|].
      assert (L : located (m1 ++ lo :: hi :: m2)
        (Plog (m1 ++ lo :: hi :: m2) (pl_rates s) x (fst lo) (fst hi)
              (Some (snd lo)) (Some (snd hi)) (/ (fst hi - fst lo)))).
      { exists lo, hi. split; [exists m1, m2; reflexivity|].
        cbn [pl_logP pl_logP1 pl_logP2 pl_low pl_high pl_rDelta].
        repeat (split; [reflexivity|]). split; [exact B|exact C]. }
      split; [|split; [exact L|reflexivity]].
      split; [reflexivity|]. split; [exact Hr|]. right. exact L. }
    destruct (rltb (pl_logP1 s) x && rltb x (pl_logP2 s)) eqn:E2; [|exact Fresh].
    apply andb_prop in E2 as [E2 E3]. apply rltb_true in E2. apply rltb_true in E3.
    destruct Hc as [(A & B & C)|L].
    + rewrite B in E2. lra.
    + eexists. split; [reflexivity|].
      destruct L as (lo & hi & L1 & L2 & L3 & L4 & L5 & L6 & L7).
      assert (L : located m (Plog (pl_pressures s) (pl_rates s) x (pl_logP1 s) (pl_logP2 s)
               (pl_low s) (pl_high s) (pl_rDelta s))).
      { exists lo, hi. split; [exact L1|].
        cbn [pl_logP pl_logP1 pl_logP2 pl_low pl_high pl_rDelta].
        repeat (split; [assumption|]). rewrite <- L2, <- L3. lra. }
      split; [|split; [exact L|reflexivity]].
      split; [exact Hm|]. split; [exact Hr|]. right. exact L.
Qed.

(* ---------------- values of the two sides ---------------- *)

Lemma side_group mm p r T :
  group mm p r ->
  side_log (map (fun x => Some (snd x)) mm) (Some r) (ln T) (/ T) =
  Ok (if rltb 0 (knot mm p T) then Some (ln (knot mm p T)) else None).
Proof.
  destruct r as [i1 i2]. intros [[G1 G2] G3]. cbn [fst snd] in *.
  unfold side_log. replace (Nat.eqb i1 i2) with false by (symmetry; apply Nat.eqb_neq; lia).
  rewrite sum_rates_slice by lia. unfold slice in G3. rewrite G3, rate_at_filter.
  cbn [obind]. unfold knot. change offset with tiny300.
  destruct (rltb 0 (tiny300 + rate_at mm p T)); reflexivity.
Qed.

(* The pressure an entry of the map stands for. *)
Definition stands (mm : list (R * arr)) (e : R * range) (p : R) : Prop :=
  listed mm p /\ group mm p (snd e) /\
  (fst e = ln p \/
   (fst e = -1000 /\ forall q, listed mm q -> p <= q) \/
   (fst e = 1000 /\ forall q, listed mm q -> q <= p)).

Definition extended (ps : list (R * range)) : list (R * range) :=
  (-1000, snd (hd (0, (0, 0)%nat) ps)) :: ps ++ [(1000, snd (last ps (0, (0, 0)%nat)))].

Lemma listed_pos mm q :
  (forall q, listed mm q -> in_double_range q) -> listed mm q -> 0 < q.
Proof. intros H Hq. destruct (H q Hq) as [A _]. pose proof (exp_pos (-1000)). lra. Qed.

Lemma ln_le_inv' x y : 0 < x -> 0 < y -> ln x <= ln y -> x <= y.
Proof.
  intros Hx Hy H. destruct (Rle_lt_dec x y) as [L|L]; [exact L|].
  pose proof (ln_increasing _ _ Hy L). lra.
Qed.
Lemma ln_le' x y : 0 < x -> x <= y -> ln x <= ln y.
Proof.
  intros Hx [H|H]; [left; apply ln_increasing; assumption|]. rewrite H. right. reflexivity.
Qed.

Lemma extended_stands mm ps e :
  (forall q, listed mm q -> in_double_range q) ->
  groups mm ps -> ps <> [] -> In e (extended ps) -> exists p, stands mm e p.
Proof.
  intros Hr (Hs & Hg & Hc) Hne He.
  assert (Base : forall e, In e ps -> exists p, stands mm e p /\ fst e = ln p).
  { intros d Hd. destruct (Hg d Hd) as (p & P1 & P2 & P3). exists p.
    split; [|exact P2]. split; [exact P1|]. split; [exact P3|]. left. exact P2. }
  destruct He as [<-|He].
  - destruct ps as [|d ps0]; [congruence|]. cbn [hd].
    destruct (Base d (or_introl eq_refl)) as (p & (P1 & P2 & _) & P3).
    exists p. split; [exact P1|]. split; [exact P2|]. right. left. split; [reflexivity|].
    intros q Hq. destruct (Hc q Hq) as (d' & D1 & D2).
    apply ln_le_inv'; [eapply listed_pos; eassumption|eapply listed_pos; eassumption|].
    rewrite <- P3, <- D2. destruct D1 as [<-|D1]; [lra|].
    apply StronglySorted_inv in Hs as [_ Hs]. rewrite Forall_forall in Hs.
    specialize (Hs d' D1). lra.
  - apply in_app_or in He as [He|[<-|[]]].
    + destruct (Base e He) as (p & P & _). exists p. exact P.
    + destruct (@exists_last _ ps Hne) as [ps' [d Ed]]. rewrite Ed, last_last.
      destruct (Base d) as (p & (P1 & P2 & _) & P3);
        [rewrite Ed; apply in_or_app; right; left; reflexivity|].
      exists p. split; [exact P1|]. split; [exact P2|]. right. right. split; [reflexivity|].
      intros q Hq. destruct (Hc q Hq) as (d' & D1 & D2).
      apply ln_le_inv'; [eapply listed_pos; eassumption|eapply listed_pos; eassumption|].
      rewrite <- P3, <- D2. rewrite Ed in D1, Hs. apply ksorted_app in Hs as (_ & _ & Hs).
      apply in_app_or in D1 as [D1|[<-|[]]]; [|lra].
      specialize (Hs d' d D1 (or_introl eq_refl)). lra.
Qed.

Lemma extended_sorted ps :
  ksorted ps -> (forall e, In e ps -> -1000 < fst e < 1000) -> ksorted (extended ps).
Proof.
  intros Hs Hk. unfold extended. constructor.
  - apply ksorted_app. split; [exact Hs|]. split; [repeat constructor|].
    intros x y Hx [<-|[]]. cbn [fst]. apply Hk, Hx.
  - rewrite Forall_app, !Forall_forall. split.
    + intros x Hx. cbn [fst]. apply Hk, Hx.
    + intros x [<-|[]]. cbn [fst]. lra.
Qed.

Lemma adjacent_none m lo hi e :
  ksorted m -> adjacent m lo hi -> In e m -> fst e <= fst lo \/ fst hi <= fst e.
Proof.
  intros Hs (m1 & m2 & ->) He. apply ksorted_app in Hs as (_ & H2 & H3).
  apply in_app_or in He as [He|[<-|[<-|He]]].
  - left. left. apply (H3 e lo He (or_introl eq_refl)).
  - left. right. reflexivity.
  - right. right. reflexivity.
  - right. left. apply StronglySorted_inv in H2 as [H2 _].
    apply StronglySorted_inv in H2 as [_ H2]. rewrite Forall_forall in H2. apply H2, He.
Qed.

Section Table.
Variable tab : list (R * arr).
Hypothesis Htab : usable_table tab.
Let mm := multimap_of tab.

Lemma mm_range q : listed mm q -> in_double_range q.
Proof.
  intros Hq. destruct Htab as [_ H]. apply H.
  apply (listed_perm tab mm q (multimap_perm tab)), Hq.
Qed.

Lemma table_cache : exists ps, ps <> [] /\ groups mm ps /\
  (forall e, In e ps -> -1000 < fst e < 1000) /\
  cache (extended ps) (map (fun x => Some (snd x)) mm) (plog_of tab).
Proof.
  destruct (plog_of_shape tab Htab) as (ps & E & H1 & H2 & H3).
  exists ps. split; [exact H1|]. split; [exact H2|]. split; [exact H3|].
  rewrite E. split; [reflexivity|]. split; [reflexivity|]. left.
  split; [reflexivity|]. split; reflexivity.
Qed.

Lemma ln_range P : in_double_range P -> -1000 < ln P < 1000.
Proof.
  intros [A B]. rewrite <- (ln_exp (-1000)), <- (ln_exp 1000).
  pose proof (exp_pos (-1000)). split; apply ln_increasing; lra.
Qed.

(* Values after an update: a number when both totals are positive. *)
Lemma eval_located ps s T :
  groups mm ps -> ps <> [] -> cache (extended ps) (map (fun x => Some (snd x)) mm) s ->
  located (extended ps) s ->
  exists lo hi p1 p2, adjacent (extended ps) lo hi /\
    fst lo <= pl_logP s < fst hi /\ stands mm lo p1 /\ stands mm hi p2 /\
    plog_eval (ln T) (/ T) s =
    Ok (if rltb 0 (knot mm p1 T) && rltb 0 (knot mm p2 T)
        then Some (exp (ln (knot mm p1 T) + (ln (knot mm p2 T) - ln (knot mm p1 T)) *
                      ((pl_logP s - fst lo) / (fst hi - fst lo))))
        else None).
Proof.
  intros HG Hne (C1 & C2 & _) (lo & hi & L1 & L2 & L3 & L4 & L5 & L6 & L7).
  assert (Ilo : In lo (extended ps)).
  { destruct L1 as (m1 & m2 & ->). apply in_or_app. right. left. reflexivity. }
  assert (Ihi : In hi (extended ps)).
  { destruct L1 as (m1 & m2 & ->). apply in_or_app. right. right. left. reflexivity. }
  destruct (extended_stands mm ps lo mm_range HG Hne Ilo) as (p1 & S1).
  destruct (extended_stands mm ps hi mm_range HG Hne Ihi) as (p2 & S2).
  exists lo, hi, p1, p2. split; [exact L1|]. split; [exact L7|].
  split; [exact S1|]. split; [exact S2|].
  unfold plog_eval. rewrite C2, L4, L5.
  rewrite (side_group mm p1 (snd lo) T) by apply S1.
  rewrite (side_group mm p2 (snd hi) T) by apply S2.
  cbn [obind]. destruct (rltb 0 (knot mm p1 T)); cbn [andb];
    destruct (rltb 0 (knot mm p2 T)); try reflexivity.
  rewrite L2, L6. do 4 f_equal. unfold Rdiv. rewrite Rmult_assoc. reflexivity.
Qed.

Lemma extended_ends ps : exists e0 m', extended ps = e0 :: m' /\ fst e0 = -1000 /\
  exists e, In e m' /\ fst e = 1000.
Proof.
  unfold extended. eexists. eexists. split; [reflexivity|]. split; [reflexivity|].
  eexists. split; [apply in_or_app; right; left; reflexivity|reflexivity].
Qed.

Lemma hist_cache ps h s :
  groups mm ps -> ps <> [] -> hist_ok h ->
  cache (extended ps) (map (fun x => Some (snd x)) mm) s ->
  exists s', plog_hist h s = Ok s' /\
    cache (extended ps) (map (fun x => Some (snd x)) mm) s'.
Proof.
  intros HG Hne. revert s. induction h as [|[T P] h IH]; intros s Hh Hc.
  - exists s. split; [reflexivity|exact Hc].
  - cbn [plog_hist]. unfold plog_at.
    destruct (update_located _ _ s (ln P) Hc (extended_ends ps)) as (s' & U1 & U2 & U3 & U4).
    { apply ln_range, (Hh T). left. reflexivity. }
    rewrite U1. cbn [obind].
    destruct (eval_located ps s' T HG Hne U2 U3) as (lo & hi & p1 & p2 & _ & _ & _ & _ & Ev).
    rewrite Ev. cbn [obind fst]. apply IH; [|exact U2].
    intros T' P' HI. apply (Hh T'). right. exact HI.
Qed.
End Table.

Lemma located_spec tab T P lo hi p1 p2 ps :
  let mm := multimap_of tab in
  usable_table tab -> groups mm ps -> (forall e, In e ps -> -1000 < fst e < 1000) ->
  in_double_range P -> adjacent (extended ps) lo hi ->
  fst lo <= ln P < fst hi -> stands mm lo p1 -> stands mm hi p2 ->
  0 < knot mm p1 T -> 0 < knot mm p2 T ->
  plog_spec mm T P
    (exp (ln (knot mm p1 T) + (ln (knot mm p2 T) - ln (knot mm p1 T)) *
         ((ln P - fst lo) / (fst hi - fst lo)))).
Proof.
  intros mm Htab HG Hkey HP Hadj Hin S1 S2 K1 K2.
  pose proof (mm_range tab Htab) as Hr. fold mm in Hr.
  assert (Hpos : forall q, listed mm q -> 0 < q) by (intros q; apply listed_pos, Hr).
  assert (PP : 0 < P) by (destruct HP; pose proof (exp_pos (-1000)); lra).
  pose proof (ln_range P HP) as LP.
  pose proof (extended_sorted ps (proj1 HG) Hkey) as HS.
  assert (Hent : forall q, listed mm q -> q <= P -> ln q <= fst lo).
  { intros q Hq HqP. destruct HG as (_ & _ & Hc). destruct (Hc q Hq) as (e & E1 & E2).
    destruct (adjacent_none _ lo hi e HS Hadj) as [A|A].
    - unfold extended. right. apply in_or_app. left. exact E1.
    - lra.
    - assert (ln q <= ln P) by (apply ln_le'; auto). lra. }
  assert (Hent2 : forall q, listed mm q -> P < q -> fst hi <= ln q).
  { intros q Hq HqP. destruct HG as (_ & _ & Hc). destruct (Hc q Hq) as (e & E1 & E2).
    destruct (adjacent_none _ lo hi e HS Hadj) as [A|A].
    - unfold extended. right. apply in_or_app. left. exact E1.
    - assert (ln P < ln q) by (apply ln_increasing; auto). lra.
    - lra. }
  destruct S1 as (A1 & A2 & A3), S2 as (B1 & B2 & B3).
  assert (Rg : forall q, listed mm q -> -1000 < ln q < 1000) by (intros q Hq; apply ln_range, Hr, Hq).
  destruct A3 as [A3|[[A3 A4]|[A3 A4]]].
  - destruct B3 as [B3|[[B3 B4]|[B3 B4]]].
    + rewrite A3, B3 in *. apply PS_between; [exact A1|exact B1| |].
      * split; [apply ln_le_inv'; auto; lra|]. apply ln_lt_inv; auto; lra.
      * intros q Hq. destruct (Rle_lt_dec q P) as [Q|Q].
        -- left. apply ln_le_inv'; auto.
        -- right. apply ln_le_inv'; auto.
    + rewrite B3 in Hin. lra.
    + (* hi is the end marker: p2 is the largest pressure, and lo stands for it *)
      assert (E : p1 = p2).
      { apply Rle_antisym; [auto|]. apply ln_le_inv'; auto. rewrite <- A3. apply Hent; [exact B1|].
        destruct (Rle_lt_dec p2 P) as [Q|Q]; [exact Q|].
        pose proof (Hent2 p2 B1 Q). pose proof (Rg p2 B1). lra. }
      subst p2. replace (ln (knot mm p1 T) - ln (knot mm p1 T)) with 0 by ring.
      rewrite Rmult_0_l, Rplus_0_r, exp_ln by exact K1.
      apply PS_above; [exact A1|exact B4|]. apply ln_le_inv'; auto. lra.
  - (* lo is the start marker *)
    destruct B3 as [B3|[[B3 B4]|[B3 B4]]].
    + assert (E : p1 = p2).
      { apply Rle_antisym; [auto|]. destruct (Rle_lt_dec p1 P) as [Q|Q].
        - pose proof (Hent p1 A1 Q). pose proof (Rg p1 A1). lra.
        - apply ln_le_inv'; auto. rewrite <- B3. apply Hent2; auto. }
      subst p2. replace (ln (knot mm p1 T) - ln (knot mm p1 T)) with 0 by ring.
      rewrite Rmult_0_l, Rplus_0_r, exp_ln by exact K1.
      apply PS_below; [exact A1|exact A4|]. rewrite B3 in Hin.
      apply ln_lt_inv; auto. lra.
    + rewrite B3 in Hin. lra.
    + exfalso. destruct (Rle_lt_dec p1 P) as [Q|Q].
      * pose proof (Hent p1 A1 Q). pose proof (Rg p1 A1). lra.
      * pose proof (Hent2 p1 A1 Q). pose proof (Rg p1 A1). lra.
  - rewrite A3 in Hin. lra.
Qed.

Lemma offset_pos : 0 < offset.
Proof. unfold offset. apply Rinv_0_lt_compat, pow_lt. lra. Qed.

Lemma knot_pos tab p T : good_table tab T -> listed tab p -> 0 < knot tab p T.
Proof.
  intros (_ & _ & H) Hp. unfold knot. pose proof offset_pos. specialize (H p Hp). lra.
Qed.

Theorem plog_computes_spec tab h T P :
  good_table tab T -> hist_ok h -> in_double_range P ->
  exists k, plog_value tab h T P = Ok (Some k) /\ plog_spec tab T P k.
Proof.
  intros HG Hh HP.
  assert (Hu : usable_table tab) by (destruct HG as (A & B & _); split; assumption).
  set (mm := multimap_of tab).
  pose proof (multimap_perm tab) as Pm. fold mm in Pm.
  destruct (table_cache tab Hu) as (ps & P1 & P2 & P3 & P4).
  destruct (hist_cache tab Hu ps h _ P2 P1 Hh P4) as (s & S1 & S2).
  unfold plog_value. rewrite S1. cbn [obind]. unfold plog_at.
  destruct (update_located _ _ s (ln P) S2 (extended_ends ps)) as (s' & U1 & U2 & U3 & U4).
  { apply ln_range, HP. }
  rewrite U1. cbn [obind].
  destruct (eval_located tab Hu ps s' T P2 P1 U2 U3) as (lo & hi & p1 & p2 & E1 & E2 & E3 & E4 & Ev).
  assert (KP : forall p, listed mm p -> 0 < knot mm p T).
  { intros p Hp. unfold knot. rewrite <- (rate_at_perm tab mm p T Pm).
    apply (knot_pos tab p T HG), (listed_perm tab mm p Pm), Hp. }
  assert (K1 : 0 < knot mm p1 T) by (apply KP, E3).
  assert (K2 : 0 < knot mm p2 T) by (apply KP, E4).
  rewrite Ev. fold mm.
  replace (rltb 0 (knot mm p1 T)) with true by (symmetry; apply rltb_true; exact K1).
  replace (rltb 0 (knot mm p2 T)) with true by (symmetry; apply rltb_true; exact K2).
  cbn [andb obind omap snd]. eexists. split; [reflexivity|].
  apply (spec_perm mm tab); [apply Permutation_sym, Pm|]. rewrite U4 in *.
  apply (located_spec tab T P lo hi p1 p2 ps); assumption.
Qed.
