(* Proofs about the numbering of unknowns. *)
From Coq Require Import Reals ZArith String List Bool Arith Lra Lia.
From Verif Require Import Base.Outcome Base.Fp OneD.LayoutModel OneD.LayoutSpec.
Import ListNotations.
Local Open Scope list_scope.
Local Open Scope nat_scope.

Definition sh (d : dom) : nat * nat := (d_nv d, d_np d).
Definition shp (l : list dom) : shape := map sh l.

(* ---------------------------------------------------------------- *)
(** * Placement *)
Fixpoint placed (i j : nat) (l : list dom) : Prop :=
  match l with
  | [] => True
  | d :: l => d_iloc d = i /\ d_jstart d = j /\ placed (i + d_size d) (j + d_np d) l
  end.
Lemma placed_relocate : forall l i j, placed i j (relocate i j l).
Proof.
  induction l as [|d l IH]; intros i j; cbn; [exact I|].
  split; [reflexivity|]. split; [reflexivity|]. apply IH.
Qed.
Lemma shp_relocate : forall l i j, shp (relocate i j l) = shp l.
Proof. induction l as [|d l IH]; intros; cbn; [reflexivity|]. unfold shp in IH. rewrite IH. reflexivity. Qed.
Lemma placed_app : forall l i j d,
  placed i j l -> d_iloc d = i + unknowns_in (shp l) -> d_jstart d = j + points_in (shp l) ->
  placed i j (l ++ [d]).
Proof.
  unfold unknowns_in, points_in.
  induction l as [|a l IH]; intros i j d H A B; cbn in *.
  - repeat split; cbn in *; lia.
  - destruct H as (E1 & E2 & H). split; [exact E1|]. split; [exact E2|].
    apply IH; [exact H| |]; unfold shp, d_size, list_sum in *; cbn in *; lia.
Qed.
Lemma placed_last : forall l d i j, placed i j (l ++ [d]) ->
  d_iloc d = i + unknowns_in (shp l) /\ d_jstart d = j + points_in (shp l).
Proof.
  unfold unknowns_in, points_in.
  induction l as [|a l IH]; intros d i j H; cbn in *.
  - lia.
  - destruct H as (_ & _ & H). destruct (IH _ _ _ H). unfold shp, d_size, list_sum in *. cbn in *. lia.
Qed.
Lemma placed_relocate_at : forall l n nv np i j, placed i j l -> placed i j (relocate_at n nv np i j l).
Proof.
  induction l as [|d l IH]; intros [|n] nv np i j H; cbn; try exact I.
  - split; [reflexivity|]. split; [reflexivity|]. apply placed_relocate.
  - destruct H as (A & B & H). split; [exact A|]. split; [exact B|]. rewrite A, B. apply IH. exact H.
Qed.
Lemma shp_relocate_at : forall l n nv np i j, shp (relocate_at n nv np i j l) = reshape n nv np (shp l).
Proof.
  induction l as [|d l IH]; intros [|n] nv np i j; cbn; try reflexivity.
  - f_equal. apply shp_relocate.
  - f_equal. apply IH.
Qed.

Definition inv (s : od) : Prop := placed 0 0 (o_dom s).
Lemma o_dom_resize : forall s, o_dom (resize s) = o_dom s.
Proof. reflexivity. Qed.
Lemma unknowns_in_app : forall a b, unknowns_in (a ++ b) = unknowns_in a + unknowns_in b.
Proof. intros. unfold unknowns_in. rewrite map_app, list_sum_app. reflexivity. Qed.
Lemma points_in_app : forall a b, points_in (a ++ b) = points_in a + points_in b.
Proof. intros. unfold points_in. rewrite map_app, list_sum_app. reflexivity. Qed.
Lemma shp_app : forall a b, shp (a ++ b) = shp a ++ shp b.
Proof. intros. apply map_app. Qed.
Lemma inv_step : forall s o, inv s -> inv (lstep s o) /\ shp (o_dom (lstep s o)) = shape_step (shp (o_dom s)) o.
Proof.
  intros s [d|n nv np|] H; cbn [lstep shape_step].
  - unfold addDomain, inv. rewrite o_dom_resize. cbn [o_dom]. split.
    + destruct (rev (o_dom s)) as [|e r] eqn:E.
      * assert (N : o_dom s = []) by (rewrite <- (rev_involutive (o_dom s)), E; reflexivity).
        rewrite N. cbn. auto.
      * assert (N : o_dom s = rev r ++ [e]) by (rewrite <- (rev_involutive (o_dom s)), E; reflexivity).
        unfold inv in H. rewrite N in H |- *. destruct (placed_last _ _ _ _ H) as (A & B).
        apply placed_app; [exact H| |]; cbn [place d_iloc d_jstart fst snd];
          rewrite shp_app, ?unknowns_in_app, ?points_in_app, ?A, ?B; unfold unknowns_in, points_in, d_size, list_sum; cbn; lia.
    + rewrite shp_app. reflexivity.
  - unfold inv, domain_resize. cbn [o_dom]. split; [apply placed_relocate_at; exact H|apply shp_relocate_at].
  - split; [exact H|reflexivity].
Qed.
Lemma inv_run : forall ops, inv (lrun ops) /\ shp (o_dom (lrun ops)) = shape_of ops.
Proof.
  induction ops as [|o ops (H & E)] using rev_ind.
  - split; [exact I|reflexivity].
  - unfold lrun, shape_of in *. rewrite !fold_left_app. cbn [fold_left].
    destruct (inv_step _ o H) as (A & B). split; [exact A|]. rewrite B, E. reflexivity.
Qed.

(* ---------------------------------------------------------------- *)
(** * Points: the list of component counts, and prefix sums *)
Definition nvs (l : shape) : list nat := flat_map (fun q => repeat (fst q) (snd q)) l.
Definition psum (l : list nat) (p : nat) : nat := list_sum (firstn p l).
Lemma psum_le : forall l p, psum l p <= list_sum l.
Proof.
  unfold psum. intros l p. rewrite <- (firstn_skipn p l) at 2. rewrite list_sum_app. lia.
Qed.
Lemma psum_S : forall l p, psum l (S p) = psum l p + nth p l 0.
Proof.
  unfold psum. induction l as [|a l IH]; intros [|p]; cbn [firstn nth]; cbn; try lia.
  change (a + list_sum (firstn (S p) l) = a + list_sum (firstn p l) + nth p l 0). rewrite IH. lia.
Qed.
Lemma psum_mono : forall l p q, p <= q -> psum l p <= psum l q.
Proof. intros l p q H. induction H; [lia|]. rewrite psum_S. lia. Qed.
Lemma psum_lt : forall l p q m, p < q -> m < nth p l 0 -> psum l p + m < psum l q.
Proof. intros l p q m H M. pose proof (psum_mono l (S p) q H). rewrite psum_S in *. lia. Qed.
Lemma psum_inj : forall l p q m k, m < nth p l 0 -> k < nth q l 0 ->
  psum l p + m = psum l q + k -> p = q /\ m = k.
Proof.
  intros l p q m k M K E. destruct (lt_eq_lt_dec p q) as [[L| ->]|L].
  - pose proof (psum_lt l p q m L M). lia.
  - split; [reflexivity|lia].
  - pose proof (psum_lt l q p k L K). lia.
Qed.
Lemma psum_split : forall l i, i < list_sum l -> exists p m, p < length l /\ m < nth p l 0 /\ i = psum l p + m.
Proof.
  induction l as [|a l IH]; intros i H; cbn in H; [lia|].
  destruct (lt_dec i a) as [L|L].
  - exists 0, i. cbn. repeat split; lia.
  - destruct (IH (i - a)) as (p & m & A & B & C); [unfold list_sum in *; lia|].
    exists (S p), m. cbn. repeat split; [lia|exact B|]. unfold psum in C. unfold psum, list_sum in *. cbn. lia.
Qed.
Lemma list_sum_repeat : forall n a, list_sum (repeat a n) = a * n.
Proof. induction n; intros; cbn; [lia|]. change (a + list_sum (repeat a n) = a * S n). rewrite IHn. lia. Qed.
Lemma nvs_app : forall a b, nvs (a ++ b) = nvs a ++ nvs b.
Proof. intros. apply flat_map_app. Qed.
Lemma nvs_sum : forall l, list_sum (nvs l) = unknowns_in l.
Proof.
  induction l as [|[nv np] l IH]; [reflexivity|]. unfold nvs, unknowns_in in *. cbn [flat_map map fst snd].
  rewrite list_sum_app, IH, list_sum_repeat. reflexivity.
Qed.
Lemma nvs_length : forall l, length (nvs l) = points_in l.
Proof.
  induction l as [|[nv np] l IH]; [reflexivity|]. unfold nvs, points_in in *. cbn [flat_map map fst snd].
  rewrite app_length, IH, repeat_length. reflexivity.
Qed.
Lemma split_at : forall (l : shape) n nv np, nth_error l n = Some (nv, np) ->
  l = firstn n l ++ (nv, np) :: skipn (S n) l.
Proof.
  induction l as [|q l IH]; intros [|n] nv np H; cbn in *; try discriminate.
  - injection H as ->. reflexivity.
  - f_equal. apply IH. exact H.
Qed.
Lemma nvs_split : forall l n nv np, nth_error l n = Some (nv, np) ->
  nvs l = nvs (firstn n l) ++ repeat nv np ++ nvs (skipn (S n) l).
Proof. intros l n nv np H. rewrite (split_at l n nv np H) at 1. rewrite nvs_app. reflexivity. Qed.
Lemma nvs_nth : forall l n nv np j, nth_error l n = Some (nv, np) -> j < np ->
  nth (point_number l n j) (nvs l) 0 = nv.
Proof.
  intros l n nv np j H J. rewrite (nvs_split l n nv np H). unfold point_number.
  rewrite app_nth2; rewrite nvs_length; [|lia]. replace (points_in (firstn n l) + j - points_in (firstn n l)) with j by lia.
  rewrite app_nth1 by (rewrite repeat_length; exact J).
  clear -J. revert j J. induction np; intros [|j] J; cbn; try lia; try reflexivity. apply IHnp. lia.
Qed.
Lemma psum_nvs : forall l n nv np j, nth_error l n = Some (nv, np) -> j <= np ->
  psum (nvs l) (point_number l n j) = unknowns_in (firstn n l) + nv * j.
Proof.
  intros l n nv np j H J. unfold psum. rewrite (nvs_split l n nv np H). unfold point_number.
  rewrite firstn_app, nvs_length. replace (points_in (firstn n l) + j - points_in (firstn n l)) with j by lia.
  rewrite firstn_all2 by (rewrite nvs_length; lia). rewrite list_sum_app, nvs_sum. f_equal.
  rewrite firstn_app, repeat_length. replace (j - np) with 0 by lia. cbn [firstn]. rewrite app_nil_r.
  replace np with (j + (np - j)) by lia. rewrite repeat_app, firstn_app, repeat_length, Nat.sub_diag.
  cbn [firstn]. rewrite app_nil_r, firstn_all2 by (rewrite repeat_length; lia). apply list_sum_repeat.
Qed.
Lemma point_lt : forall l n nv np j, nth_error l n = Some (nv, np) -> j < np -> point_number l n j < points_in l.
Proof.
  intros l n nv np j H J. unfold point_number. rewrite (split_at l n nv np H) at 2. rewrite points_in_app.
  unfold points_in at 3. cbn [map snd]. unfold list_sum. cbn. lia.
Qed.
Lemma point_split : forall l p, p < points_in l ->
  exists n j nv np, nth_error l n = Some (nv, np) /\ j < np /\ p = point_number l n j.
Proof.
  induction l as [|[nv np] l IH]; intros p H; cbn in H; [lia|].
  destruct (lt_dec p np) as [L|L].
  - exists 0, p, nv, np. repeat split; auto.
  - destruct (IH (p - np)) as (n & j & nv' & np' & A & B & C).
    { unfold points_in in *. cbn in *. unfold list_sum in *. lia. }
    exists (S n), j, nv', np'. repeat split; auto. unfold point_number, points_in in *. cbn in *. unfold list_sum in *. lia.
Qed.
Lemma position_psum : forall l n j c, unknown l n j c ->
  position l n j c = psum (nvs l) (point_number l n j) + c /\ c < nth (point_number l n j) (nvs l) 0 /\
  point_number l n j < points_in l.
Proof.
  intros l n j c (nv & np & H & J & C). rewrite (psum_nvs l n nv np j H) by lia.
  rewrite (nvs_nth l n nv np j H J). split; [|split; [exact C|]].
  - unfold position. rewrite (nth_error_nth _ _ (0, 0) H). reflexivity.
  - apply (point_lt l n nv np j H J).
Qed.
Lemma point_inj : forall l n j n' j' nv np nv' np',
  nth_error l n = Some (nv, np) -> nth_error l n' = Some (nv', np') -> j < np -> j' < np' ->
  point_number l n j = point_number l n' j' -> n = n' /\ j = j'.
Proof.
  induction l as [|[a b] l IH]; intros [|n] j [|n'] j' nv np nv' np' H H' J J' E; cbn in H, H'; try discriminate.
  - unfold point_number, points_in, list_sum in E. cbn in E. auto.
  - injection H as -> ->. unfold point_number, points_in, list_sum in E. cbn in E. lia.
  - injection H' as -> ->. unfold point_number, points_in, list_sum in E. cbn in E. lia.
  - destruct (IH n j n' j' nv np nv' np' H H' J J') as (-> & ->); auto.
    unfold point_number, points_in, list_sum in *. cbn in E. lia.
Qed.
Lemma position_lt : forall l n j c, unknown l n j c -> position l n j c < unknowns_in l.
Proof.
  intros l n j c U. destruct (position_psum _ _ _ _ U) as (E & C & P). rewrite E, <- nvs_sum.
  pose proof (psum_le (nvs l) (S (point_number l n j))). rewrite psum_S in *. lia.
Qed.
Lemma position_inj : forall l n j c n' j' c', unknown l n j c -> unknown l n' j' c' ->
  position l n j c = position l n' j' c' -> n = n' /\ j = j' /\ c = c'.
Proof.
  intros l n j c n' j' c' U U' E.
  destruct (position_psum _ _ _ _ U) as (A & C & P), (position_psum _ _ _ _ U') as (A' & C' & P').
  destruct (psum_inj (nvs l) (point_number l n j) (point_number l n' j') c c') as (Q & R); auto; [congruence|].
  destruct U as (nv & np & H & J & _), U' as (nv' & np' & H' & J' & _).
  destruct (point_inj l n j n' j' nv np nv' np' H H' J J' Q). auto.
Qed.
Lemma position_onto : forall l i, i < unknowns_in l -> exists n j c, unknown l n j c /\ i = position l n j c.
Proof.
  intros l i H. rewrite <- nvs_sum in H. destruct (psum_split _ _ H) as (p & m & A & B & C).
  rewrite nvs_length in A. destruct (point_split _ _ A) as (n & j & nv & np & D & E & ->).
  rewrite (nvs_nth l n nv np j D E) in B. exists n, j, m.
  assert (U : unknown l n j m) by (exists nv, np; auto). split; [exact U|].
  destruct (position_psum _ _ _ _ U) as (-> & _). exact C.
Qed.

Lemma coupled_dec : forall l r c, r < unknowns_in l -> c < unknowns_in l -> {coupled l r c} + {~ coupled l r c}.
Proof.
  intros l r c R C.
  assert (X : forall i, i < unknowns_in l -> {p | exists n j k, unknown l n j k /\ i = position l n j k /\ p = point_number l n j}).
  { intros i H. set (P := fun p => psum (nvs l) p <=? i). 
    assert (Y : exists p, (psum (nvs l) p <= i < psum (nvs l) (S p))).
    { rewrite <- nvs_sum in H. destruct (psum_split _ _ H) as (p & m & A & B & E). exists p. rewrite psum_S. lia. }
    assert (D : forall p, {psum (nvs l) p <= i < psum (nvs l) (S p)} + {~ (psum (nvs l) p <= i < psum (nvs l) (S p))}).
    { intro p. destruct (le_dec (psum (nvs l) p) i), (lt_dec i (psum (nvs l) (S p))); [left; lia|right; lia..]. }
    destruct (find (fun p => if D p then true else false) (seq 0 (points_in l))) as [p|] eqn:E.
    - exists p. apply find_some in E. destruct E as (I & T). destruct (D p) as [Q|]; [|discriminate].
      destruct (position_onto _ _ H) as (n & j & k & U & ->). exists n, j, k. split; [exact U|]. split; [reflexivity|].
      destruct (position_psum _ _ _ _ U) as (E' & K & _). rewrite E', psum_S in Q.
      destruct (psum_inj (nvs l) p (point_number l n j) (psum (nvs l) (point_number l n j) + k - psum (nvs l) p) k); lia.
    - exfalso. destruct Y as (p & Y). assert (Lp : p < points_in l).
      { destruct (lt_dec p (points_in l)); [assumption|]. rewrite psum_S, (nth_overflow (nvs l)) in Y by (rewrite nvs_length; lia). lia. }
      pose proof (find_none _ _ E p) as N. rewrite in_seq in N. specialize (N ltac:(lia)). cbn in N. destruct (D p); [discriminate|contradiction]. }
  destruct (X r R) as (p & Hp), (X c C) as (q & Hq).
  assert (Dn : {near p q} + {~ near p q}).
  { unfold near. destruct (Nat.eq_dec p q), (Nat.eq_dec p (S q)), (Nat.eq_dec q (S p)); try (left; lia); right; lia. }
  destruct Dn as [N|N]; [left|right].
  - destruct Hp as (n & j & k & U & -> & ->), Hq as (n' & j' & k' & U' & -> & ->). exists n, j, k, n', j', k'. auto.
  - intros (n & j & k & n' & j' & k' & U & U' & E & E' & Nr). apply N.
    destruct Hp as (a & b & d & Ua & Ea & ->), Hq as (a' & b' & d' & Ua' & Ea' & ->).
    destruct (position_inj l n j k a b d U Ua) as (<- & <- & _); [congruence|].
    destruct (position_inj l n' j' k' a' b' d' U' Ua') as (<- & <- & _); [congruence|]. exact Nr.
Qed.

(* ---------------------------------------------------------------- *)
(** * The tables of OneDim::resize *)
Lemma add_points_nth : forall np nv lc p, p < np -> nth p (add_points np nv lc) 0 = lc + nv * p.
Proof.
  induction np as [|np IH]; intros nv lc [|p] H; cbn; try lia. rewrite IH by lia. lia.
Qed.
Lemma add_points_length : forall np nv lc, length (add_points np nv lc) = np.
Proof. induction np; intros; cbn; [reflexivity|]. rewrite IHnp. reflexivity. Qed.

Definition good (done : shape) (t : tables) : Prop :=
  t_nvars t = nvs done /\ length (t_loc t) = points_in done /\
  (forall p, p < points_in done -> nth p (t_loc t) 0 = psum (nvs done) p) /\
  t_pts t = points_in done /\ t_size t = unknowns_in done.
Lemma tables_good : forall l done t prev,
  good done t -> placed (unknowns_in done) (points_in done) l ->
  good (done ++ shp l) (tables_from t (unknowns_in done) prev l).
Proof.
  induction l as [|d l IH]; intros done t prev G P; cbn [tables_from shp map].
  - rewrite app_nil_r. exact G.
  - destruct P as (A & B & P). destruct G as (G1 & G2 & G3 & G4 & G5).
    replace (done ++ sh d :: map sh l) with ((done ++ [sh d]) ++ shp l) by (rewrite <- app_assoc; reflexivity).
    replace (unknowns_in done + d_np d * d_nv d) with (unknowns_in (done ++ [sh d]))
      by (rewrite unknowns_in_app; unfold unknowns_in; cbn; lia).
    apply IH.
    + unfold add_domain_tables. repeat split; cbn [t_nvars t_loc t_pts t_size].
      * rewrite nvs_app, G1. f_equal. unfold nvs. cbn. rewrite app_nil_r. reflexivity.
      * rewrite app_length, add_points_length, G2, points_in_app. unfold points_in. cbn. lia.
      * intros p Hp. rewrite points_in_app in Hp. unfold points_in in Hp at 2. cbn in Hp.
        rewrite nvs_app. destruct (lt_dec p (points_in done)) as [L|L].
        -- rewrite app_nth1 by lia. rewrite G3 by exact L. unfold psum. rewrite firstn_app, nvs_length.
           replace (p - points_in done) with 0 by lia. cbn [firstn]. rewrite app_nil_r. reflexivity.
        -- rewrite app_nth2 by lia. rewrite G2. rewrite add_points_nth by lia.
           unfold psum. rewrite firstn_app, nvs_length, firstn_all2 by (rewrite nvs_length; lia).
           rewrite list_sum_app, nvs_sum. f_equal. unfold nvs. cbn. rewrite app_nil_r.
           set (k := p - points_in done). assert (K : k <= d_np d) by (unfold k; lia).
           replace (d_np d) with (k + (d_np d - k)) by lia.
           rewrite repeat_app, firstn_app, repeat_length, Nat.sub_diag. cbn [firstn].
           rewrite app_nil_r, firstn_all2 by (rewrite repeat_length; lia). symmetry. apply list_sum_repeat.
      * rewrite G4, points_in_app. unfold points_in. cbn. lia.
      * rewrite unknowns_in_app. unfold d_size, unknowns_in in *. cbn. lia.
    + rewrite unknowns_in_app, points_in_app. unfold unknowns_in at 2, points_in at 2. cbn.
      rewrite !Nat.add_0_r. exact P.
Qed.
(* Where m_size comes from when there is no domain. *)
Lemma size0 : forall ops, o_dom (lrun ops) = [] -> o_size (lrun ops) = 0.
Proof.
  induction ops as [|o ops IH] using rev_ind; [reflexivity|].
  unfold lrun in *. rewrite fold_left_app. cbn [fold_left]. destruct o as [d|n nv np|]; cbn [lstep].
  - unfold addDomain. rewrite o_dom_resize. cbn. intro H. destruct (o_dom (fold_left lstep ops od0)); discriminate.
  - unfold domain_resize. cbn [o_dom o_size]. intro H. apply IH.
    destruct (o_dom (fold_left lstep ops od0)), n; cbn in H; congruence.
  - intro H. rewrite o_dom_resize in H. unfold resize. rewrite H. cbn. apply IH. exact H.
Qed.
Lemma resize_good : forall s, inv s -> (o_dom s = [] -> o_size s = 0) ->
  let s' := resize s in good (shp (o_dom s)) (Tab (o_nvars s') (o_loc s') (o_pts s') (o_size s') (o_bw s')).
Proof.
  intros s H Z. cbn zeta. unfold resize. cbn [o_nvars o_loc o_pts o_size o_bw].
  destruct (o_dom s) as [|d l] eqn:E.
  - cbn. rewrite Z by reflexivity. repeat split. intros p Hp. cbn in Hp. lia.
  - unfold inv in H. rewrite E in H.
    change (good (shp (d :: l)) (tables_from (Tab [] [] 0 (o_size s) 0) 0 None (d :: l))).
    (* the first step does not look at the old size *)
    assert (X : tables_from (Tab [] [] 0 (o_size s) 0) 0 None (d :: l) = tables_from (Tab [] [] 0 0 0) 0 None (d :: l))
      by reflexivity.
    rewrite X. apply (tables_good (d :: l) [] (Tab [] [] 0 0 0%Z) None); [|exact H].
    repeat split. intros p Hp. cbn in Hp. lia.
Qed.
Definition same_tables (s : od) : Prop := resize s = s.
Lemma resize_idem : forall s, inv s -> (o_dom s = [] -> o_size s = 0) -> resize (resize s) = resize s.
Proof.
  intros s H Z. unfold resize at 1. rewrite o_dom_resize.
  assert (X : tables_from (Tab [] [] 0 (o_size (resize s)) 0) 0 None (o_dom s) =
              tables_from (Tab [] [] 0 (o_size s) 0) 0 None (o_dom s)).
  { destruct (o_dom s) as [|d l] eqn:E; [|reflexivity].
    unfold resize. rewrite E. reflexivity. }
  rewrite X. reflexivity.
Qed.
Lemma settled_good : forall ops, settled ops ->
  good (shape_of ops) (Tab (o_nvars (lrun ops)) (o_loc (lrun ops)) (o_pts (lrun ops)) (o_size (lrun ops)) (o_bw (lrun ops)))
  /\ resize (lrun ops) = lrun ops.
Proof.
  intros ops S0. destruct (inv_run ops) as (I0 & E0). pose proof (size0 ops) as Z0.
  assert (R : resize (lrun ops) = lrun ops).
  { destruct ops as [|o ops _] using rev_ind; [reflexivity|].
    destruct (inv_run ops) as (I1 & E1). pose proof (size0 ops) as Z1.
    unfold lrun in *. rewrite fold_left_app in *. cbn [fold_left] in *.
    destruct o as [d|n nv np|]; cbn [lstep] in *.
    - unfold addDomain in *. apply resize_idem; [exact I0|].
      cbn. intro H. destruct (o_dom (fold_left lstep ops od0)); discriminate.
    - exfalso. apply (S0 ops n nv np). reflexivity.
    - apply resize_idem; [exact I1|exact Z1]. }
  split; [|exact R].
  pose proof (resize_good (lrun ops) I0 Z0) as G. cbn zeta in G. rewrite R in G. rewrite E0 in G. exact G.
Qed.

(* ---------------------------------------------------------------- *)
(** * Look-up *)
Lemma placed_nth : forall l n d i j, placed i j l -> nth_error l n = Some d ->
  d_iloc d = i + unknowns_in (firstn n (shp l)) /\ d_jstart d = j + points_in (firstn n (shp l)).
Proof.
  induction l as [|a l IH]; intros [|n] d i j P H; cbn in H; try discriminate.
  - injection H as ->. cbn in P. destruct P as (A & B & _). cbn. lia.
  - destruct P as (A & B & P). destruct (IH _ _ _ _ P H) as (C & D). rewrite C, D.
    unfold unknowns_in, points_in, shp, d_size, list_sum. cbn. lia.
Qed.
Lemma shp_nth : forall l n d, nth_error l n = Some d -> nth_error (shp l) n = Some (d_nv d, d_np d).
Proof. intros l n d H. unfold shp. rewrite nth_error_map, H. reflexivity. Qed.
Lemma shp_nth_inv : forall l n nv np, nth_error (shp l) n = Some (nv, np) ->
  exists d, nth_error l n = Some d /\ d_nv d = nv /\ d_np d = np.
Proof.
  intros l n nv np H. unfold shp in H. rewrite nth_error_map in H. destruct (nth_error l n) as [d|]; [|discriminate].
  injection H as <- <-. exists d. auto.
Qed.
Lemma find_rev {A} (f : A -> bool) : forall a x b, f x = true -> (forall y, In y b -> f y = false) ->
  find f (rev (a ++ x :: b)) = Some x.
Proof.
  intros a x b T N. rewrite rev_app_distr. cbn [rev]. rewrite <- app_assoc.
  assert (G : forall l r, (forall y, In y l -> f y = false) -> find f (l ++ r) = find f r).
  { induction l as [|y l IH]; intros r H; cbn; [reflexivity|]. rewrite (H y (or_introl eq_refl)). apply IH. intros z Z. apply H. right. exact Z. }
  rewrite G by (intros y Y; apply N; apply in_rev; exact Y). cbn. rewrite T. reflexivity.
Qed.
Lemma find_first {A} (f : A -> bool) : forall a x b, f x = true -> (forall y, In y a -> f y = false) ->
  find f (a ++ x :: b) = Some x.
Proof.
  induction a as [|y a IH]; intros x b T N; cbn; [rewrite T; reflexivity|].
  rewrite (N y (or_introl eq_refl)). apply IH; [exact T|]. intros z Z. apply N. right. exact Z.
Qed.
Lemma split_nth {A} : forall (l : list A) n d, nth_error l n = Some d -> l = firstn n l ++ d :: skipn (S n) l.
Proof.
  induction l as [|a l IH]; intros [|n] d H; cbn in H; try discriminate.
  - injection H as ->. reflexivity.
  - cbn [firstn skipn app]. f_equal. apply IH. exact H.
Qed.
Lemma in_skipn_nth {A} : forall (l : list A) n d, In d (skipn n l) -> exists m, n <= m /\ nth_error l m = Some d.
Proof.
  induction l as [|a l IH]; intros [|n] d H; cbn in H; try contradiction.
  - destruct H as [->|H]; [exists 0; auto|]. apply In_nth_error in H. destruct H as (m & H). exists (S m). split; [lia|exact H].
  - destruct (IH _ _ H) as (m & M & E). exists (S m). split; [lia|exact E].
Qed.
Lemma in_firstn_nth {A} : forall (l : list A) n d, In d (firstn n l) -> exists m, m < n /\ nth_error l m = Some d.
Proof.
  induction l as [|a l IH]; intros [|n] d H; cbn in H; try contradiction.
  destruct H as [->|H]; [exists 0; split; [lia|reflexivity]|].
  destruct (IH _ _ H) as (m & M & E). exists (S m). split; [lia|exact E].
Qed.
Lemma unknowns_mono : forall l n m, n <= m -> unknowns_in (firstn n l) <= unknowns_in (firstn m l).
Proof.
  intros l n m H. replace (firstn n l) with (firstn n (firstn m l)) by (rewrite firstn_firstn; f_equal; lia).
  rewrite <- (firstn_skipn n (firstn m l)) at 2. rewrite unknowns_in_app. lia.
Qed.
Lemma unknowns_S : forall l n nv np, nth_error l n = Some (nv, np) ->
  unknowns_in (firstn (S n) l) = unknowns_in (firstn n l) + nv * np.
Proof.
  induction l as [|q l IH]; intros [|n] nv np H; cbn in H; try discriminate.
  - injection H as ->. unfold unknowns_in, list_sum. cbn. lia.
  - specialize (IH n nv np H). unfold unknowns_in, list_sum in *. cbn [firstn map fold_right] in *. lia.
Qed.
Lemma mul_lt : forall nv np j c, j < np -> c < nv -> nv * j + c < nv * np.
Proof. intros. nia. Qed.

(* Everything about one unknown of a reachable state. *)
Lemma place_of : forall ops n j c, unknown (shape_of ops) n j c ->
  exists d, nth_error (o_dom (lrun ops)) n = Some d /\ d_nv d = fst (nth n (shape_of ops) (0, 0)) /\
    j < d_np d /\ c < d_nv d /\ d_iloc d = unknowns_in (firstn n (shape_of ops)) /\
    d_jstart d = points_in (firstn n (shape_of ops)) /\
    position (shape_of ops) n j c = d_iloc d + d_nv d * j + c /\
    (forall m e, n < m -> nth_error (o_dom (lrun ops)) m = Some e -> position (shape_of ops) n j c < d_iloc e) /\
    (forall m e, m < n -> nth_error (o_dom (lrun ops)) m = Some e -> d_iloc e + d_nv e * d_np e <= position (shape_of ops) n j c).
Proof.
  intros ops n j c (nv & np & H & J & C). destruct (inv_run ops) as (I0 & E0).
  rewrite <- E0 in H. destruct (shp_nth_inv _ _ _ _ H) as (d & D & <- & <-).
  destruct (placed_nth _ _ _ _ _ I0 D) as (A & B). cbn [Nat.add] in A, B. rewrite E0 in A, B, H.
  exists d. rewrite (nth_error_nth _ _ (0, 0) H). cbn [fst].
  assert (P : position (shape_of ops) n j c = d_iloc d + d_nv d * j + c).
  { unfold position. rewrite (nth_error_nth _ _ (0, 0) H). cbn [fst]. lia. }
  split; [exact D|]. split; [reflexivity|]. split; [exact J|]. split; [exact C|]. split; [exact A|].
  split; [exact B|]. split; [exact P|]. rewrite P. split.
  - intros m e M Em. destruct (placed_nth _ _ _ _ _ I0 Em) as (Ae & _). rewrite Ae, E0, A. cbn [Nat.add].
    pose proof (unknowns_mono (shape_of ops) (S n) m M). rewrite (unknowns_S _ _ _ _ H) in *.
    pose proof (mul_lt _ _ _ _ J C). lia.
  - intros m e M Em. destruct (placed_nth _ _ _ _ _ I0 Em) as (Ae & _). rewrite Ae, E0, A. cbn [Nat.add].
    pose proof (shp_nth _ _ _ Em) as Se. rewrite E0 in Se.
    pose proof (unknowns_mono (shape_of ops) (S m) n M). rewrite (unknowns_S _ _ _ _ Se) in *. lia.
Qed.
Lemma divmod_at : forall nv j c, c < nv -> (nv * j + c) / nv = j /\ nv * j + c - j * nv = c.
Proof.
  intros nv j c H. split; [|nia]. rewrite Nat.mul_comm, Nat.div_add_l by lia. rewrite Nat.div_small by exact H. lia.
Qed.
Lemma nth_combine_seq {A} : forall (l : list A) a, combine (seq a (length l)) l = map (fun p => p) (combine (seq a (length l)) l).
Proof. intros. rewrite map_id. reflexivity. Qed.
Lemma combine_seq_nth {A} : forall (l : list A) a m p,
  nth_error (combine (seq a (length l)) l) m = Some p -> fst p = a + m /\ nth_error l m = Some (snd p).
Proof.
  induction l as [|x l IH]; intros a [|m] p H; cbn in H; try discriminate.
  - injection H as <-. cbn. split; [lia|reflexivity].
  - destruct (IH _ _ _ H) as (A1 & B). split; [lia|exact B].
Qed.
Lemma combine_seq_nth' {A} : forall (l : list A) a m d,
  nth_error l m = Some d -> nth_error (combine (seq a (length l)) l) m = Some (a + m, d).
Proof.
  induction l as [|x l IH]; intros a [|m] d H; cbn in H; try discriminate.
  - injection H as <-. cbn. rewrite Nat.add_0_r. reflexivity.
  - cbn. rewrite (IH _ _ _ H). f_equal. f_equal. lia.
Qed.

Lemma pointDomain_at : forall ops n j c, unknown (shape_of ops) n j c ->
  pointDomain (lrun ops) (position (shape_of ops) n j c) = Some n.
Proof.
  intros ops n j c U. destruct (place_of ops n j c U) as (d & D & _ & _ & _ & _ & _ & P & R & _).
  unfold pointDomain. pose proof (combine_seq_nth' _ 0 _ _ D) as X. rewrite (split_nth _ _ _ X).
  rewrite find_rev.
  - reflexivity.
  - apply Nat.leb_le. cbn [snd]. lia.
  - intros y Y. apply in_skipn_nth in Y. destruct Y as (m & M & E). destruct (combine_seq_nth _ _ _ _ E) as (_ & E').
    apply Nat.leb_gt. apply (R m); [lia|exact E'].
Qed.
Lemma singular_at : forall ops n j c, unknown (shape_of ops) n j c ->
  exists d, nth_error (o_dom (lrun ops)) n = Some d /\
    singular (lrun ops) (position (shape_of ops) n j c) = Some (d_id d, d_componentName d c, j).
Proof.
  intros ops n j c U. destruct (place_of ops n j c U) as (d & D & _ & J & C & _ & _ & P & _ & L).
  exists d. split; [exact D|]. unfold singular. rewrite (split_nth _ _ _ D). rewrite find_first.
  - rewrite P. replace (d_iloc d + d_nv d * j + c - d_iloc d) with (d_nv d * j + c) by lia.
    destruct (divmod_at (d_nv d) j c C) as (-> & ->). reflexivity.
  - pose proof (mul_lt _ _ _ _ J C). apply andb_true_intro. rewrite Nat.leb_le, Nat.ltb_lt. lia.
  - intros y Y. apply in_firstn_nth in Y. destruct Y as (m & M & E). specialize (L m y M E).
    apply andb_false_iff. right. apply Nat.ltb_ge. exact L.
Qed.
Lemma component_at : forall ops n j c d, unknown (shape_of ops) n j c -> nth_error (o_dom (lrun ops)) n = Some d ->
  (forall m nv np, n < m -> nth_error (shape_of ops) m = Some (nv, np) -> nv <> 0) ->
  component (lrun ops) (position (shape_of ops) n j c) = omap (fun nm => (d_id d, j, nm)) (d_componentName d c).
Proof.
  intros ops n j c d U D0 N. destruct (place_of ops n j c U) as (d' & D & _ & J & C & _ & _ & P & R & _).
  rewrite D0 in D. injection D as <-. rename D0 into D.
  destruct (inv_run ops) as (_ & E0).
  unfold component. rewrite (split_nth _ _ _ D). rewrite find_rev.
  - unfold start. destruct (d_nv d =? 0) eqn:Z; [apply Nat.eqb_eq in Z; lia|].
    rewrite P. replace (d_iloc d + d_nv d * j + c - d_iloc d) with (d_nv d * j + c) by lia.
    destruct (divmod_at (d_nv d) j c C) as (-> & ->). reflexivity.
  - unfold start. destruct (d_nv d =? 0) eqn:Z; [apply Nat.eqb_eq in Z; lia|]. apply Nat.leb_le. lia.
  - intros y Y. apply in_skipn_nth in Y. destruct Y as (m & M & E).
    pose proof (shp_nth _ _ _ E) as Se. rewrite E0 in Se. pose proof (N m _ _ M Se) as Nz.
    unfold start. destruct (d_nv y =? 0) eqn:Z; [apply Nat.eqb_eq in Z; contradiction|].
    apply Nat.leb_gt. apply (R m); [lia|exact E].
Qed.
Lemma last_such {A} (f : A -> bool) : forall l x, In x l -> f x = true ->
  exists a y b, l = a ++ y :: b /\ f y = true /\ forall z, In z b -> f z = false.
Proof.
  induction l as [|w l IH]; intros x I T; [contradiction|].
  destruct (existsb f l) eqn:E.
  - apply existsb_exists in E. destruct E as (z & Z & F). destruct (IH z Z F) as (a & y & b & -> & Y & B).
    exists (w :: a), y, b. auto.
  - exists [], w, l. split; [reflexivity|]. split.
    + destruct I as [->|I]; [exact T|]. exfalso.
      assert (existsb f l = true) by (apply existsb_exists; exists x; auto). congruence.
    + intros z Z. destruct (f z) eqn:F; [|reflexivity].
      assert (existsb f l = true) by (apply existsb_exists; exists z; auto). congruence.
Qed.
(* A domain without components to the right of the unknown catches the search. *)
Lemma component_zero : forall ops n j c m np, unknown (shape_of ops) n j c -> n < m ->
  nth_error (shape_of ops) m = Some (0, np) ->
  component (lrun ops) (position (shape_of ops) n j c) = UB.
Proof.
  intros ops n j c m np U M H. destruct (place_of ops n j c U) as (d & D & _ & J & C & _ & _ & P & R & _).
  destruct (inv_run ops) as (I0 & E0). rewrite <- E0 in H.
  destruct (shp_nth_inv _ _ _ _ H) as (e & Ee & Ez & _).
  pose proof (split_nth _ _ _ D) as Sp.
  assert (Ie : In e (skipn (S n) (o_dom (lrun ops)))).
  { rewrite Sp in Ee. rewrite nth_error_app2 in Ee by (rewrite firstn_length; lia).
    assert (Ln : length (firstn n (o_dom (lrun ops))) = n).
    { rewrite firstn_length. assert (n < length (o_dom (lrun ops))) by (apply nth_error_Some; congruence). lia. }
    rewrite Ln in Ee. destruct (m - n) as [|k] eqn:K; [lia|]. cbn in Ee. apply nth_error_In in Ee. exact Ee. }
  destruct (last_such (fun y => d_nv y =? 0) _ e Ie) as (a & y & b & Es & Y & B).
  { apply Nat.eqb_eq. exact Ez. }
  unfold component. rewrite Sp, Es.
  replace (firstn n (o_dom (lrun ops)) ++ d :: a ++ y :: b) with ((firstn n (o_dom (lrun ops)) ++ d :: a) ++ y :: b)
    by (rewrite <- app_assoc; reflexivity).
  rewrite find_rev.
  - rewrite Y. reflexivity.
  - unfold start. rewrite Y. reflexivity.
  - intros z Z. unfold start. rewrite (B z Z). apply Nat.leb_gt.
    assert (Iz : In z (skipn (S n) (o_dom (lrun ops)))) by (rewrite Es; apply in_or_app; right; right; exact Z).
    apply in_skipn_nth in Iz. destruct Iz as (k & K & Ek). apply (R k); [lia|exact Ek].
Qed.

(* Names stay as many as the components. *)
Lemma resize_names_length : forall n l, length (resize_names n l) = n.
Proof. intros n l. unfold resize_names. rewrite app_length, firstn_length, repeat_length. lia. Qed.
Definition named (d : dom) : Prop := length (d_names d) = d_nv d.
Lemma named_relocate : forall l i j, Forall named l -> Forall named (relocate i j l).
Proof. induction l as [|d l IH]; intros i j H; cbn; constructor; inversion H; subst; auto. Qed.
Lemma named_relocate_at : forall l n nv np i j, Forall named l -> Forall named (relocate_at n nv np i j l).
Proof.
  induction l as [|d l IH]; intros [|n] nv np i j H; cbn; try constructor; inversion H; subst; auto.
  - unfold named. cbn. apply resize_names_length.
  - apply named_relocate. assumption.
Qed.
Lemma named_run : forall ops, (forall d, In (LAdd d) ops -> length (d_names d) = d_nv d) -> Forall named (o_dom (lrun ops)).
Proof.
  induction ops as [|o ops IH] using rev_ind; intro H; [constructor|].
  assert (X : Forall named (o_dom (lrun ops))) by (apply IH; intros d D; apply H; apply in_or_app; left; exact D).
  unfold lrun in *. rewrite fold_left_app. cbn [fold_left]. destruct o as [d|n nv np|]; cbn [lstep].
  - unfold addDomain. rewrite o_dom_resize. cbn [o_dom]. apply Forall_app. split; [exact X|].
    constructor; [|constructor]. unfold named. cbn. apply H. apply in_or_app. right. left. reflexivity.
  - cbn. apply named_relocate_at. exact X.
  - exact X.
Qed.

(* ---------------------------------------------------------------- *)
(** * Bandwidth *)
Lemma add_bw : forall t lc prev d, t_bw (add_domain_tables t lc prev d) =
  match prev with Some p => Z.max (Z.max (t_bw t) (own_bw d)) (link_bw p d) | None => Z.max (t_bw t) (own_bw d) end.
Proof. intros t lc [p|] d; reflexivity. Qed.
Lemma bw_ge : forall l t lc prev,
  (t_bw t <= t_bw (tables_from t lc prev l))%Z /\
  forall d, In d l -> (own_bw d <= t_bw (tables_from t lc prev l))%Z.
Proof.
  induction l as [|d l IH]; intros t lc prev; cbn [tables_from].
  - split; [lia|contradiction].
  - destruct (IH (add_domain_tables t lc prev d) (lc + d_np d * d_nv d) (Some d)) as (A & B).
    rewrite add_bw in A. split; [destruct prev; lia|].
    intros e [<-|E]; [destruct prev; lia|]. apply B. exact E.
Qed.
Lemma bw_link_ge : forall a p d b t lc prev,
  (link_bw p d <= t_bw (tables_from t lc prev (a ++ p :: d :: b)))%Z.
Proof.
  induction a as [|x a IH]; intros p d b t lc prev; cbn [app tables_from].
  - set (t1 := add_domain_tables t lc prev p).
    destruct (bw_ge b (add_domain_tables t1 (lc + d_np p * d_nv p) (Some p) d)
                (lc + d_np p * d_nv p + d_np d * d_nv d) (Some d)) as (A & _).
    rewrite add_bw in A. lia.
  - apply IH.
Qed.
Lemma bw_le : forall l t lc prev B, (0 <= B)%Z -> (t_bw t <= B)%Z ->
  (forall d, In d l -> (own_bw d <= B)%Z) ->
  (forall p d, match prev with Some q => exists a b, q :: l = a ++ p :: d :: b | None => exists a b, l = a ++ p :: d :: b end -> (link_bw p d <= B)%Z) ->
  (t_bw (tables_from t lc prev l) <= B)%Z.
Proof.
  induction l as [|d l IH]; intros t lc prev B Z0 T O L; cbn [tables_from]; [exact T|].
  apply IH; [exact Z0| | |].
  - rewrite add_bw. pose proof (O d (or_introl eq_refl)).
    destruct prev as [p|]; [|lia]. assert (link_bw p d <= B)%Z by (apply L; exists [], l; reflexivity). lia.
  - intros e E. apply O. right. exact E.
  - intros p e (a & b & E). apply L. destruct prev as [q|].
    + exists (q :: a), b. cbn. rewrite <- E. reflexivity.
    + exists a, b. exact E.
Qed.
Lemma in_shape : forall ops n nv np, nth_error (shape_of ops) n = Some (nv, np) ->
  exists d, In d (o_dom (lrun ops)) /\ d_nv d = nv /\ d_np d = np.
Proof.
  intros ops n nv np H. destruct (inv_run ops) as (_ & E0). rewrite <- E0 in H.
  destruct (shp_nth_inv _ _ _ _ H) as (d & D & A & B). exists d. split; [eapply nth_error_In; exact D|auto].
Qed.
Definition wide (d : dom) : Prop := match d_bw d with None => True | Some b => 2 * d_nv d <= b + 1 end.
Lemma wide_own : forall d, wide d -> (2 * Z.of_nat (d_nv d) - 1 <= own_bw d)%Z.
Proof. intros d H. unfold wide, own_bw in *. destruct (d_bw d); lia. Qed.
Lemma bandwidth_covers : forall ops r c, settled ops -> Forall wide (o_dom (lrun ops)) ->
  coupled (shape_of ops) r c -> (Z.abs (Z.of_nat r - Z.of_nat c) <= o_bw (lrun ops))%Z.
Proof.
  intros ops r c S0 W (n & j & k & n' & j' & k' & U & U' & -> & -> & N).
  destruct (settled_good ops S0) as (_ & Rz).
  assert (Bw : forall m mv mp, nth_error (shape_of ops) m = Some (mv, mp) -> (2 * Z.of_nat mv - 1 <= o_bw (lrun ops))%Z).
  { intros m mv mp H. destruct (in_shape _ _ _ _ H) as (d & I & <- & _).
    rewrite Forall_forall in W. pose proof (wide_own d (W d I)).
    destruct (bw_ge (o_dom (lrun ops)) (Tab [] [] 0 (o_size (lrun ops)) 0%Z) 0 None) as (_ & G).
    specialize (G d I). rewrite <- Rz. unfold resize. cbn [o_bw]. lia. }
  destruct (position_psum _ _ _ _ U) as (-> & K & _), (position_psum _ _ _ _ U') as (-> & K' & _).
  destruct U as (nv & np & H & J & C), U' as (nv' & np' & H' & J' & C').
  pose proof (nvs_nth _ _ _ _ _ H J) as E. pose proof (nvs_nth _ _ _ _ _ H' J') as E'.
  specialize (Bw _ _ _ H) as Bn. specialize (Bw _ _ _ H') as Bn'.
  set (p := point_number (shape_of ops) n j) in *. set (q := point_number (shape_of ops) n' j') in *.
  destruct N as [Q|[Q|Q]].
  - rewrite Q in *. assert (nv' = nv) by congruence. lia.
  - rewrite Q. rewrite psum_S, E'. lia.
  - rewrite Q. rewrite psum_S, E. lia.
Qed.

(* ---------------------------------------------------------------- *)
(** * The Jacobian *)
Section JacobianProofs.
  Local Open Scope R_scope.
  Context (F : option nat -> list R -> list R) (rel abs thresh : R).
  Lemma put_with : forall x i v, (i < length x)%nat -> put x i v = with_value x i v.
  Proof.
    unfold with_value. induction x as [|a x IH]; intros [|i] v H; cbn in *; try lia; [reflexivity|].
    rewrite IH by lia. reflexivity.
  Qed.
  Lemma put_at : forall x i v, (i < length x)%nat -> at_ (put x i v) i = v.
  Proof. unfold at_. induction x as [|a x IH]; intros [|i] v H; cbn in *; try lia; [reflexivity|]. apply IH. lia. Qed.
  Lemma put_back : forall x i v, put (put x i v) i (at_ x i) = x.
  Proof. unfold at_. induction x as [|a x IH]; intros [|i] v; cbn; try reflexivity. rewrite IH. reflexivity. Qed.
  Lemma step_perturbation : forall v, step_of rel abs v = perturbation rel abs v.
  Proof.
    intro v. unfold step_of, perturbation. destruct (Rlt_dec v 0) as [H|H].
    - rewrite (proj2 (rltb_true v 0) H). reflexivity.
    - destruct (rltb v 0) eqn:E; [apply rltb_true in E; contradiction|reflexivity].
  Qed.

  Definition col_entries (s : od) (w1 x : list R) (j c : nat) : list entry :=
    let x' := put x c (at_ x c + step_of rel abs (at_ x c)) in
    flat_map (block thresh s w1 (F (Some j) x') c (1 / (at_ x' c - at_ x c))) (neighbours s j).
  Lemma column_eq : forall s w1 j x ipt out,
    column F rel abs thresh s w1 j (x, ipt, out) = (x, S ipt, out ++ col_entries s w1 x j ipt).
  Proof. intros. unfold column, col_entries. rewrite put_back. reflexivity. Qed.
  Lemma columns_eq : forall nv s w1 j x ipt out,
    columns F rel abs thresh s w1 j nv (x, ipt, out)
    = (x, (ipt + nv)%nat, out ++ flat_map (fun k => col_entries s w1 x j (ipt + k)) (seq 0 nv)).
  Proof.
    induction nv as [|nv IH]; intros; cbn [columns].
    - cbn. rewrite app_nil_r, Nat.add_0_r. reflexivity.
    - rewrite column_eq, IH. f_equal; [f_equal; lia|]. cbn [seq flat_map]. rewrite Nat.add_0_r, <- app_assoc. f_equal. f_equal.
      rewrite <- (seq_shift nv 0), !flat_map_concat_map, map_map. f_equal.
      apply map_ext. intro a. replace (S ipt + a)%nat with (ipt + S a)%nat by lia. reflexivity.
  Qed.
  Lemma fold_columns : forall s w1 x n a ipt out,
    (ipt = psum (o_nvars s) a) ->
    fold_left (fun st j => columns F rel abs thresh s w1 j (nth j (o_nvars s) 0%nat) st) (seq a n) (x, ipt, out)
    = (x, psum (o_nvars s) (a + n), out ++ flat_map (fun j =>
         flat_map (fun k => col_entries s w1 x j (psum (o_nvars s) j + k)) (seq 0 (nth j (o_nvars s) 0%nat))) (seq a n)).
  Proof.
    intros s w1 x. induction n as [|n IH]; intros a ipt out E; cbn [seq fold_left flat_map].
    - rewrite app_nil_r, Nat.add_0_r, E. reflexivity.
    - rewrite columns_eq. rewrite IH by (rewrite psum_S; lia). rewrite E, <- app_assoc. f_equal. f_equal. f_equal. lia.
  Qed.
  Lemma evalJacobian_eq : forall s x, evalJacobian F rel abs thresh s x =
    (x, flat_map (fun j => flat_map (fun k => col_entries s (F None x) x j (psum (o_nvars s) j + k)) (seq 0 (nth j (o_nvars s) 0%nat)))
          (seq 0 (o_pts s))).
  Proof. intros. unfold evalJacobian. rewrite fold_columns by reflexivity. reflexivity. Qed.

  Lemma neighbours_in : forall s j i, In i (neighbours s j) <-> (near i j /\ i < o_pts s)%nat.
  Proof.
    intros s j i. unfold neighbours. rewrite filter_In, Nat.ltb_lt, in_app_iff. unfold near.
    destruct j as [|k]; cbn; intuition lia.
  Qed.
  Definition chosen (r c : nat) (delta : R) : Prop := thresh < Rabs delta \/ r = c.
  Lemma block_in : forall s w1 w2 c rdx i e, In e (block thresh s w1 w2 c rdx i) <->
    exists m, (m < nth i (o_nvars s) 0)%nat /\
      let r := (m + nth i (o_loc s) 0)%nat in
      chosen r c (at_ w2 r - at_ w1 r) /\ e = (r, c, (at_ w2 r - at_ w1 r) * rdx).
  Proof.
    intros s w1 w2 c rdx i e. unfold block. rewrite in_flat_map. split.
    - intros (m & M & H). apply in_seq in M. exists m. split; [lia|]. cbn zeta in *.
      destruct (rltb thresh _ || (_ =? c)%nat) eqn:E; [|contradiction].
      destruct H as [<-|[]]. split; [|reflexivity]. unfold chosen. apply orb_true_iff in E.
      rewrite rltb_true, Nat.eqb_eq in E. exact E.
    - intros (m & M & C & ->). exists m. split; [apply in_seq; lia|]. cbn zeta in *.
      destruct (rltb thresh _ || (_ =? c)%nat) eqn:E; [left; reflexivity|].
      exfalso. unfold chosen in C. rewrite <- rltb_true, <- Nat.eqb_eq in C. apply orb_true_iff in C. congruence.
  Qed.

  (* Entries written at a position, for a settled state. *)
  Context (ops : list lop) (St : settled ops) (Ev : evaluates_near (shape_of ops) F).
  Let s := lrun ops.
  Let l := shape_of ops.
  Context (x : list R) (Lx : length x = unknowns_in l).
  Let out := snd (evalJacobian F rel abs thresh s x).
  Lemma tab : o_nvars s = nvs l /\ o_pts s = points_in l /\ (forall p, (p < points_in l)%nat -> nth p (o_loc s) 0%nat = psum (nvs l) p).
  Proof. destruct (settled_good ops St) as ((A & _ & B & C & _) & _). cbn in *. auto. Qed.
  Lemma quotient_eq : forall r c, (c < length x)%nat ->
    change (F None) rel abs x r c * (1 / (at_ (put x c (at_ x c + step_of rel abs (at_ x c))) c - at_ x c))
    = quotient (F None) rel abs x r c.
  Proof.
    intros r c C. rewrite put_at by exact C. unfold quotient. rewrite step_perturbation.
    replace (at_ x c + perturbation rel abs (at_ x c) - at_ x c) with (perturbation rel abs (comp x c)).
    - unfold Rdiv. ring.
    - unfold comp, at_. ring.
  Qed.
  Lemma point_as : forall p, (p < points_in l)%nat -> exists n j, (n < length l)%nat /\ (j < snd (nth n l (0, 0)))%nat /\ p = point_number l n j /\
    forall k, (k < nth p (nvs l) 0)%nat -> unknown l n j k.
  Proof.
    intros p H. destruct (point_split l p H) as (n & j & nv & np & A & B & ->). exists n, j.
    split; [apply nth_error_Some; congruence|]. split; [rewrite (nth_error_nth _ _ (0, 0)%nat A); exact B|]. split; [reflexivity|].
    intros k K. rewrite (nvs_nth l n nv np j A B) in K. exists nv, np. auto.
  Qed.
  Lemma out_in : forall r c v, In (r, c, v) out <->
    coupled l r c /\ chosen r c (change (F None) rel abs x r c) /\ v = quotient (F None) rel abs x r c.
  Proof.
    intros r c v. unfold out. rewrite evalJacobian_eq. cbn [snd]. rewrite in_flat_map.
    destruct tab as (T1 & T2 & T3). split.
    - intros (q & Q & H). apply in_seq in Q. rewrite T2 in Q. apply in_flat_map in H. destruct H as (k & K & H).
      apply in_seq in K. rewrite T1 in K. unfold col_entries in H. apply in_flat_map in H. destruct H as (p & P & H).
      apply neighbours_in in P. rewrite T2 in P. apply block_in in H. destruct H as (m & M & H). cbn zeta in H.
      rewrite T1 in M, H. rewrite T3 in H by apply P. destruct H as (C & E). injection E as Er Ec Ev'.
      destruct (point_as q) as (nq & jq & Nq & Jq & Eq & Uq); [lia|].
      destruct (point_as p) as (np & jp & Np & Jp & Ep & Up); [apply P|].
      specialize (Uq k ltac:(lia)). specialize (Up m M).
      destruct (position_psum _ _ _ _ Uq) as (Pq & _), (position_psum _ _ _ _ Up) as (Pp & _).
      assert (Cp : coupled l r c).
      { exists np, jp, m, nq, jq, k. split; [exact Up|]. split; [exact Uq|]. split; [rewrite Pp, <- Ep; lia|].
        split; [rewrite Pq, <- Eq; lia|]. rewrite <- Ep, <- Eq. apply P. }
      assert (Lc : (c < length x)%nat).
      { rewrite Lx. pose proof (position_lt _ _ _ _ Uq). rewrite Pq, <- Eq in H. lia. }
      assert (D : at_ (F (Some q) (put x (psum (nvs l) q + k) (at_ x (psum (nvs l) q + k) + step_of rel abs (at_ x (psum (nvs l) q + k)))))
                    (m + psum (nvs l) p) - at_ (F None x) (m + psum (nvs l) p) = change (F None) rel abs x r c).
      { rewrite <- Ec in *. rewrite <- Er. unfold change. rewrite put_with by exact Lc. rewrite step_perturbation.
        change (comp x c) with (at_ x c).
        set (xp := with_value x c (at_ x c + perturbation rel abs (at_ x c))).
        assert (R0 : r = position l np jp m) by (rewrite Pp, <- Ep; lia).
        rewrite R0. unfold at_ at 1 2. fold (comp (F (Some q) xp) (position l np jp m)). fold (comp (F None x) (position l np jp m)).
        f_equal. rewrite Eq. apply Ev.
        - unfold xp, with_value. rewrite app_length. cbn [length]. rewrite firstn_length, skipn_length. fold l. lia.
        - exact Up.
        - exact Nq.
        - exact Jq.
        - fold l. rewrite <- Eq, <- Ep. destruct P as ([Z|[Z|Z]] & _); unfold near; lia. }
      rewrite D in C, Ev'. rewrite <- Er, <- Ec in C. rewrite <- Ec in Ev'. split; [exact Cp|]. split; [exact C|].
      rewrite Ev'. apply quotient_eq. exact Lc.
    - intros ((np & jp & m & nq & jq & k & Up & Uq & Er & Ec & N) & C & ->).
      destruct (position_psum _ _ _ _ Uq) as (Pq & Kq & Lq), (position_psum _ _ _ _ Up) as (Pp & Kp & Lp).
      exists (point_number l nq jq). split; [apply in_seq; lia|]. apply in_flat_map. exists k. rewrite T1. split; [apply in_seq; lia|].
      rewrite <- Pq, <- Ec. unfold col_entries. apply in_flat_map. exists (point_number l np jp). split; [apply neighbours_in; split; [exact N|lia]|].
      apply block_in. exists m. rewrite T1. split; [exact Kp|]. cbn zeta. rewrite T3 by exact Lp.
      replace (m + psum (nvs l) (point_number l np jp))%nat with r by lia.
      assert (Lc : (c < length x)%nat) by (rewrite Lx, Ec; apply position_lt; exact Uq).
      assert (D : at_ (F (Some (point_number l nq jq)) (put x c (at_ x c + step_of rel abs (at_ x c)))) r - at_ (F None x) r
                  = change (F None) rel abs x r c).
      { unfold change. rewrite put_with by exact Lc. rewrite step_perturbation. change (comp x c) with (at_ x c).
        set (xp := with_value x c (at_ x c + perturbation rel abs (at_ x c))).
        rewrite Er. unfold at_ at 1 2. fold (comp (F (Some (point_number l nq jq)) xp) (position l np jp m)). fold (comp (F None x) (position l np jp m)).
        f_equal. destruct Uq as (nvq & npq & Hq & Jq & Cq). apply Ev.
        - unfold xp, with_value. rewrite app_length. cbn [length]. rewrite firstn_length, skipn_length. fold l. lia.
        - exact Up.
        - apply nth_error_Some. fold l. congruence.
        - fold l. rewrite (nth_error_nth _ _ (0, 0)%nat Hq). exact Jq.
        - fold l. destruct N as [Z|[Z|Z]]; unfold near; lia. }
      rewrite D. split; [exact C|]. f_equal. symmetry. apply quotient_eq. exact Lc.
  Qed.

  (* Writing entries that agree. *)
  Definition functional (es : list entry) : Prop := forall r c v w, In (r, c, v) es -> In (r, c, w) es -> v = w.
  Lemma set_in : forall bw es J r c v, functional es -> In (r, c, v) es -> in_band bw r c = true ->
    j_mat (fold_left (j_set bw) es J) r c = v.
  Proof.
    intros bw es. induction es as [|e es IH] using rev_ind; intros J r c v Fn I B; [contradiction|].
    rewrite fold_left_app. cbn [fold_left]. destruct e as [[a b] w]. cbn [j_set j_mat].
    destruct (Nat.eqb_spec r a) as [Ea|Na]; [destruct (Nat.eqb_spec c b) as [Eb|Nb]|]; cbn [andb].
    - rewrite <- Ea, <- Eb, B in *. cbn. apply (Fn r c); [|exact I]. apply in_or_app. right. left. rewrite Ea, Eb. reflexivity.
    - apply IH; [intros r' c' v' w' H1 H2; apply (Fn r' c'); apply in_or_app; left; assumption| |exact B].
      apply in_app_or in I. destruct I as [I|[I|[]]]; [exact I|]. injection I as I1 I2 I3. congruence.
    - apply IH; [intros r' c' v' w' H1 H2; apply (Fn r' c'); apply in_or_app; left; assumption| |exact B].
      apply in_app_or in I. destruct I as [I|[I|[]]]; [exact I|]. injection I as I1 I2 I3. congruence.
  Qed.
  Lemma set_out : forall bw es J r c, (forall v, ~ In (r, c, v) es) -> j_mat (fold_left (j_set bw) es J) r c = j_mat J r c.
  Proof.
    intros bw es. induction es as [|e es IH]; intros J r c N; [reflexivity|]. cbn [fold_left]. rewrite IH.
    - destruct e as [[a b] w]. cbn [j_set j_mat].
      destruct (Nat.eqb_spec r a) as [Ea|Na]; [destruct (Nat.eqb_spec c b) as [Eb|Nb]|]; cbn [andb]; try reflexivity.
      exfalso. apply (N w). left. congruence.
    - intros v I. apply (N v). right. exact I.
  Qed.
  Lemma diag_in : forall bw es J r v, functional es -> In (r, r, v) es -> j_diag (fold_left (j_set bw) es J) r = v.
  Proof.
    intros bw es. induction es as [|e es IH] using rev_ind; intros J r v Fn I; [contradiction|].
    rewrite fold_left_app. cbn [fold_left]. destruct e as [[a b] w]. cbn [j_set j_diag].
    destruct (Nat.eqb_spec a b) as [Eb|Nb]; [destruct (Nat.eqb_spec r a) as [Ea|Na]|]; cbn [andb].
    - apply (Fn r r); [|exact I]. apply in_or_app. right. left. congruence.
    - apply IH; [intros r' c' v' w' H1 H2; apply (Fn r' c'); apply in_or_app; left; assumption|].
      apply in_app_or in I. destruct I as [I|[I|[]]]; [exact I|]. injection I as I1 I2 I3. congruence.
    - apply IH; [intros r' c' v' w' H1 H2; apply (Fn r' c'); apply in_or_app; left; assumption|].
      apply in_app_or in I. destruct I as [I|[I|[]]]; [exact I|]. injection I as I1 I2 I3. congruence.
  Qed.
  Lemma out_functional : functional out.
  Proof. intros r c v w H1 H2. apply out_in in H1, H2. destruct H1 as (_ & _ & ->), H2 as (_ & _ & ->). reflexivity. Qed.
End JacobianProofs.
