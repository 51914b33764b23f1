(** Proofs about Equil/ReactModel.v: the reaction vectors balance every element. *)
From Coq Require Import Reals List Bool Arith Lia Lra Permutation.
From Verif Require Import Base.Fp Base.RSum Equil.ReactModel.
Import ListNotations.
Local Open Scope R_scope.

Definition is_perm (n : nat) (o : nat -> nat) : Prop :=
  (forall k, (k < n)%nat -> (o k < n)%nat) /\
  (forall i j, (i < n)%nat -> (j < n)%nat -> o i = o j -> i = j).

Lemma perm_list n o : is_perm n o -> Permutation (map o (seq 0 n)) (seq 0 n).
Proof.
  intros [B I]. apply NoDup_Permutation_bis.
  - assert (G : forall l, (forall k, In k l -> (k < n)%nat) -> NoDup l -> NoDup (map o l)).
    { induction l as [|a l IH]; intros Hl D; cbn; constructor.
      - inversion D; subst. intros Hin. apply in_map_iff in Hin as (b & E & Hb).
        assert (b = a) as ->. { apply I; auto. apply Hl; now right. apply Hl; now left. } contradiction.
      - inversion D; subst. apply IH; auto. intros k Hk. apply Hl; now right. }
    apply G; [intros k Hk; apply in_seq in Hk; lia|apply seq_NoDup].
  - rewrite map_length. lia.
  - intros x Hx. apply in_map_iff in Hx as (k & <- & Hk). apply in_seq in Hk. apply in_seq.
    specialize (B k). lia.
Qed.

Lemma sum_n_perm n o f : is_perm n o -> sum_n (fun k => f (o k)) n = sum_n f n.
Proof.
  intros P. unfold sum_n. rewrite <- (sum_of_map o f). apply sum_of_perm, perm_list, P.
Qed.

Lemma swap_inv o n m k : swap_fun (swap_fun o n m) n m k = o k.
Proof.
  unfold swap_fun. destruct (Nat.eqb_spec k n) as [->|]; [|destruct (Nat.eqb_spec k m) as [->|]];
    repeat match goal with |- context [(?a =? ?b)%nat] => destruct (Nat.eqb_spec a b); subst end; congruence.
Qed.
Lemma swap_fun_tr o n m k : swap_fun o n m k = o (swap_fun (fun i => i) n m k).
Proof.
  unfold swap_fun. destruct (Nat.eqb_spec k n), (Nat.eqb_spec k m); reflexivity.
Qed.
Lemma tr_perm n a b : (a < n)%nat -> (b < n)%nat -> is_perm n (swap_fun (fun i => i) a b).
Proof.
  intros Ha Hb. split; intros.
  - unfold swap_fun. destruct (Nat.eqb_spec k a), (Nat.eqb_spec k b); auto.
  - revert H1. unfold swap_fun.
    repeat match goal with |- context [(?a =? ?b)%nat] => destruct (Nat.eqb_spec a b); subst end; intros; congruence.
Qed.
Lemma tr_tr a b k : swap_fun (fun i => i) a b (swap_fun (fun i => i) a b k) = k.
Proof.
  unfold swap_fun. destruct (Nat.eqb_spec k a) as [->|]; [|destruct (Nat.eqb_spec k b) as [->|]].
  - destruct (Nat.eqb_spec b a) as [->|]; [auto|]. now rewrite Nat.eqb_refl.
  - now rewrite Nat.eqb_refl.
  - destruct (Nat.eqb_spec k a), (Nat.eqb_spec k b); congruence.
Qed.
Lemma swap_rows_tr A n m i k : swap_rows A n m i k = A (swap_fun (fun i => i) n m i) k.
Proof. unfold swap_rows, swap_fun. destruct (i =? n)%nat, (i =? m)%nat; reflexivity. Qed.
Lemma swap_cols_tr A n m i k : swap_cols A n m i k = A i (swap_fun (fun i => i) n m k).
Proof. unfold swap_cols, swap_fun. destruct (k =? n)%nat, (k =? m)%nat; reflexivity. Qed.
Lemma swap_perm n o a b : is_perm n o -> (a < n)%nat -> (b < n)%nat -> is_perm n (swap_fun o a b).
Proof.
  intros [B I] Ha Hb. destruct (tr_perm n a b Ha Hb) as [B' I']. split.
  - intros k Hk. rewrite swap_fun_tr. auto.
  - intros i j Hi Hj E. rewrite (swap_fun_tr o a b i), (swap_fun_tr o a b j) in E. apply I in E; auto.
Qed.

Section S.
Context (nel nsp : nat) (at_ : nat -> nat -> R).

(** The invariants of the elimination. *)
Definition kernel (A : mat) (order : nat -> nat) : Prop :=
  forall x : vec, (forall i, (i < nel)%nat -> sum_n (fun k => A i k * x k) nsp = 0) ->
    forall i, (i < nel)%nat -> sum_n (fun k => at_ (order k) i * x k) nsp = 0.
Definition shape (A : mat) (m : nat) : Prop :=
  forall j, (j < m)%nat -> A j j = 1 /\ forall i, (j < i < nel)%nat -> A i j = 0.
Definition combo (A : mat) (order : nat -> nat) (sg : nat -> nat) (m : nat) : Prop :=
  forall i, (m <= i < nel)%nat -> exists c : vec, forall k, (k < nsp)%nat ->
    A i k = at_ (order k) (sg i) + sum_n (fun j => c j * at_ (order k) (sg j)) m.

Lemma zero_from_true A i m : zero_from nsp A i m = true ->
  forall k, (m <= k < nsp)%nat -> Rabs (A i k) <= tol.
Proof.
  unfold zero_from. intros H k Hk. rewrite forallb_forall in H.
  specialize (H k). rewrite in_seq in H. assert (E := H ltac:(lia)).
  apply negb_true_iff in E. now apply rltb_false in E.
Qed.
Lemma zero_from_false A i m : zero_from nsp A i m = false ->
  exists k, (m <= k < nsp)%nat /\ A i k <> 0.
Proof.
  unfold zero_from. intros H.
  assert (E : exists k, In k (seq m (nsp - m)) /\ rltb tol (Rabs (A i k)) = true).
  { revert H. generalize (seq m (nsp - m)). induction l as [|a l IH]; cbn; [discriminate|].
    destruct (rltb tol (Rabs (A i a))) eqn:F; cbn.
    - intros _. exists a; auto.
    - intros H. destruct (IH H) as (k & I & K). exists k; auto. }
  destruct E as (k & I & K). apply in_seq in I. exists k. split; [lia|].
  apply rltb_true in K. intros Z. rewrite Z, Rabs_R0 in K. unfold tol in K.
  assert (0 < / 10 ^ 10) by (apply Rinv_0_lt_compat, pow_lt; lra). lra.
Qed.

Lemma last_nonzero_some A m f n : last_nonzero nsp A m f = Some n ->
  (m < n <= m + f)%nat /\ zero_from nsp A n m = false.
Proof.
  induction f as [|f IH]; cbn -[zero_from]; [discriminate|].
  destruct (zero_from nsp A (m + S f) m) eqn:Z.
  - intros H. destruct (IH H). split; [lia|auto].
  - intros [= <-]. split; [lia|auto].
Qed.
Lemma last_nonzero_none A m f : last_nonzero nsp A m f = None ->
  forall n, (m < n <= m + f)%nat -> zero_from nsp A n m = true.
Proof.
  induction f as [|f IH]; cbn -[zero_from]; [intros; lia|].
  destruct (zero_from nsp A (m + S f) m) eqn:Z; [|discriminate].
  intros H n Hn. destruct (Nat.eq_dec n (m + S f)) as [->|]; [auto|]. apply IH; auto; lia.
Qed.

(** Choosing a pivot column. *)
Lemma best_column_spec A order moles m :
  A m m = 0 -> (exists k, (m <= k < nsp)%nat /\ A m k <> 0) ->
  let kmax := best_column nsp A order moles m in (m < kmax < nsp)%nat /\ A m kmax <> 0.
Proof.
  intros Z (k0 & Hk0 & N0). cbv zeta. unfold best_column.
  assert (G : forall l b, (forall k, In k l -> (m < k < nsp)%nat) ->
     ((snd b = -999 /\ exists k, In k l /\ A m k <> 0) \/ ((m < fst b < nsp)%nat /\ A m (fst b) <> 0)) ->
     let r := fold_left (fun (b : nat * R) k =>
         if negb (reqb (A m k) 0) && rltb (snd b) (Rabs (moles (order k)))
         then (k, Rabs (moles (order k))) else b) l b in
     (m < fst r < nsp)%nat /\ A m (fst r) <> 0).
  { induction l as [|a l IH]; intros b Hl Hb; cbn.
    - destruct Hb as [(_ & k & [] & _)|Hb]; exact Hb.
    - apply IH; [intros; apply Hl; now right|].
      destruct (reqb (A m a) 0) eqn:E; cbn [negb andb].
      + destruct Hb as [(S & k & I & K)|Hb]; [|now right].
        left. split; auto. exists k. destruct I as [->|I]; [|auto].
        apply reqb_true in E. contradiction.
      + apply reqb_false in E. destruct (rltb (snd b) (Rabs (moles (order a)))) eqn:F.
        * right. cbn. split; [apply Hl; now left|auto].
        * destruct Hb as [(S & _)|Hb]; [|now right].
          apply rltb_false in F. pose proof (Rabs_pos (moles (order a))). lra. }
  apply G.
  - intros k Hk. apply in_seq in Hk. lia.
  - left. split; [reflexivity|]. exists k0. split; [|auto]. apply in_seq.
    destruct (Nat.eq_dec k0 m) as [->|]; [contradiction|lia].
Qed.

Lemma kernel_swap_rows A order n m : kernel A order -> (n < nel)%nat -> (m < nel)%nat ->
  kernel (swap_rows A n m) order.
Proof.
  intros K Hn Hm x Hx. apply K. intros i Hi.
  rewrite <- (Hx (swap_fun (fun i => i) n m i)) by (now apply tr_perm).
  apply sum_n_ext. intros k _. f_equal. now rewrite swap_rows_tr, tr_tr.
Qed.
Lemma kernel_swap_cols A order n m : kernel A order -> (n < nsp)%nat -> (m < nsp)%nat ->
  kernel (swap_cols A n m) (swap_fun order n m).
Proof.
  intros K Hn Hm x Hx i Hi. set (t := swap_fun (fun i => i) n m).
  assert (P : is_perm nsp t) by (now apply tr_perm).
  rewrite <- (sum_n_perm nsp t) by auto.
  transitivity (sum_n (fun k => at_ (order k) i * x (t k)) nsp).
  { apply sum_n_ext. intros k _. f_equal. f_equal. unfold t. now rewrite swap_fun_tr, tr_tr. }
  apply (K (fun k => x (t k))); auto. intros i' Hi'. rewrite <- (Hx i' Hi').
  rewrite <- (sum_n_perm nsp t (fun k => swap_cols A n m i' k * x k)) by auto.
  apply sum_n_ext. intros k _. f_equal. unfold t. now rewrite swap_cols_tr, tr_tr.
Qed.
Lemma kernel_scale A order m f : kernel A order -> f <> 0 -> (m < nel)%nat -> kernel (scale_row A m f) order.
Proof.
  intros K F Hm x Hx. apply K. intros i Hi. specialize (Hx i Hi). unfold scale_row in Hx.
  destruct (Nat.eqb_spec i m) as [E|E]; [|exact Hx]. subst i.
  apply (Rmult_eq_reg_l f); auto. rewrite Rmult_0_r, <- Hx. unfold sum_n. rewrite <- sum_of_scal.
  apply sum_of_ext. intros; ring.
Qed.
Lemma kernel_eliminate A order m : kernel A order -> (m < nel)%nat -> kernel (eliminate nel A m) order.
Proof.
  intros K Hm x Hx. apply K. intros i Hi.
  assert (M := Hx m Hm). unfold eliminate in M. rewrite Nat.ltb_irrefl in M. cbn [andb] in M.
  specialize (Hx i Hi). unfold eliminate in Hx.
  destruct ((m <? i)%nat && (i <? nel)%nat); [|exact Hx].
  transitivity (sum_n (fun k => (A i k - A m k * (A i m / A m m)) * x k) nsp
                + (A i m / A m m) * sum_n (fun k => A m k * x k) nsp).
  - unfold sum_n. rewrite <- sum_of_scal, <- sum_of_plus. apply sum_of_ext. intros; ring.
  - rewrite Hx, M. ring.
Qed.

(** One pass of the elimination loop. *)
Lemma gauss_spec fuel : forall m A order moles sg,
  (m + fuel = nel)%nat -> (m <= nsp)%nat -> is_perm nsp order -> is_perm nel sg ->
  kernel A order -> shape A m -> combo A order sg m ->
  let '(A', order', r) := gauss nel nsp fuel m A order moles in
  (m <= r <= nel)%nat /\ (r <= nsp)%nat /\ is_perm nsp order' /\ kernel A' order' /\ shape A' r /\
  exists sg', is_perm nel sg' /\ combo A' order' sg' r /\
  (forall i k, (r <= i < nel)%nat -> (r <= k < nsp)%nat -> Rabs (A' i k) <= tol).
Proof.
  induction fuel as [|f IH]; intros m A order moles sg Hm Hc PO PS K SH CB; cbn -[zero_from last_nonzero best_column].
  { split; [lia|]. split; [lia|]. do 3 (split; [auto|]). exists sg. split; [auto|]. split; [auto|]. intros; lia. }
  assert (STEP : forall A sg, is_perm nel sg -> kernel A order -> shape A m -> combo A order sg m ->
     (exists k, (m <= k < nsp)%nat /\ A m k <> 0) ->
     let kmax := best_column nsp A order moles m in
     let pz := (m <? nsp)%nat && reqb (A m m) 0 in
     let A1 := if pz then swap_cols A m kmax else A in
     let order1 := if pz then swap_fun order m kmax else order in
     let A2 := scale_row A1 m (1 / A1 m m) in
     let '(A', order', r) := gauss nel nsp f (S m) (eliminate nel A2 m) order1 moles in
     (m <= r <= nel)%nat /\ (r <= nsp)%nat /\ is_perm nsp order' /\ kernel A' order' /\ shape A' r /\
     exists sg', is_perm nel sg' /\ combo A' order' sg' r /\
     (forall i k, (r <= i < nel)%nat -> (r <= k < nsp)%nat -> Rabs (A' i k) <= tol)).
  { clear A sg PS K SH CB. intros A sg PS K SH CB NZ kmax pz A1 order1 A2.
    assert (Hmn : (m < nsp)%nat) by (destruct NZ as (k & Hk & _); lia).
    assert (Q : is_perm nsp order1 /\ kernel A1 order1 /\ shape A1 m /\ combo A1 order1 sg m /\ A1 m m <> 0).
    { unfold A1, order1, pz. destruct (Nat.ltb_spec m nsp); [|lia]. cbn [andb].
      destruct (reqb (A m m) 0) eqn:Z.
      - apply reqb_true in Z. destruct (best_column_spec A order moles m Z NZ) as [KB KN].
        fold kmax in KB, KN. split; [|split; [|split; [|split]]].
        + apply swap_perm; auto; lia.
        + apply kernel_swap_cols; auto; lia.
        + intros j Hj. destruct (SH j Hj) as [D L]. unfold swap_cols.
          destruct (Nat.eqb_spec j m); [lia|]. destruct (Nat.eqb_spec j kmax); [lia|]. auto.
        + intros i Hi. destruct (CB i Hi) as (c & C). exists c. intros k Hk.
          rewrite swap_fun_tr.
          assert (T : swap_cols A m kmax i k = A i (swap_fun (fun i => i) m kmax k)).
          { unfold swap_cols, swap_fun. destruct (k =? m)%nat, (k =? kmax)%nat; reflexivity. }
          rewrite T. apply C. apply tr_perm; auto; lia.
        + unfold swap_cols. now rewrite Nat.eqb_refl.
      - apply reqb_false in Z. auto. }
    destruct Q as (PO1 & K1 & SH1 & CB1 & NZ1).
    assert (D2 : A2 m m = 1). { unfold A2, scale_row. rewrite Nat.eqb_refl. field. auto. }
    assert (R2 : forall i k, i <> m -> A2 i k = A1 i k).
    { intros i k Hi. unfold A2, scale_row. destruct (Nat.eqb_spec i m); [contradiction|auto]. }
    assert (M2 : forall k, A2 m k = A1 m k / A1 m m).
    { intros k. unfold A2, scale_row. rewrite Nat.eqb_refl. field; auto. }
    assert (G := IH (S m) (eliminate nel A2 m) order1 moles sg ltac:(lia) ltac:(lia) PO1 PS).
    destruct (gauss nel nsp f (S m) (eliminate nel A2 m) order1 moles) as [[A' order'] r].
    destruct G as (G1 & G2); [| | |split; [lia|exact G2]].
    - apply kernel_eliminate; [|lia]. apply kernel_scale; auto; [|lia].
      unfold Rdiv. rewrite Rmult_1_l. now apply Rinv_neq_0_compat.
    - intros j Hj. unfold eliminate. destruct (Nat.eq_dec j m) as [->|NE].
      + rewrite Nat.ltb_irrefl. cbn [andb]. split; [auto|]. intros i Hi.
        destruct (Nat.ltb_spec m i); [|lia]. destruct (Nat.ltb_spec i nel); [|lia]. cbn [andb].
        rewrite D2. field.
      + destruct (SH1 j ltac:(lia)) as [D L]. destruct (Nat.ltb_spec m j); [lia|]. cbn [andb].
        split; [rewrite R2 by lia; exact D|]. intros i Hi.
        destruct ((m <? i)%nat && (i <? nel)%nat) eqn:B.
        * apply andb_true_iff in B as [B _]. apply Nat.ltb_lt in B.
          rewrite M2, !R2 by lia. rewrite (L i Hi), (L m ltac:(lia)). field. rewrite D2; split; auto; lra.
        * destruct (Nat.eq_dec i m) as [->|]; [rewrite M2, (L m ltac:(lia)); field; auto|].
          rewrite R2 by auto. auto.
    - intros i Hi. destruct (CB1 i ltac:(lia)) as (c & C). destruct (CB1 m ltac:(lia)) as (d & D).
      set (g := A2 i m / A2 m m / A1 m m).
      exists (fun j => if (j =? m)%nat then - g else c j - g * d j). intros k Hk.
      unfold eliminate. destruct (Nat.ltb_spec m i); [|lia]. destruct (Nat.ltb_spec i nel); [|lia]. cbn [andb].
      rewrite M2, R2 by lia. rewrite (C k Hk), (D k Hk).
      rewrite sum_n_S, Nat.eqb_refl.
      assert (E : sum_n (fun j => (if (j =? m)%nat then - g else c j - g * d j) * at_ (order1 k) (sg j)) m
                  = sum_n (fun j => c j * at_ (order1 k) (sg j)) m - g * sum_n (fun j => d j * at_ (order1 k) (sg j)) m).
      { unfold sum_n. rewrite <- sum_of_scal, <- sum_of_minus. apply sum_of_ext. intros j Hj.
        apply in_seq in Hj. destruct (Nat.eqb_spec j m); [lia|ring]. }
      rewrite E. unfold g. field. split; [rewrite D2; lra|exact NZ1]. }
  destruct (zero_from nsp A m m) eqn:Z.
  - destruct (last_nonzero nsp A m (nel - S m)) as [n|] eqn:L.
    + apply last_nonzero_some in L as [Hn NZ].
      apply (STEP (swap_rows A n m) (swap_fun sg n m)).
      * apply swap_perm; auto; lia.
      * apply kernel_swap_rows; auto; lia.
      * intros j Hj. destruct (SH j Hj) as [D Lw]. unfold swap_rows.
        destruct (Nat.eqb_spec j n); [lia|]. destruct (Nat.eqb_spec j m); [lia|]. split; [auto|].
        intros i Hi. destruct (Nat.eqb_spec i n); [apply Lw; lia|]. destruct (Nat.eqb_spec i m); apply Lw; lia.
      * intros i Hi. destruct (CB (swap_fun (fun i => i) n m i)) as (c & C).
        { unfold swap_fun. destruct (Nat.eqb_spec i n); [lia|]. destruct (Nat.eqb_spec i m); lia. }
        exists c. intros k Hk.
        assert (T : swap_rows A n m i k = A (swap_fun (fun i => i) n m i) k).
        { unfold swap_rows, swap_fun. destruct (Nat.eqb_spec i n), (Nat.eqb_spec i m); subst; reflexivity. }
        rewrite T, (C k Hk), <- swap_fun_tr. f_equal. apply sum_n_ext. intros j Hj. f_equal.
        f_equal. unfold swap_fun. destruct (Nat.eqb_spec j n); [lia|]. destruct (Nat.eqb_spec j m); [lia|auto].
      * apply zero_from_false in NZ as (k & Hk & NZ). exists k. split; [auto|]. unfold swap_rows.
        destruct (Nat.eqb_spec m n); [lia|]. now rewrite Nat.eqb_refl.
    + split; [lia|]. split; [lia|]. do 3 (split; [auto|]). exists sg. do 2 (split; [auto|]).
      intros i k Hi Hk. destruct (Nat.eq_dec i m) as [->|]; [eapply zero_from_true; eauto|].
      eapply zero_from_true; [|exact Hk]. eapply last_nonzero_none; eauto. lia.
  - apply (STEP A sg); auto. now apply zero_from_false.
Qed.

(** Back substitution. *)
Definition below (A : mat) (r : nat) : Prop := forall i k, (r <= i < nel)%nat -> (k < nsp)%nat -> A i k = 0.
Definition above (A : mat) (r m : nat) : Prop :=
  forall j, (m < j < r)%nat -> forall i, (i < j)%nat -> A i j = 0.

Lemma clear_above_same A r m : below A r -> (r <= m < nel)%nat -> forall i k, (k < nsp)%nat ->
  clear_above A m i k = A i k.
Proof.
  intros B Hm i k Hk. unfold clear_above.
  destruct ((i <? m)%nat && (m <=? k)%nat && negb (reqb (A i m) 0)); [|auto].
  rewrite (B m k) by auto. ring.
Qed.
Lemma clear_above_spec A r m order : (r <= nel)%nat -> (r <= nsp)%nat -> (m < nel)%nat -> (m < nsp)%nat ->
  kernel A order -> shape A r -> below A r -> above A r m ->
  let A' := clear_above A m in
  kernel A' order /\ shape A' r /\ below A' r /\ forall j, (m <= j < r)%nat -> forall i, (i < j)%nat -> A' i j = 0.
Proof.
  intros Hr Hr2 Hm Hm2 K SH BL AB A'.
  destruct (Nat.lt_ge_cases m r) as [LT|GE].
  - assert (ROW : forall i k, (m <= i)%nat -> A' i k = A i k).
    { intros i k Hi. unfold A', clear_above. destruct (Nat.ltb_spec i m); [lia|]. reflexivity. }
    assert (UP : forall i k, (i < m)%nat -> A' i k = A i k - A i m * A m k).
    { intros i k Hi. unfold A', clear_above. destruct (Nat.ltb_spec i m); [|lia]. cbn [andb].
      destruct (Nat.leb_spec m k); cbn [andb].
      - destruct (reqb (A i m) 0) eqn:Z; cbn [negb]; [apply reqb_true in Z; rewrite Z|]; ring.
      - destruct (SH k ltac:(lia)) as [_ L]. rewrite (L m) by lia. ring. }
    split; [|split; [|split]].
    + intros x Hx. apply K. intros i Hi.
      assert (M := Hx m Hm). rewrite (sum_n_ext _ (fun k => A m k * x k)) in M by (intros; rewrite ROW by lia; auto).
      specialize (Hx i Hi). destruct (Nat.lt_ge_cases i m) as [Lt|Ge].
      * rewrite (sum_n_ext _ (fun k => A i k * x k - A i m * (A m k * x k))) in Hx by (intros; rewrite UP by auto; ring).
        revert Hx. unfold sum_n. rewrite sum_of_minus, sum_of_scal.
        fold (sum_n (fun k => A m k * x k) nsp). rewrite M. intros; lra.
      * rewrite <- Hx. apply sum_n_ext. intros; rewrite ROW by auto; auto.
    + intros j Hj. destruct (SH j Hj) as [D L]. split.
      * destruct (Nat.lt_ge_cases j m) as [Lt|Ge]; [|rewrite ROW by auto; auto].
        rewrite UP by auto. rewrite (L m) by lia. rewrite D. ring.
      * intros i Hi. destruct (Nat.lt_ge_cases i m) as [Lt|Ge]; [|rewrite ROW by auto; auto].
        rewrite UP by auto. rewrite (L i Hi), (L m) by lia. ring.
    + intros i k Hi Hk. rewrite ROW by lia. auto.
    + intros j Hj i Hi. destruct (Nat.eq_dec j m) as [->|].
      * rewrite UP by auto. destruct (SH m ltac:(lia)) as [D _]. rewrite D. ring.
      * destruct (Nat.lt_ge_cases i m) as [Lt|Ge].
        -- rewrite UP by auto. rewrite (AB j ltac:(lia) i Hi), (AB j ltac:(lia) m ltac:(lia)). ring.
        -- rewrite ROW by auto. apply AB; lia.
  - assert (E : forall i k, (k < nsp)%nat -> A' i k = A i k).
    { intros. eapply clear_above_same; eauto. }
    split; [|split; [|split]].
    + intros x Hx. apply K. intros i Hi. rewrite <- (Hx i Hi). apply sum_n_ext. intros; rewrite E; auto.
    + intros j Hj. destruct (SH j Hj) as [D L]. rewrite E by lia. split; auto. intros i Hi. rewrite E by lia. auto.
    + intros i k Hi Hk. rewrite E by auto. auto.
    + intros; lia.
Qed.

Lemma backsolve_spec r order m : forall A, (r <= nel)%nat -> (r <= nsp)%nat -> (m < nel)%nat -> (m < nsp)%nat ->
  kernel A order -> shape A r -> below A r -> above A r m ->
  let A' := backsolve m A in kernel A' order /\ shape A' r /\ below A' r /\ above A' r 0.
Proof.
  induction m as [|m IH]; intros A Hr Hr2 Hm Hm2 K SH BL AB; cbn [backsolve]; [auto|].
  destruct (clear_above_spec A r (S m) order Hr Hr2 Hm Hm2 K SH BL AB) as (K' & SH' & BL' & AB').
  apply IH; auto; try lia.
Qed.

(** Every column of the coefficient matrix is annihilated by the reduced matrix. *)
Lemma stoich_kernel A r j : (r <= nel)%nat -> (nel <= nsp)%nat -> (j + nel < nsp)%nat ->
  shape A r -> below A r -> above A r 0 ->
  forall i, (i < nel)%nat -> sum_n (fun k => A i k * stoich nel A k j) nsp = 0.
Proof.
  intros Hr Hn Hj SH BL AB i Hi.
  destruct (Nat.lt_ge_cases i r) as [LT|GE].
  - rewrite (sum_n_ext _ (fun k => (if (k =? i)%nat then - A i (j + nel)%nat else 0)
                                   + (if (k =? j + nel)%nat then A i (j + nel)%nat else 0))).
    + unfold sum_n. rewrite sum_of_plus.
      fold (sum_n (fun k => if (k =? i)%nat then - A i (j + nel)%nat else 0) nsp).
      fold (sum_n (fun k => if (k =? j + nel)%nat then A i (j + nel)%nat else 0) nsp).
      rewrite (sum_n_single _ nsp i), (sum_n_single _ nsp (j + nel)), !Nat.eqb_refl; try lia;
        try (intros k Hk Hk'; destruct (Nat.eqb_spec k i), (Nat.eqb_spec k (j + nel)); subst; congruence || lia || auto).
      ring.
    + intros k Hk. unfold stoich. destruct (Nat.ltb_spec k nel) as [Lk|Gk].
      * destruct (Nat.eqb_spec k (j + nel)); [lia|]. destruct (Nat.eqb_spec k i) as [->|NE].
        -- destruct (SH i LT) as [D _]. rewrite D. ring.
        -- destruct (Nat.lt_ge_cases k r) as [Kr|Kr].
           ++ assert (A i k = 0) as ->; [|ring].
              destruct (Nat.lt_ge_cases k i) as [KI|KI].
              ** destruct (SH k Kr) as [_ L]. apply L. lia.
              ** apply AB; lia.
           ++ rewrite (BL k) by lia. ring.
      * destruct (Nat.eqb_spec k i); [lia|]. destruct (Nat.eqb_spec k (j + nel)) as [->|]; ring.
  - unfold sum_n. apply sum_of_0. intros k Hk. apply in_seq in Hk. rewrite BL by lia. ring.
Qed.
End S.
