From stdpp Require Import gmap list.
From Coq Require Import ZArith Lia.
From Verif Require Import Base.Outcome Cabinet.Model Cabinet.Spec.
Open Scope Z_scope.
#[local] Arguments set_erase : simpl never.

(** Positions (counted from [i]) of pointer [p] in a table. *)
Fixpoint idxs (p : ptr) (i : Z) (t : list ptr) : list Z :=
  match t with
  | [] => []
  | q :: t' => if decide (q = p) then i :: idxs p (i+1) t' else idxs p (i+1) t'
  end.

Definition slot (e : entry) : ptr := if e_live e then Some (e_obj e) else None.

Record abs (c : cabinet) (s : spec_state) : Prop := {
  abs_table : m_table c = slot <$> s;
  abs_parents : m_parents c = e_parent <$> s;
  abs_lookup : forall p, m_lookup c !! p =
     match p with
     | None => None
     | Some _ => match idxs p 0 (m_table c) with [] => None | l => Some l end
     end }.

Lemma idxs_app p i t u : idxs p i (t ++ u) = idxs p i t ++ idxs p (i + len t) u.
Proof.
  revert i. induction t as [|q t IH]; intros i; simpl.
  - f_equal. unfold len. simpl. lia.
  - assert (i + 1 + len t = i + len (q :: t)) as E by (unfold len; simpl length; lia).
    case_decide; rewrite IH, E; reflexivity.
Qed.

Lemma idxs_elem p i t x :
  x ∈ idxs p i t <-> i <= x /\ t !! Z.to_nat (x - i) = Some p.
Proof.
  revert i. induction t as [|q t IH]; intros i; simpl.
  - rewrite lookup_nil. split; [intros H; inversion H | intros [_ H]; discriminate].
  - assert (i < x -> (q :: t) !! Z.to_nat (x - i) = t !! Z.to_nat (x - (i+1))) as E.
    { intros. replace (Z.to_nat (x - i)) with (S (Z.to_nat (x - (i+1)))) by lia. reflexivity. }
    case_decide as D.
    + rewrite elem_of_cons, IH. split.
      * intros [->|[Hx Hl]].
        { split; [lia|]. replace (i-i) with 0 by lia. simpl. by rewrite D. }
        { split; [lia|]. rewrite E by lia. exact Hl. }
      * intros [Hx Hl]. destruct (Z.eq_dec x i) as [->|]; [by left|right].
        split; [lia|]. rewrite <- E by lia. exact Hl.
    + rewrite IH. split.
      * intros [Hx Hl]. split; [lia|]. rewrite E by lia. exact Hl.
      * intros [Hx Hl]. destruct (Z.eq_dec x i) as [->|].
        { replace (i-i) with 0 in Hl by lia. simpl in Hl. congruence. }
        split; [lia|]. rewrite <- E by lia. exact Hl.
Qed.

Lemma idxs_bounds p i t x : x ∈ idxs p i t -> i <= x < i + len t.
Proof.
  intros H. apply idxs_elem in H as [H1 H2]. apply lookup_lt_Some in H2.
  unfold len. lia.
Qed.

Lemma set_insert_end x s : (forall y, y ∈ s -> y < x) -> set_insert x s = s ++ [x].
Proof.
  induction s as [|y s IH]; intros H; simpl; [reflexivity|].
  assert (y < x) by (apply H; left).
  destruct (Z.ltb_spec x y); [lia|]. destruct (Z.eqb_spec x y); [lia|].
  f_equal. apply IH. intros z Hz. apply H. by right.
Qed.

Lemma idxs_filter p i t n :
  i <= n ->
  idxs (Some p) i (<[Z.to_nat (n - i) := None]> t) = set_erase n (idxs (Some p) i t).
Proof.
  revert i. induction t as [|q t IH]; intros i Hn; simpl; [reflexivity|].
  destruct (Z.eq_dec n i) as [->|Hne].
  - replace (i - i) with 0 by lia. simpl.
    destruct (decide (@None N = Some p)) as [D0|_]; [congruence|].
    assert (forall u, (forall y, y ∈ u -> y <> i) -> set_erase i u = u) as E.
    { unfold set_erase. induction u as [|y u IHu]; intros Hu; simpl; [reflexivity|].
      destruct (Z.eqb_spec y i) as [->|]; simpl.
      - exfalso. apply (Hu i); [left|reflexivity].
      - f_equal. apply IHu. intros z Hz. apply Hu. by right. }
    case_decide.
    + unfold set_erase. simpl. rewrite Z.eqb_refl. simpl. symmetry. apply E.
      intros y Hy. apply idxs_bounds in Hy. lia.
    + symmetry. apply E. intros y Hy. apply idxs_bounds in Hy. lia.
  - replace (Z.to_nat (n - i)) with (S (Z.to_nat (n - (i+1)))) by lia. simpl.
    case_decide.
    + rewrite IH by lia. unfold set_erase. simpl.
      destruct (Z.eqb_spec i n); [lia|]. reflexivity.
    + rewrite IH by lia. reflexivity.
Qed.

Lemma idxs_other p i t n q :
  t !! n = Some q -> q <> Some p ->
  idxs (Some p) i (<[n := None]> t) = idxs (Some p) i t.
Proof.
  revert i n. induction t as [|r t IH]; intros i n Hn Hq; simpl; [reflexivity|].
  destruct n as [|n]; simpl in *.
  - injection Hn as ->. repeat case_decide; congruence.
  - case_decide; rewrite (IH (i+1) n); auto.
Qed.

Lemma get_lookup s n : get s n = if n <? 0 then None else s !! Z.to_nat n.
Proof.
  unfold get. destruct (n <? 0); [reflexivity|].
  generalize (Z.to_nat n) as k. induction s as [|e s IH]; intros [|k]; simpl; auto.
Qed.

Lemma kill_nth_lookup n s e : s !! n = Some e -> kill_nth n s = <[n := kill e]> s.
Proof.
  revert n. induction s as [|e' s IH]; intros [|n] H; simpl in *; try discriminate.
  - by injection H as ->.
  - by rewrite (IH n).
Qed.

Lemma abs_init : abs cab_init [].
Proof.
  split; try reflexivity. intros [a|]; simpl; apply lookup_empty.
Qed.

Lemma abs_add c s a q : abs c s ->
  abs (fst (cab_add c (Some a) q)) (s ++ [mkEntry a q true]) /\
  snd (cab_add c (Some a) q) = Z.of_nat (length s).
Proof.
  intros [Ht Hp Hl]. split.
  - split; simpl.
    + by rewrite fmap_app, Ht.
    + by rewrite fmap_app, Hp.
    + intros p.
      assert (len (m_table c ++ [Some a]) - 1 = len (m_table c)) as EL.
      { unfold len. rewrite app_length. simpl. lia. }
      rewrite EL. destruct p as [b|].
      * rewrite idxs_app. simpl. rewrite Z.add_0_l.
        destruct (decide (b = a)) as [->|Hne].
        { rewrite decide_True by reflexivity.
          destruct (m_lookup c !! Some a) as [l|] eqn:El; rewrite lookup_insert.
          - rewrite Hl in El. destruct (idxs (Some a) 0 (m_table c)) as [|x l'] eqn:Ei;
              [discriminate|]. injection El as <-. rewrite set_insert_end; [reflexivity|].
            intros y Hy. rewrite <- Ei in Hy. apply idxs_bounds in Hy. lia.
          - rewrite Hl in El. destruct (idxs (Some a) 0 (m_table c)); [|discriminate].
            reflexivity. }
        { rewrite decide_False by congruence. rewrite app_nil_r.
          destruct (m_lookup c !! Some a) as [l|]; rewrite lookup_insert_ne by congruence;
            apply (Hl (Some b)). }
      * destruct (m_lookup c !! Some a) as [l|]; rewrite lookup_insert_ne by congruence;
            apply (Hl None).
  - simpl. unfold len. rewrite app_length, Ht, fmap_length. simpl. lia.
Qed.

Lemma abs_len c s : abs c s -> len (m_table c) = Z.of_nat (length s).
Proof. intros H. unfold len. by rewrite (abs_table _ _ H), fmap_length. Qed.

Lemma set_erase_nil_1 n l : n ∈ l -> length l = 1%nat -> set_erase n l = [].
Proof.
  destruct l as [|x [|y l]]; simpl; try discriminate. intros H _.
  apply elem_of_list_singleton in H as ->. unfold set_erase. simpl. by rewrite Z.eqb_refl.
Qed.

Lemma set_erase_cons n l : length l <> 1%nat -> NoDup l -> n ∈ l -> set_erase n l <> [].
Proof.
  destruct l as [|x [|y l]]; simpl; intros H Hd Hn.
  - inversion Hn.
  - congruence.
  - unfold set_erase. simpl. apply NoDup_cons in Hd as [Hx Hd].
    destruct (Z.eqb_spec x n) as [->|]; simpl; [|discriminate].
    destruct (Z.eqb_spec y n) as [->|]; simpl; [|discriminate].
    exfalso. apply Hx. left.
Qed.

Lemma idxs_NoDup p i t : NoDup (idxs p i t).
Proof.
  revert i. induction t as [|q t IH]; intros i; simpl; [constructor|].
  case_decide; [|apply IH]. constructor; [|apply IH].
  intros Hb. apply idxs_bounds in Hb. lia.
Qed.

Lemma abs_del c s h : abs c s ->
  abs (fst (cab_del c h)) (spec_next s (Del h)) /\
  snd (cab_del c h) = match spec_at s h with Ok _ => Ok tt | _ => Err end.
Proof.
  intros H. pose proof H as [Ht Hp Hl]. pose proof (abs_len _ _ H) as HL.
  unfold cab_del, spec_next, spec_at. rewrite HL, get_lookup.
  destruct (Z.leb_spec 0 h) as [Hh|Hh]; simpl.
  2:{ destruct (Z.ltb_spec h 0); [|lia]. split; auto. }
  destruct (Z.ltb_spec h 0); [lia|].
  destruct (Z.ltb_spec h (Z.of_nat (length s))) as [Hlt|Hlt].
  2:{ rewrite (lookup_ge_None_2 s (Z.to_nat h)) by lia. split; auto. }
  destruct (lookup_lt_is_Some_2 s (Z.to_nat h)) as [e He]; [lia|].
  rewrite He. rewrite Ht, list_lookup_fmap, He. simpl.
  destruct (e_live e) eqn:Elive.
  2:{ assert (slot e = None) as -> by (unfold slot; by rewrite Elive).
      rewrite (Hl None). split; auto. }
  assert (slot e = Some (e_obj e)) as -> by (unfold slot; by rewrite Elive).
  rewrite Hl.
  assert (h ∈ idxs (Some (e_obj e)) 0 (m_table c)) as Hin.
  { apply idxs_elem. split; [lia|]. replace (h - 0) with h by lia.
    rewrite Ht, list_lookup_fmap, He. simpl. unfold slot. by rewrite Elive. }
  destruct (idxs (Some (e_obj e)) 0 (m_table c)) as [|x l] eqn:Ei.
  { inversion Hin. }
  simpl. split; [|reflexivity]. rewrite (kill_nth_lookup _ _ e He).
  assert (m_table c !! Z.to_nat h = Some (Some (e_obj e))) as Hth.
  { rewrite Ht, list_lookup_fmap, He. simpl. unfold slot. by rewrite Elive. }
  pose proof (idxs_filter (e_obj e) 0 (m_table c) h Hh) as EF.
  replace (h - 0) with h in EF by lia.
  split; simpl.
  - rewrite list_fmap_insert. reflexivity.
  - rewrite list_fmap_insert, Hp. symmetry. apply list_insert_id.
    rewrite list_lookup_fmap, He. reflexivity.
  - intros p. rewrite <- Ht.
    destruct (decide (p = Some (e_obj e))) as [->|Hne].
    + rewrite EF, Ei. pose proof (idxs_NoDup (Some (e_obj e)) 0 (m_table c)) as ND.
      rewrite Ei in ND.
      destruct (Nat.eqb_spec (length l) 0) as [El|El].
      * rewrite lookup_delete. rewrite set_erase_nil_1; auto; simpl; lia.
      * rewrite lookup_insert.
        destruct (set_erase h (x :: l)) eqn:Es; [|reflexivity].
        exfalso. apply (set_erase_cons h (x::l)); auto; simpl; lia.
    + destruct (length l =? 0)%nat;
        [rewrite lookup_delete_ne by congruence | rewrite lookup_insert_ne by congruence];
        rewrite Hl; destruct p as [b|]; try reflexivity;
        rewrite (idxs_other b 0 (m_table c) (Z.to_nat h) (Some (e_obj e))); auto.
Qed.

Lemma del_table_len c h : length (m_table (fst (cab_del c h))) = length (m_table c).
Proof.
  unfold cab_del. destruct ((0 <=? h) && (h <? len (m_table c))); [|reflexivity].
  destruct (m_table c !! Z.to_nat h) as [p|]; [|reflexivity].
  destruct (m_lookup c !! p); [|reflexivity]. simpl. apply insert_length.
Qed.

Lemma abs_clear_from c s1 s2 :
  abs c (s1 ++ s2) ->
  abs (fst (cab_clear_from c (length s1) (length s2))) (s1 ++ fst (spec_clear s2)) /\
  snd (cab_clear_from c (length s1) (length s2)) = snd (spec_clear s2).
Proof.
  revert c s1. induction s2 as [|e s2 IH]; intros c s1 H; simpl; [auto|].
  pose proof (abs_del c (s1 ++ e :: s2) (Z.of_nat (length s1)) H) as [HD HR].
  assert (get (s1 ++ e :: s2) (Z.of_nat (length s1)) = Some e) as EG.
  { rewrite get_lookup. destruct (Z.ltb_spec (Z.of_nat (length s1)) 0); [lia|].
    rewrite Nat2Z.id. rewrite lookup_app_r by lia. by rewrite Nat.sub_diag. }
  unfold spec_at in HR. rewrite EG in HR. simpl in HD. rewrite EG in HD.
  destruct (cab_del c (Z.of_nat (length s1))) as [c' r] eqn:Ed. simpl in *. subst r.
  destruct (e_live e) eqn:El; simpl.
  - rewrite Nat2Z.id in HD.
    rewrite (kill_nth_lookup _ _ e) in HD.
    2:{ rewrite lookup_app_r by lia. by rewrite Nat.sub_diag. }
    rewrite <- (Nat.add_0_r (length s1)) in HD at 1. rewrite insert_app_r in HD. simpl in HD.
    specialize (IH c' (s1 ++ [kill e])).
    rewrite <- app_assoc in IH. simpl in IH. specialize (IH HD).
    rewrite app_length in IH. simpl in IH. rewrite Nat.add_1_r in IH.
    rewrite <- app_assoc in IH. simpl in IH.
    destruct (spec_clear s2) as [s3 r]. simpl in *. exact IH.
  - split; auto.
Qed.

Lemma abs_clear c s : abs c s ->
  abs (fst (cab_clear c)) (fst (spec_clear s)) /\
  snd (cab_clear c) = snd (spec_clear s).
Proof.
  intros H. pose proof (abs_clear_from c [] s H) as HC. simpl in HC.
  unfold cab_clear. rewrite (abs_table _ _ H), fmap_length. exact HC.
Qed.

Lemma abs_at c s h : abs c s -> cab_at c h = spec_at s h.
Proof.
  intros H. unfold cab_at, spec_at. rewrite (abs_len _ _ H), get_lookup.
  destruct (Z.ltb_spec h 0); simpl; [reflexivity|].
  rewrite (abs_table _ _ H), list_lookup_fmap.
  destruct (Z.geb_spec h (Z.of_nat (length s))).
  - rewrite (lookup_ge_None_2 s (Z.to_nat h)) by lia. reflexivity.
  - destruct (lookup_lt_is_Some_2 s (Z.to_nat h)) as [e He]; [lia|].
    rewrite He. simpl. unfold slot. by destruct (e_live e).
Qed.

Lemma abs_parent c s h : abs c s -> cab_parent c h = spec_parent s h.
Proof.
  intros H. unfold cab_parent, spec_parent, len.
  rewrite (abs_parents _ _ H), fmap_length, get_lookup.
  destruct (Z.ltb_spec h 0); simpl; [reflexivity|].
  rewrite list_lookup_fmap.
  destruct (Z.geb_spec h (Z.of_nat (length s))).
  - rewrite (lookup_ge_None_2 s (Z.to_nat h)) by lia. reflexivity.
  - destruct (lookup_lt_is_Some_2 s (Z.to_nat h)) as [e He]; [lia|].
    rewrite He. reflexivity.
Qed.

Lemma find_parent_spec parents q es :
  (forall e, e ∈ es -> 0 <= e < Z.of_nat (length parents)) ->
  (exists r, find_parent parents q es = Ok r /\
     ((forall e, e ∈ es -> parents !! Z.to_nat e <> Some q) /\ r = -2
      \/ exists l1 l2, es = l1 ++ r :: l2 /\ parents !! Z.to_nat r = Some q
         /\ forall e, e ∈ l1 -> parents !! Z.to_nat e <> Some q)).
Proof.
  induction es as [|e es IH]; intros Hb; simpl.
  - exists (-2). split; [reflexivity|]. left. split; [|reflexivity].
    intros e He. inversion He.
  - assert (0 <= e < Z.of_nat (length parents)) as He by (apply Hb; left).
    destruct (Z.leb_spec 0 e); [|lia].
    destruct (lookup_lt_is_Some_2 parents (Z.to_nat e)) as [x Hx]; [lia|].
    rewrite Hx. destruct (Z.eqb_spec x q) as [->|Hne].
    + exists e. split; [reflexivity|]. right. exists [], es. split; [reflexivity|].
      split; [assumption|]. intros ? Hin. inversion Hin.
    + destruct IH as (r & Hr & Hcase). { intros e' He'. apply Hb. by right. }
      exists r. split; [assumption|]. destruct Hcase as [[Hn ->]|(l1 & l2 & -> & Hq & Hn)].
      * left. split; [|reflexivity]. intros e' He'. apply elem_of_cons in He' as [->|]; auto.
        congruence.
      * right. exists (e :: l1), l2. split; [reflexivity|]. split; [assumption|].
        intros e' He'. apply elem_of_cons in He' as [->|]; auto. congruence.
Qed.

Lemma idxs_sorted p i t l1 x l2 : idxs p i t = l1 ++ x :: l2 ->
  forall y, y ∈ l1 -> y < x.
Proof.
  revert i l1. induction t as [|q t IH]; intros i l1; simpl.
  - intros E. destruct l1; discriminate.
  - case_decide.
    + destruct l1 as [|z l1]; simpl; intros E y Hy; [inversion Hy|].
      injection E as -> E. apply elem_of_cons in Hy as [->|Hy]; [|eauto].
      assert (x ∈ idxs p (z+1) t) as Hx.
      { rewrite E. apply elem_of_app. right. left. }
      apply idxs_bounds in Hx. lia.
    + intros E. eauto.
Qed.

Lemma abs_handle c s a q h : abs c s ->
  is_handle_of s a q h <-> h ∈ idxs (Some a) 0 (m_table c) /\ m_parents c !! Z.to_nat h = Some q.
Proof.
  intros [Ht Hp Hl]. rewrite idxs_elem, Ht, Hp, !list_lookup_fmap.
  replace (h - 0) with h by lia. unfold is_handle_of. rewrite get_lookup.
  split.
  - intros (e & He & Hlive & Ho & Hq). destruct (Z.ltb_spec h 0); [discriminate|].
    rewrite He. simpl. unfold slot. rewrite Hlive, Ho, Hq. split; [split|]; auto; lia.
  - intros [[Hh Hs] Hq]. destruct (Z.ltb_spec h 0); [lia|].
    destruct (s !! Z.to_nat h) as [e|]; [|discriminate]. simpl in *.
    exists e. split; [reflexivity|]. unfold slot in Hs.
    destruct (e_live e); inversion Hs; inversion Hq; auto.
Qed.

Lemma abs_has_handle c s a : abs c s -> has_handle s a <-> idxs (Some a) 0 (m_table c) <> [].
Proof.
  intros H. unfold has_handle. split.
  - intros (q & h & Hh). rewrite (abs_handle c) in Hh by assumption.
    destruct Hh as [Hin _]. intros E. rewrite E in Hin. inversion Hin.
  - destruct (idxs (Some a) 0 (m_table c)) as [|h l] eqn:E; [congruence|]. intros _.
    assert (h ∈ idxs (Some a) 0 (m_table c)) as Hin by (rewrite E; left).
    pose proof (idxs_bounds _ _ _ _ Hin) as Hb.
    destruct (lookup_lt_is_Some_2 (m_parents c) (Z.to_nat h)) as [q Hq].
    { rewrite (abs_parents _ _ H), fmap_length. rewrite (abs_len _ _ H) in Hb. lia. }
    exists q, h. rewrite (abs_handle c) by assumption. auto.
Qed.

Lemma abs_index c s a q : abs c s ->
  exists i, cab_index c a q = Ok i /\ spec_index s a q i.
Proof.
  intros H. unfold cab_index. rewrite (abs_lookup _ _ H).
  destruct (idxs (Some a) 0 (m_table c)) as [|x l] eqn:Ei.
  - exists (-1). split; [reflexivity|]. left. split; [|reflexivity].
    rewrite (abs_has_handle c) by assumption. rewrite Ei. congruence.
  - assert (has_handle s a) as HH.
    { rewrite (abs_has_handle c) by assumption. rewrite Ei. discriminate. }
    rewrite <- Ei.
    destruct (find_parent_spec (m_parents c) q (rev (idxs (Some a) 0 (m_table c))))
      as (r & Hr & Hcase).
    { intros e He. apply elem_of_list_In in He. rewrite <- in_rev in He.
      apply elem_of_list_In, idxs_bounds in He.
      rewrite (abs_len _ _ H) in He. rewrite (abs_parents _ _ H), fmap_length. lia. }
    exists r. split; [exact Hr|].
    destruct Hcase as [[Hn ->]|(l1 & l2 & Hs & Hq & Hn)].
    + right; left. split; [assumption|]. split; [|reflexivity].
      intros h Hh. rewrite (abs_handle c) in Hh by assumption. destruct Hh as [Hin Hq].
      apply (Hn h); [|assumption]. apply elem_of_list_In. rewrite <- in_rev.
      by apply elem_of_list_In.
    + right; right.
      assert (idxs (Some a) 0 (m_table c) = rev l2 ++ r :: rev l1) as Eo.
      { rewrite <- (rev_involutive (idxs (Some a) 0 (m_table c))), Hs, rev_app_distr. simpl.
        by rewrite <- app_assoc. }
      split.
      * rewrite (abs_handle c) by assumption. split; [|assumption].
        rewrite Eo. apply elem_of_app. right. left.
      * intros h Hh. rewrite (abs_handle c) in Hh by assumption. destruct Hh as [Hin Hhq].
        rewrite Eo in Hin. apply elem_of_app in Hin as [Hin|Hin].
        { pose proof (idxs_sorted _ _ _ _ _ _ Eo h Hin). lia. }
        apply elem_of_cons in Hin as [->|Hin]; [lia|].
        exfalso. apply (Hn h); [|assumption].
        apply elem_of_list_In in Hin. rewrite <- in_rev in Hin. by apply elem_of_list_In.
Qed.

Lemma step_abs c s o : abs c s -> adds_object o ->
  abs (fst (step c o)) (spec_next s o) /\ spec_allows s o (snd (step c o)).
Proof.
  intros H Ho. destruct o as [[a|] q|h| | |h|h|a q|]; simpl in *; try contradiction.
  - destruct (abs_add c s a q H) as [H1 H2]. simpl in H1, H2. split; [exact H1|].
    by rewrite H2.
  - destruct (abs_del c s h H) as [H1 H2].
    destruct (cab_del c h) as [c' r]. simpl in *. split; [exact H1|]. by rewrite H2.
  - destruct (abs_clear c s H) as [H1 H2].
    destruct (cab_clear c) as [c' r]. simpl in *. split; [exact H1|]. by rewrite H2.
  - split; [|reflexivity]. apply abs_init.
  - split; [assumption|]. by rewrite (abs_at c s).
  - split; [assumption|]. by rewrite (abs_parent c s).
  - split; [assumption|]. destruct (abs_index c s a q H) as (i & -> & Hi). eauto.
  - split; [assumption|]. unfold cab_size. by rewrite (abs_len c s).
Qed.

Lemma run_abs c s ops : abs c s -> objects_only ops ->
  abs (fst (run c ops)) (fold_left spec_next ops s) /\ spec_run s ops (snd (run c ops)).
Proof.
  revert c s. induction ops as [|o ops IH]; intros c s H HO; simpl; [auto|].
  inversion HO as [|? ? Hadd HO']; subst.
  destruct (step_abs c s o H) as [HA HB]; [assumption|].
  destruct (step c o) as [c1 r]. simpl in *.
  destruct (IH c1 (spec_next s o)) as [HC HD]; auto.
  destruct (run c1 ops) as [c2 rs]. simpl in *. auto.
Qed.

Lemma run_app c ops1 ops2 :
  fst (run c (ops1 ++ ops2)) = fst (run (fst (run c ops1)) ops2).
Proof.
  revert c. induction ops1 as [|o ops1 IH]; intros c; simpl; [reflexivity|].
  destruct (step c o) as [c1 r]. specialize (IH c1).
  destruct (run c1 (ops1 ++ ops2)) as [c2 rs]. destruct (run c1 ops1) as [c3 rs'].
  simpl in *. exact IH.
Qed.

Lemma after_abs ops : objects_only ops -> abs (after ops) (fold_left spec_next ops []).
Proof. intros H. apply (run_abs cab_init [] ops abs_init H). Qed.

Lemma kill_nth_get_ne s n h : Z.to_nat h <> n -> get (kill_nth n s) h = get s h.
Proof.
  intros Hne. rewrite !get_lookup. destruct (h <? 0); [reflexivity|].
  revert n h Hne. induction s as [|e s IH]; intros n h Hne; simpl; [by destruct n|].
  destruct n as [|n]; simpl.
  - destruct (Z.to_nat h) eqn:E; [congruence|]. reflexivity.
  - destruct (Z.to_nat h) as [|k] eqn:E; simpl; [reflexivity|].
    specialize (IH n (Z.of_nat k)). rewrite Nat2Z.id in IH. apply IH. lia.
Qed.

(** Entries of issued handles keep object and parent. *)
Lemma next_keeps s o h e : get s h = Some e -> ~ may_kill h o ->
  get (spec_next s o) h = Some e.
Proof.
  intros Hg Hk. destruct o as [[a|] q|n| | |n|n|a q|]; simpl in *; auto; try tauto.
  - rewrite get_lookup in *. destruct (h <? 0); [discriminate|]. by apply lookup_app_l_Some.
  - destruct (get s n) as [e'|] eqn:En; [|assumption].
    destruct (e_live e'); [|assumption]. rewrite kill_nth_get_ne; [assumption|].
    rewrite get_lookup in Hg, En. destruct (Z.ltb_spec h 0), (Z.ltb_spec n 0); try discriminate.
    lia.
Qed.

Lemma fold_keeps ops s h e : get s h = Some e -> Forall (fun o => ~ may_kill h o) ops ->
  get (fold_left spec_next ops s) h = Some e.
Proof.
  revert s. induction ops as [|o ops IH]; intros s Hg HF; simpl; [assumption|].
  inversion HF; subst. apply IH; [|assumption]. by apply next_keeps.
Qed.


Lemma spec_clear_lookup s n e : s !! n = Some e ->
  exists e', fst (spec_clear s) !! n = Some e' /\ e_obj e' = e_obj e /\
             e_parent e' = e_parent e /\ (e_live e = false -> e_live e' = false).
Proof.
  revert n. induction s as [|x s IH]; intros n Hn; simpl; [discriminate|].
  destruct (e_live x) eqn:Ex.
  - destruct (spec_clear s) as [s1 r] eqn:Ec. simpl. destruct n as [|n]; simpl in *.
    + injection Hn as ->. exists (kill e). repeat split.
    + apply IH. assumption.
  - simpl. exists e. auto.
Qed.

Lemma next_dead s o h e : get s h = Some e -> e_live e = false -> not_reset o ->
  exists e', get (spec_next s o) h = Some e' /\ e_live e' = false.
Proof.
  intros Hg Hd Hk. destruct o as [[a|] q|n| | |n|n|a q|]; simpl in *; try contradiction; eauto.
  - exists e. split; [|assumption].
    rewrite get_lookup in *. destruct (h <? 0); [discriminate|]. by apply lookup_app_l_Some.
  - destruct (get s n) as [e'|] eqn:En; [|eauto]. destruct (e_live e') eqn:El; [|eauto].
    rewrite kill_nth_get_ne; [eauto|].
    rewrite get_lookup in Hg, En. destruct (Z.ltb_spec h 0), (Z.ltb_spec n 0); try discriminate.
    intros E. rewrite <- E in En. congruence.
  - rewrite get_lookup in *. destruct (h <? 0); [discriminate|].
    destruct (spec_clear_lookup _ _ _ Hg) as (e' & H1 & _ & _ & H4). eauto.
Qed.

Lemma fold_dead ops s h e : get s h = Some e -> e_live e = false -> Forall not_reset ops ->
  exists e', get (fold_left spec_next ops s) h = Some e' /\ e_live e' = false.
Proof.
  revert s e. induction ops as [|o ops IH]; intros s e Hg Hd HF; simpl; [eauto|].
  inversion HF; subst. destruct (next_dead s o h e) as (e' & H1' & H2'); auto.
  eapply IH; eauto.
Qed.

Lemma spec_clear_length s : length (fst (spec_clear s)) = length s.
Proof.
  induction s as [|x s IH]; simpl; [reflexivity|].
  destruct (e_live x); [|reflexivity]. destruct (spec_clear s); simpl in *. by rewrite IH.
Qed.

Lemma kill_nth_length n s : length (kill_nth n s) = length s.
Proof. revert n. induction s as [|x s IH]; intros [|n]; simpl; auto. Qed.

Lemma fold_length ops s : Forall not_reset ops ->
  (length s <= length (fold_left spec_next ops s))%nat.
Proof.
  revert s. induction ops as [|o ops IH]; intros s HF; simpl; [lia|].
  inversion HF; subst. transitivity (length (spec_next s o)); [|auto].
  destruct o as [[a|] q|n| | |n|n|a q|]; simpl in *; try contradiction; try lia.
  - rewrite app_length. lia.
  - destruct (get s n) as [e|]; [|lia]. destruct (e_live e); [|lia].
    rewrite kill_nth_length. lia.
  - rewrite spec_clear_length. lia.
Qed.

Lemma objects_only_app l1 l2 : objects_only (l1 ++ l2) <-> objects_only l1 /\ objects_only l2.
Proof. apply Forall_app. Qed.

Lemma cabinet_refines ops : objects_only ops -> spec_run [] ops (snd (run cab_init ops)).
Proof. intros H. by apply (run_abs cab_init [] ops abs_init). Qed.

Lemma handle_stable ops1 a q ops2 h :
  objects_only (ops1 ++ Add (Some a) q :: ops2) ->
  snd (step (after ops1) (Add (Some a) q)) = RInt (Ok h) ->
  Forall (fun o => ~ may_kill h o) ops2 ->
  cab_at (after (ops1 ++ Add (Some a) q :: ops2)) h = Ok a /\
  cab_parent (after (ops1 ++ Add (Some a) q :: ops2)) h = Ok q.
Proof.
  intros HO Hh HF. pose proof HO as HO'. apply objects_only_app in HO' as [HO1 HO2].
  pose proof (after_abs ops1 HO1) as HA.
  destruct (step_abs _ _ (Add (Some a) q) HA) as [_ Hallow]; [exact I|].
  rewrite Hh in Hallow. simpl in Hallow. injection Hallow as ->.
  pose proof (after_abs _ HO) as HB. rewrite fold_left_app in HB. simpl in HB.
  set (s := fold_left spec_next ops1 []) in *.
  assert (get (s ++ [mkEntry a q true]) (Z.of_nat (length s)) = Some (mkEntry a q true)) as G.
  { rewrite get_lookup. destruct (Z.ltb_spec (Z.of_nat (length s)) 0); [lia|].
    rewrite Nat2Z.id, lookup_app_r by lia. by rewrite Nat.sub_diag. }
  pose proof (fold_keeps ops2 _ _ _ G HF) as G2.
  rewrite (abs_at _ _ _ HB), (abs_parent _ _ _ HB). unfold spec_at, spec_parent.
  rewrite G2. auto.
Qed.

Lemma deleted_handle_stays_dead ops1 h ops2 :
  objects_only (ops1 ++ Del h :: ops2) ->
  snd (step (after ops1) (Del h)) = RUnit (Ok tt) ->
  Forall not_reset ops2 ->
  cab_at (after (ops1 ++ Del h :: ops2)) h = Err /\
  cab_del (after (ops1 ++ Del h :: ops2)) h = (after (ops1 ++ Del h :: ops2), Err).
Proof.
  intros HO Hh HF. pose proof HO as HO'. apply objects_only_app in HO' as [HO1 HO2].
  pose proof (after_abs ops1 HO1) as HA.
  destruct (step_abs _ _ (Del h) HA) as [_ Hallow]; [exact I|].
  rewrite Hh in Hallow. simpl in Hallow. injection Hallow as Hok.
  pose proof (after_abs _ HO) as HB. rewrite fold_left_app in HB. simpl in HB.
  set (s := fold_left spec_next ops1 []) in *. unfold spec_at in Hok.
  destruct (get s h) as [e|] eqn:G; [|discriminate].
  destruct (e_live e) eqn:El; [|discriminate].
  assert (exists e', get (kill_nth (Z.to_nat h) s) h = Some e' /\ e_live e' = false) as (e' & G1 & D1).
  { rewrite get_lookup in *. destruct (h <? 0); [discriminate|].
    rewrite (kill_nth_lookup _ _ e G). rewrite list_lookup_insert.
    - exists (kill e). auto.
    - by apply lookup_lt_Some in G. }
  destruct (fold_dead ops2 _ _ _ G1 D1 HF) as (e2 & G2 & D2).
  split.
  - rewrite (abs_at _ _ _ HB). unfold spec_at. by rewrite G2, D2.
  - destruct (abs_del _ _ h HB) as [_ HR]. unfold spec_at in HR. rewrite G2, D2 in HR.
    revert HR. generalize (after (ops1 ++ Del h :: ops2)) as c. intros c.
    unfold cab_del. destruct ((0 <=? h) && (h <? len (m_table c))); [|auto].
    destruct (m_table c !! Z.to_nat h) as [p|]; simpl; [|discriminate].
    destruct (m_lookup c !! p); simpl; [discriminate|auto].
Qed.

Lemma handles_fresh ops1 a1 q1 ops2 a2 q2 h1 h2 :
  objects_only (ops1 ++ Add (Some a1) q1 :: ops2) ->
  Forall not_reset ops2 ->
  snd (step (after ops1) (Add (Some a1) q1)) = RInt (Ok h1) ->
  snd (step (after (ops1 ++ Add (Some a1) q1 :: ops2)) (Add (Some a2) q2)) = RInt (Ok h2) ->
  h1 < h2.
Proof.
  intros HO HF H1 H2. pose proof HO as HO'. apply objects_only_app in HO' as [HO1 HO2].
  pose proof (after_abs ops1 HO1) as HA.
  destruct (step_abs _ _ (Add (Some a1) q1) HA) as [_ E1]; [exact I|].
  rewrite H1 in E1. simpl in E1. injection E1 as ->.
  pose proof (after_abs _ HO) as HB.
  destruct (step_abs _ _ (Add (Some a2) q2) HB) as [_ E2]; [exact I|].
  rewrite H2 in E2. simpl in E2. injection E2 as ->.
  rewrite fold_left_app. simpl.
  pose proof (fold_length ops2 (fold_left spec_next ops1 [] ++ [mkEntry a1 q1 true]) HF) as L.
  rewrite app_length in L. simpl in L. lia.
Qed.

Lemma index_correct ops a q :
  objects_only ops ->
  exists i, cab_index (after ops) a q = Ok i /\
   ( (i = -1 /\ forall h, cab_at (after ops) h <> Ok a)
   \/ (i = -2 /\ (exists h, cab_at (after ops) h = Ok a) /\
        forall h, cab_at (after ops) h = Ok a -> cab_parent (after ops) h <> Ok q)
   \/ (cab_at (after ops) i = Ok a /\ cab_parent (after ops) i = Ok q /\
        forall h, cab_at (after ops) h = Ok a -> cab_parent (after ops) h = Ok q -> h <= i)).
Proof.
  intros HO. pose proof (after_abs ops HO) as HA.
  destruct (abs_index _ _ a q HA) as (i & Hi & Hs). exists i. split; [exact Hi|].
  set (s := fold_left spec_next ops []) in *.
  assert (forall h, cab_at (after ops) h = Ok a <-> exists e, get s h = Some e /\ e_live e = true /\ e_obj e = a) as EA.
  { intros h. rewrite (abs_at _ _ _ HA). unfold spec_at. destruct (get s h) as [e|].
    - destruct (e_live e) eqn:E; split.
      + intros H. inversion H. eauto.
      + intros (e' & He & _ & <-). by inversion He.
      + discriminate.
      + intros (e' & He & ? & _). inversion He. congruence.
    - split; [discriminate|]. intros (e & ? & _). discriminate. }
  assert (forall h q', cab_at (after ops) h = Ok a /\ cab_parent (after ops) h = Ok q' <-> is_handle_of s a q' h) as EH.
  { intros h q'. rewrite EA, (abs_parent _ _ _ HA). unfold spec_parent, is_handle_of.
    split.
    - intros [(e & He & Hl & Ho) Hp]. rewrite He in Hp. inversion Hp. eauto 6.
    - intros (e & He & Hl & Ho & Hp). rewrite He, Hp. eauto. }
  assert (forall h, cab_at (after ops) h = Ok a -> exists q', is_handle_of s a q' h) as EX.
  { intros h Hh. apply EA in Hh as (e & He & Hl & Ho). exists (e_parent e), e. auto. }
  destruct Hs as [[Hn ->]|[(Hh & Hn & ->)|[Hh Hmax]]].
  - left. split; [reflexivity|]. intros h Hh. apply Hn. destruct (EX h Hh) as [q' Hq]. by exists q', h.
  - right; left. split; [reflexivity|]. split.
    + destruct Hh as (q' & h & Hh). exists h. apply EH in Hh. tauto.
    + intros h Ha Hp. apply (Hn h). apply EH. auto.
  - right; right. apply EH in Hh as [Ha Hp]. split; [exact Ha|]. split; [exact Hp|].
    intros h H1 H2. apply Hmax. apply EH. auto.
Qed.

Lemma clear_all_live s : (forall e, e ∈ s -> e_live e = true) ->
  spec_clear s = (kill <$> s, Ok tt).
Proof.
  induction s as [|e s IH]; intros H; simpl; [reflexivity|].
  rewrite (H e) by left. rewrite IH; [reflexivity|]. intros x Hx. apply H. by right.
Qed.

(** When nothing was deleted since the last reset, [clear] deletes everything. *)
Lemma clear_total_partial ops :
  objects_only ops ->
  (forall h, 0 <= h < cab_size (after ops) -> exists a, cab_at (after ops) h = Ok a) ->
  snd (cab_clear (after ops)) = Ok tt /\
  forall h, cab_at (fst (cab_clear (after ops))) h = Err.
Proof.
  intros HO Hall. pose proof (after_abs ops HO) as HA.
  set (s := fold_left spec_next ops []) in *.
  assert (forall e, e ∈ s -> e_live e = true) as HL.
  { intros e He. apply elem_of_list_lookup in He as [n Hn].
    pose proof (lookup_lt_Some _ _ _ Hn) as Hlt.
    destruct (Hall (Z.of_nat n)) as [a Ha].
    { unfold cab_size. rewrite (abs_len _ _ HA). lia. }
    rewrite (abs_at _ _ _ HA) in Ha. unfold spec_at in Ha. rewrite get_lookup in Ha.
    destruct (Z.ltb_spec (Z.of_nat n) 0); [lia|]. rewrite Nat2Z.id, Hn in Ha.
    destruct (e_live e); congruence. }
  destruct (abs_clear _ _ HA) as [H1 H2]. rewrite (clear_all_live s HL) in H1, H2. simpl in *.
  split; [exact H2|]. intros h. rewrite (abs_at _ _ _ H1). unfold spec_at. rewrite get_lookup.
  destruct (h <? 0); [reflexivity|]. rewrite list_lookup_fmap.
  destruct (s !! Z.to_nat h); reflexivity.
Qed.
