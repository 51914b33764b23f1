From Coq Require Import Reals Lra Lia String List Bool Arith.
From Verif Require Import Base.Outcome Base.RSum Base.Vec Phase.Model Phase.Spec.
Import ListNotations.
Open Scope R_scope.

(** * Lists *)
Lemma find_elem_some l s m : find_elem l s = Some m -> exists w, nth_error l m = Some (s, w).
Proof.
  revert m. induction l as [|[e w] l IH]; intros m H; simpl in *; [discriminate|].
  destruct (String.eqb_spec e s) as [E|E].
  - injection H as <-. subst. exists w. reflexivity.
  - destruct (find_elem l s) as [j|]; simpl in H; [|discriminate]. injection H as <-.
    destruct (IH j eq_refl) as (w'&Hw). exists w'. exact Hw.
Qed.
Lemma find_elem_none l s : find_elem l s = None -> ~ In s (map fst l).
Proof.
  induction l as [|[e w] l IH]; simpl; intros H; [tauto|].
  destruct (String.eqb_spec e s) as [E|E]; [discriminate|].
  destruct (find_elem l s); [discriminate|]. intros [?|?]; [congruence|]. now apply IH.
Qed.
Lemma find_elem_nth l m s w : NoDup (map fst l) -> nth_error l m = Some (s, w) -> find_elem l s = Some m.
Proof.
  revert m. induction l as [|[e v] l IH]; intros m Hnd Hm; [destruct m; discriminate|].
  inversion Hnd; subst. destruct m; simpl in *.
  - injection Hm as -> ->. now rewrite String.eqb_refl.
  - destruct (String.eqb_spec e s) as [E|E].
    + subst. exfalso. apply H1. apply nth_error_In in Hm. now apply (in_map fst) in Hm.
    + now rewrite (IH m).
Qed.
Lemma nth_error_snoc {A} (l : list A) a k :
  nth_error (l ++ [a]) k = if Nat.eqb k (length l) then Some a else nth_error l k.
Proof.
  destruct (Nat.eqb_spec k (length l)) as [E|E].
  - subst. rewrite nth_error_app2, Nat.sub_diag; auto.
  - destruct (Nat.lt_ge_cases k (length l)).
    + now rewrite nth_error_app1.
    + rewrite nth_error_app2 by auto. rewrite (proj2 (nth_error_None l k)) by auto.
      destruct (k - length l)%nat as [|d] eqn:D; [lia|]. simpl. now destruct d.
Qed.
Lemma NoDup_snoc {A} (l : list A) a : NoDup l -> ~ In a l -> NoDup (l ++ [a]).
Proof.
  intros H Ha. induction H as [|b l Hb H IH]; simpl; [constructor; [tauto|constructor]|].
  constructor.
  - rewrite in_app_iff. simpl in *. intros [?|[?|[]]]; [tauto|subst; tauto].
  - apply IH. simpl in Ha. tauto.
Qed.

Lemma same_lower_snoc k l n s :
  same_lower_from k (l ++ [n]) s =
  same_lower_from k l s ++ (if String.eqb (to_lower n) (to_lower s) then [(k + length l)%nat] else []).
Proof.
  revert k. induction l as [|a l IH]; intros k; simpl.
  - rewrite Nat.add_0_r. destruct (String.eqb _ _); reflexivity.
  - rewrite IH. rewrite Nat.add_succ_r. destruct (String.eqb (to_lower a) _); reflexivity.
Qed.

(** * Re-layout *)
Lemma inner_loop kk mm old k c n : (mm <= n)%nat -> (k < kk)%nat -> forall j,
  fold_left (fun c m => upd c (k * n + m)%nat (old (k * mm + m)%nat)) (seq 0 mm) c j =
  if ((k * n <=? j) && (j <? k * n + mm))%nat then old (k * mm + (j - k * n))%nat else c j.
Proof.
  intros Hn Hk. induction mm as [|mm IH] using nat_ind; intros j.
  - simpl. destruct ((k * n <=? j) && (j <? k * n + 0))%nat eqn:E; auto.
    apply andb_true_iff in E. destruct E as (E1&E2). apply Nat.leb_le in E1. apply Nat.ltb_lt in E2. lia.
  - clear IH. assert (forall q c j, (q <= S mm)%nat ->
      fold_left (fun c m => upd c (k * n + m)%nat (old (k * S mm + m)%nat)) (seq 0 q) c j =
      if ((k * n <=? j) && (j <? k * n + q))%nat then old (k * S mm + (j - k * n))%nat else c j) as G.
    { clear j c. induction q as [|q IHq]; intros c j Hq.
      - simpl. destruct ((k * n <=? j) && (j <? k * n + 0))%nat eqn:E; auto.
        apply andb_true_iff in E. destruct E as (E1&E2). apply Nat.leb_le in E1. apply Nat.ltb_lt in E2. lia.
      - rewrite seq_S, fold_left_app. simpl. unfold upd at 1. rewrite IHq by lia.
        destruct (Nat.eqb_spec j (k * n + q)) as [E|E].
        + subst j. rewrite (proj2 (Nat.leb_le _ _)) by lia. rewrite (proj2 (Nat.ltb_lt _ _)) by lia. simpl. f_equal. lia.
        + destruct (Nat.leb_spec (k * n) j); simpl; auto.
          destruct (Nat.ltb_spec j (k * n + q)), (Nat.ltb_spec j (k * n + S q)); auto; lia. }
    apply G. lia.
Qed.

Lemma relayout_val kk mm old c : forall k m, (k < kk)%nat -> (m < S mm)%nat ->
  relayout kk (S mm) old c (k * S mm + m)%nat = if (m <? mm)%nat then old (k * mm + m)%nat else 0.
Proof.
  unfold relayout. replace (S mm - 1)%nat with mm by lia.
  assert (forall q k m c, (q <= kk)%nat -> (k < q)%nat -> (m < S mm)%nat ->
    fold_left (fun c k => upd (fold_left (fun c m => upd c (k * S mm + m)%nat (old (k * mm + m)%nat)) (seq 0 mm) c)
          (k * S mm + mm)%nat 0) (seq 0 q) c (k * S mm + m)%nat
    = if (m <? mm)%nat then old (k * mm + m)%nat else 0) as G.
  { induction q as [|q IH]; intros k m c0 Hq Hk Hm; [lia|].
    rewrite seq_S, fold_left_app. simpl fold_left at 1. unfold upd at 1.
    destruct (Nat.eq_dec k q) as [E|E].
    - subst k. destruct (Nat.eqb_spec (q * S mm + m) (q * S mm + mm)) as [E|E].
      + assert (m = mm) by lia. subst. now rewrite Nat.ltb_irrefl.
      + rewrite (inner_loop kk) by lia.
        rewrite (proj2 (Nat.leb_le _ _)) by lia. rewrite (proj2 (Nat.ltb_lt _ _)) by lia. simpl.
        rewrite (proj2 (Nat.ltb_lt m mm)) by lia. f_equal. lia.
    - assert (k < q)%nat as Hkq by lia.
      assert (k * S mm + m < q * S mm)%nat as Hlt by nia.
      rewrite (proj2 (Nat.eqb_neq _ _)) by lia.
      rewrite (inner_loop kk) by lia. rewrite (proj2 (Nat.leb_gt _ _)) by lia. simpl andb. cbv iota.
      apply IH; lia. }
  intros k m Hk Hm. apply G; lia.
Qed.

Lemma push_comp_val n : forall c size m comp j,
  push_comp c size m n comp j =
  if ((size <=? j) && (j <? size + n))%nat then comp (m + (j - size))%nat else c j.
Proof.
  induction n as [|n IH]; intros; simpl.
  - destruct ((size <=? j) && (j <? size + 0))%nat eqn:E; auto.
    apply andb_true_iff in E. destruct E as (E1&E2). apply Nat.leb_le in E1. apply Nat.ltb_lt in E2. lia.
  - rewrite IH. unfold upd.
    destruct (Nat.eqb_spec j size) as [E|E].
    + subst. rewrite (proj2 (Nat.leb_gt (S size) size)) by lia. rewrite Nat.leb_refl. simpl.
      rewrite (proj2 (Nat.ltb_lt _ _)) by lia. f_equal. lia.
    + destruct (Nat.leb_spec (S size) j), (Nat.leb_spec size j); simpl; auto; try lia.
      destruct (Nat.ltb_spec j (S (size + n))), (Nat.ltb_spec j (size + S n)); auto; try lia. f_equal. lia.
Qed.

(** sum over the elements *)
Definition aw (l : list (string * R)) (m : nat) : R := snd (nth m l (EmptyString, 0)).
Lemma weight_loop_val l : forall m comp wt,
  weight_loop l m comp wt = wt + sum_n (fun j => comp (m + j)%nat * aw l j) (length l).
Proof.
  induction l as [|[e w] l IH]; intros m comp wt; simpl.
  - rewrite sum_n_0. lra.
  - rewrite IH. rewrite sum_n_shift. unfold aw at 2. simpl. rewrite Nat.add_0_r. rewrite Rplus_assoc. f_equal. f_equal.
    apply sum_n_ext. intros j Hj. unfold aw. simpl. f_equal. f_equal. lia.
Qed.

(** * The invariant *)
Definition lower_of (l : list nat) : option (option nat) :=
  match l with [] => None | [k] => Some (Some k) | _ => Some None end.

Record inv (t : tab) : Prop := {
  i_elems : NoDup (map fst (t_elems t));
  i_names : NoDup (t_names t);
  i_sp : forall k nm, nth_error (t_names t) k = Some nm -> exists sp, t_species t nm = Some sp /\ sp_name sp = nm;
  i_spn : forall nm sp, t_species t nm = Some sp -> In nm (t_names t);
  i_idx : forall k nm, nth_error (t_names t) k = Some nm -> t_index t nm = Some k;
  i_lt : forall s k, t_index t s = Some k -> (k < t_kk t)%nat;
  i_low : forall s, t_lower t (to_lower s) = lower_of (same_lower (t_names t) s);
  i_size : t_csize t = (t_kk t * t_mm t)%nat;
  i_lmw : length (t_mw t) = t_kk t;
  i_lch : length (t_charge t) = t_kk t;
  i_keys : forall nm sp, t_species t nm = Some sp ->
    NoDup (map fst (sp_comp sp)) /\ forall e, In e (map fst (sp_comp sp)) -> In e (map fst (t_elems t));
  i_E : forall k, (k < t_kk t)%nat -> nth k (t_charge t) 0 <> 0 -> In "E"%string (map fst (t_elems t));
  i_atoms : forall k nm sp m e w, nth_error (t_names t) k = Some nm -> t_species t nm = Some sp ->
    nth_error (t_elems t) m = Some (e, w) ->
    atoms_ok (sp_comp sp) (nth k (t_charge t) 0) e (t_comp t (t_mm t * k + m)%nat);
  i_mw : forall k, (k < t_kk t)%nat -> nth k (t_mw t) 0 =
    Rmax (sum_n (fun m => t_comp t (t_mm t * k + m)%nat * aw (t_elems t) m) (t_mm t)) Tiny }.

Lemma inv_init : inv tab_init.
Proof.
  split.
  - constructor.
  - constructor.
  - intros k nm H. destruct k; discriminate.
  - intros nm sp H. discriminate.
  - intros k nm H. destruct k; discriminate.
  - intros s k H. discriminate.
  - reflexivity.
  - reflexivity.
  - reflexivity.
  - reflexivity.
  - intros nm sp H. discriminate.
  - intros k H. unfold t_kk in H. simpl in H. lia.
  - intros k nm sp m e w H. destruct k; discriminate.
  - intros k H. unfold t_kk in H. simpl in H. lia.
Qed.

Lemma amount_notin l e : ~ In e (map fst l) -> amount l e = 0.
Proof.
  induction l as [|[x v] l IH]; simpl; intros H; auto.
  destruct (String.eqb_spec x e); [exfalso; auto|auto].
Qed.

Section DB.
  Variable db : string -> option R.

  (** What addElement may change. *)
  Record ext (t t' : tab) : Prop := {
    x_elems : exists l, t_elems t' = t_elems t ++ l;
    x_comp : forall k m, (k < t_kk t)%nat -> (m < t_mm t)%nat ->
      t_comp t' (t_mm t' * k + m)%nat = t_comp t (t_mm t * k + m)%nat;
    x_names : t_names t' = t_names t; x_species : t_species t' = t_species t;
    x_index : t_index t' = t_index t; x_lower : t_lower t' = t_lower t;
    x_mw : t_mw t' = t_mw t; x_charge : t_charge t' = t_charge t;
    x_locks : t_locks t' = t_locks t; x_case : t_case t' = t_case t; x_undef : t_undef t' = t_undef t }.
  Lemma ext_refl t : ext t t.
  Proof. split; auto. exists []. now rewrite app_nil_r. Qed.
  Lemma ext_trans a b c : ext a b -> ext b c -> ext a c.
  Proof.
    intros [(l1&E1) A1 A2 A3 A4 A5 A6 A7 A8 A9 A10] [(l2&E2) B1 B2 B3 B4 B5 B6 B7 B8 B9 B10].
    split; try congruence.
    - exists (l1 ++ l2). rewrite E2, E1. now rewrite app_assoc.
    - intros k m Hk Hm. rewrite B1; auto.
      + unfold t_kk in *. congruence.
      + unfold t_mm in *. rewrite E1, app_length. lia.
  Qed.

  Lemma addElement_cases t s w :
    (snd (addElement db t s w) = t /\
       ((exists m, fst (addElement db t s w) = Ok m /\ find_elem (t_elems t) s = Some m) \/ fst (addElement db t s w) = Err)) \/
    (find_elem (t_elems t) s = None /\ exists v,
      addElement db t s w = (Ok (length (t_elems t)),
        set_elems t (t_elems t ++ [(s, v)])
          (if (0 <? t_kk t)%nat then relayout (t_kk t) (S (t_mm t)) (t_comp t) (fun i => if (i <? t_csize t)%nat then t_comp t i else 0) else t_comp t)
          (if (0 <? t_kk t)%nat then (t_kk t * S (t_mm t))%nat else t_csize t))).
  Proof.
    unfold addElement.
    set (w' := if Req_EM_T w 0 then _ else _). destruct w' as [v|]; [|left; simpl; auto].
    destruct (find_elem (t_elems t) s) as [m|] eqn:F.
    - destruct (find_elem_some _ _ _ F) as (w1&E1). rewrite E1. left.
      destruct (Req_EM_T w1 v); simpl; split; auto. left. eauto.
    - right. split; auto. exists v. cbv zeta. rewrite app_length. simpl.
      replace (length (t_elems t) + 1)%nat with (S (t_mm t)) by (unfold t_mm; lia).
      replace (S (t_mm t) - 1)%nat with (length (t_elems t)) by (unfold t_mm; lia).
      destruct (0 <? t_kk t)%nat; reflexivity.
  Qed.

  Lemma addElement_inv t s w : inv t -> inv (snd (addElement db t s w)) /\ ext t (snd (addElement db t s w)).
  Proof.
    intros I. destruct (addElement_cases t s w) as [(E&_)|(F&v&E)].
    - rewrite E. split; auto. apply ext_refl.
    - rewrite E. simpl snd. set (t' := set_elems _ _ _ _).
      assert (t_mm t' = S (t_mm t)) as Emm by (unfold t', t_mm; simpl; rewrite app_length; simpl; lia).
      assert (t_kk t' = t_kk t) as Ekk by reflexivity.
      pose proof (find_elem_none _ _ F) as Hs.
      assert (forall k m, (k < t_kk t)%nat -> (m < S (t_mm t))%nat ->
        t_comp t' (S (t_mm t) * k + m)%nat = if (m <? t_mm t)%nat then t_comp t (t_mm t * k + m)%nat else 0) as HC.
      { intros k m Hk Hm. 
        assert (t_comp t' = relayout (t_kk t) (S (t_mm t)) (t_comp t) (fun i => if (i <? t_csize t)%nat then t_comp t i else 0)) as ->.
        { unfold t'. cbn [t_comp set_elems]. now rewrite (proj2 (Nat.ltb_lt 0 (t_kk t))) by lia. }
        rewrite (Nat.mul_comm (S (t_mm t))). rewrite relayout_val by auto. now rewrite (Nat.mul_comm k). }
      split.
      + destruct I. split; try assumption.
        * unfold t'. simpl. rewrite map_app. simpl. now apply NoDup_snoc.
        * rewrite Ekk, Emm. unfold t'. simpl. destruct (Nat.ltb_spec 0 (t_kk t)); auto. rewrite i_size0.
          replace (t_kk t) with 0%nat by lia. lia.
        * intros nm sp Hsp. destruct (i_keys0 nm sp Hsp) as (A&B). split; auto. intros e He.
          unfold t'. simpl. rewrite map_app, in_app_iff. left. auto.
        * intros k Hk Hc. unfold t'. simpl. rewrite map_app, in_app_iff. left. eauto.
        * intros k nm sp m e w0 Hk Hsp Hm. unfold t' in Hm. simpl in Hm. rewrite nth_error_snoc in Hm.
          assert (k < t_kk t)%nat as Hkk by (apply nth_error_Some; unfold t', set_elems in Hk; simpl in Hk; congruence).
          rewrite Emm. destruct (Nat.eqb_spec m (length (t_elems t))) as [Em|Em].
          { injection Hm as <- <-. subst m. fold (t_mm t). rewrite HC by lia. rewrite Nat.ltb_irrefl.
            assert (amount (sp_comp sp) s = 0) as A0.
            { apply amount_notin. intros Hin. apply Hs. destruct (i_keys0 nm sp Hsp) as (_&B). auto. }
            unfold atoms_ok. simpl t_charge. destruct (String.eqb_spec s "E") as [EE|EE]; [|auto].
            assert (nth k (t_charge t) 0 = 0) as Z.
            { destruct (Req_EM_T (nth k (t_charge t) 0) 0); auto. exfalso. apply Hs. rewrite EE. eapply i_E0; eauto. }
            rewrite Z, A0. repeat split; auto; intros; try lra. }
          { assert (m < t_mm t)%nat as Hmm by (apply nth_error_Some; congruence).
            rewrite HC by lia. rewrite (proj2 (Nat.ltb_lt _ _) Hmm). eapply i_atoms0; eauto. }
        * intros k Hk. rewrite Ekk in Hk. rewrite Emm. simpl t_mw. rewrite i_mw0 by auto. f_equal.
          rewrite sum_n_S. rewrite HC by lia. rewrite Nat.ltb_irrefl. rewrite Rmult_0_l, Rplus_0_r.
          apply sum_n_ext. intros m Hm. rewrite HC by lia. rewrite (proj2 (Nat.ltb_lt _ _) Hm). f_equal.
          unfold aw, t'. simpl. rewrite app_nth1; auto.
      + split; try reflexivity.
        * exists [(s, v)]. reflexivity.
        * intros k m Hk Hm. rewrite Emm, HC by lia. now rewrite (proj2 (Nat.ltb_lt _ _) Hm).
  Qed.

  Lemma addElement_find t s w m t' : addElement db t s w = (Ok m, t') -> inv t -> find_elem (t_elems t') s = Some m.
  Proof.
    intros E I. destruct (addElement_cases t s w) as [(A&B)|(F&v&B)]; rewrite E in *; simpl in *.
    - subst t'. destruct B as [(m'&Em&Hf)|]; [congruence|discriminate].
    - injection B as -> ->. apply (find_elem_nth _ _ _ v).
      + simpl. rewrite map_app. simpl. apply NoDup_snoc; [apply I|]. now apply find_elem_none.
      + simpl. rewrite nth_error_snoc. now rewrite Nat.eqb_refl.
  Qed.

  Lemma find_elem_app l l' s m : find_elem l s = Some m -> find_elem (l ++ l') s = Some m.
  Proof.
    revert m. induction l as [|[e w] l IH]; intros m H; simpl in *; [discriminate|].
    destruct (String.eqb e s); auto. destruct (find_elem l s); simpl in *; [|discriminate].
    rewrite (IH n) by auto. auto.
  Qed.

  (** the composition loop of addSpecies *)
  Lemma comp_loop_spec l : forall t c, inv t -> NoDup (map fst l) ->
    let r := comp_loop db t l c in
    inv (snd r) /\ ext t (snd r) /\
    forall c', fst r = LDone c' ->
      (forall e, In e (map fst l) -> In e (map fst (t_elems (snd r)))) /\
      forall m e w, nth_error (t_elems (snd r)) m = Some (e, w) ->
        c' m = if in_dec string_dec e (map fst l) then amount l e else c m.
  Proof.
    induction l as [|[e st] l IH]; intros t c I Hnd; simpl comp_loop.
    - simpl. split; auto. split; [apply ext_refl|]. intros c' H. injection H as <-. split; [tauto|]. auto.
    - inversion Hnd as [|? ? Hni Hnd']; subst. simpl in Hni.
      assert (forall t1 m, inv t1 -> ext t t1 -> find_elem (t_elems t1) e = Some m ->
        let r := comp_loop db t1 l (upd c m st) in
        inv (snd r) /\ ext t (snd r) /\
        forall c', fst r = LDone c' ->
          (forall e0, In e0 (e :: map fst l) -> In e0 (map fst (t_elems (snd r)))) /\
          forall m0 e0 w, nth_error (t_elems (snd r)) m0 = Some (e0, w) ->
            c' m0 = if in_dec string_dec e0 (e :: map fst l) then amount ((e, st) :: l) e0 else c m0) as K.
      { intros t1 m I1 X1 F r. destruct (IH t1 (upd c m st) I1 Hnd') as (A&B&C). fold r in A, B, C.
        split; auto. split; [eapply ext_trans; eauto|]. intros c' Hc. destruct (C c' Hc) as (D1&D2).
        destruct (x_elems _ _ B) as (lx&Elx).
        assert (find_elem (t_elems (snd r)) e = Some m) as Fr by (rewrite Elx; now apply find_elem_app).
        split.
        - intros e0 [<-|He0]; auto. destruct (find_elem_some _ _ _ Fr) as (w0&Hw0).
          apply nth_error_In in Hw0. now apply (in_map fst) in Hw0.
        - intros m0 e0 w Hm0. rewrite (D2 m0 e0 w Hm0).
          pose proof (find_elem_nth _ _ _ _ (i_elems _ A) Hm0) as F0.
          destruct (in_dec string_dec e0 (map fst l)) as [Hin|Hout].
          + destruct (in_dec string_dec e0 (e :: map fst l)) as [_|N]; [|exfalso; apply N; now right].
            simpl. destruct (String.eqb_spec e e0) as [E|E]; [subst; tauto|reflexivity].
          + destruct (string_dec e e0) as [E|E].
            * subst e0. destruct (in_dec string_dec e (e :: map fst l)) as [_|N]; [|exfalso; apply N; now left].
              simpl. rewrite String.eqb_refl. assert (m0 = m) by congruence. subst. apply upd_same.
            * destruct (in_dec string_dec e0 (e :: map fst l)) as [[N|N]|_]; try congruence; try tauto.
              apply upd_other. intros ->. destruct (find_elem_some _ _ _ Fr) as (w0&Hw0). congruence. }
      unfold elementIndex. destruct (find_elem (t_elems t) e) as [m|] eqn:F.
      + apply K; auto. apply ext_refl.
      + destruct (t_undef t).
        * simpl. split; auto. split; [apply ext_refl|]. discriminate.
        * destruct (addElement_inv t e (-12345) I) as (I1&X1).
          pose proof (addElement_find t e (-12345)) as AF.
          destruct (addElement db t e (-12345)) as [[m| | |] t1]; simpl in I1, X1; simpl fst; simpl snd;
            try (split; [exact I1|]; split; [exact X1|]; discriminate).
          rewrite (AF m t1 eq_refl I). apply K; auto.
        * simpl. split; auto. split; [apply ext_refl|]. discriminate.
  Qed.

  Lemma charge_step_spec t ch c : inv t ->
    let r := charge_step db t ch c in
    inv (snd r) /\ ext t (snd r) /\
    (forall c', fst r = Some c' ->
      (ch <> 0 -> In "E"%string (map fst (t_elems (snd r)))) /\
      forall m e w, nth_error (t_elems (snd r)) m = Some (e, w) ->
        (e <> "E"%string -> c' m = c m /\ (m < t_mm t)%nat) /\
        (e = "E"%string -> (ch = 0 -> c' m = c m) /\ (c m <> 0 -> (m < t_mm t)%nat -> c' m = c m) /\
           (ch <> 0 -> Rabs (ch + c' m) <= 1 / 1000) /\
           (c m = 0 -> 1 / 1000 < Rabs ch -> c' m = - ch) /\
           ((t_mm t <= m)%nat -> c' m = - ch))).
  Proof.
    intros I. unfold charge_step. destruct (Req_EM_T ch 0) as [Z|NZ].
    - simpl. split; auto. split; [apply ext_refl|]. intros c' H. injection H as <-. split; [tauto|].
      intros m e w Hm. split; [intros _; split; auto; apply nth_error_Some; congruence|]. intros Ee. repeat split; auto; intros; try tauto.
      + subst ch. rewrite Rabs_R0 in *. lra.
      + exfalso. assert (m < t_mm t)%nat by (apply nth_error_Some; congruence). lia.
    - unfold elementIndex. destruct (find_elem (t_elems t) "E") as [ei|] eqn:F.
      + destruct (find_elem_some _ _ _ F) as (we&Hwe).
        assert (In "E"%string (map fst (t_elems t))) as HE.
        { apply nth_error_In in Hwe. now apply (in_map fst) in Hwe. }
        assert (forall m e w, nth_error (t_elems t) m = Some (e, w) -> (e = "E"%string <-> m = ei)) as Hm.
        { intros m e w Hm. split.
          - intros ->. pose proof (find_elem_nth _ _ _ _ (i_elems _ I) Hm). congruence.
          - intros ->. congruence. }
        destruct (Rlt_dec (1 / 1000) (Rabs (ch + c ei))) as [L|NL].
        * destruct (Req_EM_T (c ei) 0) as [Z0|NZ0]; simpl; (split; [exact I|]; split; [apply ext_refl|]); [|discriminate].
          intros c' H. injection H as <-. split; auto. intros m e w Hme. pose proof (Hm m e w Hme) as M. split.
          { intros Ne. split; [apply upd_other; tauto|]. apply nth_error_Some; congruence. }
          { intros Ee. apply M in Ee. subst m. rewrite upd_same. repeat split; intros; try tauto; try congruence; try lra.
            replace (ch + - ch) with 0 by lra. rewrite Rabs_R0. lra. }
        * simpl. split; [exact I|]. split; [apply ext_refl|]. intros c' H. injection H as <-. split; auto.
          intros m e w Hme. pose proof (Hm m e w Hme) as M. split; [intros _; split; auto; apply nth_error_Some; congruence|].
          intros Ee. apply M in Ee. subst m. repeat split; intros; auto; try tauto; try lra.
          { rewrite H in NL. rewrite Rplus_0_r in NL. tauto. }
          { exfalso. assert (ei < t_mm t)%nat by (apply nth_error_Some; congruence). lia. }
      + destruct (addElement_inv t "E" (545/1000000) I) as (I1&X1).
        pose proof (addElement_find t "E" (545/1000000)) as AF.
        pose proof (addElement_cases t "E" (545/1000000)) as AC.
        destruct (addElement db t "E" (545/1000000)) as [[m0| | |] t1]; simpl in I1, X1; simpl fst; simpl snd;
          try (split; [exact I1|]; split; [exact X1|]; discriminate).
        split; [exact I1|]. split; [exact X1|]. intros c' H. injection H as <-.
        pose proof (AF m0 t1 eq_refl I) as F1.
        destruct AC as [(A1&[(m'&_&A2)|A2])|(_&v&A)]; [congruence|discriminate|].
        injection A as -> ->. set (t1 := set_elems _ _ _ _) in *.
        assert (t_mm t1 - 1 = t_mm t)%nat as Emm by (unfold t1, t_mm; simpl; rewrite app_length; simpl; lia).
        fold (t_mm t) in F1.
        destruct (find_elem_some _ _ _ F1) as (we&Hwe). split.
        { intros _. apply nth_error_In in Hwe. now apply (in_map fst) in Hwe. }
        intros m e w Hme.
        assert (e = "E"%string <-> m = t_mm t) as M.
        { split.
          - intros ->. pose proof (find_elem_nth _ _ _ _ (i_elems _ I1) Hme). congruence.
          - intros ->. congruence. }
        rewrite Emm. split.
        { intros Ne. split; [apply upd_other; tauto|]. assert (m < t_mm t1)%nat by (apply nth_error_Some; congruence).
          assert (m <> t_mm t) by tauto. lia. }
        { intros Ee. apply M in Ee. subst m. rewrite upd_same. repeat split; intros; try tauto; try congruence; try lra; try lia.
          replace (ch + - ch) with 0 by lra. rewrite Rabs_R0. lra. }
  Qed.

  Lemma inv_flags t a b c : inv t -> inv (set_flags t a b c).
  Proof. intros []. split; assumption. Qed.

  Lemma lower_of_snoc l (k : nat) : lower_of (l ++ [k]) = Some (match lower_of l with None => Some k | Some _ => None end).
  Proof. destruct l as [|a [|b l]]; reflexivity. Qed.

  (** What any later call leaves in place. *)
  Record grows (t t' : tab) : Prop := {
    g_elems : exists l, t_elems t' = t_elems t ++ l;
    g_names : exists l, t_names t' = t_names t ++ l;
    g_mw : exists l, t_mw t' = t_mw t ++ l;
    g_charge : exists l, t_charge t' = t_charge t ++ l;
    g_comp : forall k m, (k < t_kk t)%nat -> (m < t_mm t)%nat ->
      t_comp t' (t_mm t' * k + m)%nat = t_comp t (t_mm t * k + m)%nat }.
  Lemma ex_nil {A} (l : list A) : exists l', l = l ++ l'.
  Proof. exists []. now rewrite app_nil_r. Qed.
  Lemma ext_grows t t' : ext t t' -> grows t t'.
  Proof.
    intros [A1 A2 A3 A4 A5 A6 A7 A8 A9 A10 A11]. split; auto; try (rewrite ?A3, ?A7, ?A8; apply ex_nil).
  Qed.
  Lemma grows_refl t : grows t t.
  Proof. apply ext_grows, ext_refl. Qed.
  Lemma grows_trans a b c : grows a b -> grows b c -> grows a c.
  Proof.
    intros [(l1&E1) (l2&E2) (l3&E3) (l4&E4) A] [(m1&F1) (m2&F2) (m3&F3) (m4&F4) B]. split.
    - exists (l1 ++ m1). rewrite F1, E1. now rewrite app_assoc.
    - exists (l2 ++ m2). rewrite F2, E2. now rewrite app_assoc.
    - exists (l3 ++ m3). rewrite F3, E3. now rewrite app_assoc.
    - exists (l4 ++ m4). rewrite F4, E4. now rewrite app_assoc.
    - intros k m Hk Hm. rewrite B; auto.
      + unfold t_kk in *. rewrite E2, app_length. lia.
      + unfold t_mm in *. rewrite E1, app_length. lia.
  Qed.

  Lemma addSpecies_inv t sp : inv t -> NoDup (map fst (sp_comp sp)) ->
    inv (snd (addSpecies db t sp)) /\ grows t (snd (addSpecies db t sp)).
  Proof.
    intros I Hnd. unfold addSpecies. destruct (0 <? t_locks t)%nat; [split; [exact I|apply grows_refl]|].
    destruct (t_species t (sp_name sp)) eqn:Hsp; [split; [exact I|apply grows_refl]|].
    pose proof (comp_loop_spec (sp_comp sp) t zeros I Hnd) as (I1&X1&HL).
    destruct (comp_loop db t (sp_comp sp) zeros) as [[| |comp] t1]; simpl in I1, X1, HL; simpl snd;
      try (split; [exact I1|now apply ext_grows]).
    destruct (HL comp eq_refl) as (HK&HC). clear HL.
    pose proof (charge_step_spec t1 (sp_charge sp) comp I1) as (I2&X2&HS).
    destruct (charge_step db t1 (sp_charge sp) comp) as [[comp2|] t2]; simpl snd in X2; assert (ext t t2) as X by (eapply ext_trans; eauto);
      simpl in I2, X2, HS; simpl snd; try (split; [exact I2|now apply ext_grows]).
    destruct (HS comp2 eq_refl) as (HE&HC2). clear HS.
    destruct (x_elems _ _ X2) as (lx&Elx).
    assert (t_species t2 (sp_name sp) = None) as Hsp2 by (rewrite (x_species _ _ X); auto).
    assert (~ In (sp_name sp) (t_names t2)) as Hnin.
    { intros Hin. apply In_nth_error in Hin. destruct Hin as (k&Hk). destruct (i_sp _ I2 _ _ Hk) as (sp'&E&_). congruence. }
    set (t' := mk_tab _ _ _ _ _ _ _ _ _ _ _ _).
    assert (t_kk t' = S (t_kk t2)) as Ekk by (unfold t', t_kk; simpl; rewrite app_length; simpl; lia).
    assert (t_mm t' = t_mm t2) as Emm by reflexivity.
    assert (forall k m, (k < t_kk t2)%nat -> (m < t_mm t2)%nat -> t_comp t' (t_mm t2 * k + m)%nat = t_comp t2 (t_mm t2 * k + m)%nat) as HO.
    { intros k m Hk Hm. unfold t'. simpl. rewrite push_comp_val, (i_size _ I2).
      rewrite (proj2 (Nat.leb_gt _ _)); [reflexivity|]. nia. }
    assert (forall m, (m < t_mm t2)%nat -> t_comp t' (t_mm t2 * t_kk t2 + m)%nat = comp2 m) as HN.
    { intros m Hm. unfold t'. simpl. rewrite push_comp_val, (i_size _ I2).
      rewrite (Nat.mul_comm (t_kk t2)).
      rewrite (proj2 (Nat.leb_le _ _)) by lia. rewrite (proj2 (Nat.ltb_lt _ _)) by lia. simpl. f_equal. lia. }
    split; [|apply grows_trans with t2; [now apply ext_grows|]; split;
      [apply ex_nil|exists [sp_name sp]; reflexivity|eexists; reflexivity|eexists; reflexivity|exact HO]].
    pose proof I2 as I2'. destruct I2'. split.
    - exact i_elems0.
    - unfold t'. simpl. now apply NoDup_snoc.
    - intros k nm Hk. unfold t' in Hk. simpl in Hk. rewrite nth_error_snoc in Hk. unfold t'. simpl. unfold mput.
      destruct (Nat.eqb_spec k (length (t_names t2))).
      + injection Hk as <-. rewrite String.eqb_refl. eauto.
      + destruct (String.eqb_spec nm (sp_name sp)) as [E|E]; [|eauto].
        subst nm. apply nth_error_In in Hk. tauto.
    - intros nm s0 H. unfold t' in *. simpl in *. unfold mput in H. rewrite in_app_iff.
      destruct (String.eqb_spec nm (sp_name sp)); [subst; right; now left|left; eauto].
    - intros k nm Hk. unfold t' in *. simpl in *. unfold mput. rewrite nth_error_snoc in Hk.
      destruct (Nat.eqb_spec k (length (t_names t2))).
      + injection Hk as <-. rewrite String.eqb_refl. subst. reflexivity.
      + destruct (String.eqb_spec nm (sp_name sp)) as [E|E]; [|eauto].
        subst nm. apply nth_error_In in Hk. tauto.
    - intros s k. rewrite Ekk. unfold t'. simpl. unfold mput. destruct (String.eqb s (sp_name sp)).
      + intros H. injection H as <-. lia.
      + intros H. apply i_lt0 in H. lia.
    - intros s. unfold t'. simpl. unfold mput, same_lower. rewrite same_lower_snoc. simpl.
      rewrite i_low0. destruct (String.eqb_spec (to_lower s) (to_lower (sp_name sp))) as [E|E].
      + rewrite E, String.eqb_refl. rewrite lower_of_snoc. unfold t_kk.
        assert (forall k l, same_lower_from k l s = same_lower_from k l (sp_name sp)) as ES.
        { intros k l. revert k. induction l as [|a l IH]; intros k; simpl; auto. rewrite E. now rewrite !IH. }
        rewrite ES. reflexivity.
      + destruct (String.eqb_spec (to_lower (sp_name sp)) (to_lower s)); [congruence|].
        rewrite app_nil_r. apply i_low0.
    - rewrite Ekk, Emm. unfold t'. simpl. rewrite i_size0. lia.
    - rewrite Ekk. unfold t'. simpl. rewrite app_length. simpl. lia.
    - rewrite Ekk. unfold t'. simpl. rewrite app_length. simpl. lia.
    - intros nm s0. unfold t'. simpl. unfold mput. destruct (String.eqb_spec nm (sp_name sp)) as [E|E].
      + intros H. injection H as <-. split; auto. intros e He. rewrite Elx, map_app, in_app_iff. left. auto.
      + intros H. eauto.
    - intros k Hk. rewrite Ekk in Hk. unfold t'. simpl.
      destruct (Nat.eq_dec k (t_kk t2)) as [E|E].
      + subst k. rewrite <- i_lch0. rewrite app_nth2, Nat.sub_diag by lia. simpl. auto.
      + rewrite app_nth1 by lia. intros H. apply (i_E0 k); auto. lia.
    - intros k nm s0 m e w Hk Hs Hm. rewrite Emm.
      assert (m < t_mm t2)%nat as Hmm by (apply nth_error_Some; unfold t' in Hm; simpl in Hm; congruence).
      unfold t' in Hk, Hs, Hm. simpl in Hk, Hs, Hm. rewrite nth_error_snoc in Hk. unfold mput in Hs.
      destruct (Nat.eqb_spec k (length (t_names t2))) as [Ek|Ek].
      + injection Hk as <-. rewrite String.eqb_refl in Hs. injection Hs as <-. subst k. fold (t_kk t2). rewrite HN by auto.
        unfold t'. simpl t_charge. rewrite <- i_lch0. rewrite app_nth2, Nat.sub_diag by lia. simpl nth.
        destruct (HC2 m e w Hm) as (P1&P2).
        unfold atoms_ok. destruct (String.eqb_spec e "E") as [EE|EE].
        * destruct (P2 EE) as (Q1&Q2&Q3&Q4&Q5).
          destruct (Nat.lt_ge_cases m (t_mm t1)) as [Lm|Gm].
          { assert (nth_error (t_elems t1) m = Some (e, w)) as Hm1.
            { rewrite Elx in Hm. rewrite nth_error_app1 in Hm by exact Lm. exact Hm. }
            assert (comp m = amount (sp_comp sp) e) as Ec.
            { rewrite (HC m e w Hm1). destruct (in_dec _ _ _); auto. unfold zeros. symmetry. now apply amount_notin. }
            rewrite Ec in *. repeat split; auto. }
          { assert (amount (sp_comp sp) e = 0) as A0.
            { apply amount_notin. intros Hin. apply HK in Hin.
              apply In_nth_error in Hin. destruct Hin as (j&Hj). rewrite nth_error_map in Hj.
              destruct (nth_error (t_elems t1) j) as [[e' w']|] eqn:Ej; simpl in Hj; [|discriminate]. injection Hj as ->.
              assert (nth_error (t_elems t2) j = Some (e, w')) as Hj2.
              { rewrite Elx. rewrite nth_error_app1; auto. apply nth_error_Some. congruence. }
              pose proof (find_elem_nth _ _ _ _ i_elems0 Hj2) as F1. pose proof (find_elem_nth _ _ _ _ i_elems0 Hm) as F2.
              assert (j < t_mm t1)%nat by (apply nth_error_Some; congruence).
              assert (j = m) by congruence. lia. }
            rewrite A0. specialize (Q5 Gm). rewrite Q5. repeat split; intros; auto; try lra.
            replace (sp_charge sp + - sp_charge sp) with 0 by lra. rewrite Rabs_R0. lra. }
        * destruct (P1 EE) as (P1a&Lm). rewrite P1a.
          assert (nth_error (t_elems t1) m = Some (e, w)) as Hm1.
          { rewrite Elx in Hm. rewrite nth_error_app1 in Hm by exact Lm. exact Hm. }
          rewrite (HC m e w Hm1). destruct (in_dec _ _ _); auto. unfold zeros. symmetry. now apply amount_notin.
      + fold (t_kk t2) in Ek.
        assert (k < t_kk t2)%nat as Hkk by (apply nth_error_Some; congruence).
        rewrite HO by auto. unfold t'. simpl t_charge. rewrite app_nth1 by lia.
        destruct (String.eqb_spec nm (sp_name sp)) as [E|E].
        { subst nm. apply nth_error_In in Hk. tauto. }
        eapply i_atoms0; eauto.
    - intros k Hk. rewrite Ekk in Hk. rewrite Emm. unfold t' at 1. simpl t_mw.
      destruct (Nat.eq_dec k (t_kk t2)) as [E|E].
      + subst k. rewrite <- i_lmw0. rewrite app_nth2, Nat.sub_diag by lia. simpl nth. f_equal.
        rewrite weight_loop_val. rewrite Rplus_0_l. simpl t_elems. apply sum_n_ext. intros m Hm. rewrite i_lmw0.
        rewrite HN by exact Hm. reflexivity.
      + rewrite app_nth1 by lia. rewrite i_mw0 by lia. f_equal. apply sum_n_ext. intros m Hm. rewrite HO by (auto; lia). reflexivity.
  Qed.

  Lemma comp_eqb_true a : forall b, comp_eqb a b = true -> a = b.
  Proof.
    induction a as [|[x u] a IH]; intros [|[y v] b]; simpl; intros H; try discriminate; auto.
    apply andb_true_iff in H. destruct H as (H1&H2). apply andb_true_iff in H1. destruct H1 as (H1&H3).
    destruct (String.eqb_spec x y) as [E|]; [|discriminate]. destruct (Req_EM_T u v) as [E'|]; [|discriminate].
    subst. f_equal. auto.
  Qed.

  Lemma speciesIndex_lt t s k : inv t -> speciesIndex t s = Ok (Some k) -> (k < t_kk t)%nat.
  Proof.
    intros I. unfold speciesIndex. destruct (t_index t s) as [j|] eqn:E.
    - intros H. injection H as <-. eapply i_lt; eauto.
    - destruct (negb (t_case t)); [|discriminate]. unfold findSpeciesLower. rewrite (i_low _ I).
      destruct (same_lower (t_names t) s) as [|a [|b l]] eqn:L; simpl; try discriminate.
      intros H. injection H as <-.
      assert (forall l i j, In j (same_lower_from i l s) -> (j < i + length l)%nat) as G.
      { clear. induction l as [|n l IH]; intros i j; simpl; [tauto|].
        destruct (String.eqb _ _); simpl; intros H.
        - destruct H as [<-|H]; [lia|]. apply IH in H. lia.
        - apply IH in H. lia. }
      specialize (G (t_names t) 0%nat a). unfold t_kk. simpl in G. apply G. fold same_lower. rewrite L. now left.
  Qed.

  Lemma tstep_inv t o : inv t -> wf_op o -> inv (tstep db t o) /\ grows t (tstep db t o).
  Proof.
    intros I W. destruct o as [s w|sp|n a|k sp| | |b|u]; simpl.
    - destruct (addElement_inv t s w I) as (A&B). split; [exact A|now apply ext_grows].
    - now apply addSpecies_inv.
    - unfold addSpeciesAlias. destruct (speciesIndex t a) as [[j|]| | |] eqn:Ea; try (split; [exact I|apply grows_refl]).
      destruct (speciesIndex t n) as [[j|]| | |] eqn:En; try (split; [exact I|apply grows_refl]).
      cbn [snd]. split.
      + assert (t_index t a = None) as Na by (unfold speciesIndex in Ea; destruct (t_index t a); congruence).
        pose proof (speciesIndex_lt _ _ _ I En) as Hj.
        destruct I. split; auto.
        * intros k nm Hk. cbn in *. unfold mput. destruct (String.eqb_spec nm a) as [E|E]; [|eauto].
          subst. apply i_idx0 in Hk. congruence.
        * intros s k. cbn. unfold mput. destruct (String.eqb s a); [|apply i_lt0].
          intros H. injection H as <-. exact Hj.
      + split; try (eexists; symmetry; apply app_nil_r); auto.
    - unfold modifySpecies. destruct (nth_error (t_names t) k) as [nm|] eqn:Ek; [|split; [exact I|apply grows_refl]].
      destruct (String.eqb_spec nm (sp_name sp)) as [En|En]; simpl negb; cbv iota; [|split; [exact I|apply grows_refl]].
      destruct (t_species t (sp_name sp)) as [old|] eqn:Eo; [|split; [exact I|apply grows_refl]].
      destruct (comp_eqb (sp_comp sp) (sp_comp old)) eqn:Ec; simpl negb; cbv iota; [|split; [exact I|apply grows_refl]].
      apply comp_eqb_true in Ec. cbn [snd]. split.
      + destruct I. split; auto.
        * intros j nm' Hj. cbn in *. unfold mput. destruct (String.eqb_spec nm' (sp_name sp)); [subst; eauto|eauto].
        * intros nm' sp'. cbn. unfold mput. destruct (String.eqb_spec nm' (sp_name sp)); [|eauto].
          intros _. subst nm'. subst nm. eapply nth_error_In; eauto.
        * intros nm' sp'. cbn. unfold mput. destruct (String.eqb_spec nm' (sp_name sp)); [|eauto].
          intros H. injection H as <-. rewrite Ec. eauto.
        * intros j nm' sp' m e w Hj. cbn in *. unfold mput. destruct (String.eqb_spec nm' (sp_name sp)); [|eauto].
          intros H. injection H as <-. rewrite Ec. subst. eauto.
      + split; try (eexists; symmetry; apply app_nil_r); auto.
    - split; [now apply inv_flags|]. split; try (eexists; symmetry; apply app_nil_r); auto.
    - destruct (t_locks t).
      + split; [exact I|apply grows_refl].
      + split; [now apply inv_flags|]. split; try (eexists; symmetry; apply app_nil_r); auto.
    - split; [now apply inv_flags|]. split; try (eexists; symmetry; apply app_nil_r); auto.
    - split; [now apply inv_flags|]. split; try (eexists; symmetry; apply app_nil_r); auto.
  Qed.

  Lemma trun_inv ops : forall t, inv t -> Forall wf_op ops -> inv (trun db t ops) /\ grows t (trun db t ops).
  Proof.
    induction ops as [|o ops IH]; intros t I W; simpl.
    - split; [exact I|apply grows_refl].
    - inversion W as [|? ? W1 W2]; subst. destruct (tstep_inv t o I W1) as (A&B).
      destruct (IH _ A W2) as (C&D). split; auto. eapply grows_trans; eauto.
  Qed.

  (** ** Which strings the index knows *)
  Lemma addSpecies_maps t sp :
    let t' := snd (addSpecies db t sp) in
    (t_index t' = t_index t /\ t_names t' = t_names t /\ t_species t' = t_species t \/
     fst (addSpecies db t sp) = Ok true /\ t_index t' = mput (t_index t) (sp_name sp) (t_kk t) /\
       t_names t' = t_names t ++ [sp_name sp] /\ t_species t' = mput (t_species t) (sp_name sp) sp /\
       t_charge t' = t_charge t ++ [sp_charge sp]) /\
    t_locks t' = t_locks t /\ t_case t' = t_case t /\ t_undef t' = t_undef t.
  Proof.
    assert (forall t s w, let t' := snd (addElement db t s w) in
      t_index t' = t_index t /\ t_names t' = t_names t /\ t_species t' = t_species t /\ t_charge t' = t_charge t /\
      t_locks t' = t_locks t /\ t_case t' = t_case t /\ t_undef t' = t_undef t) as AE.
    { clear. intros t s w t'. unfold t'. destruct (addElement_cases t s w) as [(E&_)|(_&v&E)]; rewrite E; simpl; repeat split. }
    assert (forall l t c, let t' := snd (comp_loop db t l c) in
      t_index t' = t_index t /\ t_names t' = t_names t /\ t_species t' = t_species t /\ t_charge t' = t_charge t /\
      t_locks t' = t_locks t /\ t_case t' = t_case t /\ t_undef t' = t_undef t) as CL.
    { clear - AE. induction l as [|[e st] l IH]; intros t c; simpl; [repeat split|].
      destruct (elementIndex t e); [apply IH|]. destruct (t_undef t) eqn:Eu; simpl; try (rewrite Eu; repeat split; fail).
      pose proof (AE t e (-12345)) as A. cbv zeta in A.
      destruct (addElement db t e (-12345)) as [[m| | |] t1]; simpl in *; try (rewrite <- Eu; exact A).
      destruct (elementIndex t1 e).
      - specialize (IH t1 (upd c n st)). cbv zeta in IH. destruct A as (A1&A2&A3&A4&A5&A6&A7).
        rewrite A1, A2, A3, A4, A5, A6, A7 in IH. rewrite <- Eu. exact IH.
      - rewrite <- Eu. exact A. }
    assert (forall t ch c, let t' := snd (charge_step db t ch c) in
      t_index t' = t_index t /\ t_names t' = t_names t /\ t_species t' = t_species t /\ t_charge t' = t_charge t /\
      t_locks t' = t_locks t /\ t_case t' = t_case t /\ t_undef t' = t_undef t) as CS.
    { clear - AE. intros t ch c. unfold charge_step. destruct (Req_EM_T ch 0); [repeat split|].
      destruct (elementIndex t "E"); simpl.
      - destruct (Rlt_dec _ _); simpl; [|repeat split]. destruct (Req_EM_T _ _); repeat split.
      - pose proof (AE t "E"%string (545/1000000)) as A. cbv zeta in A. destruct (addElement _ _ _ _) as [[m| | |] t1]; exact A. }
    cbv zeta. unfold addSpecies. destruct (0 <? t_locks t)%nat; [simpl; split; [left|]; repeat split|].
    destruct (t_species t (sp_name sp)); [simpl; split; [left|]; repeat split|].
    pose proof (CL (sp_comp sp) t zeros) as C1. cbv zeta in C1.
    destruct (comp_loop db t (sp_comp sp) zeros) as [[| |comp] t1]; simpl in C1;
      destruct C1 as (A1&A2&A3&A4&A5&A6&A7); [simpl; split; [left|]; repeat split; congruence| simpl; split; [left|]; repeat split; congruence|].
    pose proof (CS t1 (sp_charge sp) comp) as C2. cbv zeta in C2.
    destruct (charge_step db t1 (sp_charge sp) comp) as [[comp2|] t2]; simpl in C2;
      destruct C2 as (B1&B2&B3&B4&B5&B6&B7); [|simpl; split; [left|]; repeat split; congruence].
    cbn. split; [right|repeat split; congruence]. unfold t_kk. rewrite B1, B2, B3, B4, A1, A2, A3, A4. repeat split.
  Qed.

  Lemma addElement_flags t s w : let t' := snd (addElement db t s w) in
      t_index t' = t_index t /\ t_names t' = t_names t /\ t_species t' = t_species t /\ t_charge t' = t_charge t /\
      t_locks t' = t_locks t /\ t_case t' = t_case t /\ t_undef t' = t_undef t.
  Proof. cbv zeta. destruct (addElement_cases t s w) as [(E&_)|(_&v&E)]; rewrite E; simpl; repeat split. Qed.

  Lemma trun_known ops : forall t,
    forall s, t_index (trun db t ops) s <> None ->
      In s (t_names (trun db t ops)) \/ (exists n, In (AddAlias n s) ops) \/ (t_index t s <> None /\ ~ In s (t_names (trun db t ops))).
  Proof.
    induction ops as [|o ops IH]; intros t s H; simpl in *.
    - destruct (in_dec string_dec s (t_names t)); [left|right; right]; auto.
    - destruct (IH _ _ H) as [A|[(n&A)|(A&N)]]; [left; auto|right; left; eauto|].
      destruct o as [s0 w|sp|n a|k sp| | |b|u]; simpl in A, N |- *; try (right; right; split; assumption).
      + destruct (addElement_flags t s0 w) as (E&_). rewrite E in A. auto.
      + pose proof (addSpecies_maps t sp) as M. cbv zeta in M.
        destruct M as ([(E1&E2&E3)|(_&E1&E2&E3&E4)]&_); rewrite E1 in A; auto.
        unfold mput in A. destruct (String.eqb_spec s (sp_name sp)) as [E|E]; auto.
        exfalso. apply N. clear - E E2.
        assert (forall ops t, In s (t_names t) -> In s (t_names (trun db t ops))) as G.
        { clear. induction ops as [|o ops IH]; intros t H; simpl; auto. apply IH.
          destruct o as [s0 w|sp|n a|k sp| | |b|u]; simpl; auto.
          - destruct (addElement_flags t s0 w) as (_&E&_). now rewrite E.
          - pose proof (addSpecies_maps t sp) as M. cbv zeta in M.
            destruct M as ([(_&E2&_)|(_&_&E2&_)]&_); rewrite E2; auto. rewrite in_app_iff. auto.
          - unfold addSpeciesAlias. destruct (speciesIndex t a) as [[j|]| | |]; auto. destruct (speciesIndex t n) as [[j|]| | |]; auto.
          - unfold modifySpecies. destruct (nth_error _ _); auto. destruct (negb _); auto. destruct (t_species _ _); auto. destruct (negb _); auto.
          - destruct (t_locks t); auto. }
        apply G. rewrite E2, in_app_iff. right. left. auto.
      + unfold addSpeciesAlias in A. destruct (speciesIndex t a) as [[j|]| | |]; auto. destruct (speciesIndex t n) as [[j|]| | |]; auto.
        cbn in A. unfold mput in A. destruct (String.eqb_spec s a); auto. subst. right. left. eauto.
      + unfold modifySpecies in A. destruct (nth_error _ _); auto. destruct (negb _); auto. destruct (t_species _ _); auto. destruct (negb _); auto.
      + destruct (t_locks t); auto.
  Qed.

  (** ** An index, once given, stays *)
  Definition renames (s : string) (o : top) : Prop :=
    match o with AddSpecies sp => sp_name sp = s | _ => False end.
  Lemma trun_index_stable ops s k : forall t, (forall o, In o ops -> ~ renames s o) ->
    t_index t s = Some k -> t_index (trun db t ops) s = Some k.
  Proof.
    induction ops as [|o ops IH]; intros t Hr H; simpl in *; auto.
    apply IH; [intros o0 Ho0; apply Hr; now right|]. assert (~ renames s o) as R by auto.
    destruct o as [s0 w|sp|n a|j sp| | |b|u]; simpl; auto.
    - destruct (addElement_flags t s0 w) as (E&_). now rewrite E.
    - pose proof (addSpecies_maps t sp) as M. cbv zeta in M. destruct M as ([(E&_)|(_&E&_)]&_); rewrite E; auto.
      unfold mput. simpl in R. destruct (String.eqb_spec s (sp_name sp)); [subst; tauto|auto].
    - unfold addSpeciesAlias. destruct (speciesIndex t a) as [[i|]| | |] eqn:Ea; auto. destruct (speciesIndex t n) as [[i|]| | |]; auto.
      cbn. unfold mput. destruct (String.eqb_spec s a); auto. subst. unfold speciesIndex in Ea. rewrite H in Ea. discriminate.
    - unfold modifySpecies. destruct (nth_error _ _); auto. destruct (negb _); auto. destruct (t_species _ _); auto. destruct (negb _); auto.
    - destruct (t_locks t); auto.
  Qed.
End DB.
