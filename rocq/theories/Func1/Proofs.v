(** Proof that derivative functors compute derivatives. *)
From Coquelicot Require Import Coquelicot.
From Coq Require Import Reals ZArith List Bool Lra Lia Sorted.
From Verif Require Import Base.Outcome Base.Fp Base.RSum Func1.Model Func1.Spec Func1.Algebra.
Import ListNotations.
Open Scope R_scope.

Definition defd (f : fn) (s : R) : Prop := exists x, eval f s = V x.
Definition good (f : fn) (t : R) : Prop :=
  exists d v, derivative f = Ok d /\ eval d t = V v /\ locally t (defd f) /\ is_derive (value f) t v.

Lemma value_eq f t x : eval f t = V x -> value f t = x.
Proof. unfold value. now intros ->. Qed.
Lemma defd_value f t : defd f t -> eval f t = V (value f t).
Proof. intros [x E]. now rewrite (value_eq _ _ _ E). Qed.

(** To show [good]: a smooth function that agrees with [eval] near [t]. *)
Lemma good_intro f t d v (h : R -> R) :
  derivative f = Ok d -> eval d t = V v -> locally t (fun s => eval f s = V (h s)) -> is_derive h t v -> good f t.
Proof.
  intros Hd Ev L D. exists d, v. split; [exact Hd|]. split; [exact Ev|]. split.
  - revert L. apply filter_imp. intros s E. now exists (h s).
  - apply (is_derive_ext_loc h (value f) t v); [|exact D]. refine (filter_imp _ _ _ L). intros s E. symmetry. now apply value_eq.
Qed.
Lemma locally_lt t a : a < t -> locally t (fun s => a < s).
Proof. apply open_gt. Qed.
Lemma locally_gt t a : t < a -> locally t (fun s => s < a).
Proof. apply open_lt. Qed.

Lemma is_derive_powerRZ z t : t <> 0 -> is_derive (fun s => powerRZ s z) t (IZR z * powerRZ t (z - 1)).
Proof.
  intros N.
  assert (Hp : forall n, is_derive (fun s => powerRZ s (Z.of_nat n)) t (INR n * powerRZ t (Z.of_nat n - 1))).
  { intros n. apply (is_derive_ext (fun s => s ^ n)); [intros s; apply pow_powerRZ|].
    replace (INR n * powerRZ t (Z.of_nat n - 1)) with (INR n * 1 * t ^ pred n).
    - apply is_derive_Reals. rewrite Rmult_1_r. apply derivable_pt_lim_pow.
    - rewrite Rmult_1_r. destruct n as [|n]. { simpl. ring. }
      f_equal. rewrite pow_powerRZ. f_equal. lia. }
  destruct (Z_le_gt_dec 0 z) as [H|H].
  - rewrite <- (Z2Nat.id z) by exact H. rewrite <- INR_IZR_INZ. apply Hp.
  - set (n := Z.to_nat (- z)). assert (E : z = (- Z.of_nat n)%Z) by (unfold n; rewrite Z2Nat.id; lia).
    rewrite E. apply (is_derive_ext (fun s => / powerRZ s (Z.of_nat n))); [intros s; symmetry; apply powerRZ_neg'|].
    replace (IZR (- Z.of_nat n) * powerRZ t (- Z.of_nat n - 1))
      with (- (INR n * powerRZ t (Z.of_nat n - 1)) / (powerRZ t (Z.of_nat n)) ^ 2).
    + apply is_derive_inv; [apply Hp|]. apply powerRZ_NOR. exact N.
    + rewrite opp_IZR, <- INR_IZR_INZ. unfold Z.sub. rewrite !powerRZ_add by exact N.
      rewrite (powerRZ_neg' t (Z.of_nat n)).
      assert (powerRZ t (Z.of_nat n) <> 0) by (apply powerRZ_NOR; exact N). field. auto.
Qed.
Lemma is_derive_Rpower c t : 0 < t -> is_derive (fun s => Rpower s c) t (c * Rpower t (c - 1)).
Proof.
  intros H. apply is_derive_Reals. apply derivable_pt_lim_power. exact H.
Qed.

Lemma good_pow c t : regular (FPow c) t -> good (FPow c) t.
Proof.
  intros Hr. cbn [regular] in Hr.
  (* the derivative functor evaluates to c t^(c-1) whenever that power is defined *)
  assert (E : forall u, rpow t (c - 1) = V u -> exists d, derivative (FPow c) = Ok d /\ eval d t = V (c * u)).
  { intros u Hu. cbn [derivative]. destruct (reqb c 0) eqn:C0.
    { apply reqb_true in C0. subst. eexists. split; [reflexivity|]. simpl. f_equal. ring. }
    destruct (reqb c 1) eqn:C1.
    { apply reqb_true in C1. subst. eexists. split; [reflexivity|]. simpl. f_equal.
      replace (1 - 1) with 0 in Hu by ring.
      destruct (Rtotal_order t 0) as [K|[->|K]].
      - rewrite (rpow_neg t 0) in Hu by exact K. inversion Hu. simpl. ring.
      - rewrite rpow_zero_zero in Hu. inversion Hu. ring.
      - rewrite rpow_pos in Hu by exact K. inversion Hu. rewrite Rpower_O by exact K. ring. }
    eexists. split; [reflexivity|]. erewrite newTimes_ok; [| |reflexivity]; [|exact Hu]. f_equal. ring. }
  destruct (Rlt_dec 0 t) as [P|P].
  { destruct (E (Rpower t (c - 1))) as [d [Hd He]]. { now apply rpow_pos. }
    eapply good_intro with (h := fun s => Rpower s c); eauto.
    - generalize (locally_lt t 0 P). apply filter_imp. intros s Hs. cbn [eval]. now apply rpow_pos.
    - now apply is_derive_Rpower. }
  assert (Z : t <> 0 -> (exists z, c = IZR z) -> good (FPow c) t).
  { intros N [z ->]. assert (K : t < 0) by lra.
    destruct (E (powerRZ t (z - 1))) as [d [Hd He]]. { rewrite <- minus_IZR. now apply rpow_neg. }
    eapply good_intro with (h := fun s => powerRZ s z); eauto.
    - generalize (locally_gt t 0 K). apply filter_imp. intros s Hs. cbn [eval]. now apply rpow_neg.
    - now apply is_derive_powerRZ. }
  destruct Hr as [Hr|[[n ->]|[N Hz]]]; [lra| |now apply Z].
  destruct (Req_dec t 0) as [->|N].
  2: { apply Z; [exact N|]. exists (Z.of_nat n). apply INR_IZR_INZ. }
  assert (Q : forall s, rpow s (INR n) = V (s ^ n)).
  { intros s. destruct (Rtotal_order s 0) as [K|[->|K]].
    - rewrite INR_IZR_INZ, rpow_neg by exact K. f_equal. symmetry. apply pow_powerRZ.
    - destruct n as [|n]. { apply rpow_zero_zero. }
      rewrite rpow_zero_pos by (apply lt_0_INR; lia). f_equal. simpl. ring.
    - rewrite rpow_pos by exact K. f_equal. now apply Rpower_pow. }
  destruct n as [|n].
  { eapply good_intro with (h := fun s => 1) (d := FConst 0) (v := 0); [|reflexivity| |].
    - cbn [derivative]. simpl. rewrite (proj2 (reqb_true 0 0) eq_refl). reflexivity.
    - apply filter_forall. intros s. cbn [eval]. apply (Q s).
    - apply (is_derive_const (K := R_AbsRing) (V := R_NormedModule) 1 0). }
  destruct (E (0 ^ n)) as [d [Hd He]].
  { replace (INR (S n) - 1) with (INR n) by (rewrite S_INR; ring).
    destruct n as [|n]; [apply rpow_zero_zero|]. rewrite rpow_zero_pos by (apply lt_0_INR; lia). f_equal. simpl. ring. }
  eapply good_intro with (h := fun s => s ^ S n); eauto.
  - apply filter_forall. intros s. cbn [eval]. apply Q.
  - apply is_derive_Reals. apply (derivable_pt_lim_pow 0 (S n)).
Qed.

(** Tables. *)
Lemma segment_found l1 : forall a b l2 t, StronglySorted Rle (map fst (l1 ++ a :: b :: l2)) -> fst a < t -> t <= fst b ->
  segment t (l1 ++ a :: b :: l2) = Some (a, b).
Proof.
  induction l1 as [|x l1 IH]; intros a b l2 t S La Lb.
  - cbn [app segment]. destruct (rltb (fst b) t) eqn:E; [apply rltb_true in E; lra|reflexivity].
  - specialize (IH a b l2 t). cbn [app] in *. inversion S as [|u v S' F]; subst. specialize (IH S' La Lb).
    assert (forall y l, l1 ++ a :: b :: l2 = y :: l -> fst y < t) as Hy.
    { intros y l Hl. destruct l1 as [|z l1]; cbn [app] in Hl; inversion Hl; subst; [exact La|].
      cbn [app map] in S'. inversion S' as [|u' v' S'' F']; subst.
      rewrite Forall_forall in F'. assert (fst y <= fst a); [|lra]. apply F'. rewrite map_app. apply in_or_app. right. now left. }
    destruct (l1 ++ a :: b :: l2) as [|y l] eqn:El; [discriminate|]. cbn [segment].
    specialize (Hy y l eq_refl). apply rltb_true in Hy. rewrite Hy. exact IH.
Qed.
Lemma sorted_app_le l1 : forall l2 x y, StronglySorted Rle (l1 ++ l2) -> In x l1 -> In y l2 -> x <= y.
Proof.
  induction l1 as [|z l1 IH]; intros l2 x y S Hx Hy; [contradiction|]. inversion S; subst.
  destruct Hx as [->|Hx]; [|eapply IH; eauto]. rewrite Forall_forall in H2. apply H2. apply in_or_app. now right.
Qed.
Lemma sorted_first (tab : list (R * option R)) t0 f0 l : tab = (t0, f0) :: l -> StronglySorted Rle (map fst tab) ->
  forall p, In p tab -> t0 <= fst p.
Proof.
  intros -> S p [<-|H]; [simpl; lra|]. inversion S; subst. rewrite Forall_forall in H3. apply H3. now apply in_map.
Qed.
Lemma last_app_single {A} (l : list A) x d : last (l ++ [x]) d = x.
Proof. induction l as [|a l IH]; [reflexivity|]. cbn [app last]. destruct (l ++ [x]) eqn:E; [destruct l; discriminate|exact IH]. Qed.
Lemma last_in {A} (l : list A) d : l <> [] -> In (last l d) l.
Proof.
  induction l as [|a l IH]; [congruence|]. intros _. destruct l as [|b l]; [now left|]. right. apply IH. discriminate.
Qed.
Lemma last_app {A} (l1 l2 : list A) d : l2 <> [] -> last (l1 ++ l2) d = last l2 d.
Proof.
  intros N. induction l1 as [|a l1 IH]; [reflexivity|]. cbn [app last].
  destruct (l1 ++ l2) eqn:E; [destruct l1; [cbn in E; congruence|discriminate]|exact IH].
Qed.
Lemma sorted_last (l : list (R * option R)) d : StronglySorted Rle (map fst l) -> forall p, In p l -> fst p <= fst (last l d).
Proof.
  induction l as [|a l IH]; intros S p H; [contradiction|]. inversion S; subst.
  destruct l as [|b l]. { destruct H as [->|[]]. simpl. lra. }
  destruct H as [<-|H]; [|now apply IH].
  rewrite Forall_forall in H3. apply H3. apply in_map. change (last (a :: b :: l) d) with (last (b :: l) d). apply last_in. discriminate.
Qed.

Lemma tab_inside lin l1 l2 ta fa tb fb t : StronglySorted Rle (map fst (l1 ++ (ta, fa) :: (tb, fb) :: l2)) -> ta < t < tb ->
  tab_eval lin (l1 ++ (ta, fa) :: (tb, fb) :: l2) t =
  if lin then ev2 (fun a b => bind (rdiv (b - a) (tb - ta)) (fun d => V (a + d * (t - ta)))) (ofo fa) (ofo fb) else ofo fa.
Proof.
  intros S [La Lb]. set (tab := l1 ++ (ta, fa) :: (tb, fb) :: l2) in *.
  assert (In (ta, fa) tab) as Ia by (unfold tab; apply in_or_app; right; now left).
  assert (In (tb, fb) tab) as Ib by (unfold tab; apply in_or_app; right; right; now left).
  unfold tab_eval. destruct tab as [|[t0 f0] r] eqn:E; [contradiction|].
  pose proof (sorted_first _ t0 f0 r eq_refl S _ Ia) as H0. simpl in H0.
  pose proof (sorted_last _ (t0, f0) S _ Ib) as Hn. simpl fst in Hn at 1.
  destruct (last ((t0, f0) :: r) (t0, f0)) as [tn fnl]. simpl in Hn.
  assert (rltb t0 t = true) as -> by (apply rltb_true; lra).
  assert (rltb t tn = true) as -> by (apply rltb_true; lra). cbn [negb].
  rewrite <- E. unfold tab. rewrite (segment_found l1 (ta, fa) (tb, fb) l2 t); [|rewrite <- E in S; exact S|simpl; lra|simpl; lra].
  reflexivity.
Qed.
Lemma tab_after lin l tn x t : StronglySorted Rle (map fst (l ++ [(tn, x)])) -> tn < t -> tab_eval lin (l ++ [(tn, x)]) t = ofo x.
Proof.
  intros S L. unfold tab_eval. destruct (l ++ [(tn, x)]) as [|[t0 f0] r] eqn:E; [destruct l; discriminate|].
  rewrite <- E, last_app_single. rewrite <- E in S.
  assert (In (tn, x) (l ++ [(tn, x)])) as I by (apply in_or_app; right; now left).
  pose proof (sorted_first _ t0 f0 r E S _ I) as H0. simpl in H0.
  assert (rltb t0 t = true) as -> by (apply rltb_true; lra).
  assert (rltb t tn = false) as -> by (apply rltb_false; lra). reflexivity.
Qed.
Lemma tab_before lin t0 x l t : t < t0 -> tab_eval lin ((t0, x) :: l) t = ofo x.
Proof.
  intros L. unfold tab_eval. destruct (last _ _) as [tn fnl].
  assert (rltb t0 t = false) as -> by (apply rltb_false; lra). reflexivity.
Qed.
Lemma tab_zero t0 tn t : t0 <= tn -> tab_eval false [(t0, Some 0); (tn, Some 0)] t = V 0.
Proof.
  intros L. unfold tab_eval. cbn [last]. destruct (rltb t0 t) eqn:E1; [|reflexivity]. destruct (rltb t tn) eqn:E2; [|reflexivity].
  cbn [negb segment fst]. destruct (rltb tn t) eqn:E3; [|reflexivity].
  apply rltb_true in E2. apply rltb_true in E3. lra.
Qed.
Lemma slopes_fst l : map fst (slopes l) = map fst l.
Proof.
  induction l as [|[ta fa] [|[tb fb] l] IH]; [reflexivity|reflexivity|].
  cbn [slopes map fst] in *. f_equal. exact IH.
Qed.
Lemma slopes_app l1 : forall ta fa tb fb l2, exists l1' x l2',
  slopes (l1 ++ (ta, fa) :: (tb, fb) :: l2) = l1' ++ (ta, odiv (ominus fb fa) (Some (tb - ta))) :: (tb, x) :: l2'.
Proof.
  induction l1 as [|[t f] l1 IH]; intros ta fa tb fb l2.
  - exists []. cbn [app slopes]. destruct l2 as [|[tc fc] l2]; cbn [slopes]; eexists; eexists; reflexivity.
  - destruct (IH ta fa tb fb l2) as [l1' [x [l2' E]]]. cbn [app].
    destruct (l1 ++ (ta, fa) :: (tb, fb) :: l2) as [|[u g] r] eqn:El; [destruct l1; discriminate|].
    change (slopes ((t, f) :: (u, g) :: r)) with ((t, odiv (ominus g f) (Some (u - t))) :: slopes ((u, g) :: r)).
    rewrite E. eexists (_ :: l1'), x, l2'. reflexivity.
Qed.
Lemma slopes_snoc l : forall tn x, exists l', slopes (l ++ [(tn, x)]) = l' ++ [(tn, Some 0)].
Proof.
  induction l as [|[t f] l IH]; intros tn x; [now exists []|]. destruct (IH tn x) as [l' E]. cbn [app].
  destruct (l ++ [(tn, x)]) as [|[u g] r] eqn:El; [destruct l; discriminate|]. 
  change (slopes ((t, f) :: (u, g) :: r)) with ((t, odiv (ominus g f) (Some (u - t))) :: slopes ((u, g) :: r)).
  rewrite E. now eexists (_ :: l').
Qed.

Lemma good_tab lin tab t : regular (FTab lin tab) t -> good (FTab lin tab) t.
Proof.
  intros Hr. destruct lin; cbn [regular] in Hr; destruct Hr as [S Hr].
  - assert (tab <> []) as Ne.
    { destruct Hr as [[l1 [l2 [ta [fa [tb [fb [-> _]]]]]]]|[l [tn [x [-> _]]]]]; intros E; [destruct l1|destruct l]; discriminate. }
    assert (Hd : derivative (FTab true tab) = Ok (FTab false (slopes tab))).
    { cbn [derivative]. unfold tab_derivative. destruct tab as [|[? ?] ?]; [congruence|reflexivity]. }
    assert (S' : StronglySorted Rle (map fst (slopes tab))) by (rewrite slopes_fst; exact S).
    destruct Hr as [[l1 [l2 [ta [fa [tb [fb [E [L [[u ->] [v ->]]]]]]]]]]|[l [tn [x [E L]]]]].
    + destruct (slopes_app l1 ta (Some u) tb (Some v) l2) as [l1' [x [l2' Es]]]. rewrite <- E in Es.
      assert (Q : reqb (tb - ta) 0 = false) by (apply reqb_false; lra).
      eapply good_intro with (h := fun s => u + (v - u) / (tb - ta) * (s - ta)) (v := (v - u) / (tb - ta)); [exact Hd| | |].
      * cbn [eval]. rewrite Es in *. rewrite tab_inside by auto. cbn [ominus odiv]. rewrite Q. reflexivity.
      * generalize (filter_and _ _ (locally_lt t ta (proj1 L)) (locally_gt t tb (proj2 L))). apply filter_imp.
        intros s Hs. cbn [eval]. rewrite E in *. rewrite tab_inside by auto. simpl. unfold rdiv. rewrite Q. reflexivity.
      * auto_derive; [exact I|]. field. lra.
    + destruct (slopes_snoc l tn (Some x)) as [l' Es]. rewrite <- E in Es.
      eapply good_intro with (h := fun s => x) (v := 0); [exact Hd| | |].
      * cbn [eval]. rewrite Es in *. now rewrite tab_after.
      * generalize (locally_lt t tn L). apply filter_imp. intros s Hs. cbn [eval]. rewrite E in *. now rewrite tab_after.
      * apply (is_derive_const (K := R_AbsRing) (V := R_NormedModule) x t).
  - assert (Hd : exists t0 f0 r, tab = (t0, f0) :: r).
    { destruct tab as [|[t0 f0] r]; [|eauto].
      destruct Hr as [[l1 [l2 [ta [fa [tb [fb [E _]]]]]]]|[[l [tn [x [E _]]]]|[l [t0 [x [E _]]]]]]; [destruct l1|destruct l|]; discriminate. }
    destruct Hd as [t0 [f0 [r E0]]].
    assert (Hd : exists tn, t0 <= tn /\ derivative (FTab false tab) = Ok (FTab false [(t0, Some 0); (tn, Some 0)])).
    { exists (fst (last tab (t0, f0))). split.
      - apply (sorted_last tab (t0, f0) S (t0, f0)). rewrite E0. now left.
      - rewrite E0. reflexivity. }
    destruct Hd as [tn' [Lt Hd]].
    assert (G : forall x, locally t (fun s => eval (FTab false tab) s = V x) -> good (FTab false tab) t).
    { intros x Hx. eapply good_intro with (h := fun s => x) (v := 0); [exact Hd| |exact Hx|].
      - cbn [eval]. now apply tab_zero.
      - apply (is_derive_const (K := R_AbsRing) (V := R_NormedModule) x t). }
    destruct Hr as [[l1 [l2 [ta [fa [tb [fb [E [L [u ->]]]]]]]]]|[[l [tn [x [E L]]]]|[l [t0' [x [E L]]]]]].
    + apply (G u). generalize (filter_and _ _ (locally_lt t ta (proj1 L)) (locally_gt t tb (proj2 L))). apply filter_imp.
      intros s Hs. cbn [eval]. rewrite E in *. now rewrite tab_inside.
    + apply (G x). generalize (locally_lt t tn L). apply filter_imp. intros s Hs. cbn [eval]. rewrite E in *. now rewrite tab_after.
    + apply (G x). generalize (locally_gt t t0' L). apply filter_imp. intros s Hs. cbn [eval]. rewrite E. now rewrite tab_before.
Qed.

Lemma good_at f t : good f t -> exists d v, derivative f = Ok d /\ eval d t = V v /\ locally t (defd f) /\ is_derive (value f) t v
  /\ eval f t = V (value f t).
Proof.
  intros [d [v [Hd [Ev [L D]]]]]. exists d, v. split; [exact Hd|]. split; [exact Ev|]. split; [exact L|]. split; [exact D|]. apply defd_value. now apply locally_singleton.
Qed.

Theorem good_all f : forall t, regular f t -> good f t.
Proof.
  induction f; intros t Hr; try (cbn [regular] in Hr; contradiction).
  - (* sin *) eapply good_intro with (h := fun s => sin (c * s)) (v := cos (c * t) * c); [reflexivity| | |].
    + erewrite newTimes_ok; [|reflexivity|reflexivity]; reflexivity.
    + apply filter_forall. reflexivity.
    + auto_derive; [exact I|ring].
  - eapply good_intro with (h := fun s => cos (c * s)) (v := sin (c * t) * - c); [reflexivity| | |].
    + erewrite newTimes_ok; [|reflexivity|reflexivity]; reflexivity.
    + apply filter_forall. reflexivity.
    + auto_derive; [exact I|ring].
  - eapply good_intro with (h := fun s => exp (c * s)) (v := exp (c * t) * c); [reflexivity| | |].
    + destruct (reqb c 1) eqn:C; cbn [negb].
      * apply reqb_true in C. subst. cbn [eval]. f_equal. ring.
      * erewrite newTimes_ok; [|reflexivity|reflexivity]; reflexivity.
    + apply filter_forall. reflexivity.
    + auto_derive; [exact I|ring].
  - (* log *) cbn [regular] in Hr. destruct Hr as [-> Ht].
    eapply good_intro with (h := fun s => ln (1 * s)) (v := / t); [reflexivity| | |].
    + rewrite (proj2 (reqb_true 1 1) eq_refl). cbn [negb eval]. rewrite rpow_pos by exact Ht. f_equal.
      replace (-1) with (- (1)) by ring. rewrite Rpower_Ropp, Rpower_1 by exact Ht. reflexivity.
    + generalize (locally_lt t 0 Ht). apply filter_imp. intros s Hs. cbn [eval]. unfold rlog.
      assert (rltb 0 (1 * s) = true) as -> by (apply rltb_true; lra). reflexivity.
    + auto_derive; [lra|field; lra].
  - now apply good_pow.
  - eapply good_intro with (h := fun s => c) (v := 0); [reflexivity|reflexivity| |].
    + apply filter_forall. reflexivity.
    + apply (is_derive_const (K := R_AbsRing) (V := R_NormedModule) c t).
  - now apply good_tab.
  - (* sum *) destruct Hr as [R1 R2].
    destruct (good_at _ _ (IHf1 t R1)) as [d1 [v1 [H1 [E1 [L1 [D1 V1]]]]]].
    destruct (good_at _ _ (IHf2 t R2)) as [d2 [v2 [H2 [E2 [L2 [D2 V2]]]]]].
    pose proof (derivative_nz _ _ (regular_nz _ _ R1) H1) as N1.
    eapply good_intro with (h := fun s => value f1 s + value f2 s) (v := v1 + v2).
    + cbn [derivative]. unfold obind2. rewrite H1. cbn [obind]. rewrite H2. reflexivity.
    + apply newSum_ok; auto. now apply nz_top.
    + generalize (filter_and _ _ L1 L2). apply filter_imp. intros s [A B]. cbn [eval].
      rewrite (defd_value _ _ A), (defd_value _ _ B). reflexivity.
    + now apply @is_derive_plus.
  - destruct Hr as [R1 R2].
    destruct (good_at _ _ (IHf1 t R1)) as [d1 [v1 [H1 [E1 [L1 [D1 V1]]]]]].
    destruct (good_at _ _ (IHf2 t R2)) as [d2 [v2 [H2 [E2 [L2 [D2 V2]]]]]].
    pose proof (derivative_nz _ _ (regular_nz _ _ R1) H1) as N1.
    eapply good_intro with (h := fun s => value f1 s - value f2 s) (v := v1 - v2).
    + cbn [derivative]. unfold obind2. rewrite H1. cbn [obind]. rewrite H2. reflexivity.
    + apply newDiff_ok; auto. now apply nz_top.
    + generalize (filter_and _ _ L1 L2). apply filter_imp. intros s [A B]. cbn [eval].
      rewrite (defd_value _ _ A), (defd_value _ _ B). reflexivity.
    + now apply @is_derive_minus.
  - (* product *) destruct Hr as [R1 R2].
    destruct (good_at _ _ (IHf1 t R1)) as [d1 [v1 [H1 [E1 [L1 [D1 V1]]]]]].
    destruct (good_at _ _ (IHf2 t R2)) as [d2 [v2 [H2 [E2 [L2 [D2 V2]]]]]].
    pose proof (regular_nz _ _ R1) as M1. pose proof (regular_nz _ _ R2) as M2.
    pose proof (derivative_nz _ _ M1 H1) as N1. pose proof (derivative_nz _ _ M2 H2) as N2.
    eapply good_intro with (h := fun s => value f1 s * value f2 s) (v := value f1 t * v2 + value f2 t * v1).
    + cbn [derivative]. unfold obind2. rewrite H1. cbn [obind]. rewrite H2. reflexivity.
    + apply newSum_ok; [apply nz_top, newProd_nz; auto| |]; apply newProd_ok; auto.
    + generalize (filter_and _ _ L1 L2). apply filter_imp. intros s [A B]. cbn [eval].
      rewrite (defd_value _ _ A), (defd_value _ _ B). reflexivity.
    + replace (value f1 t * v2 + value f2 t * v1) with (v1 * value f2 t + value f1 t * v2) by ring.
      apply (is_derive_mult (value f1) (value f2) t v1 v2 D1 D2). intros; apply Rmult_comm.
  - (* ratio *) destruct Hr as [R1 [R2 NZ]].
    destruct (good_at _ _ (IHf1 t R1)) as [d1 [v1 [H1 [E1 [L1 [D1 V1]]]]]].
    destruct (good_at _ _ (IHf2 t R2)) as [d2 [v2 [H2 [E2 [L2 [D2 V2]]]]]].
    pose proof (regular_nz _ _ R1) as M1. pose proof (regular_nz _ _ R2) as M2.
    pose proof (derivative_nz _ _ M1 H1) as N1. pose proof (derivative_nz _ _ M2 H2) as N2.
    assert (Q : eval (newProd f2 f2) t = V (value f2 t * value f2 t)) by (apply newProd_ok; auto).
    assert (U : eval (newDiff (newProd d1 f2) (newProd f1 d2)) t = V (v1 * value f2 t - value f1 t * v2)).
    { apply newDiff_ok; [apply nz_top, newProd_nz; auto| |]; apply newProd_ok; auto. }
    destruct (newRatio_ok _ _ _ _ _ U Q) as [h [Hh Eh]]. { intros K. apply Rmult_integral in K. tauto. }
    eapply good_intro with (h := fun s => value f1 s / value f2 s).
    + cbn [derivative]. unfold obind2. rewrite H1. cbn [obind]. rewrite H2. cbn [obind]. exact Hh.
    + exact Eh.
    + assert (C : continuous (value f2) t) by (apply @ex_derive_continuous; eexists; exact D2).
      assert (NL : locally t (fun s => value f2 s <> 0)).
      { apply (C (fun y => y <> 0)). apply (open_neq 0). exact NZ. }
      generalize (filter_and _ _ NL (filter_and _ _ L1 L2)). apply filter_imp. intros s [K [A B]]. cbn [eval].
      rewrite (defd_value _ _ A), (defd_value _ _ B). simpl. unfold rdiv. apply reqb_false in K. now rewrite K.
    + replace (value f2 t * value f2 t) with (value f2 t ^ 2) by ring. now apply is_derive_div.
  - (* composite *) destruct Hr as [R2 [R1 C]].
    destruct (good_at _ _ (IHf1 _ R1)) as [d1 [v1 [H1 [E1 [L1 [D1 V1]]]]]].
    destruct (good_at _ _ (IHf2 t R2)) as [d2 [v2 [H2 [E2 [L2 [D2 V2]]]]]].
    eapply good_intro with (h := fun s => value f1 (value f2 s)) (v := v1 * v2).
    + cbn [derivative]. unfold obind2. rewrite H1. cbn [obind]. rewrite H2. reflexivity.
    + apply newProd_ok; auto. eapply newComp_ok; [exact V2|exact E1|].
      intros a b Ea Eb. destruct C as [C|C]; [now exists b|now left|]. right.
      pose proof (derivative_ip _ _ C H1) as Q. subst d1. exact Q.
    + assert (K : continuous (value f2) t) by (apply @ex_derive_continuous; eexists; exact D2).
      assert (L1' : locally t (fun s => defd f1 (value f2 s))) by (apply (K (defd f1)); exact L1).
      generalize (filter_and _ _ L1' L2). apply filter_imp. intros s [A B]. cbn [eval].
      rewrite (defd_value _ _ B). simpl. now apply defd_value.
    + replace (v1 * v2) with (v2 * v1) by ring. apply (is_derive_comp (value f1) (value f2) t v1 v2); auto.
  - (* times *) destruct Hr as [R1 [[y ->] NZ]].
    destruct (good_at _ _ (IHf t R1)) as [d1 [v1 [H1 [E1 [L1 [D1 V1]]]]]].
    eapply good_intro with (h := fun s => value f s * y) (v := v1 * y).
    + cbn [derivative]. rewrite H1. reflexivity.
    + erewrite newTimes_ok by eauto. reflexivity.
    + revert L1. apply filter_imp. intros s A. cbn [eval]. rewrite (defd_value _ _ A). reflexivity.
    + apply is_derive_Reals. apply is_derive_Reals in D1.
      replace (v1 * y) with (v1 * y + value f t * 0) by ring.
      apply (derivable_pt_lim_mult (value f) (fct_cte y)); [exact D1|apply derivable_pt_lim_const].
  - (* plus *) destruct (good_at _ _ (IHf t Hr)) as [d1 [v1 [H1 [E1 [L1 [D1 V1]]]]]].
    eapply good_intro with (h := fun s => value f s + c) (v := v1).
    + cbn [derivative]. exact H1.
    + exact E1.
    + revert L1. apply filter_imp. intros s A. cbn [eval]. rewrite (defd_value _ _ A). reflexivity.
    + apply is_derive_Reals. apply is_derive_Reals in D1.
      replace v1 with (v1 + 0) by ring.
      apply (derivable_pt_lim_plus (value f) (fct_cte c)); [exact D1|apply derivable_pt_lim_const].
Qed.

(** Functors without a derivative. *)
Lemma newRatio_cases f g : newRatio f g = Err \/ exists h, newRatio f g = Ok h.
Proof.
  unfold newRatio. destruct (isOne g), (isZero f), (isZero g), (isIdentical f g), (isConstant g); eauto.
  destruct (isPow f), (isPow g), (isExp f), (isExp g); eauto.
Qed.
Lemma derivative_cases f : tables_nonempty f -> derivative f = Err \/ exists d, derivative f = Ok d.
Proof.
  induction f; cbn [tables_nonempty derivative]; intros H; eauto;
    try (destruct H as [H1 H2]; destruct (IHf1 H1) as [->|[d1 ->]]; [now left|];
         destruct (IHf2 H2) as [->|[d2 ->]]; [now left|]; cbn [obind2 obind]; first [apply newRatio_cases|right; eexists; reflexivity]).
  - destruct tab as [|[t0 f0] tab]; [congruence|]. right. eexists. reflexivity.
  - destruct (IHf H) as [->|[d ->]]; [now left|right; eexists; reflexivity].
Qed.
Lemma derivative_throws f : tables_nonempty f -> no_derivative f -> derivative f = Err.
Proof.
  induction f; cbn [tables_nonempty no_derivative]; intros T H; try contradiction; try reflexivity;
    try (destruct T as [T1 T2]; destruct H as [H|H]; cbn [derivative]; unfold obind2;
      [now rewrite (IHf1 T1 H)|]; rewrite (IHf2 T2 H); destruct (derivative_cases f1 T1) as [->|[d1 ->]]; reflexivity).
  - cbn [derivative]. now rewrite (IHf T H).
  - cbn [derivative]. now apply IHf.
Qed.
