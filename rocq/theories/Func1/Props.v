(** C15 (derivatives), C16 (simplification) and C51 (basic functors). *)
From Coquelicot Require Import Coquelicot.
From Coq Require Import Reals ZArith List Bool Lra Lia Sorted.
From Verif Require Import Base.Outcome Base.Fp Base.RSum Func1.Model Func1.Spec Func1.Algebra Func1.Proofs.
Import ListNotations.
Open Scope R_scope.

(** ** C15 *)
Theorem C15_derivative : forall f t, regular f t ->
  exists d, derivative f = Ok d /\ defined_near f t /\ computes_derivative d f t.
Proof.
  intros f t H. destruct (good_all f t H) as [d [v [Hd [Ev [[eps L] D]]]]].
  exists d. split; [exact Hd|]. split.
  - exists eps. split; [apply cond_pos|]. intros s Hs. now apply L.
  - exists v. split; [exact Ev|]. now apply is_derive_Reals.
Qed.
Print Assumptions C15_derivative.

(** sin(3 t^2) e^(-t) / (t + 2) at t = -1 *)
Example C15_derivative_applies :
  regular (FRatio (FProd (FComp (FSin 3) (FPow 2)) (FExp (-1))) (FPlus (FPow 1) 2)) (-1).
Proof.
  cbn [regular]. repeat split.
  - right; left. exists 2%nat. simpl. ring.
  - intros _. right. exact I.
  - right; left. exists 1%nat. reflexivity.
  - unfold value. cbn [eval]. rewrite (rpow_neg (-1) 1) by lra. simpl. lra.
Qed.
(** a linear table between its nodes, also with a repeated time *)
Example C15_table_applies : regular (FTab true [(0, Some 1); (1, Some 3); (1, Some 5); (2, Some 4)]) (3 / 2).
Proof.
  cbn [regular map fst]. split.
  - repeat (apply SSorted_cons; [|repeat (apply Forall_cons; [lra|]); apply Forall_nil]). apply SSorted_nil.
  - left. exists [(0, Some 1); (1, Some 3)], [], 1, (Some 5), 2, (Some 4). repeat split; try lra; eexists; reflexivity.
Qed.

(** A functor that contains one without a derivative throws CanteraError. *)
Theorem C15_no_derivative : forall f, tables_nonempty f -> no_derivative f -> derivative f = Err.
Proof. exact derivative_throws. Qed.
Print Assumptions C15_no_derivative.
Example C15_no_derivative_applies : no_derivative (FSum (FSin 1) (FTimes (FGauss 1 0 1) (Some 3)))
  /\ tables_nonempty (FSum (FSin 1) (FTimes (FGauss 1 0 1) (Some 3))).
Proof. cbn. tauto. Qed.

(** "log" with a constant other than 1: the derivative functor returns c/t. *)
Theorem C15_log_refuted : exists c t d v, 0 < c /\ 0 < t /\ derivative (FLog c) = Ok d /\ eval d t = V v
  /\ derivable_pt_lim (value (FLog c)) t (1 / t) /\ v <> 1 / t.
Proof.
  exists 2, 1, (FTimes (FPow (-1)) (Some 2)), 2. repeat split; try lra.
  - cbn [derivative]. assert (reqb 2 1 = false) as -> by (apply reqb_false; lra). cbn [negb]. unfold newTimes. cbn [ois].
    assert (reqb 2 0 = false) as -> by (apply reqb_false; lra). assert (reqb 2 1 = false) as -> by (apply reqb_false; lra). reflexivity.
  - cbn [eval]. rewrite rpow_pos by lra. simpl. f_equal. unfold Rpower. rewrite ln_1, Rmult_0_r, exp_0. ring.
  - apply is_derive_Reals.
    apply (is_derive_ext_loc (fun s => ln (2 * s)) (value (FLog 2)) 1 (1 / 1)).
    + generalize (locally_lt 1 0 ltac:(lra)). apply filter_imp. intros s Hs. unfold value. cbn [eval]. unfold rlog.
      assert (rltb 0 (2 * s) = true) as -> by (apply rltb_true; lra). reflexivity.
    + auto_derive; [lra|field].
Qed.
Print Assumptions C15_log_refuted.

(** A linear table is constant before its first time, but its derivative functor is not zero there. *)
Theorem C15_table_before_refuted : exists tab t d v, derivative (FTab true tab) = Ok d /\ eval d t = V v
  /\ derivable_pt_lim (value (FTab true tab)) t 0 /\ v <> 0.
Proof.
  exists [(0, Some 0); (1, Some 1)], (-1), (FTab false [(0, Some (1 / 1)); (1, Some 0)]), (1 / 1). repeat split; try lra.
  - cbn [derivative tab_derivative slopes ominus odiv].
    assert (reqb (1 - 0) 0 = false) as -> by (apply reqb_false; lra).
    replace (1 - 0) with 1 by ring. reflexivity.
  - cbn [eval]. now rewrite tab_before by lra.
  - apply is_derive_Reals.
    apply (is_derive_ext_loc (fun s => 0) (value (FTab true [(0, Some 0); (1, Some 1)])) (-1) 0).
    + generalize (locally_gt (-1) 0 ltac:(lra)). apply filter_imp. intros s Hs. unfold value. cbn [eval]. now rewrite tab_before.
    + apply (is_derive_const (K := R_AbsRing) (V := R_NormedModule) 0 (-1)).
Qed.
Print Assumptions C15_table_before_refuted.

(** ** C16 *)
Theorem C16_sum : forall f g t a b, (forall h, f <> FTimes h (Some 0)) ->
  eval f t = V a -> eval g t = V b -> eval (newSum f g) t = V (a + b).
Proof. intros. now apply newSum_ok. Qed.
Theorem C16_difference : forall f g t a b, (forall h, f <> FTimes h (Some 0)) ->
  eval f t = V a -> eval g t = V b -> eval (newDiff f g) t = V (a - b).
Proof. intros. now apply newDiff_ok. Qed.
Theorem C16_product : forall f g t a b, eval f t = V a -> eval g t = V b -> eval (newProd f g) t = V (a * b).
Proof. intros. now apply newProd_ok. Qed.
Theorem C16_ratio : forall f g t a b, eval f t = V a -> eval g t = V b -> b <> 0 ->
  exists h, newRatio f g = Ok h /\ eval h t = V (a / b).
Proof. intros. now apply newRatio_ok. Qed.
Theorem C16_composite : forall f g t x y, eval g t = V x -> eval f x = V y ->
  (forall a b, f = FPow a -> g = FPow b -> 0 <= t \/ exists z, a = IZR z) -> eval (newComp f g) t = V y.
Proof. intros. eapply newComp_ok; eauto. Qed.
Theorem C16_times_plus : forall f c t x, eval f t = V x ->
  eval (newTimes f (Some c)) t = V (x * c) /\ eval (newPlus f c) t = V (x + c).
Proof. intros f c t x H. split; [now erewrite newTimes_ok by eauto|now apply newPlus_ok]. Qed.
(** A simplified functor never contains a times-constant with constant zero unless its operands do. *)
Theorem C16_no_zero_factor : forall f g, nonzero_times f -> nonzero_times g ->
  nonzero_times (newSum f g) /\ nonzero_times (newDiff f g) /\ nonzero_times (newProd f g) /\ nonzero_times (newComp f g)
  /\ (forall h, newRatio f g = Ok h -> nonzero_times h)
  /\ (forall c, nonzero_times (newTimes f c)) /\ (forall c, nonzero_times (newPlus f c)).
Proof.
  intros f g Hf Hg. repeat split; [now apply newSum_nz|now apply newDiff_nz|now apply newProd_nz|now apply newComp_nz| | |].
  - intros h H. eapply newRatio_nz; [exact Hf|exact Hg|exact H].
  - intros c. now apply newTimes_nz.
  - intros c. now apply newPlus_nz.
Qed.
Print Assumptions C16_sum.
Print Assumptions C16_difference.
Print Assumptions C16_product.
Print Assumptions C16_ratio.
Print Assumptions C16_composite.
Print Assumptions C16_times_plus.
Print Assumptions C16_no_zero_factor.

(** 2 sin t + 3 sin t becomes the single functor 2 sin t times 5/2. *)
Example C16_sum_simplifies : exists c, newSum (FTimes (FSin 1) (Some 2)) (FTimes (FSin 1) (Some 3)) = FTimes (FSin 1) (Some c) /\ c = 5.
Proof.
  assert (Hs : forall x, reqb x x = true) by (intros; now apply reqb_true).
  eexists. split.
  - unfold newSum. cbn [isIdentical isZero isConstant isProportional isTimes].
    assert (reqb 2 3 = false) as -> by (apply reqb_false; lra). rewrite !Hs. cbn [andb].
    unfold odiv. assert (reqb 2 0 = false) as -> by (apply reqb_false; lra). cbn [ois oplus].
    assert (reqb (3 / 2) (-1) = false) as -> by (apply reqb_false; lra). unfold newTimes. cbn [ois].
    assert (reqb (3 / 2 + 1) 0 = false) as -> by (apply reqb_false; lra).
    assert (reqb (3 / 2 + 1) 1 = false) as -> by (apply reqb_false; lra). cbn [isTimes omul]. reflexivity.
  - lra.
Qed.

(** 0 sin t + sin t is turned into a functor that evaluates to NaN. *)
Theorem C16_sum_zero_factor_refuted : exists f g t a b,
  eval f t = V a /\ eval g t = V b /\ eval (newSum f g) t = NF.
Proof.
  exists (FTimes (FSin 1) (Some 0)), (FSin 1), 0, (sin (1 * 0) * 0), (sin (1 * 0)). repeat split.
  assert (Hs : forall x, reqb x x = true) by (intros; now apply reqb_true).
  unfold newSum. cbn [isIdentical isZero isConstant isProportional isTimes odiv]. rewrite !Hs. reflexivity.
Qed.
Print Assumptions C16_sum_zero_factor_refuted.
(** sqrt(t^2) is simplified to t, which differs for negative t. *)
Theorem C16_composite_refuted : exists f g t x y z,
  eval g t = V x /\ eval f x = V y /\ eval (newComp f g) t = V z /\ z <> y.
Proof.
  exists (FPow (1 / 2)), (FPow 2), (-1), 1, 1, (-1). repeat split; try lra.
  - cbn [eval]. rewrite (rpow_neg (-1) 2) by lra. f_equal. simpl. ring.
  - cbn [eval]. rewrite rpow_pos by lra. f_equal. unfold Rpower. now rewrite ln_1, Rmult_0_r, exp_0.
  - unfold newComp. cbn [isZero isConstant isPow].
    assert (reqb (1 / 2) 1 = false) as -> by (apply reqb_false; lra).
    assert (reqb (1 / 2) 0 = false) as -> by (apply reqb_false; lra).
    cbn [eval]. replace (1 / 2 * 2) with 1 by field. rewrite (rpow_neg (-1) 1) by lra. f_equal. simpl. ring.
Qed.
Print Assumptions C16_composite_refuted.

(** The same simplification makes the derivative of a composite wrong: (2/3) (t^2)^(3/2), built as
    (1 * 1) ((2/3) x^(3/2)) with x = t^2, has derivative 2 t |t|, but at -1 the derivative functor returns 2. *)
Definition half_power : fn := FProd (FTimes (FConst 1) (Some 1)) (FTimes (FPow (3 / 2)) (Some (2 / 3))).
Ltac reqb_all := repeat (match goal with |- context [reqb ?x ?y] =>
    first [rewrite (proj2 (reqb_true x y)) by lra | rewrite (proj2 (reqb_false x y)) by lra] end).
Theorem C15_composite_refuted : exists f t d v, derivative f = Ok d /\ eval d t = V v
  /\ derivable_pt_lim (value f) t (-2) /\ v = 2.
Proof.
  exists (FComp half_power (FPow 2)), (-1).
  assert (E1 : derivative half_power = Ok (FPow (3 / 2 - 1))).
  { unfold half_power. cbn [derivative obind2 obind]. unfold obind2. reqb_all. unfold newTimes. cbn [ois]. reqb_all.
    cbn [isTimes ois omul]. reqb_all. cbn [obind]. f_equal. unfold newProd.
    cbn [size Nat.add prod_fuel isOne isZero orb isConstant isPow isExp isTimes strip fst snd]. reqb_all.
    cbn [orb]. unfold strip. cbn [isTimes omul ois]. reqb_all. cbn [negb]. unfold newSum. cbn [isIdentical isZero]. reqb_all. reflexivity. }
  exists (FTimes (FPow (((3 / 2 - 1) * 2) + (2 - 1))) (Some 2)), 2. repeat split.
  - cbn [derivative]. unfold obind2. rewrite E1. cbn [obind]. reqb_all. cbn [obind]. f_equal.
    unfold newComp. cbn [isZero isConstant isPow]. reqb_all. unfold newTimes at 1. cbn [ois]. reqb_all. cbn [isTimes].
    unfold newProd. cbn [size Nat.add prod_fuel isOne isZero orb isConstant isPow isExp isTimes]. unfold strip. cbn [isTimes omul ois].
    rewrite Rmult_1_l. reqb_all. cbn [negb]. unfold newTimes. cbn [ois]. reqb_all. reflexivity.
  - cbn [eval]. replace ((3 / 2 - 1) * 2 + (2 - 1)) with 2 by field. rewrite (rpow_neg (-1) 2) by lra. simpl. f_equal. ring.
  - apply is_derive_Reals.
    apply (is_derive_ext_loc (fun s => 2 / 3 * (- s) ^ 3) (value (FComp half_power (FPow 2))) (-1) (-2)).
    + generalize (locally_gt (-1) 0 ltac:(lra)). apply filter_imp. intros s Hs. unfold value, half_power. cbn [eval].
      rewrite (rpow_neg s 2) by exact Hs. cbn [bind]. change (powerRZ s 2) with (s ^ 2).
      assert (P : 0 < s ^ 2). { replace (s ^ 2) with ((- s) * (- s)) by ring. apply Rmult_lt_0_compat; lra. }
      rewrite rpow_pos by exact P. cbn [ev2 ofo].
      assert (Q : Rpower (s ^ 2) (3 / 2) = (- s) ^ 3).
      { replace (s ^ 2) with (Rpower (- s) 2).
        - rewrite Rpower_mult. replace (2 * (3 / 2)) with (INR 3) by (simpl; field). apply Rpower_pow. lra.
        - replace 2 with (INR 2) by reflexivity. rewrite Rpower_pow by lra. simpl. ring. }
      rewrite Q. match goal with |- ?a = ?b => change (@eq R a b) end. ring.
    + auto_derive; [exact I|]. simpl. field.
Qed.
Print Assumptions C15_composite_refuted.

(** ** C51 *)
Lemma increasing_sorted l : increasing l = true <-> StronglySorted Rle l.
Proof.
  split.
  - induction l as [|a l IH]; intros H; [constructor|]. cbn [increasing] in H. destruct l as [|b l].
    { repeat constructor. }
    apply andb_true_iff in H as [H1 H2]. specialize (IH H2). apply SSorted_cons; [exact IH|].
    apply negb_true_iff in H1. apply rltb_false in H1. apply Forall_cons; [lra|].
    inversion IH; subst. eapply Forall_impl; [|exact H4]. intros x Hx. cbv beta in *. lra.
  - induction l as [|a l IH]; intros H; [reflexivity|]. cbn [increasing]. destruct l as [|b l]; [reflexivity|].
    inversion H; subst. rewrite (IH H2), andb_true_r. apply negb_true_iff. apply rltb_false. inversion H3; subst. lra.
Qed.
Lemma even_spec n : even n = true <-> exists m, n = (2 * m)%nat.
Proof.
  unfold even. rewrite Nat.eqb_eq. rewrite Nat.mod_divides by lia. split; intros [m H]; exists m; lia.
Qed.
Lemma sorted_app_l {A} (Rl : A -> A -> Prop) l1 l2 : StronglySorted Rl (l1 ++ l2) -> StronglySorted Rl l1.
Proof.
  induction l1 as [|a l1 IH]; intros H; [constructor|]. inversion H; subst. constructor; [now apply IH|].
  apply Forall_app in H3. tauto.
Qed.
Lemma newTab_ok lin times vals : length times = length vals -> (2 <= length times)%nat -> StronglySorted Rle times ->
  newTab lin (times ++ vals) = Ok (FTab lin (combine times (map Some vals))).
Proof.
  intros L N S. unfold newTab. rewrite app_length, <- L.
  destruct (Nat.ltb_spec (length times + length times) 4); [lia|].
  assert (even (length times + length times) = true) as -> by (apply even_spec; exists (length times); lia).
  cbn [negb]. replace (Nat.div (length times + length times) 2) with (length times) by
    (replace (length times + length times)%nat with (length times * 2)%nat by lia; now rewrite Nat.div_mul).
  rewrite firstn_app, Nat.sub_diag, firstn_O, app_nil_r, firstn_all.
  rewrite skipn_app, Nat.sub_diag, skipn_all, skipn_O. cbn [app].
  apply increasing_sorted in S. now rewrite S.
Qed.

(** A constructor succeeds exactly on the parameter vectors its documentation allows, and throws CanteraError otherwise. *)
Theorem C51_constructors : forall k p, (valid k p <-> exists f, newFunc1 k p = Ok f) /\ (~ valid k p -> newFunc1 k p = Err).
Proof.
  intros k p.
  assert (D : forall b : Prop, forall o : outcome fn, (b -> exists f, o = Ok f) -> (~ b -> o = Err) -> {b} + {~ b} ->
    (b <-> exists f, o = Ok f) /\ (~ b -> o = Err)).
  { intros b o H1 H2 Q. split; [|exact H2]. split; [exact H1|]. intros [f Hf]. destruct Q as [Q|Q]; [exact Q|].
    apply H2 in Q. congruence. }
  assert (O : forall mk : R -> fn, (length p = 1%nat <-> exists f, one mk p = Ok f) /\ (length p <> 1%nat -> one mk p = Err)).
  { intros mk. apply D; [| |apply Nat.eq_dec]; destruct p as [|x [|y p]]; simpl; try (intros; lia); eauto. }
  assert (T : forall lin, (valid KTabLin p <-> exists f, newTab lin p = Ok f) /\ (~ valid KTabLin p -> newTab lin p = Err)).
  { intros lin. cbn [valid]. split.
    - split.
      + intros [times [vals [-> [L [N S]]]]]. rewrite newTab_ok by auto. eauto.
      + intros [f Hf]. unfold newTab in Hf. destruct (Nat.ltb_spec (length p) 4); [discriminate|].
        destruct (even (length p)) eqn:Ev; [|discriminate]. apply even_spec in Ev as [m Hm]. cbn [negb] in Hf.
        assert (Nat.div (length p) 2 = m) as Q by (rewrite Hm, Nat.mul_comm; now apply Nat.div_mul). rewrite Q in Hf.
        destruct (increasing (firstn m p)) eqn:I; [|discriminate].
        exists (firstn m p), (skipn m p). rewrite firstn_skipn, firstn_length, skipn_length. repeat split; [lia|lia|].
        now apply increasing_sorted.
    - intros Nv. unfold newTab. destruct (Nat.ltb_spec (length p) 4); [reflexivity|].
      destruct (even (length p)) eqn:Ev; [|reflexivity]. apply even_spec in Ev as [m Hm]. cbn [negb].
      assert (Nat.div (length p) 2 = m) as Q by (rewrite Hm, Nat.mul_comm; now apply Nat.div_mul). rewrite Q.
      destruct (increasing (firstn m p)) eqn:I; [|reflexivity]. exfalso. apply Nv.
      exists (firstn m p), (skipn m p). rewrite firstn_skipn, firstn_length, skipn_length. repeat split; [lia|lia|].
      now apply increasing_sorted. }
  destruct k; cbn [newFunc1]; try exact (O _); try exact (T _).
  - cbn [valid]. split; [split; eauto|]. intros H. exfalso. now apply H.
  - cbn [valid]. apply D; [| |apply le_dec]; destruct p; simpl; intros; try lia; eauto.
  - cbn [valid]. destruct (Nat.ltb_spec (length p) 4) as [L|L].
    { split; [split|reflexivity]; [intros [n [? ?]]; lia|intros [? ?]; discriminate]. }
    destruct (even (length p)) eqn:Ev; cbn [negb].
    + apply even_spec in Ev as [m Hm]. split; [split; [eauto|]|].
      * intros _. exists (m - 1)%nat. lia.
      * intros H. exfalso. apply H. exists (m - 1)%nat. lia.
    + split; [split|reflexivity]; [|intros [? ?]; discriminate].
      intros [n [_ H]]. exfalso. assert (even (length p) = true); [|congruence]. apply even_spec. exists (n + 1)%nat. lia.
  - cbn [valid]. apply D; [| |apply Nat.eq_dec]; destruct p as [|x [|y [|z [|w p]]]]; simpl; try (intros; lia); eauto.
  - cbn [valid]. destruct (Nat.ltb_spec (length p) 3) as [L|L].
    { split; [split|reflexivity]; [intros [n [? ?]]; lia|intros [? ?]; discriminate]. }
    destruct (Nat.eqb_spec (Nat.modulo (length p) 3) 0) as [Ev|Ev]; cbn [negb].
    + apply Nat.mod_divides in Ev as [m Hm]; [|lia]. split; [split; [eauto|]|].
      * intros _. exists m. lia.
      * intros H. exfalso. apply H. exists m. lia.
    + split; [split|reflexivity]; [|intros [? ?]; discriminate].
      intros [n [_ H]]. exfalso. apply Ev. apply Nat.mod_divides; [lia|]. exists n. lia.
Qed.
Print Assumptions C51_constructors.
Example C51_constructors_case : valid KTabPrev [0; 1; 1; 5; 6; 7] /\ ~ valid KFourier [1; 2; 3; 4; 5].
Proof.
  split.
  - exists [0; 1; 1], [5; 6; 7]. repeat split; [simpl; lia|].
    repeat (apply SSorted_cons; [|repeat (apply Forall_cons; [lra|]); apply Forall_nil]). apply SSorted_nil.
  - intros [n [_ H]]. simpl in H. lia.
Qed.

(** The elementary functors evaluate their formulas. *)
Theorem C51_elementary : forall c t, exists fs fc fe fl fp fk,
  newFunc1 KSin [c] = Ok fs /\ eval fs t = V (sin (c * t)) /\ newFunc1 KCos [c] = Ok fc /\ eval fc t = V (cos (c * t)) /\
  newFunc1 KExp [c] = Ok fe /\ eval fe t = V (exp (c * t)) /\ newFunc1 KConst [c] = Ok fk /\ eval fk t = V c /\
  newFunc1 KLog [c] = Ok fl /\ (0 < c * t -> eval fl t = V (ln (c * t))) /\
  newFunc1 KPow [c] = Ok fp /\ (0 < t -> eval fp t = V (Rpower t c)) /\
  (forall n, c = INR n -> eval fp t = V (t ^ n)) /\ (forall n, c = - INR n -> t <> 0 -> eval fp t = V (/ t ^ n)).
Proof.
  intros c t. exists (FSin c), (FCos c), (FExp c), (FLog c), (FPow c), (FConst c). repeat split.
  - intros H. cbn [eval]. unfold rlog. apply rltb_true in H. now rewrite H.
  - intros H. cbn [eval]. now apply rpow_pos.
  - intros n ->. cbn [eval]. destruct (Rtotal_order t 0) as [K|[->|K]].
    + rewrite INR_IZR_INZ, rpow_neg by exact K. f_equal. symmetry. apply pow_powerRZ.
    + destruct n as [|n]. { apply rpow_zero_zero. }
      rewrite rpow_zero_pos by (apply lt_0_INR; lia). f_equal. simpl. ring.
    + rewrite rpow_pos by exact K. f_equal. now apply Rpower_pow.
  - intros n -> N. cbn [eval]. destruct (Rlt_dec t 0) as [K|K].
    + rewrite INR_IZR_INZ, <- opp_IZR, rpow_neg by exact K. f_equal. rewrite powerRZ_neg'. f_equal. symmetry. apply pow_powerRZ.
    + rewrite rpow_pos by lra. f_equal. rewrite Rpower_Ropp. f_equal. apply Rpower_pow. lra.
Qed.
Print Assumptions C51_elementary.

Lemma poly_fold t cs : forall c0, fold_left (fun r k => r * t + k) cs c0 =
  c0 * t ^ length cs + sum_n (fun i => nth i cs 0 * t ^ (length cs - 1 - i)) (length cs).
Proof.
  induction cs as [|c cs IH]; intros c0. { simpl. rewrite sum_n_0. ring. }
  cbn [fold_left length]. rewrite IH, sum_n_shift. cbn [nth]. replace (S (length cs) - 1 - 0)%nat with (length cs) by lia.
  rewrite (sum_n_ext (fun i => nth i cs 0 * t ^ (length cs - 1 - i)) (fun k => nth k cs 0 * t ^ (S (length cs) - 1 - S k)) (length cs)).
  - simpl. ring.
  - intros k Hk. now replace (S (length cs) - 1 - S k)%nat with (length cs - 1 - k)%nat by lia.
Qed.
(** Coefficients are given from the highest power down. *)
Theorem C51_polynomial : forall p f t, newFunc1 KPoly p = Ok f ->
  eval f t = V (sum_n (fun i => nth i p 0 * t ^ (length p - 1 - i)) (length p)).
Proof.
  intros p f t H. cbn [newFunc1] in H. destruct p as [|c0 cs]; [discriminate|]. inversion H; subst. cbn [eval poly_eval].
  f_equal. rewrite poly_fold. cbn [length]. rewrite sum_n_shift. cbn [nth]. replace (S (length cs) - 1 - 0)%nat with (length cs) by lia.
  f_equal. apply sum_n_ext. intros k Hk. now replace (S (length cs) - 1 - S k)%nat with (length cs - 1 - k)%nat by lia.
Qed.
Print Assumptions C51_polynomial.

Lemma fourier_sum_eq w t : forall cs n s, fourier_sum w t n cs s =
  s + sum_n (fun k => fst (nth k cs (0, 0)) * cos (w * INR (S (n + k)) * t) + snd (nth k cs (0, 0)) * sin (w * INR (S (n + k)) * t)) (length cs).
Proof.
  induction cs as [|[a b] cs IH]; intros n s; cbn [fourier_sum length]. { rewrite sum_n_0. ring. }
  rewrite IH, sum_n_shift. cbn [nth fst snd]. rewrite Nat.add_0_r.
  rewrite (sum_n_ext _ (fun k => fst (nth k cs (0, 0)) * cos (w * INR (S (n + S k)) * t) + snd (nth k cs (0, 0)) * sin (w * INR (S (n + S k)) * t))).
  - ring.
  - intros k Hk. now replace (S (S n + k)) with (S (n + S k)) by lia.
Qed.
Theorem C51_fourier : forall a0 a w b, length a = length b -> (1 <= length a)%nat ->
  exists f, newFunc1 KFourier (a0 :: a ++ w :: b) = Ok f /\ forall t, eval f t =
    V (a0 / 2 + sum_n (fun k => nth k a 0 * cos (INR (k + 1) * w * t) + nth k b 0 * sin (INR (k + 1) * w * t)) (length a)).
Proof.
  intros a0 a w b L N. cbn [newFunc1].
  assert (Hl : length (a0 :: a ++ w :: b) = (2 * (length a + 1))%nat) by (simpl; rewrite app_length; simpl; lia).
  rewrite Hl. destruct (Nat.ltb_spec (2 * (length a + 1)) 4); [lia|].
  assert (even (2 * (length a + 1)) = true) as -> by (apply even_spec; eexists; reflexivity). cbn [negb].
  replace (Nat.div (2 * (length a + 1)) 2 - 1)%nat with (length a) by
    (rewrite Nat.mul_comm, Nat.div_mul by lia; lia).
  eexists. split; [reflexivity|]. intros t. cbn [eval]. rewrite fourier_sum_eq. f_equal.
  assert (Sk : skipn (length a + 2) (a0 :: a ++ w :: b) = b).
  { replace (a0 :: a ++ w :: b) with ((a0 :: a ++ [w]) ++ b) by (cbn [app]; rewrite <- app_assoc; reflexivity).
    replace (length a + 2)%nat with (length (a0 :: a ++ [w])) by (simpl; rewrite app_length; simpl; lia).
    now rewrite skipn_app, Nat.sub_diag, skipn_all, skipn_O. }
  rewrite Sk. replace (length a + 1)%nat with (S (length a)) by lia. cbn [nth skipn].
  rewrite app_nth2, Nat.sub_diag by lia. cbn [nth].
  rewrite firstn_app, Nat.sub_diag, firstn_O, app_nil_r, firstn_all.
  rewrite L, firstn_all, combine_length, L, Nat.min_id.
  f_equal; [field|]. apply sum_n_ext. intros k Hk.
  rewrite combine_nth by exact L. cbn [fst snd]. replace (S (0 + k)) with (k + 1)%nat by lia.
  replace (w * INR (k + 1) * t) with (INR (k + 1) * w * t) by ring. reflexivity.
Qed.
Print Assumptions C51_fourier.

(** The Gaussian peaks at t0 with value A and has full width w at half maximum. *)
Theorem C51_gaussian : forall A t0 w, w <> 0 -> exists f, newFunc1 KGauss [A; t0; w] = Ok f
  /\ eval f t0 = V A /\ eval f (t0 + w / 2) = V (A / 2) /\ eval f (t0 - w / 2) = V (A / 2)
  /\ forall t, eval f t = V (A * exp (- (((t - t0) / (w / (2 * sqrt (ln 2)))) ^ 2))).
Proof.
  intros A t0 w N. eexists. split; [reflexivity|].
  assert (P : 0 < ln 2) by (rewrite <- ln_1; apply ln_increasing; lra).
  assert (S : sqrt (ln 2) <> 0) by (pose proof (sqrt_lt_R0 _ P); lra).
  set (tau := w / (2 * sqrt (ln 2))).
  assert (T : tau <> 0). { unfold tau, Rdiv. apply Rmult_integral_contrapositive_currified; [exact N|]. apply Rinv_neq_0_compat. lra. }
  assert (E : forall t, eval (FGauss A t0 tau) t = V (A * exp (- (((t - t0) / tau) ^ 2)))).
  { intros t. cbn [eval]. unfold rdiv. rewrite (proj2 (reqb_false tau 0) T). cbn [bind]. f_equal. f_equal. f_equal. ring. }
  assert (Hh : exp (- ln 2) = / 2) by (rewrite exp_Ropp, exp_ln by lra; reflexivity).
  assert (Sq : (w / 2 / tau) ^ 2 = ln 2).
  { replace (w / 2 / tau) with (sqrt (ln 2)) by (unfold tau; field; lra). simpl. rewrite Rmult_1_r. apply sqrt_sqrt. lra. }
  split; [|split; [|split]].
  - rewrite E. f_equal. replace ((t0 - t0) / tau) with 0 by (field; exact T). replace (- 0 ^ 2) with 0 by ring. rewrite exp_0. ring.
  - rewrite E. f_equal. replace (t0 + w / 2 - t0) with (w / 2) by ring. rewrite Sq, Hh. field.
  - rewrite E. f_equal. replace (t0 - w / 2 - t0) with (- (w / 2)) by ring.
    replace ((- (w / 2) / tau) ^ 2) with ((w / 2 / tau) ^ 2) by (field; exact T). rewrite Sq, Hh. field.
  - exact E.
Qed.
Print Assumptions C51_gaussian.

Lemma triples_flat l : triples (length l) (flat_map (fun '(a, b, e) => [a; b; e]) l) = l.
Proof. induction l as [|[[a b] e] l IH]; [reflexivity|]. cbn [length flat_map app triples]. now rewrite IH. Qed.
Lemma flat3_length (l : list (R * R * R)) : length (flat_map (fun '(a, b, e) => [a; b; e]) l) = (3 * length l)%nat.
Proof. induction l as [|[[a b] e] l IH]; [reflexivity|]. cbn [flat_map app length]. rewrite IH. lia. Qed.
Theorem C51_arrhenius : forall l : list (R * R * R), l <> [] ->
  exists f, newFunc1 KArr (flat_map (fun '(a, b, e) => [a; b; e]) l) = Ok f /\ forall t, 0 < t ->
    eval f t = V (sum_of (fun '(a, b, e) => a * Rpower t b * exp (- e / t)) l).
Proof.
  intros l N. cbn [newFunc1]. rewrite flat3_length.
  destruct (Nat.ltb_spec (3 * length l) 3). { destruct l; [congruence|simpl in *; lia]. }
  replace (Nat.modulo (3 * length l) 3) with 0%nat by (rewrite Nat.mul_comm; symmetry; apply Nat.mod_mul; lia). cbn [Nat.eqb negb].
  replace (Nat.div (3 * length l) 3) with (length l) by (rewrite Nat.mul_comm; symmetry; apply Nat.div_mul; lia).
  rewrite triples_flat. eexists. split; [reflexivity|]. intros t Ht. cbn [eval].
  assert (G : forall l s, arr_sum t l (V s) = V (s + sum_of (fun '(a, b, e) => a * Rpower t b * exp (- e / t)) l)).
  { clear -Ht. induction l as [|[[a b] e] l IH]; intros s; cbn [arr_sum]. { rewrite sum_of_nil. f_equal. ring. }
    rewrite rpow_pos by exact Ht. unfold rdiv. rewrite (proj2 (reqb_false t 0)) by lra. cbn [ev2]. rewrite IH, sum_of_cons. f_equal. ring. }
  rewrite G. f_equal. ring.
Qed.
Print Assumptions C51_arrhenius.

(** Tables: constant outside the tabulated times, linear or constant on each segment. *)
Lemma combine_app {A B} (l1 : list A) (m1 : list B) l2 m2 : length l1 = length m1 ->
  combine (l1 ++ l2) (m1 ++ m2) = combine l1 m1 ++ combine l2 m2.
Proof. revert m1. induction l1; destruct m1; simpl; intros; try discriminate; [reflexivity|]. f_equal. apply IHl1. lia. Qed.
Lemma map_fst_combine {A B} (l : list A) (m : list B) : length l = length m -> map fst (combine l m) = l.
Proof. revert m. induction l; destruct m; simpl; intros; try discriminate; [reflexivity|]. f_equal. apply IHl. lia. Qed.
Definition tabk (linear : bool) : kind := if linear then KTabLin else KTabPrev.
Theorem C51_table_segments : forall linear t1 v1 ta tb va vb t2 v2 t,
  StronglySorted Rle (t1 ++ ta :: tb :: t2) -> length t1 = length v1 -> length t2 = length v2 -> ta < t < tb ->
  exists f, newFunc1 (tabk linear) ((t1 ++ ta :: tb :: t2) ++ (v1 ++ va :: vb :: v2)) = Ok f /\
    eval f t = V (if linear then va + (vb - va) / (tb - ta) * (t - ta) else va).
Proof.
  intros lin t1 v1 ta tb va vb t2 v2 t S L1 L2 H.
  assert (K : forall p, newFunc1 (tabk lin) p = newTab lin p) by (destruct lin; reflexivity). rewrite K.
  rewrite newTab_ok; [|rewrite !app_length; simpl; lia|rewrite app_length; simpl; lia|exact S].
  eexists. split; [reflexivity|]. rewrite map_app. cbn [map].
  rewrite combine_app by (now rewrite map_length). cbn [combine eval].
  rewrite tab_inside; [|rewrite map_app; cbn [map fst]; rewrite !map_fst_combine by (now rewrite map_length); exact S|exact H].
  destruct lin; [|reflexivity]. cbn [ev2 ofo bind]. unfold rdiv. rewrite (proj2 (reqb_false (tb - ta) 0)) by lra. reflexivity.
Qed.
Theorem C51_table_outside : forall linear times vals t0 v0 tn vn t,
  length times = length vals -> StronglySorted Rle (t0 :: times ++ [tn]) ->
  exists f, newFunc1 (tabk linear) ((t0 :: times ++ [tn]) ++ (v0 :: vals ++ [vn])) = Ok f /\
    (t <= t0 -> eval f t = V v0) /\ (t0 < t -> tn <= t -> eval f t = V vn).
Proof.
  intros lin times vals t0 v0 tn vn t L S.
  assert (K : forall p, newFunc1 (tabk lin) p = newTab lin p) by (destruct lin; reflexivity). rewrite K.
  rewrite newTab_ok; [|simpl; rewrite !app_length; simpl; lia|simpl; rewrite app_length; simpl; lia|exact S].
  eexists. split; [reflexivity|]. cbn [map combine]. rewrite map_app. cbn [map].
  rewrite combine_app by (now rewrite map_length). cbn [combine eval tab_eval].
  change ((t0, Some v0) :: combine times (map Some vals) ++ [(tn, Some vn)])
    with (((t0, Some v0) :: combine times (map Some vals)) ++ [(tn, Some vn)]).
  rewrite last_app_single. split.
  - intros H. now rewrite (proj2 (rltb_false t0 t)) by lra.
  - intros H1 H2. rewrite (proj2 (rltb_true t0 t)) by lra. now rewrite (proj2 (rltb_false t tn)) by lra.
Qed.
(** A linear table passes through its nodes if the times are strictly increasing. *)
Lemma node_ok l1 ta va ti vi r : StronglySorted Rlt (map fst (l1 ++ (ta, Some va) :: (ti, Some vi) :: r)) ->
  tab_eval true (l1 ++ (ta, Some va) :: (ti, Some vi) :: r) ti = V vi.
Proof.
  intros S. set (tab := l1 ++ (ta, Some va) :: (ti, Some vi) :: r) in *.
  assert (S' : StronglySorted Rle (map fst tab)).
  { clear -S. induction S; constructor; auto. eapply Forall_impl; [|exact H]. intros; cbv beta in *; lra. }
  assert (La : ta < ti).
  { clear -S. unfold tab in S. induction l1 as [|x l1 IH]; cbn [app map fst] in S; inversion S; subst; [|now apply IH].
    inversion H2; subst. exact H3. }
  assert (Ia : In (ta, Some va) tab) by (unfold tab; apply in_or_app; right; now left).
  unfold tab_eval. destruct tab as [|[t0 f0] l] eqn:E; [contradiction|]. rewrite <- E in *.
  pose proof (sorted_first tab t0 f0 l E S' _ Ia) as H0. simpl in H0.
  destruct (last tab (t0, f0)) as [tn fnl] eqn:El.
  rewrite (proj2 (rltb_true t0 ti)) by lra. cbn [negb]. destruct (rltb ti tn) eqn:Q; cbn [negb].
  - unfold tab. rewrite (segment_found l1 (ta, Some va) (ti, Some vi) r ti S'); [|simpl; lra|simpl; lra].
    cbn [ev2 ofo bind]. unfold rdiv. rewrite (proj2 (reqb_false (ti - ta) 0)) by lra. cbn [bind]. f_equal. field. lra.
  - apply rltb_false in Q. destruct r as [|y r].
    + unfold tab in El. change (l1 ++ [(ta, Some va); (ti, Some vi)]) with (l1 ++ [(ta, Some va)] ++ [(ti, Some vi)]) in El.
      rewrite app_assoc, last_app_single in El. inversion El. reflexivity.
    + exfalso. assert (G : ti < tn); [|lra].
      unfold tab in El. change ((ta, Some va) :: (ti, Some vi) :: y :: r) with ([(ta, Some va); (ti, Some vi)] ++ y :: r) in El.
      rewrite app_assoc, last_app in El by discriminate.
      assert (In (tn, fnl) (y :: r)) as I by (rewrite <- El; apply last_in; discriminate).
      apply (in_map fst) in I. clear -S I. unfold tab in S.
      induction l1 as [|x l1 IH]; cbn [app map fst] in S; inversion S; subst; [|now apply IH].
      match goal with K : StronglySorted Rlt (_ :: _) |- _ => inversion K as [|u0 v0 K1 K2]; subst end.
      rewrite Forall_forall in K2. now apply K2.
Qed.
Theorem C51_table_nodes : forall t1 v1 ti vi t2 v2,
  StronglySorted Rlt (t1 ++ ti :: t2) -> length t1 = length v1 -> length t2 = length v2 -> (1 <= length t1 + length t2)%nat ->
  exists f, newFunc1 KTabLin ((t1 ++ ti :: t2) ++ (v1 ++ vi :: v2)) = Ok f /\ eval f ti = V vi.
Proof.
  intros t1 v1 ti vi t2 v2 S L1 L2 N.
  assert (S' : StronglySorted Rle (t1 ++ ti :: t2)).
  { clear -S. induction S; constructor; auto. eapply Forall_impl; [|exact H]. intros; cbv beta in *; lra. }
  cbn [newFunc1]. rewrite newTab_ok; [|rewrite !app_length; simpl; lia|rewrite app_length; simpl; lia|exact S'].
  eexists. split; [reflexivity|]. rewrite map_app. cbn [map]. rewrite combine_app by (now rewrite map_length). cbn [combine eval].
  destruct t1 as [|ta t1 _] using rev_ind.
  - destruct v1; [|discriminate]. cbn [combine app map]. unfold tab_eval. destruct (last _ _).
    now rewrite (proj2 (rltb_false ti ti)) by lra.
  - destruct v1 as [|va v1 _] using rev_ind. { rewrite app_length in L1. simpl in L1. lia. }
    rewrite !app_length in L1. simpl in L1.
    rewrite map_app, combine_app by (rewrite map_length; lia). cbn [combine map]. rewrite <- app_assoc. cbn [app].
    apply node_ok. rewrite map_app. cbn [map fst]. rewrite !map_fst_combine by (rewrite map_length; lia).
    rewrite <- app_assoc in S. exact S.
Qed.
Print Assumptions C51_table_segments.
Print Assumptions C51_table_outside.
Print Assumptions C51_table_nodes.
(** "tabulated-previous" does not yet return the new value when a tabulated time is reached. *)
Theorem C51_table_previous_refuted : exists f, newFunc1 KTabPrev [0; 1; 2; 10; 20; 30] = Ok f /\ eval f 1 = V 10.
Proof.
  pose proof (newTab_ok false [0; 1; 2] [10; 20; 30] eq_refl ltac:(simpl; lia)) as H.
  cbn [app] in H. cbn [newFunc1]. rewrite H.
  - eexists. split; [reflexivity|]. cbn [combine map eval tab_eval last segment fst].
    rewrite (proj2 (rltb_true 0 1)), (proj2 (rltb_true 1 2)), (proj2 (rltb_false 1 1)) by lra. reflexivity.
  - repeat (apply SSorted_cons; [|repeat (apply Forall_cons; [lra|]); apply Forall_nil]). apply SSorted_nil.
Qed.
Print Assumptions C51_table_previous_refuted.

(** "periodic" repeats the first period, for times that are not negative and fewer than 2^31 periods. *)
Lemma int_part_unique q n : IZR n <= q -> q < IZR n + 1 -> Int_part q = n.
Proof.
  intros H1 H2. unfold Int_part. assert ((n + 1)%Z = up q) as <-; [|lia].
  apply tech_up; rewrite plus_IZR; lra.
Qed.
Theorem C51_periodic : forall f c t k, 0 < c -> 0 <= t < c -> (k < 2 ^ 31)%nat ->
  eval (FPeriodic f c) (t + INR k * c) = eval f t.
Proof.
  intros f c t k C H K. cbn [eval]. rewrite (proj2 (reqb_false c 0)) by lra.
  assert (Q : (t + INR k * c) / c = t / c + INR k) by (field; lra). rewrite Q.
  assert (B : 0 <= t / c < 1).
  { split; [apply Rmult_le_pos; [lra|]; left; now apply Rinv_0_lt_compat|]. apply (Rmult_lt_reg_r c); [exact C|].
    unfold Rdiv. rewrite Rmult_assoc, Rinv_l by lra. lra. }
  pose proof (pos_INR k).
  assert (T : trunc (t / c + INR k) = Z.of_nat k).
  { unfold trunc. rewrite (proj2 (rltb_false _ 0)) by lra. apply int_part_unique; rewrite <- INR_IZR_INZ; lra. }
  rewrite T. assert (int_fits (Z.of_nat k) = true) as ->.
  { unfold int_fits. apply andb_true_iff. split; apply Z.leb_le; [lia|].
    apply Nat2Z.inj_lt in K. rewrite Nat2Z.inj_pow in K. change (Z.of_nat 2 ^ Z.of_nat 31)%Z with 2147483648%Z in K. lia. }
  f_equal. rewrite <- INR_IZR_INZ. ring.
Qed.
Print Assumptions C51_periodic.
(** Across zero it is not periodic: the first negative period shows the functor at negative times. *)
Theorem C51_periodic_negative_refuted : exists f c t, 0 < c /\ eval (FPeriodic f c) t <> eval (FPeriodic f c) (t + c).
Proof.
  exists (FPow 1), 1, (- (1 / 2)). split; [lra|]. cbn [eval].
  rewrite (proj2 (reqb_false 1 0)) by lra. unfold trunc.
  replace (- (1 / 2) / 1) with (- (1 / 2)) by field. replace ((- (1 / 2) + 1) / 1) with (1 / 2) by field.
  rewrite (proj2 (rltb_true (- (1 / 2)) 0)) by lra. rewrite (proj2 (rltb_false (1 / 2) 0)) by lra.
  rewrite Ropp_involutive. rewrite (int_part_unique (1 / 2) 0) by lra. cbn [Z.opp int_fits Z.leb Z.compare andb].
  replace (- (1 / 2) - 0 * 1) with (- (1 / 2)) by ring. replace (- (1 / 2) + 1 - 0 * 1) with (1 / 2) by field.
  rewrite (rpow_neg (- (1 / 2)) 1) by lra. rewrite rpow_pos by lra. rewrite Rpower_1 by lra. simpl. intros E. inversion E. lra.
Qed.
Print Assumptions C51_periodic_negative_refuted.
