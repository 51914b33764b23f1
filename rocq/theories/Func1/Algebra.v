(** Proofs that the simplifying constructors preserve the value of a functor. *)
From Coq Require Import Reals ZArith List Bool Lra Lia.
From Verif Require Import Base.Outcome Base.Fp Func1.Model Func1.Spec.
Import ListNotations.
Open Scope R_scope.

Lemma int_part_IZR z : Int_part (IZR z) = z.
Proof.
  unfold Int_part. symmetry.
  assert ((z + 1)%Z = up (IZR z)) as <-; [|lia].
  apply tech_up; rewrite plus_IZR; lra.
Qed.
Lemma integer_spec c : integer c = true <-> exists z, c = IZR z.
Proof.
  unfold integer. rewrite reqb_true. split.
  - intros ->. eexists; reflexivity.
  - intros [z ->]. now rewrite int_part_IZR.
Qed.
Lemma integer_false c : integer c = false -> forall z, c <> IZR z.
Proof. intros H z E. assert (integer c = true) by (apply integer_spec; eauto). congruence. Qed.

Lemma rpow_pos x c : 0 < x -> rpow x c = V (Rpower x c).
Proof. intros H. unfold rpow. apply rltb_true in H. now rewrite H. Qed.
Lemma rpow_neg x z : x < 0 -> rpow x (IZR z) = V (powerRZ x z).
Proof.
  intros H. unfold rpow.
  destruct (rltb 0 x) eqn:E; [apply rltb_true in E; lra|].
  apply rltb_true in H. rewrite H.
  assert (integer (IZR z) = true) as -> by (apply integer_spec; eauto).
  now rewrite int_part_IZR.
Qed.
Lemma rpow_neg_inv x c v : x < 0 -> rpow x c = V v -> exists z, c = IZR z /\ v = powerRZ x z.
Proof.
  intros H E. unfold rpow in E.
  destruct (rltb 0 x) eqn:E0; [apply rltb_true in E0; lra|].
  apply rltb_true in H. rewrite H in E. destruct (integer c) eqn:I; [|discriminate].
  apply integer_spec in I as [z ->]. rewrite int_part_IZR in E. inversion E. eauto.
Qed.
Lemma rpow_zero c : rpow 0 c = if reqb c 0 then V 1 else if rltb 0 c then V 0 else NF.
Proof.
  unfold rpow. destruct (rltb 0 0) eqn:E; [apply rltb_true in E; lra|]. reflexivity.
Qed.
Lemma rpow_zero_inv c v : rpow 0 c = V v -> (c = 0 /\ v = 1) \/ (0 < c /\ v = 0).
Proof.
  rewrite rpow_zero. destruct (reqb c 0) eqn:E; [|destruct (rltb 0 c) eqn:E1]; intros H; inversion H; subst.
  - left. split; [now apply reqb_true in E|reflexivity].
  - right. split; [now apply rltb_true in E1|reflexivity].
Qed.
Lemma rpow_zero_pos c : 0 < c -> rpow 0 c = V 0.
Proof.
  intros H. rewrite rpow_zero. destruct (reqb c 0) eqn:E; [apply reqb_true in E; lra|].
  apply rltb_true in H. now rewrite H.
Qed.
Lemma rpow_zero_zero : rpow 0 0 = V 1.
Proof. rewrite rpow_zero. assert (reqb 0 0 = true) as -> by (now apply reqb_true). reflexivity. Qed.

Lemma rpow_mult x a b u v : rpow x a = V u -> rpow x b = V v -> rpow x (a + b) = V (u * v).
Proof.
  intros Ha Hb. destruct (Rtotal_order x 0) as [H|[->|H]].
  - apply rpow_neg_inv in Ha as [z [-> ->]]; [|exact H].
    apply rpow_neg_inv in Hb as [w [-> ->]]; [|exact H].
    rewrite <- plus_IZR, rpow_neg by exact H. f_equal. apply powerRZ_add. lra.
  - apply rpow_zero_inv in Ha. apply rpow_zero_inv in Hb.
    destruct Ha as [[-> ->]|[Ha ->]], Hb as [[-> ->]|[Hb ->]];
      rewrite ?Rplus_0_l, ?Rplus_0_r, ?Rmult_1_l, ?Rmult_0_l.
    + apply rpow_zero_zero.
    + now apply rpow_zero_pos.
    + now apply rpow_zero_pos.
    + apply rpow_zero_pos. lra.
  - rewrite rpow_pos in * by exact H. inversion Ha; inversion Hb; subst. f_equal. apply Rpower_plus.
Qed.
Lemma rpow_div x a b u v : rpow x a = V u -> rpow x b = V v -> v <> 0 -> rpow x (a - b) = V (u / v).
Proof.
  intros Ha Hb N. destruct (Rtotal_order x 0) as [H|[->|H]].
  - apply rpow_neg_inv in Ha as [z [-> ->]]; [|exact H].
    apply rpow_neg_inv in Hb as [w [-> ->]]; [|exact H].
    rewrite <- minus_IZR, rpow_neg by exact H. f_equal.
    unfold Z.sub. rewrite powerRZ_add by lra. unfold Rdiv. f_equal.
    now rewrite powerRZ_neg'.
  - apply rpow_zero_inv in Hb. destruct Hb as [[-> ->]|[Hb ->]]; [|lra].
    rewrite Rminus_0_r. rewrite Ha. f_equal. lra.
  - rewrite rpow_pos in * by exact H. inversion Ha; inversion Hb; subst. f_equal.
    unfold Rminus. rewrite Rpower_plus, Rpower_Ropp. reflexivity.
Qed.
Lemma powerRZ_mult_exp x a b : x <> 0 -> powerRZ (powerRZ x b) a = powerRZ x (a * b).
Proof.
  intros H.
  assert (Hp : forall n : nat, powerRZ (powerRZ x b) (Z.of_nat n) = powerRZ x (Z.of_nat n * b)).
  { induction n as [|n IH]; [reflexivity|].
    rewrite Nat2Z.inj_succ. unfold Z.succ. rewrite powerRZ_add by (now apply powerRZ_NOR).
    rewrite IH, Z.mul_add_distr_r, powerRZ_add by exact H. rewrite Z.mul_1_l. f_equal. simpl. ring. }
  destruct (Z_le_gt_dec 0 a) as [Ha|Ha].
  - rewrite <- (Z2Nat.id a) by exact Ha. apply Hp.
  - replace a with (- (Z.of_nat (Z.to_nat (- a))))%Z by (rewrite Z2Nat.id; lia).
    rewrite Z.mul_opp_l, !powerRZ_neg'. now rewrite Hp.
Qed.
Lemma powerRZ_Rpower_pos x z : 0 < x -> powerRZ x z = Rpower x (IZR z).
Proof. apply powerRZ_Rpower. Qed.
Lemma rpow_comp x a b u v :
  rpow x b = V u -> rpow u a = V v -> (0 <= x \/ exists z, a = IZR z) -> rpow x (a * b) = V v.
Proof.
  intros Hb Ha D. destruct (Rtotal_order x 0) as [H|[->|H]].
  - destruct D as [D|[z ->]]; [lra|].
    apply rpow_neg_inv in Hb as [w [-> ->]]; [|exact H].
    rewrite <- mult_IZR, rpow_neg by exact H. rewrite <- powerRZ_mult_exp by lra.
    assert (N : powerRZ x w <> 0) by (apply powerRZ_NOR; lra).
    destruct (Rtotal_order (powerRZ x w) 0) as [K|[K|K]]; [|congruence|].
    + now rewrite rpow_neg in Ha by exact K.
    + rewrite rpow_pos in Ha by exact K. now rewrite powerRZ_Rpower_pos by exact K.
  - apply rpow_zero_inv in Hb. destruct Hb as [[-> ->]|[Hb ->]].
    + rewrite Rmult_0_r, rpow_zero_zero. rewrite rpow_pos in Ha by lra. rewrite <- Ha. f_equal.
      unfold Rpower. rewrite ln_1, Rmult_0_r, exp_0. reflexivity.
    + apply rpow_zero_inv in Ha. destruct Ha as [[-> ->]|[Ha ->]].
      * rewrite Rmult_0_l. apply rpow_zero_zero.
      * apply rpow_zero_pos. now apply Rmult_lt_0_compat.
  - rewrite rpow_pos in Hb by exact H. inversion Hb; subst.
    rewrite rpow_pos in Ha by apply exp_pos. rewrite rpow_pos by exact H. rewrite <- Ha. f_equal.
    rewrite Rpower_mult. f_equal. ring.
Qed.

Lemma isIdentical_eq f : forall g, isIdentical f g = true -> f = g.
Proof.
  induction f; destruct g; cbn [isIdentical]; intros H; try discriminate;
    try (apply reqb_true in H; now subst);
    repeat match type of H with match ?o with Some _ => _ | None => _ end = true => destruct o; try discriminate end;
    apply andb_true_iff in H as [H1 H2];
    try (apply reqb_true in H1; apply IHf in H2; now subst);
    apply IHf1 in H1; apply IHf2 in H2; now subst.
Qed.

Lemma ois_true a x : ois a x = true <-> a = Some x.
Proof. destruct a; simpl; [rewrite reqb_true|]; split; congruence. Qed.

Lemma newTimes_ok f c t x y : eval f t = V x -> c = Some y -> eval (newTimes f c) t = V (x * y).
Proof.
  intros E ->. unfold newTimes. cbn [ois].
  destruct (reqb y 0) eqn:H0. { apply reqb_true in H0. subst. simpl. f_equal. ring. }
  destruct (reqb y 1) eqn:H1. { apply reqb_true in H1. subst. rewrite E. f_equal. ring. }
  destruct f; cbn [isTimes]; try (cbn [eval] in *; rewrite E; reflexivity).
  cbn [eval] in *. destruct (eval f t) as [u| |]; destruct c as [c|]; simpl in *; try discriminate.
  inversion E; subst. f_equal. ring.
Qed.
Lemma newPlus_ok f c t x : eval f t = V x -> eval (newPlus f c) t = V (x + c).
Proof.
  intros E. unfold newPlus. destruct (reqb c 0) eqn:H0. { apply reqb_true in H0. subst. rewrite E. f_equal. ring. }
  destruct f; try (cbn [eval] in *; rewrite E; reflexivity).
  - cbn [eval] in *. inversion E. reflexivity.
  - cbn [eval] in *. destruct (eval f t); simpl in *; try discriminate. inversion E. f_equal. ring.
Qed.

Definition top_nz (f : fn) : Prop := forall g, f <> FTimes g (Some 0).

(** What isProportional says about values. *)
Lemma proportional_ok f1 f2 c t a b :
  isProportional f1 f2 = Some c -> top_nz f1 -> eval f1 t = V a -> eval f2 t = V b -> exists y, c = Some y /\ b = y * a.
Proof.
  intros H N E1 E2. unfold isProportional in H.
  destruct (isTimes f1) as [[g1 c1]|] eqn:T1; destruct (isTimes f2) as [[g2 c2]|] eqn:T2.
  - destruct f1; try discriminate. destruct f2; try discriminate. inversion T1; inversion T2; subst.
    destruct (isIdentical g2 g1) eqn:I; [|discriminate]. apply isIdentical_eq in I. subst. inversion H; subst.
    cbn [eval] in *. destruct (eval g1 t) as [u| |]; destruct c1 as [y1|]; destruct c2 as [y2|]; simpl in *; try discriminate.
    destruct (reqb y1 0) eqn:Z. { apply reqb_true in Z. subst. exfalso. now apply (N g1). }
    apply reqb_false in Z. exists (y2 / y1). split; [reflexivity|].
    inversion E1; inversion E2; subst. field. exact Z.
  - destruct f1; try discriminate. inversion T1; subst.
    destruct (isIdentical f2 g1) eqn:I; [|discriminate]. apply isIdentical_eq in I. subst. inversion H; subst.
    cbn [eval] in *. rewrite E2 in E1. destruct c1 as [y1|]; simpl in *; try discriminate.
    destruct (reqb y1 0) eqn:Z. { apply reqb_true in Z. subst. exfalso. now apply (N g1). }
    apply reqb_false in Z. exists (1 / y1). split; [reflexivity|].
    inversion E1; subst. field. exact Z.
  - destruct f2; try discriminate. inversion T2; subst.
    destruct (isIdentical f1 g2) eqn:I; [|discriminate]. apply isIdentical_eq in I. subst. inversion H; subst.
    cbn [eval] in *. rewrite E1 in E2. destruct c as [y1|]; simpl in *; try discriminate.
    exists y1. split; [reflexivity|]. inversion E2; subst. ring.
  - destruct (isIdentical f1 f2) eqn:I; [|discriminate]. apply isIdentical_eq in I. subst. inversion H; subst.
    exists 1. split; [reflexivity|]. rewrite E1 in E2. inversion E2. ring.
Qed.

Lemma isZero_true f : isZero f = true -> f = FConst 0.
Proof. destruct f; simpl; try discriminate. intros H. apply reqb_true in H. now subst. Qed.
Lemma isOne_true f : isOne f = true -> f = FConst 1.
Proof. destruct f; simpl; try discriminate. intros H. apply reqb_true in H. now subst. Qed.
Lemma isConstant_some f c : isConstant f = Some c -> f = FConst c.
Proof. destruct f; simpl; try discriminate. intros H. now inversion H. Qed.
Lemma isPow_some f c : isPow f = Some c -> f = FPow c.
Proof. destruct f; simpl; try discriminate. intros H. now inversion H. Qed.
Lemma isExp_some f c : isExp f = Some c -> f = FExp c.
Proof. destruct f; simpl; try discriminate. intros H. now inversion H. Qed.
Lemma eval_const c t v : eval (FConst c) t = V v -> v = c.
Proof. simpl. intros H. now inversion H. Qed.

Lemma newSum_ok f1 f2 t a b :
  top_nz f1 -> eval f1 t = V a -> eval f2 t = V b -> eval (newSum f1 f2) t = V (a + b).
Proof.
  intros N E1 E2. unfold newSum.
  destruct (isIdentical f1 f2) eqn:I.
  { apply isIdentical_eq in I. subst. rewrite E1 in E2. inversion E2; subst.
    erewrite newTimes_ok by eauto. f_equal. ring. }
  destruct (isZero f1) eqn:Z1. { apply isZero_true in Z1. subst. apply eval_const in E1. subst. rewrite E2. f_equal. ring. }
  destruct (isZero f2) eqn:Z2. { apply isZero_true in Z2. subst. apply eval_const in E2. subst. rewrite E1. f_equal. ring. }
  destruct (isConstant f2) as [c2|] eqn:C2.
  { apply isConstant_some in C2. subst. apply eval_const in E2. subst. now apply newPlus_ok. }
  destruct (isConstant f1) as [c1|] eqn:C1.
  { apply isConstant_some in C1. subst. apply eval_const in E1. subst. rewrite Rplus_comm. now apply newPlus_ok. }
  destruct (isProportional f1 f2) as [c|] eqn:P.
  - destruct (proportional_ok _ _ _ _ _ _ P N E1 E2) as [y [-> ->]]. cbn [ois oplus].
    destruct (reqb y (-1)) eqn:M. { apply reqb_true in M. subst. simpl. f_equal. ring. }
    erewrite newTimes_ok by eauto. f_equal. ring.
  - cbn [eval]. rewrite E1, E2. reflexivity.
Qed.
Lemma newDiff_ok f1 f2 t a b :
  top_nz f1 -> eval f1 t = V a -> eval f2 t = V b -> eval (newDiff f1 f2) t = V (a - b).
Proof.
  intros N E1 E2. unfold newDiff.
  destruct (isZero f2) eqn:Z2. { apply isZero_true in Z2. subst. apply eval_const in E2. subst. rewrite E1. f_equal. ring. }
  destruct (isZero f1) eqn:Z1. { apply isZero_true in Z1. subst. apply eval_const in E1. subst. erewrite newTimes_ok by eauto. f_equal. ring. }
  destruct (isIdentical f1 f2) eqn:I.
  { apply isIdentical_eq in I. subst. rewrite E1 in E2. inversion E2; subst. simpl. f_equal. ring. }
  destruct (isConstant f2) as [c2|] eqn:C2.
  { apply isConstant_some in C2. subst. apply eval_const in E2. subst. now apply newPlus_ok. }
  destruct (isProportional f1 f2) as [c|] eqn:P.
  - destruct (proportional_ok _ _ _ _ _ _ P N E1 E2) as [y [-> ->]]. cbn [ois ominus].
    destruct (reqb y 1) eqn:M. { apply reqb_true in M. subst. simpl. f_equal. ring. }
    erewrite newTimes_ok by eauto. f_equal. ring.
  - cbn [eval]. rewrite E1, E2. reflexivity.
Qed.

Lemma strip_ok f t a : eval f t = V a -> exists x y, eval (fst (strip f)) t = V x /\ snd (strip f) = Some y /\ a = x * y.
Proof.
  intros E. unfold strip. destruct f; cbn [isTimes fst snd]; try (exists a, 1; repeat split; [exact E|ring]).
  cbn [eval] in E. destruct (eval f t) as [x| |]; destruct c as [y|]; simpl in E; try discriminate.
  exists x, y. inversion E. auto.
Qed.
Lemma strip_size f : (size (fst (strip f)) <= size f)%nat.
Proof. unfold strip. destruct f; simpl; lia. Qed.
Lemma strip_size_lt f : isTimes f <> None -> (size (fst (strip f)) < size f)%nat.
Proof. unfold strip. destruct f; simpl; intros; try congruence; lia. Qed.
Lemma size_pos f : (0 < size f)%nat.
Proof. destruct f; simpl; lia. Qed.

Lemma prod_fuel_ok : forall n f1 f2 t a b, (size f1 + size f2 <= n)%nat ->
  eval f1 t = V a -> eval f2 t = V b -> eval (prod_fuel n f1 f2) t = V (a * b).
Proof.
  induction n as [|n IH]; intros f1 f2 t a b L E1 E2. { pose proof (size_pos f1). lia. }
  cbn [prod_fuel].
  destruct (isOne f1) eqn:O1. { apply isOne_true in O1. subst. apply eval_const in E1. subst. rewrite E2. f_equal. ring. }
  destruct (isOne f2) eqn:O2. { apply isOne_true in O2. subst. apply eval_const in E2. subst. rewrite E1. f_equal. ring. }
  destruct (isZero f1) eqn:Z1. { apply isZero_true in Z1. subst. apply eval_const in E1. subst. simpl. f_equal. ring. }
  destruct (isZero f2) eqn:Z2. { apply isZero_true in Z2. subst. apply eval_const in E2. subst. simpl. f_equal. ring. }
  cbn [orb].
  destruct (isConstant f1) as [c1|] eqn:C1.
  { apply isConstant_some in C1. subst. apply eval_const in E1. subst.
    destruct (isConstant f2) as [c2|] eqn:C2.
    - apply isConstant_some in C2. subst. apply eval_const in E2. subst. reflexivity.
    - erewrite newTimes_ok by eauto. f_equal. ring. }
  destruct (isConstant f2) as [c2|] eqn:C2.
  { apply isConstant_some in C2. subst. apply eval_const in E2. subst. erewrite newTimes_ok by eauto. reflexivity. }
  assert (G : eval (match isTimes f1, isTimes f2 with
                   | None, None => FProd f1 f2
                   | _, _ => let '(g1, c1) := strip f1 in let '(g2, c2) := strip f2 in
                       let p := prod_fuel n g1 g2 in
                       if negb (ois (omul c1 c2) 1) then newTimes p (omul c1 c2) else p end) t = V (a * b)).
  { destruct (strip_ok _ _ _ E1) as [x1 [y1 [S1 [K1 ->]]]].
    destruct (strip_ok _ _ _ E2) as [x2 [y2 [S2 [K2 ->]]]].
    pose proof (strip_size f1). pose proof (strip_size f2).
    assert (G : isTimes f1 <> None \/ isTimes f2 <> None -> eval (let '(g1, c1) := strip f1 in let '(g2, c2) := strip f2 in
                       let p := prod_fuel n g1 g2 in
                       if negb (ois (omul c1 c2) 1) then newTimes p (omul c1 c2) else p) t = V (x1 * y1 * (x2 * y2))).
    { intros D.
      assert (L' : (size (fst (strip f1)) + size (fst (strip f2)) <= n)%nat).
      { destruct D as [D|D]; apply strip_size_lt in D; lia. }
      destruct (strip f1) as [g1 k1]. destruct (strip f2) as [g2 k2]. cbn [fst snd] in *. subst k1 k2.
      pose proof (IH g1 g2 t x1 x2 L' S1 S2) as Hp. cbn [omul ois].
      destruct (reqb (y1 * y2) 1) eqn:Q; cbn [negb].
      - apply reqb_true in Q. rewrite Hp. f_equal.
        replace (x1 * y1 * (x2 * y2)) with (x1 * x2 * (y1 * y2)) by ring. rewrite Q. ring.
      - erewrite newTimes_ok by eauto. f_equal. ring. }
    destruct (isTimes f1) eqn:T1; [destruct p; apply G; left; congruence|].
    destruct (isTimes f2) eqn:T2; [destruct p; apply G; right; congruence|].
    cbn [eval]. rewrite E1, E2. reflexivity. }
  destruct (isPow f1) as [p1|] eqn:P1.
  - apply isPow_some in P1. subst f1. destruct (isPow f2) as [p2|] eqn:P2.
    + apply isPow_some in P2. subst f2. cbn [eval] in *. now apply rpow_mult.
    + cbn [isExp]. exact G.
  - destruct (isExp f1) as [e1|] eqn:X1; [|exact G]. apply isExp_some in X1. subst f1.
    destruct (isExp f2) as [e2|] eqn:X2; [|exact G]. apply isExp_some in X2. subst f2.
    cbn [eval] in *. inversion E1; inversion E2; subst. f_equal. rewrite <- exp_plus. f_equal. ring.
Qed.
Lemma newProd_ok f1 f2 t a b : eval f1 t = V a -> eval f2 t = V b -> eval (newProd f1 f2) t = V (a * b).
Proof. intros. now apply prod_fuel_ok. Qed.

Lemma newRatio_ok f1 f2 t a b : eval f1 t = V a -> eval f2 t = V b -> b <> 0 ->
  exists h, newRatio f1 f2 = Ok h /\ eval h t = V (a / b).
Proof.
  intros E1 E2 N. unfold newRatio.
  destruct (isOne f2) eqn:O2.
  { apply isOne_true in O2. subst. apply eval_const in E2. subst. exists f1. split; [reflexivity|]. rewrite E1. f_equal. field. }
  destruct (isZero f1) eqn:Z1.
  { apply isZero_true in Z1. subst. apply eval_const in E1. subst. eexists. split; [reflexivity|]. simpl. f_equal. field. exact N. }
  destruct (isZero f2) eqn:Z2. { apply isZero_true in Z2. subst. apply eval_const in E2. subst. lra. }
  destruct (isIdentical f1 f2) eqn:I.
  { apply isIdentical_eq in I. subst. rewrite E1 in E2. inversion E2; subst. eexists. split; [reflexivity|]. simpl. f_equal. field. exact N. }
  destruct (isConstant f2) as [c2|] eqn:C2.
  { apply isConstant_some in C2. subst. apply eval_const in E2. subst. eexists. split; [reflexivity|].
    erewrite newTimes_ok by eauto. f_equal. field. exact N. }
  assert (G : exists h, Ok (FRatio f1 f2) = Ok h /\ eval h t = V (a / b)).
  { eexists. split; [reflexivity|]. cbn [eval]. rewrite E1, E2. simpl. unfold rdiv.
    destruct (reqb b 0) eqn:B; [apply reqb_true in B; congruence|reflexivity]. }
  destruct (isPow f1) as [p1|] eqn:P1.
  - apply isPow_some in P1. subst f1. destruct (isPow f2) as [p2|] eqn:P2; [|exact G].
    apply isPow_some in P2. subst f2. eexists. split; [reflexivity|]. cbn [eval] in *. now apply rpow_div.
  - destruct (isExp f1) as [e1|] eqn:X1; [|exact G]. apply isExp_some in X1. subst f1.
    destruct (isExp f2) as [e2|] eqn:X2; [|exact G]. apply isExp_some in X2. subst f2.
    eexists. split; [reflexivity|]. cbn [eval] in *. inversion E1; inversion E2; subst. f_equal.
    unfold Rdiv. rewrite <- exp_Ropp, <- exp_plus. f_equal. ring.
Qed.

Lemma newComp_ok f1 f2 t x y : eval f2 t = V x -> eval f1 x = V y ->
  (forall a b, f1 = FPow a -> f2 = FPow b -> 0 <= t \/ exists z, a = IZR z) ->
  eval (newComp f1 f2) t = V y.
Proof.
  intros E2 E1 D. unfold newComp.
  destruct (isZero f1) eqn:Z1. { apply isZero_true in Z1. subst. apply eval_const in E1. subst. reflexivity. }
  destruct (isConstant f1) as [c|] eqn:C. { apply isConstant_some in C. subst. exact E1. }
  destruct (isPow f1) as [a|] eqn:P.
  - apply isPow_some in P. subst. destruct (reqb a 1) eqn:A1.
    { apply reqb_true in A1. subst. rewrite E2. cbn [eval] in E1. rewrite <- E1.
      destruct (Rtotal_order x 0) as [H|[->|H]].
      - rewrite (rpow_neg x 1) by exact H. f_equal. simpl. ring.
      - rewrite rpow_zero_pos by lra. reflexivity.
      - rewrite rpow_pos by exact H. f_equal. symmetry. now apply Rpower_1. }
    destruct (reqb a 0) eqn:A0.
    { apply reqb_true in A0. subst. cbn [eval] in *. rewrite <- E1.
      destruct (Rtotal_order x 0) as [H|[->|H]].
      - now rewrite (rpow_neg x 0) by exact H.
      - now rewrite rpow_zero_zero.
      - rewrite rpow_pos by exact H. f_equal. symmetry. now apply Rpower_O. }
    destruct (isPow f2) as [b|] eqn:P2.
    + apply isPow_some in P2. subst. cbn [eval] in *. eapply rpow_comp; eauto.
    + cbn [eval]. rewrite E2. exact E1.
  - cbn [eval]. rewrite E2. exact E1.
Qed.

(** Closure of [nonzero_times] and [int_powers]. *)
Lemma nz_top f : nonzero_times f -> top_nz f.
Proof. intros H g ->. simpl in H. tauto. Qed.
Lemma newTimes_nz f c : nonzero_times f -> nonzero_times (newTimes f c).
Proof.
  intros H. unfold newTimes. destruct (ois c 0) eqn:Z; [exact I|]. destruct (ois c 1); [exact H|].
  assert (N : c <> Some 0) by (intros ->; simpl in Z; rewrite (proj2 (reqb_true 0 0) eq_refl) in Z; discriminate).
  destruct f; cbn [isTimes nonzero_times] in *; auto. destruct H as [H1 H2]. split; [|exact H2].
  destruct c0 as [u|], c as [v|]; simpl; try discriminate. intros E. injection E as E.
  apply Rmult_integral in E as [E|E]; subst; congruence.
Qed.
Lemma newPlus_nz f c : nonzero_times f -> nonzero_times (newPlus f c).
Proof. intros H. unfold newPlus. destruct (reqb c 0); [exact H|]. destruct f; simpl in *; auto. Qed.
Lemma newSum_nz f g : nonzero_times f -> nonzero_times g -> nonzero_times (newSum f g).
Proof.
  intros. unfold newSum. destruct (isIdentical f g); [now apply newTimes_nz|]. destruct (isZero f); [easy|]. destruct (isZero g); [easy|].
  destruct (isConstant g); [now apply newPlus_nz|]. destruct (isConstant f); [now apply newPlus_nz|].
  destruct (isProportional f g) as [c|]; [|now split]. destruct (ois c (-1)); [exact I|now apply newTimes_nz].
Qed.
Lemma newDiff_nz f g : nonzero_times f -> nonzero_times g -> nonzero_times (newDiff f g).
Proof.
  intros. unfold newDiff. destruct (isZero g); [easy|]. destruct (isZero f); [now apply newTimes_nz|]. destruct (isIdentical f g); [exact I|].
  destruct (isConstant g); [now apply newPlus_nz|].
  destruct (isProportional f g) as [c|]; [|now split]. destruct (ois c 1); [exact I|now apply newTimes_nz].
Qed.
Lemma strip_nz f : nonzero_times f -> nonzero_times (fst (strip f)).
Proof. unfold strip. destruct f; simpl; tauto. Qed.
Lemma prod_fuel_nz n : forall f g, nonzero_times f -> nonzero_times g -> nonzero_times (prod_fuel n f g).
Proof.
  induction n as [|n IH]; intros f g Hf Hg; cbn [prod_fuel]; [exact I|].
  destruct (isOne f); [easy|]. destruct (isOne g); [easy|]. destruct (isZero f || isZero g); [exact I|].
  destruct (isConstant f), (isConstant g); [exact I|now apply newTimes_nz|now apply newTimes_nz|].
  assert (G : nonzero_times (match isTimes f, isTimes g with
                   | None, None => FProd f g
                   | _, _ => let '(g1, c1) := strip f in let '(g2, c2) := strip g in
                       let p := prod_fuel n g1 g2 in
                       if negb (ois (omul c1 c2) 1) then newTimes p (omul c1 c2) else p end)).
  { pose proof (strip_nz f Hf) as Sf. pose proof (strip_nz g Hg) as Sg.
    destruct (strip f) as [g1 k1]. destruct (strip g) as [g2 k2]. cbn [fst] in *.
    pose proof (IH g1 g2 Sf Sg) as Hp.
    destruct (isTimes f) as [[? ?]|], (isTimes g) as [[? ?]|]; try (now split); cbv zeta;
      destruct (negb _); auto; now apply newTimes_nz. }
  destruct (isPow f), (isPow g), (isExp f), (isExp g); try exact I; exact G.
Qed.
Lemma newProd_nz f g : nonzero_times f -> nonzero_times g -> nonzero_times (newProd f g).
Proof. apply prod_fuel_nz. Qed.
Lemma newRatio_nz f g h : nonzero_times f -> nonzero_times g -> newRatio f g = Ok h -> nonzero_times h.
Proof.
  intros Hf Hg. unfold newRatio.
  destruct (isOne g); [intros E; now inversion E; subst|]. destruct (isZero f); [intros E; now inversion E|].
  destruct (isZero g); [discriminate|]. destruct (isIdentical f g); [intros E; now inversion E|].
  destruct (isConstant g); [intros E; inversion E; now apply newTimes_nz|].
  destruct (isPow f), (isPow g), (isExp f), (isExp g); intros E; inversion E; try exact I; now split.
Qed.
Lemma newComp_nz f g : nonzero_times f -> nonzero_times g -> nonzero_times (newComp f g).
Proof.
  intros Hf Hg. unfold newComp. destruct (isZero f); [exact I|]. destruct (isConstant f); [exact Hf|].
  destruct (isPow f) as [a|]; [|now split]. destruct (reqb a 1); [exact Hg|]. destruct (reqb a 0); [exact I|].
  destruct (isPow g); [exact I|now split].
Qed.
Lemma obind_ok {A B} (x : outcome A) (k : A -> outcome B) y : obind x k = Ok y -> exists a, x = Ok a /\ k a = Ok y.
Proof. destruct x; simpl; try discriminate; eauto. Qed.

Lemma derivative_nz f : forall d, nonzero_times f -> derivative f = Ok d -> nonzero_times d.
Proof.
  induction f; intros d N H; cbn [derivative] in H; unfold obind2 in H; try discriminate.
  - inversion H. now apply newTimes_nz.
  - inversion H. now apply newTimes_nz.
  - inversion H. destruct (negb _); [now apply newTimes_nz|exact I].
  - inversion H. destruct (negb _); [now apply newTimes_nz|exact I].
  - inversion H. destruct (reqb c 0); [exact I|]. destruct (reqb c 1); [exact I|now apply newTimes_nz].
  - inversion H. exact I.
  - destruct tab as [|[t0 f0] tab]; [discriminate|]. inversion H. exact I.
  - apply obind_ok in H as [a [Ha H]]. apply obind_ok in H as [b [Hb H]]. inversion H. destruct N. apply newSum_nz; auto.
  - apply obind_ok in H as [a [Ha H]]. apply obind_ok in H as [b [Hb H]]. inversion H. destruct N. apply newDiff_nz; auto.
  - apply obind_ok in H as [a [Ha H]]. apply obind_ok in H as [b [Hb H]]. inversion H. destruct N.
    apply newSum_nz; apply newProd_nz; auto.
  - apply obind_ok in H as [a [Ha H]]. apply obind_ok in H as [b [Hb H]]. destruct N.
    eapply newRatio_nz; [| |exact H]; [apply newDiff_nz; apply newProd_nz|apply newProd_nz]; auto.
  - apply obind_ok in H as [a [Ha H]]. apply obind_ok in H as [b [Hb H]]. inversion H. destruct N.
    apply newProd_nz; [apply newComp_nz|]; auto.
  - apply obind_ok in H as [a [Ha H]]. inversion H. apply newTimes_nz. destruct N; auto.
  - auto.
Qed.

Lemma newTimes_ip f c : int_powers f -> int_powers (newTimes f c).
Proof.
  intros H. unfold newTimes. destruct (ois c 0); [exact I|]. destruct (ois c 1); [exact H|]. destruct f; simpl in *; auto.
Qed.
Lemma newPlus_ip f c : int_powers f -> int_powers (newPlus f c).
Proof. intros H. unfold newPlus. destruct (reqb c 0); [exact H|]. destruct f; simpl in *; auto. Qed.
Lemma newSum_ip f g : int_powers f -> int_powers g -> int_powers (newSum f g).
Proof.
  intros. unfold newSum. destruct (isIdentical f g); [now apply newTimes_ip|]. destruct (isZero f); [easy|]. destruct (isZero g); [easy|].
  destruct (isConstant g); [now apply newPlus_ip|]. destruct (isConstant f); [now apply newPlus_ip|].
  destruct (isProportional f g) as [c|]; [|now split]. destruct (ois c (-1)); [exact I|now apply newTimes_ip].
Qed.
Lemma newDiff_ip f g : int_powers f -> int_powers g -> int_powers (newDiff f g).
Proof.
  intros. unfold newDiff. destruct (isZero g); [easy|]. destruct (isZero f); [now apply newTimes_ip|]. destruct (isIdentical f g); [exact I|].
  destruct (isConstant g); [now apply newPlus_ip|].
  destruct (isProportional f g) as [c|]; [|now split]. destruct (ois c 1); [exact I|now apply newTimes_ip].
Qed.
Lemma strip_ip f : int_powers f -> int_powers (fst (strip f)).
Proof. unfold strip. destruct f; simpl; tauto. Qed.
Lemma pow_ip f c : isPow f = Some c -> int_powers f -> exists z, c = IZR z.
Proof. intros H. apply isPow_some in H. now subst. Qed.
Lemma prod_fuel_ip n : forall f g, int_powers f -> int_powers g -> int_powers (prod_fuel n f g).
Proof.
  induction n as [|n IH]; intros f g Hf Hg; cbn [prod_fuel]; [exact I|].
  destruct (isOne f); [easy|]. destruct (isOne g); [easy|]. destruct (isZero f || isZero g); [exact I|].
  destruct (isConstant f), (isConstant g); [exact I|now apply newTimes_ip|now apply newTimes_ip|].
  assert (G : int_powers (match isTimes f, isTimes g with
                   | None, None => FProd f g
                   | _, _ => let '(g1, c1) := strip f in let '(g2, c2) := strip g in
                       let p := prod_fuel n g1 g2 in
                       if negb (ois (omul c1 c2) 1) then newTimes p (omul c1 c2) else p end)).
  { pose proof (strip_ip f Hf) as Sf. pose proof (strip_ip g Hg) as Sg.
    destruct (strip f) as [g1 k1]. destruct (strip g) as [g2 k2]. cbn [fst] in *.
    pose proof (IH g1 g2 Sf Sg) as Hp.
    destruct (isTimes f) as [[? ?]|], (isTimes g) as [[? ?]|]; try (now split); cbv zeta;
      destruct (negb _); auto; now apply newTimes_ip. }
  destruct (isPow f) as [a|] eqn:Pa, (isPow g) as [b|] eqn:Pb; [|destruct (isExp f), (isExp g); try exact I; exact G..].
  destruct (pow_ip _ _ Pa Hf) as [u ->]. destruct (pow_ip _ _ Pb Hg) as [v ->]. exists (u + v)%Z. now rewrite plus_IZR.
Qed.
Lemma newProd_ip f g : int_powers f -> int_powers g -> int_powers (newProd f g).
Proof. apply prod_fuel_ip. Qed.
Lemma newRatio_ip f g h : int_powers f -> int_powers g -> newRatio f g = Ok h -> int_powers h.
Proof.
  intros Hf Hg. unfold newRatio.
  destruct (isOne g); [intros E; now inversion E; subst|]. destruct (isZero f); [intros E; now inversion E|].
  destruct (isZero g); [discriminate|]. destruct (isIdentical f g); [intros E; now inversion E|].
  destruct (isConstant g); [intros E; inversion E; now apply newTimes_ip|].
  destruct (isPow f) as [a|] eqn:Pa, (isPow g) as [b|] eqn:Pb; [|destruct (isExp f), (isExp g); intros E; inversion E; try exact I; now split..].
  intros E. inversion E.
  destruct (pow_ip _ _ Pa Hf) as [u ->]. destruct (pow_ip _ _ Pb Hg) as [v ->]. exists (u - v)%Z. now rewrite minus_IZR.
Qed.
Lemma newComp_ip f g : int_powers f -> int_powers g -> int_powers (newComp f g).
Proof.
  intros Hf Hg. unfold newComp. destruct (isZero f); [exact I|]. destruct (isConstant f); [exact Hf|].
  destruct (isPow f) as [a|] eqn:Pa; [|now split]. destruct (reqb a 1); [exact Hg|]. destruct (reqb a 0); [exact I|].
  destruct (isPow g) as [b|] eqn:Pb; [|now split].
  destruct (pow_ip _ _ Pa Hf) as [u ->]. destruct (pow_ip _ _ Pb Hg) as [v ->]. exists (u * v)%Z. now rewrite mult_IZR.
Qed.
Lemma derivative_ip f : forall d, int_powers f -> derivative f = Ok d -> int_powers d.
Proof.
  induction f; intros d N H; cbn [derivative] in H; unfold obind2 in H; try discriminate.
  - inversion H. now apply newTimes_ip.
  - inversion H. now apply newTimes_ip.
  - inversion H. destruct (negb _); [now apply newTimes_ip|exact I].
  - inversion H. destruct (negb _); [apply newTimes_ip|]; now exists (-1)%Z.
  - inversion H. destruct N as [z ->]. destruct (reqb _ 0); [exact I|]. destruct (reqb _ 1); [exact I|]. apply newTimes_ip.
    exists (z - 1)%Z. now rewrite minus_IZR.
  - inversion H. exact I.
  - destruct tab as [|[t0 f0] tab]; [discriminate|]. inversion H. exact I.
  - apply obind_ok in H as [a [Ha H]]. apply obind_ok in H as [b [Hb H]]. inversion H. destruct N. apply newSum_ip; auto.
  - apply obind_ok in H as [a [Ha H]]. apply obind_ok in H as [b [Hb H]]. inversion H. destruct N. apply newDiff_ip; auto.
  - apply obind_ok in H as [a [Ha H]]. apply obind_ok in H as [b [Hb H]]. inversion H. destruct N.
    apply newSum_ip; apply newProd_ip; auto.
  - apply obind_ok in H as [a [Ha H]]. apply obind_ok in H as [b [Hb H]]. destruct N.
    eapply newRatio_ip; [| |exact H]; [apply newDiff_ip; apply newProd_ip|apply newProd_ip]; auto.
  - apply obind_ok in H as [a [Ha H]]. apply obind_ok in H as [b [Hb H]]. inversion H. destruct N.
    apply newProd_ip; [apply newComp_ip|]; auto.
  - apply obind_ok in H as [a [Ha H]]. inversion H. apply newTimes_ip. auto.
  - auto.
Qed.
Lemma regular_nz f : forall t, regular f t -> nonzero_times f.
Proof.
  induction f; intros t H; cbn [regular nonzero_times] in *; auto; try contradiction;
    try (destruct H as [H1 H2]; eauto; fail).
  - destruct H as [H1 [H2 H3]]. eauto.
  - destruct H as [H1 [H2 H3]]. eauto.
  - destruct H as [H1 [H2 H3]]. eauto.
  - eauto.
Qed.
