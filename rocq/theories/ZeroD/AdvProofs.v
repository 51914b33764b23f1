From Coq Require Import Reals List Bool Arith Lra Lia.
From Verif Require Import Base.Outcome Base.Fp Base.RSum ZeroD.AdvModel ZeroD.AdvSpec.
Import ListNotations.
Local Open Scope R_scope.
Local Open Scope list_scope.

Lemma addv_length f a b : length a = length b -> length (addv f a b) = length a.
Proof. intros H. unfold addv. rewrite map_length, combine_length. lia. Qed.
Lemma addv_nth f a b j : length a = length b -> nth j (addv f a b) 0 = nth j a 0 + f * nth j b 0.
Proof.
  revert b j. induction a as [|x a IH]; intros [|z b] j H; try discriminate H.
  - destruct j; cbn; lra.
  - injection H as H. destruct j; cbn; [reflexivity|]. apply (IH b j H).
Qed.
Lemma exceeded_spec lim yest y : length lim = length yest -> length yest = length y ->
  exceeded lim yest y = false <-> within lim y (fun j => nth j yest 0).
Proof.
  unfold exceeded, within. revert yest y. induction lim as [|l lim IH]; intros [|a yest] [|b y] H1 H2; try discriminate.
  - cbn. split; [intros; lia | auto].
  - injection H1 as H1. injection H2 as H2. cbn [combine existsb fst snd]. rewrite orb_false_iff, (IH yest y H1 H2). split.
    + intros [A B] [|j] L P; cbn [nth length] in *.
      * apply andb_false_iff in A as [A|A]; [apply rltb_false in A; lra | apply rltb_false in A; exact A].
      * apply B; [lia | exact P].
    + intros A. split.
      * destruct (rltb 0 l) eqn:E; [|reflexivity]. apply rltb_true in E. cbn [andb]. apply rltb_false. apply (A 0%nat); [cbn; lia | exact E].
      * intros j L P. apply (A (S j)); [cbn; lia | exact P].
Qed.

Section Adv.
Context {C : Type} (cstep : R -> C -> outcome C) (ctime : C -> R) (cy : C -> list R) (corder : C -> nat)
        (cdky : C -> R -> nat -> outcome (list R)).
Notation rnet := (@rnet C).
Notation derivs := (derivs cdky).
Notation csteps := (csteps cstep ctime).
Notation firsts := (firsts cstep ctime cy corder).

Lemma est_ok (r : rnet) (d : nat -> list R) (dt : R) k : forall a yest,
  (forall n, (a < n <= a + k)%nat -> cdky (i_c (r_i r)) (r_t r) n = Ok (d n) /\ length (d n) = length yest) ->
  exists out, est_loop cdky r dt (dt ^ a / INR (fact a)) (seq (S a) k) yest = Ok out /\ length out = length yest /\
    forall j, nth j out 0 = nth j yest 0 + sum_of (fun n => dt ^ n / INR (fact n) * nth j (d n) 0) (seq (S a) k).
Proof.
  induction k as [|k IH]; intros a yest H.
  - exists yest. repeat split. intros j. cbn [seq]. rewrite sum_of_nil. lra.
  - destruct (H (S a) ltac:(lia)) as [D L]. cbn [seq est_loop]. rewrite D. cbn [obind].
    replace (dt ^ a / INR (fact a) * (dt / INR (S a))) with (dt ^ S a / INR (fact (S a))).
    2: { change (fact (S a)) with (S a * fact a)%nat. rewrite mult_INR. cbn [pow]. field. split; first [apply INR_fact_neq_0 | apply not_0_INR; discriminate]. }
    destruct (IH (S a) (addv (dt ^ S a / INR (fact (S a))) yest (d (S a)))) as (out & E & LO & N).
    { intros n Hn. rewrite addv_length by auto. apply H. lia. }
    exists out. split; [exact E|]. rewrite addv_length in LO by auto. split; [exact LO|].
    intros j. rewrite N, addv_nth by auto. rewrite sum_of_cons. ring.
Qed.
Lemma getEstimate_ok r k d t : derivs r k d -> exists out, getEstimate cdky r t k = Ok out /\ length out = length (i_y (r_i r)) /\
  forall j, nth j out 0 = taylor (i_y (r_i r)) d k (t - r_t r) j.
Proof.
  intros H. destruct (est_ok r d (t - r_t r) k 0 (i_y (r_i r))) as (out & E & L & N).
  - intros n Hn. apply H. lia.
  - exists out. split; [|split; [exact L|exact N]]. unfold getEstimate. cbn [fact pow INR] in E. replace (1 / 1) with 1 in E by lra. exact E.
Qed.
(* The m-th trial. *)
Definition trial (r : rnet) (t : R) (m : nat) : R := r_t r + (t - r_t r) / 2 ^ m.
Definition good (r : rnet) lim k d t : Prop := within lim (i_y (r_i r)) (taylor (i_y (r_i r)) d k (t - r_t r)).
Lemma within_ext lim y f g : (forall j, f j = g j) -> within lim y f <-> within lim y g.
Proof. intros H. unfold within. split; intros W j L P; [rewrite <- H | rewrite H]; auto. Qed.
Lemma step_loop r k d lim t : derivs r k d -> length lim = length (i_y (r_i r)) -> forall fuel,
  (good r lim k d t /\ lim_loop cdky (S fuel) r lim k t = Some (Ok t)) \/
  (~ good r lim k d t /\ lim_loop cdky (S fuel) r lim k t = lim_loop cdky fuel r lim k (/ 2 * (r_t r + t))).
Proof.
  intros D L fuel. destruct (getEstimate_ok r k d t D) as (out & E & LO & N). cbn [lim_loop]. rewrite E.
  assert (X := exceeded_spec lim out (i_y (r_i r)) ltac:(lia) LO). rewrite (within_ext _ _ _ _ N) in X.
  destruct (exceeded lim out (i_y (r_i r))) eqn:EX; [right | left]; unfold good; rewrite <- X; split; congruence.
Qed.
Lemma trial_S r t m : trial r (/ 2 * (r_t r + t)) m = trial r t (S m).
Proof. unfold trial. cbn [pow]. field. apply pow_nonzero. lra. Qed.
Lemma trial_0 r t : trial r t 0 = t.
Proof. unfold trial. cbn [pow]. field. Qed.
Lemma lim_sound r k d lim : derivs r k d -> length lim = length (i_y (r_i r)) -> forall fuel t o,
  lim_loop cdky fuel r lim k t = Some o -> exists m, (m < fuel)%nat /\ o = Ok (trial r t m) /\ good r lim k d (trial r t m) /\ forall m', (m' < m)%nat -> ~ good r lim k d (trial r t m').
Proof.
  intros D L. induction fuel as [|fuel IH]; intros t o E; [discriminate E|].
  destruct (step_loop r k d lim t D L fuel) as [[G F]|[G F]]; rewrite F in E.
  - injection E as <-. exists 0%nat. rewrite trial_0. split; [lia|]. split; [reflexivity|]. split; [exact G|]. intros; lia.
  - destruct (IH _ _ E) as (m & A & B & G' & H). exists (S m). rewrite <- trial_S. split; [lia|]. split; [exact B|]. split; [exact G'|].
    intros [|m'] Hm; [rewrite trial_0; exact G|]. rewrite <- trial_S. apply H. lia.
Qed.
Lemma lim_complete r k d lim : derivs r k d -> length lim = length (i_y (r_i r)) -> forall m t, good r lim k d (trial r t m) ->
  exists o, lim_loop cdky (S m) r lim k t = Some o.
Proof.
  intros D L. induction m as [|m IH]; intros t G.
  - destruct (step_loop r k d lim t D L 0) as [[G' F]|[G' F]]; [eauto|]. rewrite trial_0 in G. contradiction.
  - destruct (step_loop r k d lim t D L (S m)) as [[G' F]|[G' F]]; [eauto|]. rewrite F. apply IH. rewrite trial_S. exact G.
Qed.
(* Small steps stay within the limits. *)
Lemma taylor_small y d k dt j : Rabs dt <= 1 ->
  Rabs (taylor y d k dt j - nth j y 0) <= Rabs dt * sum_of (fun n => Rabs (nth j (d n) 0)) (seq 1 k).
Proof.
  intros B. unfold taylor. replace (nth j y 0 + _ - nth j y 0) with (sum_of (fun n => dt ^ n / INR (fact n) * nth j (d n) 0) (seq 1 k)) by ring.
  assert (H : forall n, In n (seq 1 k) -> (1 <= n)%nat) by (intros n Hn; apply in_seq in Hn; lia). revert H.
  generalize (seq 1 k). induction l as [|n l IH]; intros H.
  - rewrite !sum_of_nil, Rabs_R0. lra.
  - rewrite !sum_of_cons. eapply Rle_trans; [apply Rabs_triang|]. rewrite Rmult_plus_distr_l. apply Rplus_le_compat.
    + rewrite Rabs_mult. apply Rmult_le_compat_r; [apply Rabs_pos|]. assert (1 <= n)%nat by (apply H; left; auto).
      unfold Rdiv. rewrite Rabs_mult, <- RPow_abs. assert (F : 1 <= INR (fact n)).
      { change 1 with (INR 1). apply le_INR. assert (X := lt_O_fact n). lia. }
      rewrite (Rabs_right (/ INR (fact n))) by (left; apply Rinv_0_lt_compat; lra).
      assert (P : Rabs dt ^ n <= Rabs dt).
      { destruct n as [|n]; [lia|]. cbn [pow]. rewrite <- (Rmult_1_r (Rabs dt)) at 3. apply Rmult_le_compat_l; [apply Rabs_pos|].
        rewrite <- (pow1 n). apply pow_incr. split; [apply Rabs_pos | exact B]. }
      apply Rle_trans with (Rabs dt * 1); [|lra]. apply Rmult_le_compat; [apply pow_le, Rabs_pos | left; apply Rinv_0_lt_compat; lra | exact P|].
      rewrite <- Rinv_1. apply Rinv_le_contravar; lra.
    + apply IH. intros m Hm. apply H. right. auto.
Qed.
Lemma pow2_ge m : INR m <= 2 ^ m.
Proof.
  induction m as [|m IH]; [cbn; lra|]. rewrite S_INR. cbn [pow]. assert (1 <= 2 ^ m) by (apply pow_R1_Rle; lra). lra.
Qed.
Lemma small_trial A c : 0 <= A -> 0 < c -> exists N, forall m, (N <= m)%nat -> A / 2 ^ m <= c.
Proof.
  intros HA Hc. destruct (archimed (A / c)) as [U _].
  assert (AC : 0 <= A / c) by (apply Rmult_le_pos; [exact HA | left; apply Rinv_0_lt_compat; exact Hc]).
  assert (Z : (0 <= up (A / c))%Z) by (apply le_IZR; lra).
  exists (Z.to_nat (up (A / c))). intros m Hm.
  assert (B : A / c <= 2 ^ m).
  { apply Rle_trans with (INR m); [|apply pow2_ge]. apply Rle_trans with (INR (Z.to_nat (up (A / c)))); [|apply le_INR; exact Hm].
    rewrite INR_IZR_INZ, Z2Nat.id by exact Z. lra. }
  assert (P : 0 < 2 ^ m) by (apply pow_lt; lra).
  apply Rmult_le_reg_r with (2 ^ m); [exact P|]. unfold Rdiv. rewrite Rmult_assoc, Rinv_l, Rmult_1_r by lra.
  apply Rmult_le_reg_r with (/ c); [apply Rinv_0_lt_compat; exact Hc|]. replace (c * 2 ^ m * / c) with (2 ^ m) by (field; lra). exact B.
Qed.
Lemma good_eventually r k d lim t : exists m, good r lim k d (trial r t m).
Proof.
  assert (X : forall n, exists N, forall m, (N <= m)%nat -> forall j, (j < n)%nat -> 0 < nth j lim 0 ->
    Rabs (taylor (i_y (r_i r)) d k (trial r t m - r_t r) j - nth j (i_y (r_i r)) 0) <= nth j lim 0).
  { induction n as [|n [N IH]]; [exists 0%nat; intros; lia|].
    destruct (Rlt_le_dec 0 (nth n lim 0)) as [P|P].
    2: { exists N. intros m Hm j Hj Pj. destruct (Nat.eq_dec j n) as [->|]; [lra|]. apply IH; auto; lia. }
    set (M := sum_of (fun i => Rabs (nth n (d i) 0)) (seq 1 k)).
    assert (HM : 0 <= M) by (apply sum_of_nonneg; intros; apply Rabs_pos).
    destruct (small_trial (Rabs (t - r_t r)) 1 (Rabs_pos _) Rlt_0_1) as [N1 H1].
    destruct (small_trial (Rabs (t - r_t r) * M) (nth n lim 0)) as [N2 H2]; [apply Rmult_le_pos; [apply Rabs_pos|exact HM] | exact P|].
    exists (Nat.max N (Nat.max N1 N2)). intros m Hm j Hj Pj. destruct (Nat.eq_dec j n) as [->|]; [|apply IH; auto; lia].
    assert (TR : Rabs (trial r t m - r_t r) = Rabs (t - r_t r) / 2 ^ m).
    { unfold trial. replace (r_t r + (t - r_t r) / 2 ^ m - r_t r) with ((t - r_t r) / 2 ^ m) by ring. unfold Rdiv.
      rewrite Rabs_mult, (Rabs_right (/ 2 ^ m)); [reflexivity|]. left. apply Rinv_0_lt_compat, pow_lt. lra. }
    eapply Rle_trans; [apply taylor_small; rewrite TR; apply H1; lia|]. rewrite TR. fold M.
    replace (Rabs (t - r_t r) / 2 ^ m * M) with (Rabs (t - r_t r) * M / 2 ^ m) by (unfold Rdiv; ring). apply H2. lia. }
  destruct (X (length lim)) as [N H]. exists N. intros j. apply H. lia.
Qed.
Lemma lim_terminates r k d lim t : derivs r k d -> length lim = length (i_y (r_i r)) -> exists fuel t', lim_loop cdky fuel r lim k t = Some (Ok t').
Proof.
  intros D L. destruct (good_eventually r k d lim t) as [m G]. destruct (lim_complete r k d lim D L m t G) as [o E].
  destruct (lim_sound r k d lim D L _ _ _ E) as (m' & _ & -> & _). eauto.
Qed.

(* ---------------- the integrator ---------------- *)
Lemma int_loop_ok budget tout : forall c y c' y', int_loop cstep ctime cy budget tout c y = Ok (c', y') ->
  exists n, (n <= budget)%nat /\ csteps tout n c c' /\ tout <= ctime c'.
Proof.
  induction budget as [|b IH]; intros c y c' y' E; cbn [int_loop] in E; destruct (rltb (ctime c) tout) eqn:Q; try discriminate E.
  - injection E as <- <-. apply rltb_false in Q. exists 0%nat. repeat split; [lia | constructor | exact Q].
  - destruct (cstep tout c) as [c1| | |] eqn:S1; try discriminate E. cbn [obind] in E. destruct (IH _ _ _ _ E) as (n & A & B & D).
    exists (S n). apply rltb_true in Q. split; [lia|]. split; [econstructor; eauto | exact D].
  - injection E as <- <-. apply rltb_false in Q. exists 0%nat. repeat split; [lia | constructor | exact Q].
Qed.
Lemma int_loop_steps tout : forall n c c' y, csteps tout n c c' -> tout <= ctime c' -> forall budget, (n <= budget)%nat ->
  exists y', int_loop cstep ctime cy budget tout c y = Ok (c', y').
Proof.
  intros n c c' y H. revert y. induction H as [c|n c c1 c2 Q S1 H IH]; intros y T budget B.
  - exists y. destruct budget; cbn [int_loop]; rewrite (proj2 (rltb_false _ _) T); reflexivity.
  - destruct budget as [|budget]; [lia|]. cbn [int_loop]. rewrite (proj2 (rltb_true _ _) Q), S1. cbn [obind]. apply IH; [exact T | lia].
Qed.
Lemma integrate_ok ms tout i i' : integrate cstep ctime cy cdky ms tout i = Ok i' -> i_t i' = tout /\ i_t i <= tout /\
  (tout = i_t i -> i' = i) /\
  (i_t i < tout -> exists n, (n <= ms)%nat /\ csteps tout n (i_c i) (i_c i') /\ tout <= ctime (i_c i') /\ cdky (i_c i') tout 0 = Ok (i_y i')).
Proof.
  unfold integrate. destruct (reqb tout (i_t i)) eqn:E1.
  - intros E. injection E as <-. apply reqb_true in E1. repeat split; [auto | lra |]. intros H. lra.
  - apply reqb_false in E1. destruct (rltb tout (i_t i)) eqn:E2; [discriminate|]. apply rltb_false in E2.
    destruct (int_loop cstep ctime cy ms tout (i_c i) (i_y i)) as [[c' y']| | |] eqn:L; try discriminate. cbn [obind fst].
    destruct (cdky c' tout 0) as [y2| | |] eqn:D; try discriminate. cbn [obind]. intros E. injection E as <-. cbn [i_t i_c i_y].
    repeat split; [exact E2 | contradiction |]. intros _. destruct (int_loop_ok _ _ _ _ _ _ L) as (n & A & B & T). exists n. auto.
Qed.
Lemma advance_ok ms t r r' : advance cstep ctime cy cdky ms t r = Ok r' -> integrate cstep ctime cy cdky ms t (r_i r) = Ok (r_i r') /\ r_t r' = t /\ r_y r' = i_y (r_i r').
Proof.
  unfold advance. destruct (integrate cstep ctime cy cdky ms t (r_i r)) as [i| | |] eqn:E; try discriminate. cbn [obind]. intros H. injection H as <-. auto.
Qed.

(* ---------------- the first steps ---------------- *)
Lemma first_ok fuel : forall r r', first_loop cstep ctime cy corder fuel r = Some (Ok r') -> firsts r r'.
Proof.
  induction fuel as [|fuel IH]; intros r r' E; cbn [first_loop] in E; destruct (Nat.ltb_spec (corder (i_c (r_i r))) 1) as [L|L]; try discriminate E.
  - injection E as <-. constructor. exact L.
  - destruct (rstep cstep ctime cy r) as [r1| | |] eqn:S1; try discriminate E. eapply fi_S; eauto. lia.
  - injection E as <-. constructor. exact L.
Qed.
Lemma firsts_sync r r' : firsts r r' -> i_t (r_i r) = r_t r -> i_t (r_i r') = r_t r' /\ (1 <= corder (i_c (r_i r')))%nat.
Proof.
  induction 1 as [r H|r r1 r2 Z S1 F IH]; intros Q; [auto|]. apply IH. unfold rstep in S1.
  destruct (istep cstep ctime cy (r_t r + 1) (r_i r)) as [i| | |]; try discriminate S1. cbn [obind] in S1. injection S1 as <-. reflexivity.
Qed.
Lemma firsts_det r r1 : firsts r r1 -> forall r2, firsts r r2 -> r1 = r2.
Proof.
  induction 1 as [r H|r r1 r2 Z S1 F IH]; intros r3 G.
  - inversion G as [? ?|? ? ? Z' S' G']; subst; [reflexivity | lia].
  - inversion G as [? ?|? ? ? Z' S' G']; subst; [lia|]. rewrite S1 in S'. injection S' as <-. auto.
Qed.
Lemma firsts_loop r r1 : firsts r r1 -> exists f, forall fuel, (f <= fuel)%nat -> first_loop cstep ctime cy corder fuel r = Some (Ok r1).
Proof.
  induction 1 as [r H|r r1 r2 Z S1 F [f IH]].
  - exists 0%nat. intros fuel _. destruct fuel; cbn [first_loop]; destruct (Nat.ltb_spec (corder (i_c (r_i r))) 1); try lia; reflexivity.
  - exists (S f). intros [|fuel] L; [lia|]. cbn [first_loop]. destruct (Nat.ltb_spec (corder (i_c (r_i r))) 1); [|lia]. rewrite S1. apply IH. lia.
Qed.
Lemma first_other fuel r r1 : firsts r r1 -> forall o, first_loop cstep ctime cy corder fuel r = Some o -> o = Ok r1.
Proof.
  intros F. revert fuel. induction F as [r H|r r1 r2 Z S1 F IH]; intros fuel o E.
  - destruct fuel; cbn [first_loop] in E; destruct (Nat.ltb_spec (corder (i_c (r_i r))) 1); try lia; congruence.
  - destruct fuel as [|fuel]; cbn [first_loop] in E; destruct (Nat.ltb_spec (corder (i_c (r_i r))) 1); try lia; try discriminate E. rewrite S1 in E. eauto.
Qed.
Lemma lim_more fuel r lim k : forall t o, lim_loop cdky fuel r lim k t = Some o -> forall f, (fuel <= f)%nat -> lim_loop cdky f r lim k t = Some o.
Proof.
  induction fuel as [|fuel IH]; intros t o E f L; [discriminate E|]. destruct f as [|f]; [lia|]. cbn [lim_loop] in *.
  destruct (getEstimate cdky r t k); auto. destruct (exceeded lim a (i_y (r_i r))); auto. apply IH; [exact E | lia].
Qed.
End Adv.
