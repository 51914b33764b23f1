(* C61: advancing in time. *)
From Coq Require Import Reals List Bool Arith Lra Lia.
From Verif Require Import Base.Outcome Base.Fp Base.RSum ZeroD.AdvModel ZeroD.AdvSpec ZeroD.AdvProofs.
Import ListNotations.
Local Open Scope R_scope.
Local Open Scope list_scope.

Section Adv.
Context {C : Type} (cstep : R -> C -> outcome C) (ctime : C -> R) (cy : C -> list R) (corder : C -> nat)
        (cdky : C -> R -> nat -> outcome (list R)).
Notation advance := (advance cstep ctime cy cdky).
Notation advance_limit := (advance_limit cstep ctime cy corder cdky).
Notation order r := (corder (i_c (r_i r))).
Notation solution r := (i_y (r_i r)).

(* Whatever the solver does: a successful advance reaches exactly the time asked for, which is not
   in the past; it takes no more internal steps than allowed, each from before that time, and the
   reactors are set from the solver's interpolation at that time. *)
Theorem C61_advance : forall ms time r r', i_t (r_i r) = r_t r -> advance ms time r = Ok r' ->
  r_t r <= time /\ r_t r' = time /\ i_t (r_i r') = time /\
  (time = r_t r -> r_y r' = solution r) /\
  (r_t r < time -> cdky (i_c (r_i r')) time 0 = Ok (r_y r') /\ time <= ctime (i_c (r_i r')) /\
     exists n, (n <= ms)%nat /\ csteps cstep ctime time n (i_c (r_i r)) (i_c (r_i r'))).
Proof.
  intros ms time r r' Q E. apply advance_ok in E as (E & T & Y). apply integrate_ok in E as (A & B & D & F). rewrite Q in *.
  split; [exact B|]. split; [exact T|]. split; [exact A|]. split.
  - intros H. rewrite Y, (D H). reflexivity.
  - intros H. destruct (F H) as (n & N & S1 & L & K). rewrite Y. split; [exact K|]. split; [exact L|]. exists n. auto.
Qed.
(* It succeeds whenever the solver gets there in the allowed number of steps. *)
Theorem C61_advance_succeeds : forall ms time r n c y, i_t (r_i r) = r_t r -> r_t r < time -> csteps cstep ctime time n (i_c (r_i r)) c ->
  (n <= ms)%nat -> time <= ctime c -> cdky c time 0 = Ok y -> advance ms time r = Ok (RN (IN c time y) time y).
Proof.
  intros ms time r n c y Q L S1 N T D. unfold AdvModel.advance, integrate. rewrite Q.
  rewrite (proj2 (reqb_false _ _)) by lra. rewrite (proj2 (rltb_false _ _)) by lra.
  destruct (int_loop_steps cstep ctime cy time n _ _ (solution r) S1 T ms N) as [y' ->]. cbn [obind fst]. rewrite D. reflexivity.
Qed.
(* Without limits the full step is taken. *)
Theorem C61_unlimited : forall fuel ms has lim time applylimit r t r', (applylimit = false \/ has = false) ->
  advance_limit fuel ms has lim time applylimit r = Some (Ok (t, r')) -> t = time /\ advance ms time r = Ok r'.
Proof.
  intros fuel ms has lim time ap r t r' H E. unfold AdvModel.advance_limit in E.
  replace (negb ap || negb has)%bool with true in E by (destruct H as [-> | ->]; [reflexivity | destruct ap; reflexivity]).
  destruct (advance ms time r); cbn in E; try discriminate. injection E as <- <-. auto.
Qed.
(* With limits: the time reached is the first of t, halfway to t, a quarter of the way ... at which
   no limited component is expected to have changed by more than its limit, according to the
   expansion of the solver's order. *)
Theorem C61_limited : forall fuel ms lim time r r1 d t r', i_t (r_i r) = r_t r -> firsts cstep ctime cy corder r r1 ->
  derivs cdky r1 (order r1) d -> length lim = length (solution r1) ->
  advance_limit fuel ms true lim time true r = Some (Ok (t, r')) ->
  let ok t := within lim (solution r1) (taylor (solution r1) d (order r1) (t - r_t r1)) in
  (exists m, t = r_t r1 + (time - r_t r1) / 2 ^ m /\ ok t /\ forall m', (m' < m)%nat -> ~ ok (r_t r1 + (time - r_t r1) / 2 ^ m')) /\
  r_t r1 <= t <= time /\ r_t r' = t /\ advance ms t r1 = Ok r'.
Proof.
  intros fuel ms lim time r r1 d t r' Q F D L E ok. unfold AdvModel.advance_limit in E. cbn [negb orb] in E.
  destruct (first_loop cstep ctime cy corder fuel r) as [o|] eqn:FL; [|discriminate E].
  assert (o = Ok r1) by (eapply first_other; eauto). subst o.
  destruct (lim_loop cdky fuel r1 lim (order r1) time) as [o|] eqn:LL; [|discriminate E].
  destruct (lim_sound cdky r1 (order r1) d lim D L _ _ _ LL) as (m & _ & -> & G & H).
  destruct (advance ms (trial r1 time m) r1) as [r2| | |] eqn:A; try discriminate E. cbn [omap obind] in E. injection E as <- <-.
  destruct (firsts_sync _ _ _ _ _ _ F Q) as [Q1 _].
  destruct (C61_advance ms _ r1 r2 Q1 A) as (B & T & _ & _).
  split; [exists m; split; [reflexivity|]; split; [exact G | exact H]|]. split; [|auto].
  split; [exact B|]. unfold trial in *. assert (P : 0 < 2 ^ m) by (apply pow_lt; lra). assert (P1 : 1 <= 2 ^ m) by (apply pow_R1_Rle; lra).
  assert (X : 0 <= (time - r_t r1) / 2 ^ m) by lra.
  assert (Y : (time - r_t r1) / 2 ^ m * 2 ^ m = time - r_t r1) by (field; lra).
  assert (Z : (time - r_t r1) / 2 ^ m * 1 <= (time - r_t r1) / 2 ^ m * 2 ^ m) by (apply Rmult_le_compat_l; auto). lra.
Qed.
(* The search for that time ends. *)
Theorem C61_terminates : forall ms lim time r r1 d, firsts cstep ctime cy corder r r1 -> derivs cdky r1 (order r1) d ->
  length lim = length (solution r1) -> exists fuel o, advance_limit fuel ms true lim time true r = Some o.
Proof.
  intros ms lim time r r1 d F D L. destruct (firsts_loop _ _ _ _ _ _ F) as [f Hf].
  destruct (lim_terminates cdky r1 (order r1) d lim time D L) as (g & t & G). exists (Nat.max f g).
  unfold AdvModel.advance_limit. cbn [negb orb]. rewrite Hf by lia. rewrite (lim_more _ _ _ _ _ _ _ G (Nat.max f g)) by lia. eauto.
Qed.
(* But if the steps that are taken first, to have derivatives, go beyond the time asked for, there
   is an exception. *)
Theorem C61_first_step_fails : forall fuel ms lim time r r1 d o, i_t (r_i r) = r_t r -> firsts cstep ctime cy corder r r1 ->
  derivs cdky r1 (order r1) d -> length lim = length (solution r1) -> time < r_t r1 ->
  advance_limit fuel ms true lim time true r = Some o -> o = Err.
Proof.
  intros fuel ms lim time r r1 d o Q F D L T E. unfold AdvModel.advance_limit in E. cbn [negb orb] in E.
  destruct (first_loop cstep ctime cy corder fuel r) as [x|] eqn:FL; [|discriminate E].
  assert (x = Ok r1) by (eapply first_other; eauto). subst x.
  destruct (lim_loop cdky fuel r1 lim (order r1) time) as [x|] eqn:LL; [|discriminate E].
  destruct (lim_sound cdky r1 (order r1) d lim D L _ _ _ LL) as (m & _ & -> & _).
  destruct (firsts_sync _ _ _ _ _ _ F Q) as [Q1 _].
  assert (X : trial r1 time m < r_t r1).
  { unfold trial. assert (P : 0 < / 2 ^ m) by (apply Rinv_0_lt_compat, pow_lt; lra).
    assert (Y : (r_t r1 - time) * / 2 ^ m > 0) by (apply Rmult_lt_0_compat; lra). unfold Rdiv. lra. }
  unfold AdvModel.advance, integrate in E. rewrite Q1 in E. rewrite (proj2 (reqb_false _ _)) in E by lra.
  rewrite (proj2 (rltb_true _ _) X) in E. cbn in E. congruence.
Qed.
End Adv.

(* A solver for y' = 1 with steps of 1. *)
Definition c1step (_ : R) (c : nat) : outcome nat := Ok (S c).
Definition c1time (c : nat) : R := INR c.
Definition c1y (c : nat) : list R := [INR c].
Definition c1order (c : nat) : nat := Nat.min c 1.
Definition c1dky (_ : nat) (t : R) (k : nat) : outcome (list R) := Ok [match k with 0%nat => t | 1%nat => 1 | _ => 0 end].
Definition r0 : rnet := RN (IN 0%nat 0 [0]) 0 [0].
Definition r1 : rnet := RN (IN 1%nat 1 [1]) 1 [1].
(* Half a time unit: possible without limits, an exception with a limit, however large. *)
Theorem C61_first_step_refuted : forall l, 0 < l ->
  (exists r', advance c1step c1time c1y c1dky 10 (/ 2) r0 = Ok r' /\ r_t r' = / 2 /\ r_y r' = [/ 2]) /\
  exists fuel, advance_limit c1step c1time c1y c1order c1dky fuel 10 true [l] (/ 2) true r0 = Some Err.
Proof.
  intros l P. split.
  - eexists. split; [|split].
    + apply (C61_advance_succeeds c1step c1time c1y c1dky 10 (/ 2) r0 1 1%nat [/ 2]); cbn; try lra; auto with arith.
      eapply cs_S; [cbn; lra | reflexivity | constructor].
    + reflexivity.
    + reflexivity.
  - assert (F : firsts c1step c1time c1y c1order r0 r1).
    { eapply fi_S; [reflexivity | reflexivity |]. unfold r1. apply fi_0. cbn. lia. }
    assert (D : derivs c1dky r1 1 (fun _ => [1])).
    { intros n Hn. replace n with 1%nat by lia. split; reflexivity. }
    destruct (C61_terminates c1step c1time c1y c1order c1dky 10 [l] (/ 2) r0 r1 _ F D eq_refl) as (fuel & o & E).
    exists fuel. rewrite E. f_equal. apply (C61_first_step_fails c1step c1time c1y c1order c1dky fuel 10 [l] (/ 2) r0 r1 (fun _ => [1])); [reflexivity | exact F | exact D | reflexivity | cbn; lra | exact E].
Qed.
(* From time 1, with limit 3/10 towards time 2: 1/4 further. *)
Example ex_limited : exists fuel r', advance_limit c1step c1time c1y c1order c1dky fuel 10 true [3 / 10] 2 true r1 = Some (Ok (5 / 4, r')).
Proof.
  assert (D : derivs c1dky r1 1 (fun _ => [1])).
  { intros n Hn. replace n with 1%nat by lia. split; reflexivity. }
  assert (F : firsts c1step c1time c1y c1order r1 r1) by (apply fi_0; cbn; lia).
  assert (LL : lim_loop c1dky 3 r1 [3 / 10] 1 2 = Some (Ok (5 / 4))).
  { destruct (step_loop c1dky r1 1 (fun _ => [1]) [3 / 10] 2 D eq_refl 2) as [[G _]|[_ ->]].
    { exfalso. specialize (G 0%nat ltac:(cbn; lia) ltac:(cbn; lra)). unfold taylor, sum_of in G. cbn in G.
      rewrite Rabs_right in G by lra. lra. }
    destruct (step_loop c1dky r1 1 (fun _ => [1]) [3 / 10] (/ 2 * (r_t r1 + 2)) D eq_refl 1) as [[G _]|[_ ->]].
    { exfalso. specialize (G 0%nat ltac:(cbn; lia) ltac:(cbn; lra)). unfold taylor, sum_of in G. cbn in G.
      rewrite Rabs_right in G by lra. lra. }
    destruct (step_loop c1dky r1 1 (fun _ => [1]) [3 / 10] (/ 2 * (r_t r1 + / 2 * (r_t r1 + 2))) D eq_refl 0) as [[_ ->]|[G _]].
    { do 2 f_equal. cbn. lra. }
    exfalso. apply G. intros [|[|j]] L P; cbn in L; try lia. unfold taylor, sum_of. cbn. rewrite Rabs_right by lra. lra. }
  exists 3%nat. eexists. unfold advance_limit. cbn [negb orb].
  change (first_loop c1step c1time c1y c1order 3 r1) with (Some (Ok r1)). cbv iota. change (c1order (i_c (r_i r1))) with 1%nat. rewrite LL.
  rewrite (C61_advance_succeeds c1step c1time c1y c1dky 10 (5 / 4) r1 1 2%nat [5 / 4]); [reflexivity| | | | | |]; cbn; try lra; auto with arith.
  eapply cs_S; [cbn; lra | reflexivity | constructor].
Qed.

Print Assumptions C61_advance.
Print Assumptions C61_advance_succeeds.
Print Assumptions C61_unlimited.
Print Assumptions C61_limited.
Print Assumptions C61_terminates.
Print Assumptions C61_first_step_fails.
Print Assumptions C61_first_step_refuted.
