(* The damped Newton solver keeps the solution in its bounds; time stepping ends. *)
From Coq Require Import Reals ZArith String List Bool Arith Lra Lia.
From Verif Require Import Base.Outcome Base.Fp OneD.LayoutModel OneD.LayoutSpec OneD.LayoutProofs OneD.NewtonModel OneD.NewtonSpec OneD.NewtonProofs.
Import ListNotations.
Local Open Scope list_scope.
Local Open Scope R_scope.

(** C37. From a solution in bounds, the bound factor is between 0 and 1, and it is exactly the
    largest fraction of the step that keeps every unknown of every domain in its bounds. *)
Theorem C37_bound_factor ops ds x step : sim ops ds -> length x = o_size (lrun ops) -> length step = length x ->
  in_bounds ops ds x ->
  0 <= boundStep ds x step <= 1 /\
  forall a y, 0 <= a <= 1 -> moved a x step y -> (in_bounds ops ds y <-> a <= boundStep ds x step).
Proof.
  intros S0 L Ls I. pose proof (bound_factor ops ds x step S0 L Ls I) as F.
  assert (Mv : forall a y, moved a x step y -> (in_bounds ops ds y <-> in_bounds ops ds (damped a x step))).
  { intros a y (Ly & My). destruct (damped_moved a x step Ls) as (_ & Md).
    assert (E : forall n j c, unknown (shape_of ops) n j c -> comp y (position (shape_of ops) n j c) = comp (damped a x step) (position (shape_of ops) n j c)).
    { intros n j c U. pose proof (position_lt _ _ _ _ U) as P. rewrite <- (sim_size ops ds S0), <- L in P. rewrite My, Md by exact P. reflexivity. }
    split; intros H n j c q U N; specialize (H n j c q U N); cbn in *; rewrite (E n j c U) in *; exact H. }
  split.
  - split; [|apply boundStep_le1]. apply F; [lra|]. apply (Mv 0 x); [|exact I]. split; [reflexivity|]. intros i _. ring.
  - intros a y A M. rewrite (Mv a y M). symmetry. apply F. exact A.
Qed.
Print Assumptions C37_bound_factor.

(** From any solution, a fraction of the step up to a positive bound factor takes no unknown
    further outside its bounds than it is. *)
Theorem C37_no_worse ops ds x step a y : sim ops ds -> length x = o_size (lrun ops) -> length step = length x ->
  each ops ds (fun q c _ => nd_lo q c <= nd_up q c) -> 0 < boundStep ds x step ->
  0 <= a <= boundStep ds x step -> moved a x step y -> no_worse ops ds x y.
Proof.
  intros S0 L Ls B P A (Ly & My) n j c q U N. pose proof (bound_no_worse ops ds x step S0 L Ls B P a A n j c q U N) as H. cbn in *.
  destruct (damped_moved a x step Ls) as (_ & Md). pose proof (position_lt _ _ _ _ U) as Pn. rewrite <- (sim_size ops ds S0), <- L in Pn.
  rewrite My by exact Pn. rewrite Md in H by exact Pn. exact H.
Qed.
Print Assumptions C37_no_worse.

Section Solver.
  Context {J : Type} (stp : J -> list R -> outcome (list R)) (res : list R -> list R) (newJ : list R -> J).
  Context (ops : list lop) (ds : list ndom) (maxDamp : nat) (dampFactor : R).
  (* A simulation; Newton steps have the size of the solution; lower bounds are below upper
     bounds; damping does not enlarge steps. *)
  Definition setting : Prop := sim ops ds /\
    (forall jac x s, length x = o_size (lrun ops) -> stp jac x = Ok s -> length s = o_size (lrun ops)) /\
    each ops ds (fun q c _ => nd_lo q c <= nd_up q c) /\ 1 <= dampFactor.
  Let size := o_size (lrun ops).

  (** What each status of [dampStep] means. Whatever it is, the new solution is the old one moved
      by a fraction of the step between 0 and the bound factor, and if the old one was in bounds
      so is the new one. *)
Theorem C37_damp log jac x0 step0 x1 step1 s1 d : setting -> length x0 = size -> length step0 = size ->
    dampStep stp res ds size maxDamp dampFactor log jac x0 step0 x1 step1 s1 = Ok d ->
    let fb := boundStep ds x0 step0 in
    (dr_status d = (-3)%Z /\ fb < / 10 ^ 10) \/
    (dr_status d = (-2)%Z /\ / 10 ^ 10 <= fb /\
       forall k, (k < maxDamp)%nat -> exists y s, moved (fb / dampFactor ^ k) x0 step0 y /\ stp jac y = Ok s /\
         1 <= norm2 ds size y s /\ norm2 ds size x0 step0 <= norm2 ds size y s) \/
    ((dr_status d = 0%Z \/ dr_status d = 1%Z) /\ / 10 ^ 10 <= fb /\
       exists k s, (k < maxDamp)%nat /\ moved (fb / dampFactor ^ k) x0 step0 (dr_x1 d) /\ 0 <= fb / dampFactor ^ k <= 1 /\
         (in_bounds ops ds x0 -> in_bounds ops ds (dr_x1 d)) /\ no_worse ops ds x0 (dr_x1 d) /\
         stp jac (dr_x1 d) = Ok s /\
         (dr_status d = 1%Z <-> norm2 ds size (dr_x1 d) s <= 1) /\
         (dr_status d = 0%Z -> norm2 ds size (dr_x1 d) s < norm2 ds size x0 step0) /\
         (log = false -> dr_step1 d = s)).
  Proof.
    intros (S0 & Stp & Bd & Df) Lx Ls H fb.
    destruct (damp_status stp res ops ds maxDamp dampFactor S0 Bd Df log jac x0 step0 x1 step1 s1 d Lx Ls H)
      as [(St & Fb & _)|(Fb & [(St & N)|(k & st & K & D1 & D2 & D3 & D4 & D5 & D6 & D7 & _ & D8)])]; fold fb in Fb.
    - left. auto.
    - right. left. split; [exact St|]. split; [exact Fb|]. intros k K. destruct (N k K) as (v & (s & T1 & T2) & A).
      exists (damped (fb / dampFactor ^ k) x0 step0), s. split; [apply damped_moved; congruence|]. split; [exact T1|].
      unfold accepts in A. fold size in A, T2. rewrite T2 in A. fold fb in A. lra.
    - right. right. split; [destruct D8 as [(E & _)|(E & _)]; [right|left]; exact E|]. split; [exact Fb|]. exists k, st.
      split; [exact K|]. split; [rewrite D1; apply damped_moved; congruence|].
      assert (Fp : 0 < fb).
      { eapply Rlt_le_trans; [|exact Fb]. apply Rinv_0_lt_compat, pow_lt. lra. }
      pose proof (div_pow dampFactor Df fb k (Rlt_le _ _ Fp)) as Dv. pose proof (boundStep_le1 ds x0 step0) as L1. fold fb in L1.
      split; [lra|]. split; [intro I; eapply no_worse_bounds; [exact I|exact D2]|]. split; [exact D2|]. split; [exact D4|].
      fold size in D5, D7. rewrite <- D5. split; [|split].
      + destruct D8 as [(E & G)|(E & G)]; rewrite E; [tauto|]. split; [discriminate|lra].
      + destruct D8 as [(E & G)|(E & G)]; rewrite E; [discriminate|]. intros _. destruct D7 as [A|A]; [lra|exact A].
      + intros ->. exact D6.
  Qed.

  (** [solve] started in bounds ends in bounds, converged or not, whatever the residual and the
      Jacobians; from any start no unknown gets further outside. Status 1 means the next Newton
      step has norm at most one; a failure means that no damped step from the solution given back
      is acceptable. *)
Theorem C37_solve fuel log steady maxAge jac age x0 x1 step1 status y jac' age' : setting -> length x0 = size ->
    solve stp res newJ ds size maxDamp dampFactor fuel log steady maxAge jac age x0 x1 step1 = Some (Ok (status, y, jac', age')) ->
    length y = size /\ (in_bounds ops ds x0 -> in_bounds ops ds y) /\ no_worse ops ds x0 y /\
    ((status = 1%Z /\ exists s, stp jac' y = Ok s /\ norm2 ds size y s <= 1) \/
     (status = (-2)%Z /\ exists s, stp jac' y = Ok s /\ forall k, (k < maxDamp)%nat -> exists z t,
        moved (boundStep ds y s / dampFactor ^ k) y s z /\ stp jac' z = Ok t /\ 1 <= norm2 ds size z t /\ norm2 ds size y s <= norm2 ds size z t) \/
     (status = (-3)%Z /\ exists s, stp jac' y = Ok s /\ boundStep ds y s < / 10 ^ 10)).
  Proof.
    intros (S0 & Stp & Bd & Df) Lx H. unfold solve in H.
    apply (solve_ok stp res newJ ops ds maxDamp dampFactor S0 Stp Bd Df) in H; [|exact Lx]. cbn [ns_x] in H.
    destruct H as (L & Nw & C). split; [exact L|]. split; [intro I; eapply no_worse_bounds; [exact I|exact Nw]|]. split; [exact Nw|].
    destruct C as [(-> & s & A & B)|([->| ->] & s & A & B3 & B2)].
    - left. split; [reflexivity|]. exists s. auto.
    - right. left. split; [reflexivity|]. exists s. split; [exact A|]. intros k K. destruct (B2 eq_refl k K) as (v & (t & T1 & T2) & V1 & V2).
      exists (damped (boundStep ds y s / dampFactor ^ k) y s), t. split; [apply damped_moved; rewrite L; eapply Stp; [exact L|exact A]|].
      split; [exact T1|]. fold size in T2. rewrite <- T2. auto.
    - right. right. split; [reflexivity|]. exists s. auto.
  Qed.
End Solver.
Print Assumptions C37_damp.
Print Assumptions C37_solve.

(** A step with norm at most one is small in every unknown: at most the square root of the number
    of unknowns times the error weight of its component. *)
Theorem C37_converged ops ds x step n j c q : sim ops ds -> norm2 ds (o_size (lrun ops)) x step <= 1 ->
  unknown (shape_of ops) n j c -> nth_error ds n = Some q ->
  0 < nd_rtol q c * mean_size ops n c x + nd_atol q c ->
  Rabs (comp step (position (shape_of ops) n j c)) <= sqrt (INR (o_size (lrun ops))) * (nd_rtol q c * mean_size ops n c x + nd_atol q c).
Proof.
  intros S0 H U N W. destruct (elem_at ops ds n j c q x S0 U N) as (_ & C & _). rewrite <- (weight_mean ops ds n q c x S0 N C) in *.
  assert (Sz : (0 < o_size (lrun ops))%nat) by (rewrite (sim_size ops ds S0); pose proof (position_lt _ _ _ _ U); lia).
  pose proof (norm2_bound ops ds x step 1 S0 Sz ltac:(lra) H n j c q U N W) as G. rewrite Rmult_1_l in G. exact G.
Qed.
Print Assumptions C37_converged.

(* ---------------------------------------------------------------- *)
(** * Time stepping *)
Section TimeStepping.
  Context (try : nat -> R -> list R -> attempt) (resetBad : list R -> list R).
  Context (tmin tmax tfactor : R) (nmax : Z).
  Notation run := (timeStep try resetBad tmin tmax tfactor nmax).

  (** C57. Whatever the solver does, time stepping ends, by returning or by an exception, for
      every reduction factor below one and every positive smallest step. *)
Theorem C57_terminates nsteps dt x total : 0 < tmin -> 0 < tfactor < 1 ->
    exists fuel b s, run fuel nsteps dt x total = Some (b, s).
  Proof.
    intros T F. destruct (ends_all try resetBad tmin tmax tfactor nmax T F _ nsteps (TS 0 0 0 dt x total) (le_n _)) as (f & (b & s) & H).
    exists f, b, s. exact H.
  Qed.

  (** If it returns, it has taken exactly the number of steps asked for, the last step is no longer
      than the limit, and the total is below the largest count; otherwise the step size is below
      the smallest or the count is reached. *)
Theorem C57_result fuel nsteps dt x total b s : run fuel nsteps dt x total = Some (b, s) ->
    (b = true /\ ts_n s = Z.max 0 nsteps /\ ts_total s = (total + Z.max 0 nsteps)%Z /\
       ((0 < nsteps)%Z -> ts_dt s <= tmax /\ (ts_total s < nmax)%Z) /\ ((nsteps <= 0)%Z -> ts_dt s = dt /\ ts_x s = x)) \/
    (b = false /\ (0 <= ts_n s <= nsteps)%Z /\ ts_total s = (total + ts_n s)%Z /\
       ((0 < ts_n s)%Z /\ (nmax <= ts_total s)%Z /\ ts_dt s <= tmax \/ ts_dt s < tmin)).
  Proof.
    intros H. unfold timeStep in H.
    set (P := fun s => (0 <= ts_n s <= Z.max 0 nsteps)%Z /\ ts_total s = (total + ts_n s)%Z /\
      (ts_calls s = 0%nat /\ s = TS 0 0 0 dt x total \/
       (0 < nsteps)%Z /\ (ts_n s < nsteps)%Z \/ (0 < nsteps)%Z /\ ts_n s = nsteps /\ ts_dt s <= tmax /\ (ts_total s < nmax)%Z)).
    destruct (run_inv try resetBad tmin tmax tfactor nmax P nsteps) with (fuel := fuel) (s := TS 0 0 0 dt x total) (b := b) (s' := s) as (t & Pt & C).
    - intros s1 (A & B & _). destruct (Z.lt_ge_cases (ts_n s1) nsteps) as [L|L]; [|rewrite step_done by exact L; exact I].
      destruct (step_cases try resetBad tmin tmax tfactor nmax nsteps s1 L) as [(a & _ & _ & s' & E1 & E2 & _ & _ & _ & E3 & [(_ & E)|(M & E)])|(_ & s' & E1 & E2 & _ & [(_ & _ & E3 & _ & E)|(_ & _ & E3 & _ & [(_ & E)|(_ & E)])])];
        rewrite E; try exact I; unfold P; (split; [lia|split; [lia|]]).
      + destruct (Z.eq_dec (ts_n s') nsteps) as [Q|Q]; [right; right|right; left; lia]. split; [lia|]. split; [exact Q|]. split; [rewrite E3; apply Rmin_r|exact M].
      + right. left. lia.
      + right. left. lia.
    - unfold P. cbn. split; [lia|]. split; [lia|]. left. auto.
    - exact H.
    - destruct Pt as (A & B & D). destruct C as [(-> & -> & L)|(-> & E)].
      + left. split; [reflexivity|]. split; [lia|]. split; [lia|]. destruct D as [(_ & ->)|[D|(D0 & D1 & D2 & D3)]].
        * cbn in *. split; [lia|]. auto.
        * lia.
        * split; [auto|]. lia.
      + right. split; [reflexivity|]. destruct (Z.lt_ge_cases (ts_n t) nsteps) as [L|L]; [|rewrite step_done in E by exact L; discriminate].
        destruct (step_cases try resetBad tmin tmax tfactor nmax nsteps t L) as [(a & _ & _ & s' & E1 & E2 & _ & _ & _ & E3 & [(M & E')|(_ & E')])|(_ & s' & E1 & E2 & _ & [(_ & _ & E3 & _ & E')|(_ & _ & E3 & _ & [(M & E')|(_ & E')])])];
          rewrite E' in E; try discriminate; injection E as <-; (split; [lia|split; [lia|]]).
        * left. split; [lia|]. split; [exact M|]. rewrite E3. apply Rmin_r.
        * right. exact M.
  Qed.

  (** Every step size tried is at least the smallest of the first size, the smallest and the largest
      step, and at most the larger of the first size and the largest step. *)
Theorem C57_sizes nsteps dt x total k s : 0 < dt -> 0 < tmin -> 0 < tmax -> 0 < tfactor < 1 ->
    after_attempts (tstep try resetBad tmin tmax tfactor nmax nsteps) k (TS 0 0 0 dt x total) = Some s ->
    Rmin dt (Rmin tmin tmax) <= ts_dt s <= Rmax dt tmax.
  Proof.
    intros D0 T0 T1 F.
    assert (G : forall k s0 s, Rmin dt (Rmin tmin tmax) <= ts_dt s0 <= Rmax dt tmax ->
      after_attempts (tstep try resetBad tmin tmax tfactor nmax nsteps) k s0 = Some s -> Rmin dt (Rmin tmin tmax) <= ts_dt s <= Rmax dt tmax).
    { assert (Pos : 0 < Rmin dt (Rmin tmin tmax)) by (repeat apply Rmin_glb_lt; lra).
      induction k0 as [|k0 IH]; intros s0 s1 B H; cbn in H; [injection H as <-; exact B|].
      destruct (tstep try resetBad tmin tmax tfactor nmax nsteps s0) as [s2| |] eqn:E; try discriminate. apply (IH s2); [|exact H].
      destruct (Z.lt_ge_cases (ts_n s0) nsteps) as [L|L]; [|rewrite step_done in E by exact L; discriminate].
      destruct (step_cases try resetBad tmin tmax tfactor nmax nsteps s0 L) as [(a & _ & _ & s' & E1 & E2 & _ & _ & _ & E3 & [(M & E')|(_ & E')])|(_ & s' & E1 & E2 & _ & [(_ & _ & E3 & _ & E')|(_ & _ & E3 & _ & [(M & E')|(M & E')])])];
        rewrite E' in E; try discriminate; injection E as <-.
      - rewrite E3. split.
        + apply Rmin_glb; [|eapply Rle_trans; [apply Rmin_r|apply Rmin_r]]. destruct (a_newjac a); lra.
        + eapply Rle_trans; [apply Rmin_r|apply Rmax_r].
      - rewrite E3. exact B.
      - split; [eapply Rle_trans; [apply Rmin_r|eapply Rle_trans; [apply Rmin_l|exact M]]|]. rewrite E3. nra. }
    intro H. apply (G k (TS 0 0 0 dt x total)); [|exact H]. cbn. split; [apply Rmin_l|apply Rmax_l].
  Qed.

  (** The solution only changes to results of successful solves and by the resetting of bad values:
      whatever both preserve holds of the solution at the end, also when the step size failed. *)
Theorem C57_solution (P : list R -> Prop) fuel nsteps dt x total b s :
    P x -> (forall i d y, P y -> a_ok (try i d y) = true -> P (a_x (try i d y))) -> (forall y, P y -> P (resetBad y)) ->
    run fuel nsteps dt x total = Some (b, s) -> P (ts_x s).
  Proof.
    intros Px Pt Pr H. unfold timeStep in H.
    destruct (run_inv try resetBad tmin tmax tfactor nmax (fun s => P (ts_x s)) nsteps) with (fuel := fuel) (s := TS 0 0 0 dt x total) (b := b) (s' := s) as (t & Q & C).
    - intros s1 Q. destruct (Z.lt_ge_cases (ts_n s1) nsteps) as [L|L]; [|rewrite step_done by exact L; exact I].
      destruct (step_cases try resetBad tmin tmax tfactor nmax nsteps s1 L) as [(a & Ea & Ok_ & s' & _ & _ & Ex & _ & _ & _ & [(_ & E)|(M & E)])|(_ & s' & E1 & E2 & _ & [(_ & _ & E3 & Ex & E)|(_ & _ & E3 & Ex & [(_ & E)|(_ & E)])])];
        rewrite E; try exact I; rewrite Ex; subst; auto.
    - exact Px.
    - exact H.
    - destruct C as [(_ & -> & _)|(_ & E)]; [exact Q|].
      destruct (Z.lt_ge_cases (ts_n t) nsteps) as [L|L]; [|rewrite step_done in E by exact L; discriminate].
      destruct (step_cases try resetBad tmin tmax tfactor nmax nsteps t L) as [(a & Ea & Ok_ & s' & _ & _ & Ex & _ & _ & _ & [(M & E')|(_ & E')])|(_ & s' & E1 & E2 & _ & [(_ & _ & E3 & Ex & E')|(_ & _ & E3 & Ex & [(M & E')|(_ & E')])])];
        rewrite E' in E; try discriminate; injection E as <-; rewrite Ex; subst; auto.
  Qed.

  (** One attempt: a success replaces the solution and lets the size grow by one half if no Jacobian
      was evaluated; a failure keeps the solution and reduces the size, except that the third
      failure in a row keeps the size and resets bad values. *)
Theorem C57_attempt nsteps s : (ts_n s < nsteps)%Z ->
    exists s', (tstep try resetBad tmin tmax tfactor nmax nsteps s = TMore s' \/ tstep try resetBad tmin tmax tfactor nmax nsteps s = TThrow s') /\
    let a := try (ts_calls s) (ts_dt s) (ts_x s) in
    if a_ok a then ts_n s' = (ts_n s + 1)%Z /\ ts_fail s' = 0%nat /\ ts_x s' = a_x a /\
        ts_dt s' = Rmin (if a_newjac a then ts_dt s else ts_dt s * (3 / 2)) tmax
    else ts_n s' = ts_n s /\
      if (ts_fail s <? 2)%nat then ts_fail s' = S (ts_fail s) /\ ts_x s' = ts_x s /\ ts_dt s' = ts_dt s * tfactor
      else ts_fail s' = 0%nat /\ ts_x s' = resetBad (ts_x s) /\ ts_dt s' = ts_dt s.
  Proof.
    intros L. destruct (step_cases try resetBad tmin tmax tfactor nmax nsteps s L) as [(a & Ea & Ok_ & s' & E1 & _ & Ex & Ef & _ & Ed & C)|(Ok_ & s' & E1 & E2 & _ & [(Fl & Ef & Ed & Ex & E)|(Fl & Ef & Ed & Ex & C)])];
      exists s'; cbn zeta; try rewrite <- Ea; rewrite Ok_.
    - split; [destruct C as [(_ & C)|(_ & C)]; auto|]. auto.
    - split; [auto|]. split; [exact E1|]. rewrite (proj2 (Nat.ltb_ge _ _) Fl). auto.
    - split; [destruct C as [(_ & C)|(_ & C)]; auto|]. split; [exact E1|]. rewrite (proj2 (Nat.ltb_lt _ _) Fl). auto.
  Qed.
End TimeStepping.
Print Assumptions C57_terminates.
Print Assumptions C57_result.
Print Assumptions C57_sizes.
Print Assumptions C57_solution.
Print Assumptions C57_attempt.

(* ---------------------------------------------------------------- *)
(** * Cases meeting the hypotheses *)
(* One domain with one unknown between -10 and 4; errors are absolute. *)
Definition spot : dom := Dom "spot" 1 1 None ["x"%string] 0 0.
Definition toy : list lop := [LAdd spot].
Definition toy_dom : ndom := ND spot (fun _ => 4) (fun _ => -10) (fun _ => 0) (fun _ => 1).
Example toy_sim : sim toy [toy_dom].
Proof.
  split; [|reflexivity]. intros l n nv np E. destruct l as [|o l]; [discriminate|]. injection E as _ E. destruct l; discriminate.
Qed.
Lemma toy_norm x s : norm2 [toy_dom] 1 [x] [s] = Rabs s.
Proof.
  rewrite <- sqrt_Rsqr_abs. unfold norm2. f_equal. unfold Rsqr. lazy -[Rplus Rmult Ropp Rinv Rdiv Rminus IZR Rabs]. field.
Qed.
Lemma toy_inside x s : -10 <= x + s <= 4 -> boundStep [toy_dom] [x] [s] = 1.
Proof.
  intros H. unfold boundStep, bound_step, bound_one, elem, toy_dom, start. cbn. rewrite (proj2 (rltb_false _ _)) by lra. rewrite (proj2 (rltb_false _ _)) by lra.
  cbn. apply Rmin_left. lra.
Qed.
Lemma toy_at_bound s : 0 < s -> boundStep [toy_dom] [4] [s] = 0.
Proof.
  intros H. unfold boundStep, bound_step, bound_one, elem, toy_dom, start. cbn. rewrite (proj2 (rltb_true _ _)) by lra. cbn.
  replace ((4 - 4) / (4 + s - 4)) with 0 by (field; lra).
  rewrite (Rmin_right 1 0) by lra. rewrite (Rmax_left 0 0) by lra. apply Rmin_right. lra.
Qed.

Definition toy_stp (f : R -> R) (_ : unit) (x : list R) : outcome (list R) := Ok [f (comp x 0)].
Example toy_setting f : setting (toy_stp f) toy [toy_dom] (sqrt 2).
Proof.
  split; [apply toy_sim|]. split; [intros jac x s _ E; injection E as <-; reflexivity|]. split.
  - intros n j c q U N. destruct n as [|[|n]]; try discriminate. injection N as <-. cbn. lra.
  - rewrite <- sqrt_1 at 1. apply sqrt_le_1_alt. lra.
Qed.
Example toy_in_bounds x : -10 <= x <= 4 -> in_bounds toy [toy_dom] [x].
Proof.
  intros H n j c q (nv & np & E & Hj & Hc) N. destruct n as [|[|n]]; try discriminate. injection N as <-.
  injection E as <- <-. assert (j = 0)%nat as -> by lia. assert (c = 0)%nat as -> by lia. exact H.
Qed.
(* A full step to a value where the next step is zero: converged in one iteration. *)
Example toy_converges :
  solve (toy_stp (fun x => - x)) (fun x => x) (fun _ => tt) [toy_dom] 1 7 (sqrt 2) 1 false true 20 tt 10 [3] [] [] = Some (Ok (1%Z, [3 + 1 * 1 * -3], tt, 0%Z)).
Proof.
  unfold solve. cbn -[dampStep]. unfold dampStep. rewrite toy_inside by (unfold comp; cbn; lra). rewrite (proj2 (rltb_false _ _)) by lra.
  cbn -[norm2]. rewrite !toy_norm. unfold comp. cbn. rewrite (proj2 (rltb_true _ 1)) by (rewrite Rabs_pos_eq; lra). cbn.
  rewrite (proj2 (rltb_false _ _)) by (rewrite Rabs_pos_eq; lra). reflexivity.
Qed.

(** The header says of a failed solve that "x1 will contain the value of x0 i.e. no change in solution". It
    gives back the last solution accepted before the failure, here 4 when started at 0. *)
Definition wander (x : R) : R := if rltb x 1 then 4 else 2.
Theorem C37_failure_refuted :
  exists y, solve (toy_stp wander) (fun x => x) (fun _ => tt) [toy_dom] 1 7 (sqrt 2) 3 false true 20 tt 10 [0] [] [] = Some (Ok ((-3)%Z, y, tt, 1%Z)) /\
    setting (toy_stp wander) toy [toy_dom] (sqrt 2) /\ in_bounds toy [toy_dom] [0] /\ comp y 0 = 4.
Proof.
  exists [4]. split; [|split; [apply toy_setting|split; [apply toy_in_bounds; lra|reflexivity]]].
  assert (W0 : wander 0 = 4) by (unfold wander; rewrite (proj2 (rltb_true _ _)) by lra; reflexivity).
  assert (W4 : wander 4 = 2) by (unfold wander; rewrite (proj2 (rltb_false _ _)) by lra; reflexivity).
  assert (D0 : forall a b s1, dampStep (toy_stp wander) (fun x => x) [toy_dom] 1 7 (sqrt 2) false tt [0] [4] a b s1 = Ok (DR 0 [4] [2] 2)).
  { intros. unfold dampStep. rewrite toy_inside by lra. rewrite (proj2 (rltb_false _ _)) by lra. rewrite Rmult_1_r. cbn -[norm2].
    unfold damped. cbn -[norm2]. replace (0 + 1 * 4) with 4 by ring. unfold comp. cbn -[norm2]. rewrite W4, !toy_norm, !Rabs_pos_eq by lra.
    rewrite (proj2 (rltb_false 2 1)) by lra. rewrite (proj2 (rltb_true 2 4)) by lra. rewrite (proj2 (rltb_true 1 2)) by lra. reflexivity. }
  assert (D4 : forall a b s1, dampStep (toy_stp wander) (fun x => x) [toy_dom] 1 7 (sqrt 2) false tt [4] [2] a b s1 = Ok (DR (-3) a b s1)).
  { intros. unfold dampStep. rewrite toy_at_bound by lra. rewrite (proj2 (rltb_true _ _)) by (apply Rinv_0_lt_compat; lra). reflexivity. }
  unfold solve. cbn -[dampStep wander]. unfold comp. cbn -[dampStep wander]. rewrite W0, D0.
  cbn -[dampStep wander].
  rewrite ?W4, D4. cbn -[dampStep wander]. rewrite ?W4, ?D4. reflexivity.
Qed.
Print Assumptions C37_failure_refuted.

(** The header says step1 is the Newton step at the damped solution. With logging it is the
    residual there. *)
Theorem C37_step1_refuted :
  let d log := dampStep (toy_stp (fun x => - x)) (fun _ => [7]) [toy_dom] 1 7 (sqrt 2) log tt [3] [-3] [] [] 0 in
  omap dr_step1 (d false) = Ok [- (3 + 1 * 1 * -3)] /\ omap dr_step1 (d true) = Ok [7].
Proof.
  cbn zeta. unfold dampStep. rewrite toy_inside by lra. rewrite (proj2 (rltb_false _ _)) by lra. cbn -[norm2]. unfold comp. cbn -[norm2]. rewrite !toy_norm.
  rewrite (proj2 (rltb_true _ 1)) by (rewrite Rabs_pos_eq; lra). split; reflexivity.
Qed.
Print Assumptions C37_step1_refuted.

(* A solver that always succeeds without a new Jacobian; two steps of size 1 and 3/2. *)
Definition always (_ : nat) (d : R) (x : list R) : attempt := At true (map (fun v => v + d) x) false.
Definition never (_ : nat) (d : R) (x : list R) : attempt := At false x false.
(** The documentation says that the size of the last step taken is returned. It is the size of
    the next: here one step of size 1 is taken and 3/2 returned. *)
Theorem C57_last_step_refuted :
  exists s, timeStep always (fun x => x) (1 / 100) 10 (1 / 2) 500 2 1 1 [0] 0 = Some (true, s) /\ comp (ts_x s) 0 = 1 /\ ts_dt s = 3 / 2.
Proof.
  eexists. unfold timeStep. cbn -[rmin]. split; [reflexivity|]. cbn -[rmin]. split; [unfold comp; cbn; ring|].
  unfold rmin. rewrite (proj2 (rltb_false _ _)) by lra. ring.
Qed.
Print Assumptions C57_last_step_refuted.
(* Failures halve the size twice, reset the solution once, and end below the smallest size. *)
Example never_throws :
  exists s, timeStep never (map (fun v => v + 1)) (1 / 5) 10 (1 / 2) 500 4 1 1 [0] 0 = Some (false, s) /\ ts_n s = 0%Z /\ comp (ts_x s) 0 = 1 /\ ts_dt s = 1 * (1 / 2) * (1 / 2) * (1 / 2).
Proof.
  eexists. unfold timeStep. cbn. unfold tstep. cbn. rewrite (proj2 (rltb_false (1 * (1 / 2)) _)) by lra. cbn.
  rewrite (proj2 (rltb_false (1 * (1 / 2) * (1 / 2)) _)) by lra. cbn. rewrite (proj2 (rltb_true (1 * (1 / 2) * (1 / 2) * (1 / 2)) _)) by lra.
  split; [reflexivity|]. cbn. split; [reflexivity|]. split; [unfold comp; cbn; ring|reflexivity].
Qed.
