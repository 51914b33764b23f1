(** C70: rates of progress at an interface: direction, phases that are missing, currents. *)
From Coq Require Import Reals ZArith String List Bool Lra Lia.
From Verif Require Import Base.Fp Base.RSum Units.Model Excess.Proofs Interface.Model Interface.Spec.
Import ListNotations.
Open Scope R_scope.

(** ** Direction *)

Lemma conc_prod_exp c l : conc_prod c l = exp (sum_of (fun p => snd p * ln (c (fst p))) l).
Proof.
  unfold conc_prod. induction l as [|q l IH]; [unfold prod_of, sum_of; cbn; now rewrite exp_0|].
  rewrite prod_of_cons, sum_of_cons, IH, exp_plus. reflexivity.
Qed.
(* Forward and reverse rates of a reversible reaction stand in the ratio that its driving force demands. *)
Theorem C70_ratio : forall T kf pert mu0 phi phase_of charge c0 act reac prod, 0 < T ->
  (forall p, In p (reac ++ prod) -> 0 < act (fst p) /\ 0 < c0 (fst p)) ->
  let c := fun k => act k * c0 k in
  rop_r kf pert (rkc T true (mu0_Kc T mu0 phi phase_of charge c0) reac prod) c prod
  = rop_f kf pert c reac
    * exp (reaction_change (electrochemical T mu0 act charge (fun k => phi (phase_of k))) reac prod / (GasConstant * T)).
Proof.
  intros T kf pert mu0 phi phase_of charge c0 act reac prod HT Hp c. pose proof R_pos as HR.
  unfold rop_r, rop_f, rkc. rewrite !conc_prod_exp.
  set (g := mu0_Kc T mu0 phi phase_of charge c0). set (h := electrochemical T mu0 act charge (fun k => phi (phase_of k))).
  assert (K : forall l, (forall p, In p l -> 0 < act (fst p) /\ 0 < c0 (fst p)) ->
            sum_of (fun p => snd p * h (fst p)) l
            = sum_of (fun p => snd p * g (fst p)) l + GasConstant * T * sum_of (fun p => snd p * ln (c (fst p))) l).
  { intros l Hl. rewrite <- sum_of_scal, <- sum_of_plus. apply sum_of_ext. intros p Hin. destruct (Hl p Hin) as [H1 H2].
    unfold g, h, mu0_Kc, electrochemical, c. rewrite ln_mult by assumption. ring. }
  unfold reaction_change, delta. rewrite (K prod), (K reac).
  2, 3: intros p Hin; apply Hp, in_or_app; tauto.
  set (LP := sum_of (fun p => snd p * ln (c (fst p))) prod). set (LR := sum_of (fun p => snd p * ln (c (fst p))) reac).
  set (GP := sum_of (fun p => snd p * g (fst p)) prod). set (GR := sum_of (fun p => snd p * g (fst p)) reac).
  replace ((GP + GasConstant * T * LP - (GR + GasConstant * T * LR)) / (GasConstant * T))
    with ((GP - GR) * (1 / (GasConstant * T)) + LP - LR) by (field; lra).
  rewrite !Rmult_assoc, <- !exp_plus. do 3 f_equal. ring.
Qed.
Print Assumptions C70_ratio.
(* So it proceeds in the direction in which the electrochemical potentials fall, and rests at equilibrium. *)
Theorem C70_direction : forall T kf pert mu0 phi phase_of charge c0 act reac prod, 0 < T -> 0 < kf -> 0 < pert ->
  (forall p, In p (reac ++ prod) -> 0 < act (fst p) /\ 0 < c0 (fst p)) ->
  let c := fun k => act k * c0 k in
  let net := rop_f kf pert c reac - rop_r kf pert (rkc T true (mu0_Kc T mu0 phi phase_of charge c0) reac prod) c prod in
  let dG := reaction_change (electrochemical T mu0 act charge (fun k => phi (phase_of k))) reac prod in
  (0 < net <-> dG < 0) /\ (net = 0 <-> dG = 0) /\ (net < 0 <-> 0 < dG).
Proof.
  intros T kf pert mu0 phi phase_of charge c0 act reac prod HT Hk Hpt Hp c net dG. pose proof R_pos as HR.
  assert (HRT : 0 < GasConstant * T) by nra.
  assert (Hf : 0 < rop_f kf pert c reac) by (unfold rop_f; rewrite conc_prod_exp; apply Rmult_lt_0_compat; [nra|apply exp_pos]).
  assert (En : net = rop_f kf pert c reac * (1 - exp (dG / (GasConstant * T)))).
  { unfold net. unfold c at 2. rewrite (C70_ratio T kf pert mu0 phi phase_of charge c0 act reac prod HT Hp). fold c dG. ring. }
  assert (Hd : dG = dG / (GasConstant * T) * (GasConstant * T)) by (field; lra).
  set (x := dG / (GasConstant * T)) in *.
  assert (Hx : (x < 0 -> dG < 0) /\ (x = 0 -> dG = 0) /\ (0 < x -> 0 < dG)).
  { repeat split; intros H; rewrite Hd; [nra|rewrite H; ring|nra]. }
  assert (Ht : (x < 0 /\ 0 < net) \/ (x = 0 /\ net = 0) \/ (0 < x /\ net < 0)).
  { destruct (Rtotal_order x 0) as [H|[H|H]]; [left|right; left|right; right]; (split; [exact H|]).
    - rewrite En. apply exp_increasing in H. rewrite exp_0 in H. nra.
    - rewrite En, H, exp_0. ring.
    - rewrite En. apply exp_increasing in H. rewrite exp_0 in H. nra. }
  destruct Hx as (X1 & X2 & X3). destruct Ht as [[H K]|[[H K]|[H K]]].
  - specialize (X1 H). repeat split; intros; lra.
  - specialize (X2 H). repeat split; intros; lra.
  - specialize (X3 H). repeat split; intros; lra.
Qed.
Print Assumptions C70_direction.
Theorem C70_kc : forall T g reac prod, rkc T true g reac prod * kc T g reac prod = 1 /\ rkc T false g reac prod = 0.
Proof.
  intros. split; [|reflexivity]. unfold rkc, kc. rewrite <- exp_plus.
  replace (_ + _) with 0 by ring. apply exp_0.
Qed.
Print Assumptions C70_kc.
Example C70_direction_example :
  let dG := reaction_change (electrochemical 300 (fun _ => 0) (fun k => if Nat.eqb k 0 then 1 else 1/2) (fun _ => 0) (fun _ => 0))
              [(0%nat, 1)] [(1%nat, 1)] in dG < 0.
Proof.
  cbv zeta. unfold reaction_change, electrochemical, sum_of. cbn. rewrite ln_1. pose proof R_pos.
  assert (ln (1/2) < 0) by (rewrite <- ln_1; apply ln_increasing; lra). nra.
Qed.

(** ** Phases that do not exist or are not stable *)

Lemma nth_error_upd {A} (f : A -> A) l i j : nth_error (upd_nth i f l) j
  = if Nat.eqb j i then option_map f (nth_error l j) else nth_error l j.
Proof.
  revert i j. induction l as [|x l IH]; intros i j.
  - replace (upd_nth i f []) with (@nil A) by now destruct i. destruct j; cbn [nth_error option_map]; destruct (Nat.eqb _ i); reflexivity.
  - destruct i as [|i], j as [|j]; cbn; try reflexivity. now rewrite IH.
Qed.
Lemma upd_length {A} (f : A -> A) l i : length (upd_nth i f l) = length l.
Proof. revert i. induction l as [|x l IH]; intros [|i]; cbn; auto. Qed.
Definition flags_inv (s : pflags) : Prop :=
  length (pf_st s) = length (pf_ex s) /\ pf_count s = Z.of_nat (missing (pf_ex s)).
Lemma missing_set l i b : nth_error l i = Some (negb b) ->
  Z.of_nat (missing (set_nth i b l)) = (Z.of_nat (missing l) + (if b then -1 else 1))%Z.
Proof.
  unfold missing, set_nth. revert i. induction l as [|x l IH]; intros [|i] H; cbn in H; try discriminate.
  - injection H as ->. destruct b; cbn [upd_nth filter negb length]; lia.
  - cbn [upd_nth filter]. specialize (IH i H). destruct (negb x); cbn [length]; lia.
Qed.
Lemma flags_step o s s' : flags_inv s -> pstep o s = Some s' -> flags_inv s'.
Proof.
  intros [L C] H. unfold flags_inv. destruct o as [|i b|i b]; cbn in H.
  - injection H as <-. cbn. rewrite !app_length, L. split; [reflexivity|]. rewrite C. unfold missing.
    rewrite filter_app. cbn. now rewrite app_nil_r.
  - destruct (nth_error (pf_ex s) i) as [ex|] eqn:E; [|discriminate]. destruct b; injection H as <-; cbn [pf_count pf_ex pf_st];
      unfold set_nth; rewrite upd_length; fold (set_nth i true (pf_ex s)) (set_nth i false (pf_ex s)).
    + destruct ex; [auto|]. unfold set_nth at 1. rewrite upd_length. split; [exact L|].
      rewrite (missing_set (pf_ex s) i true) by exact E. rewrite <- C.
      assert (0 < pf_count s)%Z; [|lia]. rewrite C. clear - E.
      assert (missing (pf_ex s) <> 0)%nat; [|lia]. unfold missing. apply nth_error_In in E. intros Z0.
      apply length_zero_iff_nil in Z0. assert (K : In false (filter negb (pf_ex s))) by (apply filter_In; auto).
      rewrite Z0 in K. destruct K.
    + destruct ex; [|auto]. unfold set_nth at 1. rewrite upd_length. split; [exact L|].
      rewrite (missing_set (pf_ex s) i false) by exact E. rewrite <- C. lia.
  - destruct (nth_error (pf_ex s) i); [|discriminate]. injection H as <-. cbn [pf_count pf_ex pf_st].
    unfold set_nth. rewrite upd_length. auto.
Qed.
Lemma flags_run os : forall s, flags_inv s -> flags_inv (prun os s).
Proof.
  induction os as [|o os IH]; intros s H; [exact H|]. cbn. apply IH.
  destruct (pstep o s) as [s'|] eqn:E; [|exact H]. now apply (flags_step o s).
Qed.
Lemma flags_start : flags_inv no_phases.
Proof. split; reflexivity. Qed.

(* Marking a phase sets both of its marks and no others, and the count is that of the phases marked as
   missing, after any history. *)
Theorem C70_marks : forall os i b s', pstep (SetExist i b) (prun os no_phases) = Some s' ->
  (forall j, nth_error (pf_ex s') j = if Nat.eqb j i then Some b else nth_error (pf_ex (prun os no_phases)) j)
  /\ (forall j, nth_error (pf_st s') j = if Nat.eqb j i then Some b else nth_error (pf_st (prun os no_phases)) j)
  /\ pf_count s' = Z.of_nat (missing (pf_ex s')).
Proof.
  intros os i b s' H. pose proof (flags_run os _ flags_start) as I. destruct (flags_step _ _ _ I H) as [_ C].
  set (s := prun os no_phases) in *. destruct I as [L _]. cbn in H.
  destruct (nth_error (pf_ex s) i) as [ex|] eqn:E; [|discriminate].
  assert (Es : exists y, nth_error (pf_st s) i = Some y).
  { destruct (nth_error (pf_st s) i) eqn:E2; [eauto|]. apply nth_error_None in E2.
    assert (nth_error (pf_ex s) i <> None) as K by congruence. apply nth_error_Some in K. lia. }
  destruct Es as [y Ey].
  destruct b; injection H as <-; cbn [pf_ex pf_st pf_count] in C |- *; (split; [|split; [|exact C]]); intros j; unfold set_nth.
  - destruct ex; [|rewrite nth_error_upd]; destruct (Nat.eqb_spec j i) as [->|]; try reflexivity; now rewrite E.
  - rewrite nth_error_upd. destruct (Nat.eqb_spec j i) as [->|]; [now rewrite Ey|reflexivity].
  - destruct ex; [rewrite nth_error_upd|]; destruct (Nat.eqb_spec j i) as [->|]; try reflexivity; now rewrite E.
  - rewrite nth_error_upd. destruct (Nat.eqb_spec j i) as [->|]; [now rewrite Ey|reflexivity].
Qed.
Print Assumptions C70_marks.

(** The state of the scan: untouched, or blocked. *)
Definition scan (f r : R) (s : rstep) : Prop := s = (f, r, f - r) \/ exists x, 0 <= x /\ s = (x, x, 0).
Definition blocked (s : rstep) : Prop := exists x, 0 <= x /\ s = (x, x, 0).
Lemma zero_loop (P : nat -> bool) l s : blocked s ->
  blocked (fold_left (fun s rp => if P rp then (0, 0, 0) else s) l s).
Proof.
  revert s. induction l as [|p l IH]; intros s H; [exact H|]. cbn. apply IH. destruct (P p); [|exact H].
  exists 0. split; [lra|reflexivity].
Qed.
Lemma fwd_scan nph is_r is_p ex st f r s p : 0 <= f -> 0 <= r -> scan f r s ->
  scan f r (fwd_phase nph is_r is_p ex st s p)
  /\ (blocked s -> blocked (fwd_phase nph is_r is_p ex st s p))
  /\ (is_r p && negb (ex p) = true \/ is_p p && negb (st p) = true -> blocked (fwd_phase nph is_r is_p ex st s p)).
Proof.
  intros Hf Hr Hs. destruct s as [[f0 r0] n0].
  assert (Hr0 : 0 <= r0).
  { destruct Hs as [E|(x & Hx & E)]; injection E; intros; subst; assumption. }
  unfold fwd_phase.
  set (P := fun rp => is_p rp && negb (ex rp)).
  assert (B1 : blocked (if rltb 0 r0 then fold_left (fun s rp => if P rp then (0, 0, 0) else s) (seq 0 nph) (r0, r0, 0) else (r0, r0, 0))).
  { destruct (rltb 0 r0); [apply zero_loop|]; exists r0; auto. }
  unfold P in B1. cbv beta in B1.
  destruct (is_r p && negb (ex p)) eqn:A.
  - destruct (if rltb 0 r0 then _ else _) as [[f1 r1] n1]. destruct B1 as (x & Hx & E). injection E as -> -> ->.
    destruct (is_p p && negb (st p)); (split; [right; exists x; auto|split; intros; exists x; auto]).
  - destruct (is_p p && negb (st p)).
    + split; [right; exists r0; auto|split; intros; exists r0; auto].
    + split; [exact Hs|split; [tauto|intros [|]; discriminate]].
Qed.
Lemma rev_scan nph is_r is_p ex st f r s p : 0 <= f -> 0 <= r -> scan f r s ->
  scan f r (rev_phase nph is_r is_p ex st s p)
  /\ (blocked s -> blocked (rev_phase nph is_r is_p ex st s p))
  /\ (is_p p && negb (ex p) = true \/ is_r p && negb (st p) = true -> blocked (rev_phase nph is_r is_p ex st s p)).
Proof.
  intros Hf Hr Hs. destruct s as [[f0 r0] n0].
  assert (Hf0 : 0 <= f0).
  { destruct Hs as [E|(x & Hx & E)]; injection E; intros; subst; assumption. }
  unfold rev_phase.
  set (P := fun rp => is_r rp && negb (ex rp)).
  assert (B1 : blocked (if rltb 0 f0 then fold_left (fun s rp => if P rp then (0, 0, 0) else s) (seq 0 nph) (f0, f0, 0) else (f0, f0, 0))).
  { destruct (rltb 0 f0); [apply zero_loop|]; exists f0; auto. }
  unfold P in B1. cbv beta in B1.
  destruct (is_p p && negb (ex p)) eqn:A.
  - destruct (if rltb 0 f0 then _ else _) as [[f1 r1] n1]. destruct B1 as (x & Hx & E). injection E as -> -> ->.
    destruct (is_r p && negb (st p)); (split; [right; exists x; auto|split; intros; exists x; auto]).
  - destruct (is_r p && negb (st p)).
    + split; [right; exists f0; auto|split; intros; exists f0; auto].
    + split; [exact Hs|split; [tauto|intros [|]; discriminate]].
Qed.
Lemma scan_fold (step : rstep -> nat -> rstep) (trig : nat -> Prop) f r :
  (forall s p, scan f r s -> scan f r (step s p) /\ (blocked s -> blocked (step s p)) /\ (trig p -> blocked (step s p))) ->
  forall l s, scan f r s -> scan f r (fold_left step l s)
  /\ (blocked s \/ (exists p, In p l /\ trig p) -> blocked (fold_left step l s)).
Proof.
  intros H. induction l as [|p l IH]; intros s Hs; cbn.
  - split; [exact Hs|]. intros [|(p & [] & _)]; assumption.
  - destruct (H s p Hs) as (H1 & H2 & H3). destruct (IH _ H1) as [I1 I2]. split; [exact I1|].
    intros [B|(q & [->|Hq] & Hqt)]; apply I2; [left; auto|left; auto|right; eauto].
Qed.

(* What the check does to nonnegative rates. *)
Lemma check_spec nph is_r is_p ex st f r f' r' n' : 0 <= f -> 0 <= r ->
  phase_check nph is_r is_p ex st f r = (f', r', n') ->
  n' = f' - r' /\ 0 <= f' /\ 0 <= r' /\ (n' = f - r \/ n' = 0)
  /\ (forall p, (p < nph)%nat -> ex p = false -> (is_r p = true -> n' <= 0) /\ (is_p p = true -> 0 <= n'))
  /\ (forall p, (p < nph)%nat -> st p = false -> (is_p p = true -> n' <= 0) /\ (is_r p = true -> 0 <= n')).
Proof.
  intros Hf Hr H. unfold phase_check in H.
  assert (S0 : scan f r (f, r, f - r)) by now left.
  assert (Gen : forall s, scan f r s -> s = (f', r', n') -> n' = f' - r' /\ 0 <= f' /\ 0 <= r' /\ (n' = f - r \/ n' = 0)).
  { intros s Hs E. subst s. destruct Hs as [E|(x & Hx & E)]; injection E as -> -> ->; repeat split; try lra; auto. }
  assert (Bl : forall s, blocked s -> s = (f', r', n') -> n' = 0).
  { intros s (x & _ & E) E2. rewrite E in E2. now injection E2 as <- <- <-. }
  assert (Hin : forall p, (p < nph)%nat -> In p (seq 0 nph)) by (intros p Hp; apply in_seq; lia).
  assert (Hb : forall b c, b = false -> c = true -> c && negb b = true) by (intros [|] [|]; auto).
  destruct (rltb f r && rltb 0 r) eqn:B1.
  - apply andb_prop in B1. destruct B1 as [B1 _]. apply rltb_true in B1.
    destruct (scan_fold _ (fun p => is_p p && negb (ex p) = true \/ is_r p && negb (st p) = true) f r
               (fun s p => rev_scan nph is_r is_p ex st f r s p Hf Hr) (seq 0 nph) _ S0) as [I1 I2].
    destruct (Gen _ I1 H) as (G1 & G2 & G3 & G4).
    assert (T : (exists p, In p (seq 0 nph) /\ (is_p p && negb (ex p) = true \/ is_r p && negb (st p) = true)) -> n' = 0)
      by (intros K; apply (Bl _ (I2 (or_intror K)) H)).
    split; [exact G1|]. split; [exact G2|]. split; [exact G3|]. split; [exact G4|].
    split; intros p Hp He; (split; intros Hs; [lra|]); rewrite T; try lra; exists p; split; auto.
  - destruct (rltb r f && rltb 0 f) eqn:B2.
    + apply andb_prop in B2. destruct B2 as [B2 _]. apply rltb_true in B2.
      destruct (scan_fold _ (fun p => is_r p && negb (ex p) = true \/ is_p p && negb (st p) = true) f r
                 (fun s p => fwd_scan nph is_r is_p ex st f r s p Hf Hr) (seq 0 nph) _ S0) as [I1 I2].
      destruct (Gen _ I1 H) as (G1 & G2 & G3 & G4).
      assert (T : (exists p, In p (seq 0 nph) /\ (is_r p && negb (ex p) = true \/ is_p p && negb (st p) = true)) -> n' = 0)
        by (intros K; apply (Bl _ (I2 (or_intror K)) H)).
      split; [exact G1|]. split; [exact G2|]. split; [exact G3|]. split; [exact G4|].
      split; intros p Hp He; (split; intros Hs; [|lra]); rewrite T; try lra; exists p; split; auto.
    + assert (E : f = r).
      { apply andb_false_iff in B1, B2. destruct B1 as [B1|B1], B2 as [B2|B2]; apply rltb_false in B1, B2; lra. }
      injection H as <- <- <-. subst r. repeat split; try lra; auto.
Qed.
Lemma no_missing l : missing l = 0%nat -> forall p, nth p l true = true.
Proof.
  unfold missing. intros H p. apply length_zero_iff_nil in H. destruct (nth p l true) eqn:E; [reflexivity|].
  destruct (Nat.lt_ge_cases p (length l)) as [Hp|Hp]; [|rewrite nth_overflow in E by exact Hp; discriminate].
  assert (K : In false (filter negb l)) by (apply filter_In; split; [rewrite <- E; now apply nth_In|reflexivity]).
  rewrite H in K. destruct K.
Qed.
(* Nonnegative rates, after any history of marking phases: the net rate is the difference, it is the
   unchecked one or none, and a phase marked as missing is not consumed. *)
Theorem C70_missing : forall os is_r is_p f r f' r' n', 0 <= f -> 0 <= r ->
  let s := prun os no_phases in
  checked s is_r is_p f r = (f', r', n') ->
  n' = f' - r' /\ 0 <= f' /\ 0 <= r' /\ (n' = f - r \/ n' = 0)
  /\ forall p, nth_error (pf_ex s) p = Some false ->
     (is_r p = true -> n' <= 0) /\ (is_p p = true -> 0 <= n').
Proof.
  intros os is_r is_p f r f' r' n' Hf Hr s H. destruct (flags_run os _ flags_start) as [L C]. fold s in L, C.
  unfold checked in H. destruct (Z.eqb_spec (pf_count s) 0) as [E|E].
  - injection H as <- <- <-. repeat split; try lra; auto;
      (rewrite C in E; assert (E0 : missing (pf_ex s) = 0%nat) by lia; pose proof (no_missing _ E0 p) as K;
       rewrite (nth_error_nth _ _ true H) in K; discriminate).
  - destruct (check_spec _ _ _ _ _ _ _ _ _ _ Hf Hr H) as (G1 & G2 & G3 & G4 & G5 & _).
    split; [exact G1|]. split; [exact G2|]. split; [exact G3|]. split; [exact G4|].
    intros p Hp. apply G5; [|now apply nth_error_nth]. apply nth_error_Some. congruence.
Qed.
Print Assumptions C70_missing.
(* As soon as some phase is missing, a phase marked as not stable is not produced. *)
Theorem C70_unstable : forall os is_r is_p f r f' r' n', 0 <= f -> 0 <= r ->
  let s := prun os no_phases in
  checked s is_r is_p f r = (f', r', n') -> In false (pf_ex s) ->
  forall p, nth_error (pf_st s) p = Some false ->
     (is_p p = true -> n' <= 0) /\ (is_r p = true -> 0 <= n').
Proof.
  intros os is_r is_p f r f' r' n' Hf Hr s H Hm p Hp. destruct (flags_run os _ flags_start) as [L C]. fold s in L, C.
  unfold checked in H. destruct (Z.eqb_spec (pf_count s) 0) as [E|E].
  - rewrite C in E. assert (E0 : missing (pf_ex s) = 0%nat) by lia. apply (In_nth _ _ true) in Hm.
    destruct Hm as (q & _ & Hq). rewrite (no_missing _ E0 q) in Hq. discriminate.
  - destruct (check_spec _ _ _ _ _ _ _ _ _ _ Hf Hr H) as (_ & _ & _ & _ & _ & G).
    apply G; [|now apply nth_error_nth]. rewrite <- L. apply nth_error_Some. congruence.
Qed.
Print Assumptions C70_unstable.
(* While every phase exists, marking one as not stable has no effect: its species are still formed. *)
Theorem C70_unstable_refuted : forall os is_r is_p f r,
  let s := prun os no_phases in ~ In false (pf_ex s) ->
  forall i s', pstep (SetStable i false) s = Some s' ->
  nth_error (pf_st s') i = Some false /\ checked s' is_r is_p f r = (f, r, f - r).
Proof.
  intros os is_r is_p f r s Hm i s' H. destruct (flags_run os _ flags_start) as [L C]. fold s in L, C. cbn in H.
  destruct (nth_error (pf_ex s) i) eqn:E; [|discriminate]. injection H as <-. cbn [pf_st pf_count pf_ex]. split.
  - unfold set_nth. rewrite nth_error_upd, Nat.eqb_refl. destruct (nth_error (pf_st s) i) eqn:E2; [reflexivity|].
    apply nth_error_None in E2. assert (nth_error (pf_ex s) i <> None) as K by congruence. apply nth_error_Some in K. lia.
  - unfold checked. cbn [pf_count]. rewrite C. unfold missing.
    destruct (filter negb (pf_ex s)) as [|v l] eqn:F; [reflexivity|].
    assert (K : In v (filter negb (pf_ex s))) by (rewrite F; now left). apply filter_In in K. destruct K as [K1 K2].
    destruct v; [discriminate|]. tauto.
Qed.
Print Assumptions C70_unstable_refuted.
(* Negative rates, as negative rate coefficients give, escape the check: a missing reactant is consumed. *)
Theorem C70_negative_refuted : forall s is_r is_p f r p, r < f <= 0 -> nth_error (pf_ex s) p = Some false -> is_r p = true ->
  checked s is_r is_p f r = (f, r, f - r) /\ 0 < f - r.
Proof.
  intros s is_r is_p f r p H Hp Hr. split; [|lra]. unfold checked. destruct (Z.eqb _ _); [reflexivity|]. unfold phase_check.
  destruct (rltb f r) eqn:B1; [apply rltb_true in B1; lra|].
  destruct (rltb 0 f) eqn:B2; [apply rltb_true in B2; lra|]. rewrite andb_false_r. reflexivity.
Qed.
Print Assumptions C70_negative_refuted.
(* When the phases that take part all exist and are stable the rates are untouched. *)
Theorem C70_untouched : forall s is_r is_p f r,
  (forall p, is_r p = true \/ is_p p = true -> nth p (pf_ex s) true = true /\ nth p (pf_st s) true = true) ->
  checked s is_r is_p f r = (f, r, f - r).
Proof.
  intros s is_r is_p f r H. unfold checked. destruct (Z.eqb _ _); [reflexivity|].
  set (ex := fun p => nth p (pf_ex s) true). set (st := fun p => nth p (pf_st s) true).
  assert (Hr : forall p, is_r p && negb (ex p) = false /\ is_r p && negb (st p) = false
                      /\ is_p p && negb (ex p) = false /\ is_p p && negb (st p) = false).
  { intros p. unfold ex, st. destruct (is_r p) eqn:R1, (is_p p) eqn:P1; cbn; auto;
      destruct (H p) as [-> ->]; auto. }
  assert (Ff : forall l t, fold_left (fwd_phase (length (pf_ex s)) is_r is_p ex st) l t = t).
  { induction l as [|p l IH]; intros [[a b] c]; [reflexivity|]. cbn. destruct (Hr p) as (-> & _ & _ & ->). apply IH. }
  assert (Fr : forall l t, fold_left (rev_phase (length (pf_ex s)) is_r is_p ex st) l t = t).
  { induction l as [|p l IH]; intros [[a b] c]; [reflexivity|]. cbn. destruct (Hr p) as (_ & -> & -> & _). apply IH. }
  unfold phase_check. rewrite Ff, Fr. destruct (_ && _); [reflexivity|]. destruct (_ && _); reflexivity.
Qed.
Print Assumptions C70_untouched.

Lemma zero_fold (P : nat -> bool) l q : In q l -> P q = true -> forall s : rstep,
  fold_left (fun s rp => if P rp then (0, 0, 0) else s) l s = (0, 0, 0).
Proof.
  intros Hin Hq. assert (Z : forall l, fold_left (fun (s : rstep) rp => if P rp then (0, 0, 0) else s) l (0, 0, 0) = (0, 0, 0)).
  { induction l0 as [|x l0 IH]; [reflexivity|]. cbn. destruct (P x); exact IH. }
  induction l as [|x l IH]; intros s; [destruct Hin|]. cbn. destruct Hin as [->|Hin]; [rewrite Hq; apply Z|].
  apply IH, Hin.
Qed.
(* With a reactant phase and a product phase missing a reaction away from equilibrium stops in both directions. *)
Theorem C70_both_missing : forall os is_r is_p f r p q, 0 <= f -> 0 <= r -> f <> r ->
  let s := prun os no_phases in
  nth_error (pf_ex s) p = Some false -> is_r p = true -> nth_error (pf_ex s) q = Some false -> is_p q = true ->
  checked s is_r is_p f r = (0, 0, 0).
Proof.
  intros os is_r is_p f r p q Hf Hr Hne s Hp Rp Hq Pq. destruct (flags_run os _ flags_start) as [L C]. fold s in L, C.
  unfold checked. destruct (Z.eqb_spec (pf_count s) 0) as [E|E].
  { rewrite C in E. assert (E0 : missing (pf_ex s) = 0%nat) by lia. pose proof (no_missing _ E0 p) as K.
    rewrite (nth_error_nth _ _ true Hp) in K. discriminate. }
  set (ex := fun p => nth p (pf_ex s) true). set (st := fun p => nth p (pf_st s) true). set (nph := length (pf_ex s)).
  assert (Ep : ex p = false) by now apply nth_error_nth. assert (Eq : ex q = false) by now apply nth_error_nth.
  assert (Ip : In p (seq 0 nph)) by (apply in_seq; assert (nth_error (pf_ex s) p <> None) as K by congruence; apply nth_error_Some in K; unfold nph; lia).
  assert (Iq : In q (seq 0 nph)) by (apply in_seq; assert (nth_error (pf_ex s) q <> None) as K by congruence; apply nth_error_Some in K; unfold nph; lia).
  assert (Zf : forall t, fwd_phase nph is_r is_p ex st (0, 0, 0) t = (0, 0, 0)).
  { intros t. cbn. assert (rltb 0 0 = false) as -> by (apply rltb_false; lra).
    destruct (is_r t && negb (ex t)), (is_p t && negb (st t)); reflexivity. }
  assert (Zr : forall t, rev_phase nph is_r is_p ex st (0, 0, 0) t = (0, 0, 0)).
  { intros t. cbn. assert (rltb 0 0 = false) as -> by (apply rltb_false; lra).
    destruct (is_p t && negb (ex t)), (is_r t && negb (st t)); reflexivity. }
  assert (Fp : forall x, scan f r x -> fwd_phase nph is_r is_p ex st x p = (0, 0, 0)).
  { intros [[a b] c] Hs. assert (Hb : 0 <= b) by (destruct Hs as [E1|(x & Hx & E1)]; injection E1; intros; subst; assumption).
    unfold fwd_phase. rewrite Rp, Ep. cbn [andb negb]. destruct (rltb 0 b) eqn:B.
    - rewrite (zero_fold (fun rp => is_p rp && negb (ex rp)) _ q Iq) by now rewrite Pq, Eq. destruct (_ && _); reflexivity.
    - apply rltb_false in B. assert (b = 0) as -> by lra. destruct (_ && _); reflexivity. }
  assert (Fq : forall x, scan f r x -> rev_phase nph is_r is_p ex st x q = (0, 0, 0)).
  { intros [[a b] c] Hs. assert (Ha : 0 <= a) by (destruct Hs as [E1|(x & Hx & E1)]; injection E1; intros; subst; assumption).
    unfold rev_phase. rewrite Pq, Eq. cbn [andb negb]. destruct (rltb 0 a) eqn:B.
    - rewrite (zero_fold (fun rp => is_r rp && negb (ex rp)) _ p Ip) by now rewrite Rp, Ep. destruct (_ && _); reflexivity.
    - apply rltb_false in B. assert (a = 0) as -> by lra. destruct (_ && _); reflexivity. }
  assert (G : forall (step : rstep -> nat -> rstep) t, (forall x, step (0, 0, 0) x = (0, 0, 0)) ->
    (forall x y, scan f r x -> scan f r (step x y)) -> (forall x, scan f r x -> step x t = (0, 0, 0)) ->
    forall l x, In t l -> scan f r x -> fold_left step l x = (0, 0, 0)).
  { intros step t Z1 Z2 Z3. assert (Z4 : forall l, fold_left step l (0, 0, 0) = (0, 0, 0)).
    { induction l as [|y l IH]; [reflexivity|]. cbn. now rewrite Z1. }
    induction l as [|y l IH]; intros x Hin Hx; [destruct Hin|]. cbn. destruct Hin as [->|Hin]; [now rewrite (Z3 _ Hx)|].
    apply IH; auto. }
  assert (S0 : scan f r (f, r, f - r)) by now left.
  unfold phase_check. destruct (Rtotal_order f r) as [K|[K|K]]; [|congruence|].
  - assert (rltb f r = true) as -> by now apply rltb_true. assert (rltb 0 r = true) as -> by (apply rltb_true; lra). cbn [andb].
    apply (G _ q Zr); auto. intros x y Hx. now apply rev_scan.
  - assert (rltb f r = false) as -> by (apply rltb_false; lra). assert (rltb r f = true) as -> by now apply rltb_true.
    assert (rltb 0 f = true) as -> by (apply rltb_true; lra). cbn [andb].
    apply (G _ p Zf); auto. intros x y Hx. now apply fwd_scan.
Qed.
Print Assumptions C70_both_missing.
Example C70_missing_example :
  let s := prun [AddThermo; AddThermo; SetExist 1 false; SetExist 1 false; SetExist 7 false] no_phases in
  pf_ex s = [true; false] /\ pf_st s = [true; false] /\ pf_count s = 1%Z
  /\ checked s (fun p => Nat.eqb p 1) (fun p => Nat.eqb p 0) 3 1 = (1, 1, 0).
Proof.
  cbv zeta. split; [reflexivity|]. split; [reflexivity|]. split; [reflexivity|].
  change (phase_check 2 (fun p => Nat.eqb p 1) (fun p => Nat.eqb p 0) (fun p => nth p [true; false] true)
            (fun p => nth p [true; false] true) 3 1 = (1, 1, 0)). unfold phase_check.
  assert (rltb 3 1 = false) as -> by (apply rltb_false; lra). assert (rltb 1 3 = true) as -> by (apply rltb_true; lra).
  assert (rltb 0 3 = true) as -> by (apply rltb_true; lra).
  cbn -[rltb IZR]. destruct (rltb 0 1); reflexivity.
Qed.
Example C70_unstable_example : let s := prun [AddThermo; AddThermo] no_phases in
  ~ In false (pf_ex s) /\ exists s', pstep (SetStable 1 false) s = Some s'.
Proof. cbn. split; [intuition discriminate|eauto]. Qed.

(** ** Currents *)

(* If every reaction conserves charge the currents into the phases add up to nothing. *)
Theorem C70_currents : forall (phases : list (list nat)) charge rxns,
  NoDup (concat phases) ->
  (forall q, In q rxns -> reaction_change charge (fst (fst q)) (snd (fst q)) = 0
     /\ forall p, In p (fst (fst q) ++ snd (fst q)) -> In (fst p) (concat phases)) ->
  sum_of (fun sp => current sp charge (production rxns)) phases = 0.
Proof.
  intros phases charge rxns Hnd H.
  assert (E1 : sum_of (fun sp => current sp charge (production rxns)) phases
               = current (concat phases) charge (production rxns)).
  { clear. induction phases as [|sp l IH]; [unfold current, sum_of; cbn; ring|].
    rewrite sum_of_cons, IH. cbn [concat]. unfold current. rewrite sum_of_app. ring. }
  rewrite E1. unfold current. set (all := concat phases) in *.
  assert (Hc : forall l, (forall p, In p l -> In (fst p) all) ->
            sum_of (fun k => charge k * coeff_in l k) all = sum_of (fun p => snd p * charge (fst p)) l).
  { intros l Hl. unfold coeff_in.
    transitivity (sum_of (fun k => sum_of (fun p : nat * R => if Nat.eqb (fst p) k then charge k * snd p else 0) l) all).
    { apply sum_of_ext. intros k _. rewrite <- sum_of_scal. apply sum_of_ext. intros p _. destruct (Nat.eqb _ _); ring. }
    rewrite sum_of_swap. apply sum_of_ext. intros [k nu] Hp. cbn [fst snd]. specialize (Hl _ Hp). cbn in Hl.
    clear - Hnd Hl. induction all as [|x l IH]; [destruct Hl|]. rewrite sum_of_cons. inversion Hnd; subst.
    destruct (Nat.eqb_spec k x) as [->|K].
    - rewrite sum_of_0; [ring|]. intros y Hy. destruct (Nat.eqb_spec x y); [subst; contradiction|reflexivity].
    - rewrite IH; [ring|assumption|]. destruct Hl; congruence. }
  assert (E2 : sum_of (fun k => charge k * production rxns k) all = 0).
  { unfold production.
    transitivity (sum_of (fun k => sum_of (fun q => snd q * (charge k * coeff_in (snd (fst q)) k - charge k * coeff_in (fst (fst q)) k)) rxns) all).
    { apply sum_of_ext. intros k _. rewrite <- sum_of_scal. apply sum_of_ext. intros q _. ring. }
    rewrite sum_of_swap. apply sum_of_0. intros q Hq. destruct (H q Hq) as [H1 H2].
    rewrite sum_of_scal, sum_of_minus, !Hc. 
    - unfold reaction_change in H1. rewrite H1. ring.
    - intros p Hp. apply H2, in_or_app. now left.
    - intros p Hp. apply H2, in_or_app. now right. }
  rewrite E2. ring.
Qed.
Print Assumptions C70_currents.
Example C70_currents_example :
  current [0%nat] (fun k => if Nat.eqb k 0 then 1 else -1) (production [([(2%nat, 1)], [(0%nat, 1); (1%nat, 1)], 5)]) <> 0.
Proof.
  unfold current, production, coeff_in, sum_of. cbn. unfold Faraday, ElectronCharge, Avogadro.
  assert (0 < 10 ^ 18) by (apply pow_lt; lra). assert (0 < / 10 ^ 28) by (apply Rinv_0_lt_compat, pow_lt; lra).
  apply Rgt_not_eq. unfold Rdiv.
  assert (0 < 1602176634 * / 10 ^ 28 * (602214076 * 10 ^ 18)); [|lra]. apply Rmult_lt_0_compat; nra.
Qed.
