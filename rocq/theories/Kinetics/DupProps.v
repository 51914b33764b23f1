(** C20: undeclared duplicate reactions and unmatched declared ones are found. *)
From Coq Require Import Reals ZArith String List Bool Arith Lia Lra Permutation.
From Verif Require Import Base.Fp Base.Outcome Base.RSum Kinetics.DupModel Kinetics.DupSpec Kinetics.DupProofs Kinetics.DupProofs2
  Kinetics.DupProofs3 Kinetics.DupProofs4.
Import ListNotations.
Local Open Scope string_scope.
Local Open Scope R_scope.

Lemma start_whole names h rs : whole names h rs 0 (DST rs [] (declared rs) [] []).
Proof.
  split.
  - split; [split; [apply all_evolve_refl|split; [reflexivity|]|intros p []]| |intros p []|auto].
    + intros j r nm _ H. now destruct j.
    + intros j r r' A B. cbn in B. assert (r' = r) by congruence. subst. apply become_refl.
  - apply incl_refl.
  - intros; lia.
  - intros _ j A B. contradiction.
  - intros B g _ j nm z Hj. lia.
Qed.
Lemma declared_iff rs j : In j (declared rs) <-> exists r, nth_error rs j = Some r /\ d_dup r = true.
Proof.
  unfold declared. rewrite filter_In, in_seq. split.
  - intros [_ H]. destruct (nth_error rs j) as [r|]; [eauto|discriminate].
  - intros (r & E & D). assert (j < List.length rs)%nat by (apply nth_error_Some; congruence). rewrite E. split; [lia|auto].
Qed.

(** Everything about a run. *)
Lemma run names walk h te pick rs : walks walk -> Forall (proper names) rs ->
  (exists s, (forall j, (j < List.length rs)%nat -> round names walk h te rs s j) /\ whole names h rs (List.length rs) s /\
     checkDuplicates names walk h te pick rs =
       (let errs := map (fun p => Undeclared (fst p) (snd p)) (c_errs s) in
        match c_unm s with
        | [] => Ok (match errs with [] => Nothing | _ => Throws errs end)
        | l => if te then Ok (Throws (errs ++ [Unmatched (pick l)])) else Ok (Pair (pick l) (pick l))
        end, (c_rx s, c_warn s)) /\ (te = false -> c_errs s = [])) \/
  (exists i m s k, genuine names h rs i m /\ good names h rs k s /\ te = false /\ checkDuplicates names walk h te pick rs = (Ok (Pair i m), (c_rx s, c_warn s))).
Proof.
  intros W PR. pose proof (main_ok names walk W h te rs PR (List.length rs) 0 (fun _ => []) _ (start_whole names h rs) (fun _ => eq_refl) eq_refl) as M.
  assert (QUIET : forall n i parts s s', te = false -> main_loop names walk h te n i parts s = Go s' -> c_errs s' = c_errs s).
  { intros n i parts s s' T. subst te. revert i parts s s'. clear.
    assert (P : forall i m s s', pair_step names walk h false i m s = Go s' -> c_errs s' = c_errs s).
    { intros i m s s' H. unfold pair_step in H.
      destruct (nth_error (c_rx s) i) as [r|]; [|discriminate]. destruct (nth_error (c_rx s) m) as [o|]; [|discriminate].
      destruct (nth_error (c_net s) i) as [n1|]; [|discriminate]. destruct (nth_error (c_net s) m) as [n2|]; [|discriminate].
      destruct (d_dup r && d_dup o); [now injection H as <-|]. destruct (negb (String.eqb (d_type r) (d_type o))); [now injection H as <-|].
      destruct (negb (String.eqb (d_rtype r) (d_rtype o))); [now injection H as <-|].
      destruct (stoich_ratio walk n1 n2) as [[c [q1 q2]]| | |]; try discriminate. cbn zeta in H.
      destruct (reqb c 0); [now injection H as <-|]. destruct (rltb c 0 && negb (d_rev r) && negb (d_rev o)); [now injection H as <-|].
      unfold third_bodies, report in H. destruct (d_tb r) as [t1|]; [|discriminate]. destruct (d_tb o) as [t2|]; [|discriminate].
      destruct (negb (overlap names t1 t2)); [now injection H as <-|].
      destruct (negb (Bool.eqb (String.eqb (tb_name t1) "M") (String.eqb (tb_name t2) "M"))); [|discriminate].
      destruct h; try discriminate; now injection H as <-. }
    assert (Q : forall l i s s', related_loop names walk h false i l s = Go s' -> c_errs s' = c_errs s).
    { induction l as [|m l IH]; intros i s s' H; cbn [related_loop] in H; [now injection H as <-|].
      destruct (pair_step names walk h false i m s) as [s1| |] eqn:E; try discriminate. rewrite (IH _ _ _ H). eapply P; eauto. }
    induction n as [|n IH]; intros i parts s s' H; cbn [main_loop] in H; [now injection H as <-|].
    destruct (nth_error (c_rx s) i) as [r|]; [|discriminate].
    match type of H with match ?M with _ => _ end = _ => destruct M as [s1| |] eqn:E; try discriminate end.
    rewrite (IH _ _ _ _ H). apply Q in E. exact E. }
  unfold checkDuplicates. destruct (main_loop names walk h te (List.length rs) 0 (fun _ => []) (DST rs [] (declared rs) [] [])) as [s|i m s|] eqn:EM.
  - left. exists s. destruct M as (WH & GR & RD). split; [intros j Hj; apply RD; lia|]. split; [exact WH|]. split; [reflexivity|].
    intros T. exact (QUIET _ _ _ _ _ T EM).
  - right. destruct M as (G & (k & GD) & T). exists i, m, s, k. auto.
  - contradiction.
Qed.
Lemma left_lonely names h rs s j : whole names h rs (List.length rs) s -> In j (c_unm s) -> lonely names rs j.
Proof.
  intros WH H. pose proof (w_sub _ _ _ _ _ WH j H) as D. apply declared_iff in D. split; [exact D|]. intros k P.
  apply (w_gone _ _ _ _ _ WH j k) in P as P'; [contradiction| |].
  - destruct P as (_ & r & o & A & _). apply nth_error_Some. congruence.
  - destruct P as (_ & r & o & _ & A & _). apply nth_error_Some. congruence.
Qed.

(** Whatever is reported is there: only pairs that are duplicates and not both declared, and declared
    duplicates that no other declared one can belong to.  Errors are raised only if asked for; the
    check always ends with an answer. *)
Theorem C20_reported : forall names walk h te pick rs, walks walk -> picks pick -> Forall (proper names) rs ->
  match fst (checkDuplicates names walk h te pick rs) with
  | Ok Nothing => True
  | Ok (Pair i m) => te = false /\ (genuine names h rs i m \/ (i = m /\ lonely names rs i))
  | Ok (Throws l) => te = true /\ l <> [] /\
      forall p, In p l -> match p with Undeclared i m => genuine names h rs i m | Unmatched i => lonely names rs i end
  | _ => False
  end.
Proof.
  intros names walk h te pick rs W PK PR. destruct (run names walk h te pick rs W PR) as [(s & _ & WH & -> & QT)|(i & m & s & k & G & _ & T & ->)]; cbn [fst]; [|auto].
  assert (ERR : forall p, In p (map (fun p => Undeclared (fst p) (snd p)) (c_errs s)) -> exists i m, p = Undeclared i m /\ genuine names h rs i m).
  { intros p H. apply in_map_iff in H as ([i m] & <- & H). exists i, m. split; [reflexivity|].
    exact (k_errs _ _ _ _ _ (g_ok _ _ _ _ _ (w_good _ _ _ _ _ WH)) _ H). }
  destruct (c_unm s) as [|u l] eqn:U.
  - destruct (map _ (c_errs s)) as [|e l] eqn:EE; [exact I|]. split; [|split; [discriminate|]].
    + destruct te; [reflexivity|]. rewrite QT in EE by reflexivity. discriminate.
    + intros p H. destruct (ERR p H) as (i & m & -> & G). exact G.
  - assert (LN : lonely names rs (pick (u :: l))).
    { apply (left_lonely names h rs s); [exact WH|]. rewrite U. apply PK. discriminate. }
    destruct te.
    + split; [reflexivity|]. split; [now destruct (map _ (c_errs s))|]. intros p H. apply in_app_or in H as [H|[<-|[]]]; [|exact LN].
      destruct (ERR p H) as (i & m & -> & G). exact G.
    + split; [reflexivity|]. right. auto.
Qed.

(** A mechanism without duplicates, and whose declared duplicates have partners, is accepted. *)
Theorem C20_accepts : forall names walk h te pick rs, walks walk -> picks pick -> Forall (proper names) rs ->
  (forall i m, ~ genuine names h rs i m) -> (forall j, ~ lonely names rs j) ->
  fst (checkDuplicates names walk h te pick rs) = Ok Nothing.
Proof.
  intros names walk h te pick rs W PK PR NG NL. pose proof (C20_reported names walk h te pick rs W PK PR) as R.
  destruct (fst (checkDuplicates names walk h te pick rs)) as [[|i m|l]| | |]; try contradiction; [reflexivity| |].
  - exfalso. destruct R as [_ [R|[_ R]]]; [eapply NG; eauto|eapply NL; eauto].
  - exfalso. destruct R as (_ & NE & R). destruct l as [|p l]; [contradiction|]. specialize (R p (or_introl eq_refl)). destruct p; [eapply NG; eauto|eapply NL; eauto].
Qed.

(** Reactions one of which is a multiple of the other, in the same direction or the opposite one, are
    reported unless both are declared, provided the comparison is not spoilt by earlier ones (see
    C20_missed_refuted). *)
Theorem C20_found_partial : forall names walk h te pick rs i m r o, walks walk -> Forall (proper names) rs -> passive h rs ->
  (m < i)%nat -> nth_error rs i = Some r -> nth_error rs m = Some o -> comparable r o -> third_bodies_clash names h r o ->
  (exists c, 0 < c /\ (multiple c r o \/ (reversed_multiple c r o /\ either_reversible r o))) ->
  unspoilt names rs i m r ->
  match fst (checkDuplicates names walk h te pick rs) with
  | Ok (Throws l) => te = true /\ In (Undeclared i m) l
  | Ok (Pair _ _) => te = false
  | _ => False
  end.
Proof.
  intros names walk h te pick rs i m r o W PR PA Hm E1 E2 CMP CL MU US. destruct (run names walk h te pick rs W PR) as [(s & RD & WH & -> & QT)|(i' & m' & s & k & G & _ & T & ->)]; cbn [fst]; [|auto].
  assert (Hi : (i < List.length rs)%nat) by (apply nth_error_Some; congruence).
  destruct (round_reaches names walk W h te rs PR s i m r o PA (RD i Hi) Hm E1 E2 CMP MU US) as (sa & sb & _ & TB & GR).
  rewrite third_fires in TB by auto. unfold report in TB. destruct te; [|discriminate]. injection TB as <-.
  assert (IN : In (Undeclared i m) (map (fun p => Undeclared (fst p) (snd p)) (c_errs s))).
  { apply in_map_iff. exists (i, m). split; [reflexivity|]. destruct GR as (_ & GE & _). apply GE. cbn. apply in_or_app. right. now left. }
  destruct (c_unm s).
  - destruct (map _ (c_errs s)) eqn:EE; [destruct IN|]. auto.
  - split; [reflexivity|]. apply in_or_app. auto.
Qed.
(** A declared duplicate without any possible partner is reported. *)
Theorem C20_lonely_found : forall names walk h te pick rs j, walks walk -> Forall (proper names) rs -> passive h rs ->
  lonely names rs j ->
  match fst (checkDuplicates names walk h te pick rs) with
  | Ok (Throws l) => te = true /\ exists k, In (Unmatched k) l
  | Ok (Pair _ _) => te = false
  | _ => False
  end.
Proof.
  intros names walk h te pick rs j W PR PA [D NP]. destruct (run names walk h te pick rs W PR) as [(s & RD & WH & -> & QT)|(i' & m' & s & k & G & _ & T & ->)]; cbn [fst]; [|auto].
  apply declared_iff in D. destruct (dec_in (c_unm s) j) as [J|J].
  - destruct (c_unm s) as [|u l]; [destruct J|]. destruct te; [|reflexivity]. split; [reflexivity|]. eexists. apply in_or_app. right. now left.
  - destruct (w_why _ _ _ _ _ WH PA j D J) as (k & P). destruct (NP k P).
Qed.

(** The reactions are changed only as the handling of explicit third bodies says. *)
Theorem C20_effects : forall names walk h te pick rs, walks walk -> Forall (proper names) rs ->
  let rs' := fst (snd (checkDuplicates names walk h te pick rs)) in
  List.length rs' = List.length rs /\
  (forall j r, nth_error rs j = Some r -> exists r', nth_error rs' j = Some r' /\ may_become names h rs j r r') /\
  (h = Warn \/ h = Error -> rs' = rs).
Proof.
  intros names walk h te pick rs W PR rs'.
  assert (G : exists k s, good names h rs k s /\ rs' = c_rx s).
  { unfold rs'. destruct (run names walk h te pick rs W PR) as [(s & RD & WH & -> & QT)|(i' & m' & s & k & G & GD & T & ->)]; cbn [fst snd].
    - exists (List.length rs), s. split; [exact (w_good _ _ _ _ _ WH)|reflexivity].
    - exists k, s. auto. }
  destruct G as (k & s & GD & ->). destruct (k_rx _ _ _ _ _ (g_ok _ _ _ _ _ GD)) as [L A]. split; [exact L|]. split.
  - intros j r E. destruct (A j r E) as (r' & E' & _). exists r'. split; [exact E'|]. eapply (g_just _ _ _ _ _ GD); eauto.
  - intros H. apply (g_pass _ _ _ _ _ GD). unfold passive. tauto.
Qed.
(** With "warn": warnings are given for a generic and an explicit third body, and nothing else. *)
Theorem C20_warned : forall names walk h te pick rs, walks walk -> Forall (proper names) rs ->
  (forall i m, In (i, m) (snd (snd (checkDuplicates names walk h te pick rs))) ->
     h = Warn /\ (mixed names rs i m \/ mixed names rs m i)) /\
  (forall i m r o, h = Warn -> te = true -> (m < i)%nat -> nth_error rs i = Some r -> nth_error rs m = Some o -> comparable r o ->
     generic_and_explicit names r o \/ generic_and_explicit names o r ->
     (exists c, 0 < c /\ (multiple c r o \/ (reversed_multiple c r o /\ either_reversible r o))) ->
     unspoilt names rs i m r -> In (i, m) (snd (snd (checkDuplicates names walk h te pick rs)))).
Proof.
  intros names walk h te pick rs W PR. split.
  - intros i m. destruct (run names walk h te pick rs W PR) as [(s & RD & WH & -> & QT)|(i' & m' & s & k & G & GD & T & ->)]; cbn [fst snd]; intros H.
    + exact (g_warn _ _ _ _ _ (w_good _ _ _ _ _ WH) _ H).
    + exact (g_warn _ _ _ _ _ GD _ H).
  - intros i m r o EH ET Hm E1 E2 CMP GE MU US. destruct (run names walk h te pick rs W PR) as [(s & RD & WH & -> & QT)|(i' & m' & s & k & G & GD & T & ->)]; [|congruence]. cbn [fst snd].
    assert (Hi : (i < List.length rs)%nat) by (apply nth_error_Some; congruence).
    destruct (round_reaches names walk W h te rs PR s i m r o (or_introl EH) (RD i Hi) Hm E1 E2 CMP MU US) as (sa & sb & _ & TB & GR).
    rewrite third_warns in TB by auto. injection TB as <-. destruct GR as (_ & _ & GW). apply GW. cbn. apply in_or_app. right. now left.
Qed.
Print Assumptions C20_reported.
Print Assumptions C20_accepts.
Print Assumptions C20_found_partial.
Print Assumptions C20_lonely_found.
Print Assumptions C20_effects.
Print Assumptions C20_warned.
