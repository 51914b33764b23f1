(* C32: sensitivity parameters. *)
From Coq Require Import Reals Lra Lia List Bool Arith.
From Verif Require Import Base.Outcome ZeroD.SensModel ZeroD.SensSpec ZeroD.SensProofs.
Import ListNotations.
Local Open Scope R_scope.

(* After an evaluation that returns, with whatever parameters, every reaction multiplier and
   all species data are as before, provided no reaction is registered twice for a reactor and
   the registered species have the heat of formation of their input data. *)
Theorem C32_restored : forall {obs} (E : nat -> world -> outcome obs) w0 ops params os s',
  let s := srun E w0 ops in
  once s -> unmodified s -> netEval E s params = (Ok os, s') ->
  (forall kin i, w_mult (s_world s') kin i = w_mult (s_world s) kin i) /\
  (forall th, w_th (s_world s') th = w_th (s_world s) th).
Proof.
  intros obs E w0 ops params os s' s O U H.
  destruct (eval_restores E s os s' params (good_run E w0 ops) O U H) as (_ & A & B). split; [exact A|exact B].
Qed.
Print Assumptions C32_restored.

(* Over a whole history the multipliers are what the user set last. *)
Theorem C32_multipliers : forall {obs} (E : nat -> world -> outcome obs) w0 ops,
  all_ok E w0 ops -> once (srun E w0 ops) ->
  forall kin i, w_mult (s_world (srun E w0 ops)) kin i = last_set w0 ops kin i.
Proof. intros obs E w0 ops. apply multipliers_run. Qed.
Print Assumptions C32_multipliers.

(* ... and, if nobody changes heats of formation by hand, the species data are the initial
   ones, and each parameter refers to the species' own heat of formation. *)
Theorem C32_enthalpies : forall {obs} (E : nat -> world -> outcome obs) w0 ops,
  pristine w0 -> no_hf ops -> all_ok E w0 ops -> once (srun E w0 ops) ->
  (forall th, w_th (s_world (srun E w0 ops)) th = w_th w0 th) /\
  (forall x e, In x (s_rx (srun E w0 ops)) -> In e (entries x) -> is_rxn e = false ->
     Hf298SS w0 (x_th x) (sp_local (snd e)) = Ok (sp_value (snd e))).
Proof.
  intros obs E w0 ops P N A O. destruct (history E w0 ops P N A O) as [H1 H2]. split; [exact H1|].
  intros x e Hx He Hr. rewrite <- (H2 x e Hx He Hr). unfold Hf298SS. rewrite H1. reflexivity.
Qed.
Print Assumptions C32_enthalpies.

(* Each reactor is evaluated with exactly its own parameters in effect. *)
Theorem C32_seen : forall {obs} (E : nat -> world -> outcome obs) w0 ops ps os s',
  let s := srun E w0 ops in
  sound w0 -> once s -> unmodified s -> netEval E s (Some ps) = (Ok os, s') ->
  length os = length (s_rx s) /\
  forall r x o, nth_error (s_rx s) r = Some x -> nth_error os r = Some o ->
    exists w, perturbed (s_world s) x ps w /\ E r w = Ok o.
Proof.
  intros obs E w0 ops ps os s' s S O U H. pose proof (good_run E w0 ops) as G. fold s in G.
  unfold netEval in H. destruct (eval_from E (Some ps) (s_world s) 0 (s_rx s)) as [q [w2 l2]] eqn:Eq. cbn [fst snd] in H. injection H as -> <-.
  destruct (eval_ok E (s_sens s) ps _ _ _ _ _ _ G O U Eq) as (_ & L & F). split; [exact L|]. intros r x o Hx Ho.
  destruct (F r o x Ho Hx) as (w1 & x1 & wj & W & A & Ee). exists w1. split; [|exact Ee].
  eapply perturbed_weq; [exact W|]. eapply applied_perturbed; [| | |exact A].
  - eapply wsame_sound; [apply weq_wsame; exact W|]. eapply wsame_sound; [apply wsame_run|exact S].
  - eapply good_rx_same; [apply weq_wsame; exact W|apply xsame_refl|]. refine (Forall_nth_error _ _ _ _ G Hx).
  - refine (Forall_nth_error _ _ _ _ O Hx).
Qed.
Print Assumptions C32_seen.

(* With the parameters at their registered values the reactors are evaluated unperturbed. *)
Theorem C32_nominal : forall {obs} (E : nat -> world -> outcome obs) w0 ops os s',
  let s := srun E w0 ops in
  sound w0 -> pristine w0 -> no_hf ops -> all_ok E w0 ops -> once s ->
  netEval E s (Some (s_sens s)) = (Ok os, s') ->
  forall r o, nth_error os r = Some o ->
    exists w, (forall kin i, w_mult w kin i = w_mult (s_world s) kin i) /\
              (forall th, w_th w th = w_th (s_world s) th) /\ E r w = Ok o.
Proof.
  intros obs E w0 ops os s' s S P N A O H. pose proof (good_run E w0 ops) as G. fold s in G.
  destruct (history E w0 ops P N A O) as [H1 H2]. fold s in H1, H2.
  assert (U : unmodified s) by (intros x k _ _ t Et D; rewrite H1 in Et; apply (P _ _ _ Et D)).
  unfold netEval in H. destruct (eval_from E (Some (s_sens s)) (s_world s) 0 (s_rx s)) as [q [w2 l2]] eqn:Eq. cbn [fst snd] in H. injection H as -> <-.
  destruct (eval_ok E (s_sens s) _ _ _ _ _ _ _ G O U Eq) as (_ & L & F). intros r o Ho.
  assert (exists x, nth_error (s_rx s) r = Some x) as [x Hx].
  { destruct (nth_error (s_rx s) r) as [x|] eqn:Ex; [exists x; reflexivity|]. apply nth_error_None in Ex.
    assert (r < length os)%nat by (apply nth_error_Some; congruence). lia. }
  destruct (F r o x Ho Hx) as (w1 & x1 & wj & W & Ap & Ee). exists w1.
  assert (Gx : good_rx (s_sens s) (s_world s) x) by exact (Forall_nth_error _ _ _ _ G Hx).
  assert (Inx : In x (s_rx s)) by (eapply nth_error_In; exact Hx).
  assert (W1 : weq wj w1).
  { destruct (apply_applied _ _ _ _ _ (good_surf_kinds _ _ _ Gx) Ap) as [Q _]. apply (applied_nominal _ _ _ _ _ _ Q).
    - intros e He Hr. destruct (good_entry _ _ _ _ Gx He) as [[_ V]|[C _]]; [exact V|congruence].
    - intros e He Hr. destruct (good_entry _ _ _ _ Gx He) as [[C _]|(_ & _ & _ & V & _)]; [congruence|]. split; [exact V|].
      rewrite (weq_hf _ _ _ _ W). apply (H2 x e Inx He Hr).
    - eapply wsame_sound; [apply weq_wsame; exact W|]. eapply wsame_sound; [apply wsame_run|exact S]. }
  destruct (weq_trans _ _ _ W W1) as (_ & M & T). split; [exact M|]. split; [exact T|exact Ee].
Qed.
Print Assumptions C32_nominal.

(* Without parameters nothing is touched. *)
Theorem C32_null : forall {obs} (E : nat -> world -> outcome obs) s os s',
  netEval E s None = (Ok os, s') ->
  s' = s /\ length os = length (s_rx s) /\ forall r o, nth_error os r = Some o -> E r (s_world s) = Ok o.
Proof. intros obs E s os s'. apply netEval_none. Qed.
Print Assumptions C32_null.

(* Applying and undoing never fail: with one value per registered parameter, an evaluation
   fails only if the evaluation of some reactor does. *)
Theorem C32_total : forall {obs} (E : nat -> world -> outcome obs) w0 ops ps,
  let s := srun E w0 ops in
  (forall r w, is_ok (E r w)) -> length ps = length (s_sens s) -> is_ok (fst (netEval E s (Some ps))).
Proof.
  intros obs E w0 ops ps s T L. unfold netEval. cbn [fst]. apply (eval_total E (s_sens s)); [exact L|exact T|]. apply (good_run E w0 ops).
Qed.
Print Assumptions C32_total.

(* Each registration has its own place in the parameter vector. *)
Theorem C32_positions : forall {obs} (E : nat -> world -> outcome obs) w0 ops,
  let s := srun E w0 ops in
  NoDup (positions s) /\ forall g, In g (positions s) -> (g < length (s_sens s))%nat.
Proof. intros obs E w0 ops. apply globals_run. Qed.
Print Assumptions C32_positions.

(* A valid registration succeeds, takes the next place, and changes nothing else. *)
Theorem C32_register : forall s r x,
  nth_error (s_rx s) r = Some x -> s_ready s = false ->
  (forall i, x_chem x = true -> (i < w_nr (s_world s) (x_kin x))%nat ->
     addReaction s r i =
       (Ok tt, SNet (s_world s) (lset (s_rx s) r (with_params x (x_params x ++ [SP i (length (s_sens s)) 1 PReaction]) (x_surf x)))
                 (s_sens s ++ [1]) false)) /\
  (forall k h, (k < length (w_th (s_world s) (x_th x)))%nat -> Hf298SS (s_world s) (x_th x) k = Ok h ->
     addEnthalpy s r k =
       (Ok tt, SNet (s_world s) (lset (s_rx s) r (with_params x (x_params x ++ [SP k (length (s_sens s)) h PEnthalpy]) (x_surf x)))
                 (s_sens s ++ [0]) false)) /\
  (forall j kin l i, nth_error (x_surf x) j = Some (kin, l) -> (i < w_nr (s_world s) kin)%nat ->
     addSurfReaction s r j i =
       (Ok tt, SNet (s_world s) (lset (s_rx s) r (with_params x (x_params x)
                  (lset (x_surf x) j (kin, l ++ [SP i (length (s_sens s)) 1 PReaction])))) (s_sens s ++ [1]) false)).
Proof.
  intros s r x Hx Hr. split; [|split].
  - intros i C L. unfold addReaction, register, set_rx. rewrite Hx, C, Hr. apply Nat.leb_gt in L. rewrite L. reflexivity.
  - intros k h L Hh. unfold addEnthalpy, register, set_rx. rewrite Hx, Hr. apply Nat.leb_gt in L. rewrite L. cbn [s_world]. rewrite Hh. reflexivity.
  - intros j kin l i Hj L. unfold addSurfReaction, register, set_rx. rewrite Hx, Hj, Hr. apply Nat.leb_gt in L. rewrite L. reflexivity.
Qed.
Print Assumptions C32_register.

(* Once the integrator is set up, or for a reaction or species that does not exist,
   registration is refused with an error and changes nothing. *)
Theorem C32_refused : forall s r x, nth_error (s_rx s) r = Some x ->
  (forall i, s_ready s = true \/ x_chem x = false \/ (w_nr (s_world s) (x_kin x) <= i)%nat -> addReaction s r i = (Err, s)) /\
  (forall k, s_ready s = true \/ (length (w_th (s_world s) (x_th x)) <= k)%nat -> addEnthalpy s r k = (Err, s)) /\
  (forall j kin l i, nth_error (x_surf x) j = Some (kin, l) -> s_ready s = true \/ (w_nr (s_world s) kin <= i)%nat ->
     addSurfReaction s r j i = (Err, s)).
Proof.
  intros s r x Hx. split; [|split].
  - intros i H. unfold addReaction, register. rewrite Hx. destruct (x_chem x) eqn:C; cbn [negb orb]; [|reflexivity].
    destruct (w_nr (s_world s) (x_kin x) <=? i)%nat eqn:L; [reflexivity|]. destruct (s_ready s); [reflexivity|].
    apply Nat.leb_gt in L. destruct H as [H|[H|H]]; [discriminate|discriminate|lia].
  - intros k H. unfold addEnthalpy, register. rewrite Hx. destruct (_ <=? k)%nat eqn:L; [reflexivity|]. destruct (s_ready s); [reflexivity|].
    apply Nat.leb_gt in L. destruct H as [H|H]; [discriminate|lia].
  - intros j kin l i Hj H. unfold addSurfReaction, register. rewrite Hx, Hj. destruct (_ <=? i)%nat eqn:L; [reflexivity|]. destruct (s_ready s); [reflexivity|].
    apply Nat.leb_gt in L. destruct H as [H|H]; [discriminate|lia].
Qed.
Print Assumptions C32_refused.

(* ---------------------------------------------------------------- *)
(** * A case, and what goes wrong outside the hypotheses *)
Definition poly0 : poly := Poly 3 3 5 8.
Definition w_ex : world := World (fun _ => 4%nat) (fun _ _ => 1) (fun _ => [One poly0; Two true poly0 poly0; Other]).
(* The evaluation reports a multiplier and a heat of formation. *)
Definition E_ex (r : nat) (w : world) : outcome (R * outcome R) := Ok (w_mult w 0 2, Hf298SS w 0 1).
Definition ops_ex : list sop :=
  [SAdd true 0 0 [1%nat]; SAdd true 0 1 []; SMult 0 2 7; SRxn 0 2; SEnth 0 1; SSurf 0 0 3; SRxn 1 2; SEval (Some [2; 10; 5; 3]); SReset 0 0; SMult 0 1 4; SReady true].
Ltac eqs := repeat match goal with |- Ok _ = Ok _ => f_equal | |- _ :: _ = _ :: _ => f_equal | |- (_, _) = (_, _) => f_equal end; try reflexivity; try field.
Ltac ev := lazy -[Rplus Rmult Ropp Rinv Rdiv Rminus IZR].

Example C32_ex_once : once (srun E_ex w_ex ops_ex).
Proof. ev. repeat constructor; ev; intuition congruence. Qed.
Example C32_ex_pristine : pristine w_ex /\ sound w_ex /\ no_hf ops_ex.
Proof.
  split; [|split].
  - intros th k t. cbn. destruct k as [|[|[|k]]]; cbn; intros H; [injection H as <-; reflexivity..|injection H as <-; congruence|destruct k; discriminate].
  - intros th k t. cbn. destruct k as [|[|[|k]]]; cbn; intros H; [injection H as <-; cbn; lra..|injection H as <-; exact I|destruct k; discriminate].
  - intros th k h H. cbn in H. intuition discriminate.
Qed.
Example C32_ex_ok : all_ok E_ex w_ex ops_ex.
Proof.
  intros a ps b H. do 11 (destruct a as [|? a]; [try discriminate; cbn in H; injection H as <- _; ev; eexists; reflexivity|]; cbn in H; injection H as <- H).
  destruct a; discriminate.
Qed.
(* The evaluations see the perturbed values: 7 * 2 and 29 + 10 in the first reactor, 7 * 3 and
   29 in the second. *)
Example C32_ex_seen : fst (netEval E_ex (srun E_ex w_ex ops_ex) (Some [2; 10; 5; 3])) = Ok [(14, Ok 39); (21, Ok 29)].
Proof. ev. eqs. Qed.

(* A reaction registered twice is not restored: the second time the multiplier that is
   remembered is the perturbed one. *)
Theorem C32_twice_refuted : exists ops ps kin i,
  let s := srun E_ex w_ex ops in
  let q := netEval E_ex s (Some ps) in
  length ps = length (s_sens s) /\ unmodified s /\ is_ok (fst q) /\
  w_mult (s_world s) kin i = 1 /\ w_mult (s_world (snd q)) kin i = 2.
Proof.
  exists [SAdd true 0 0 []; SRxn 0 2; SRxn 0 2], [2; 1], 0%nat, 2%nat. cbv zeta.
  split; [reflexivity|]. split; [intros x k H; cbn in H; destruct H as [<-|[]]; cbn; intros []|].
  split; [ev; eexists; reflexivity|]. split; ev; ring.
Qed.
Print Assumptions C32_twice_refuted.
(* Nor is a reaction registered for a surface when two surfaces share the Kinetics object. *)
Theorem C32_shared_refuted : exists ops ps kin i,
  let s := srun E_ex w_ex ops in
  let q := netEval E_ex s (Some ps) in
  length ps = length (s_sens s) /\ unmodified s /\ is_ok (fst q) /\
  Forall (fun x => Forall (fun b => NoDup (map sp_local (snd b))) (x_surf x)) (s_rx s) /\
  w_mult (s_world s) kin i = 1 /\ w_mult (s_world (snd q)) kin i = 2.
Proof.
  exists [SAdd true 0 0 [1; 1]%nat; SSurf 0 0 3; SSurf 0 1 3], [2; 1], 1%nat, 3%nat. cbv zeta.
  split; [reflexivity|]. split; [intros x k H; cbn in H; destruct H as [<-|[]]; cbn; intros []|].
  split; [ev; eexists; reflexivity|]. split; [ev; repeat constructor; intros []|]. split; ev; ring.
Qed.
Print Assumptions C32_shared_refuted.
(* A heat of formation set by the user is lost: resetting goes back to the input data. *)
Theorem C32_modified_refuted : exists ops ps th k,
  let s := srun E_ex w_ex ops in
  let q := netEval E_ex s (Some ps) in
  length ps = length (s_sens s) /\ once s /\ is_ok (fst q) /\
  Hf298SS (s_world s) th k = Ok 37 /\ Hf298SS (s_world (snd q)) th k = Ok 29.
Proof.
  exists [SAdd true 0 0 []; SHf 0 0 37; SEnth 0 0], [0], 0%nat, 0%nat. cbv zeta.
  split; [reflexivity|]. split; [ev; repeat constructor|].
  split; [ev; eexists; reflexivity|]. split; ev; f_equal; field.
Qed.
Print Assumptions C32_modified_refuted.
(* A heat of formation set after registration is not what the parameter is added to: even
   with a zero parameter the reactor is evaluated with the old value. *)
Theorem C32_stale_refuted : exists ops,
  let s := srun E_ex w_ex ops in
  once s /\ Hf298SS (s_world s) 0 1 = Ok 37 /\ fst (netEval E_ex s (Some (s_sens s))) = Ok [(1, Ok 29)].
Proof.
  exists [SAdd true 0 0 []; SEnth 0 1; SHf 0 1 37]. cbv zeta.
  split; [ev; repeat constructor|]. split; [ev; f_equal; field|]. ev. eqs.
Qed.
Print Assumptions C32_stale_refuted.
(* When the evaluation of a reactor throws, the perturbed values stay. *)
Theorem C32_throw_refuted : exists ops ps kin i,
  let E := fun (_ : nat) (_ : world) => @Err unit in
  let s := srun E w_ex ops in
  let q := netEval E s (Some ps) in
  length ps = length (s_sens s) /\ once s /\ unmodified s /\ fst q = Err /\
  w_mult (s_world s) kin i = 1 /\ w_mult (s_world (snd q)) kin i = 2.
Proof.
  exists [SAdd true 0 0 []; SRxn 0 2], [2], 0%nat, 2%nat. cbv zeta.
  split; [reflexivity|]. split; [ev; repeat constructor; intros []|]. split; [intros x k H; cbn in H; destruct H as [<-|[]]; cbn; intros []|].
  split; [ev; reflexivity|]. split; ev; ring.
Qed.
Print Assumptions C32_throw_refuted.
(* The heat of formation of a species registered twice is shifted by the last parameter only. *)
Theorem C32_enthalpy_twice_refuted : exists ops,
  let s := srun E_ex w_ex ops in
  once s /\ unmodified s /\ fst (netEval E_ex s (Some [100; 10])) = Ok [(1, Ok 39)].
Proof.
  exists [SAdd true 0 0 []; SEnth 0 1; SEnth 0 1]. cbv zeta.
  split; [ev; repeat constructor|]. split.
  - intros x k H; cbn in H; destruct H as [<-|[]]. cbn. intros [<-|[<-|[]]] t Et _; cbn in Et; injection Et as <-; reflexivity.
  - ev. eqs.
Qed.
Print Assumptions C32_enthalpy_twice_refuted.
(* A registration that fails because the species' data have no such method still takes a
   place in the parameter vector, which no reactor uses. *)
Theorem C32_failed_refuted : exists ops r k,
  let s := srun E_ex w_ex ops in
  fst (addEnthalpy s r k) = Err /\ length (s_sens (snd (addEnthalpy s r k))) = S (length (s_sens s)) /\
  positions (snd (addEnthalpy s r k)) = positions s.
Proof. exists [SAdd true 0 0 []], 0%nat, 2%nat. split; [|split]; ev; reflexivity. Qed.
Print Assumptions C32_failed_refuted.
