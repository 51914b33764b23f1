(** C40: mixtures of phases keep their books straight, and the equilibrium solver's reactions conserve
    every element. *)
From Coq Require Import Reals String List Bool Arith Lia Lra.
From Verif Require Import Base.Fp Base.Outcome Base.Map2 Base.RSum.
From Verif Require Import Equil.ReactModel Equil.ReactSpec Equil.ReactProofs Equil.StepProofs Equil.SolveSpec.
From Verif Require Import Equil.MixModel Equil.MixSpec Equil.MixProofs Equil.ReadProofs Equil.SetProofs.
From Verif Require Import Equil.SolveModel Equil.SolveProofs.
Import ListNotations.
Local Open Scope R_scope.
Local Open Scope list_scope.

(** ** Mixtures *)

(** Setting the species amounts: they are read back, each phase holds the sum of its species, the
    phases take the composition, the elements are the atoms of the species, and nothing else moves. *)
Theorem C40_set_moles m n : reached m -> accepts m (x_T m) (x_P m) ->
  List.length n = x_nsp m -> (forall v, In v n -> 0 <= v) ->
  exists m', setMoles m n = (Ok tt, m') /\ reached m' /\ getMoles m' = n /\
    x_ph m' = x_ph m /\ x_enames m' = x_enames m /\ x_T m' = x_T m /\ x_P m' = x_P m /\
    (forall i, (i < List.length (x_ph m))%nat -> nth i (x_moles m') 0 = rsum (block (x_ph m) n i)) /\
    (forall i p, nth_error (x_ph m) i = Some p -> (1 < List.length (p_species p))%nat -> 0 < rsum (block (x_ph m) n i) ->
       nth_error (x_st m') i
       = Some (PST (x_T m) (x_P m) (map (fun v => v / rsum (block (x_ph m) n i)) (block (x_ph m) n i)))) /\
    getElemAbundances m' = map (fun e => tally (atoms_of e) (x_ph m) n) (x_enames m).
Proof.
  intros R A L NN. pose proof (reached_wf m R) as W.
  destruct (setMoles_ok m n W A L NN) as (m' & E & W' & I' & G & P1 & P2 & P3 & P4 & P5 & P6 & P7).
  exists m'. split; [exact E|]. split.
  { destruct R as (ops & F & RO). exists (ops ++ [SetMoles n]). split.
    - apply Forall_app. split; [auto|]. constructor; [exact Logic.I|constructor].
    - assert (AP : forall l m0 m1, run m0 l = Some m1 -> run m0 (l ++ [SetMoles n]) = run m1 [SetMoles n]).
      { induction l as [|o l IH]; intros m0 m1 H; cbn [run app] in *; [injection H as <-; reflexivity|].
        destruct (run_op m0 o) as [[| | |] m2]; try discriminate; auto. }
      rewrite (AP _ _ _ RO). cbn [run run_op]. rewrite E. reflexivity. }
  split; [exact G|]. split; [exact P1|]. split; [exact P2|]. split; [exact P4|]. split; [exact P5|]. split; [exact P6|].
  split.
  - intros i p EP Hp Hs. rewrite (P7 i p EP Hp Hs). f_equal. f_equal. unfold normalised. rewrite clip_id; [reflexivity|].
    intros v Hv. apply NN. unfold block in Hv.
    assert (SUB : forall (k j : nat) l (x : Rdefinitions.RbaseSymbolsImpl.R), In x (firstn k (skipn j l)) -> In x l).
    { intros k j l x Hx. rewrite <- (firstn_skipn j l). apply in_or_app. right.
      rewrite <- (firstn_skipn k (skipn j l)). apply in_or_app. now left. }
    eapply SUB; eauto.
  - rewrite abundances_ok by auto. now rewrite G, P1, P2.
Qed.
Print Assumptions C40_set_moles.

(** Whatever was called before, all the ways to read amounts agree: the amounts of single species,
    the amounts of elements (computed in two ways) and the charge are those of getMoles(). *)
Theorem C40_readers_agree m : reached m -> x_init m = true -> x_enames m <> [] ->
  List.length (getMoles m) = x_nsp m /\
  (forall k, (k < x_nsp m)%nat -> speciesMoles m k = Ok (nth k (getMoles m) 0)) /\
  (forall e name, nth_error (x_enames m) e = Some name ->
     elementMoles m e = Ok (tally (atoms_of name) (x_ph m) (getMoles m)) /\
     nth_error (getElemAbundances m) e = Some (tally (atoms_of name) (x_ph m) (getMoles m)) /\
     forall k s, nth_error (all_species (x_ph m)) k = Some s -> nAtoms m k e = Ok (atoms_of name s)) /\
  charge m = Ok (tally charge_of (x_ph m) (getMoles m)).
Proof.
  intros R I NE. pose proof (reached_wf m R) as W. split; [now apply getMoles_length|].
  split; [intros; now apply speciesMoles_ok|]. split; [|now apply charge_ok].
  intros e name EN. split; [now apply elementMoles_ok|]. split.
  - rewrite abundances_ok by auto. rewrite nth_error_map, EN. reflexivity.
  - intros k s ES. now apply nAtoms_ok.
Qed.
Print Assumptions C40_readers_agree.

(** Amounts by name: every species gets the amount given for its name, the others nothing. *)
Lemma flat_species_length ps : List.length (flat_map p_species ps) = before ps (List.length ps).
Proof. rewrite before_all. induction ps as [|p ps IH]; [reflexivity|]. cbn. rewrite app_length, IH. reflexivity. Qed.
Lemma getValue_given c n : getValue c n = given c n.
Proof.
  unfold given. induction c as [|[s v] c IH]; [reflexivity|]. cbn [getValue find fst snd].
  destruct (string_dec s n) as [->|D]; [now rewrite String.eqb_refl|]. apply String.eqb_neq in D. now rewrite D.
Qed.
Theorem C40_by_name m c : reached m -> x_init m = true -> x_enames m <> [] -> accepts m (x_T m) (x_P m) ->
  exists m', setMolesByName m c = (Ok tt, m') /\
    getMoles m' = map (fun s => Rmax (given c s) 0) (flat_map p_species (x_ph m)).
Proof.
  intros R I NE A. pose proof (reached_wf m R) as W. destruct (w_init m W I) as (_ & SP & _). destruct (SP NE) as (SN & _).
  assert (LS : List.length (x_snames m) = x_nsp m) by (rewrite SN, flat_species_length; symmetry; now apply w_nsp).
  unfold setMolesByName. rewrite LS, Nat.ltb_irrefl. rewrite <- LS, firstn_all.
  destruct (setMoles_ok m (map (fun s => Rmax (getValue c s) 0) (x_snames m)) W A) as (m' & E & _ & _ & G & _).
  - now rewrite map_length.
  - intros v Hv. apply in_map_iff in Hv as (s & <- & _). apply Rmax_r.
  - exists m'. split; [exact E|]. rewrite G, SN. apply map_ext. intros s. now rewrite getValue_given.
Qed.
Print Assumptions C40_by_name.

(** Adding to one species: the others keep their amounts, that one does not become negative. *)
Theorem C40_add_species m k dn : reached m -> x_init m = true -> accepts m (x_T m) (x_P m) ->
  (forall v, In v (getMoles m) -> 0 <= v) -> (k < x_nsp m)%nat ->
  exists m', addSpeciesMoles m k dn = (Ok tt, m') /\ List.length (getMoles m') = x_nsp m /\
    forall j, nth j (getMoles m') 0
      = if (j =? k)%nat then Rmax (nth k (getMoles m) 0 + dn) 0 else nth j (getMoles m) 0.
Proof.
  intros R I A NN Hk. pose proof (reached_wf m R) as W. destruct (w_init m W I) as (_ & _ & _ & B).
  assert (LM : List.length (x_mf m) = x_nsp m) by (rewrite (blocks_length _ _ B); symmetry; now apply w_nsp).
  unfold addSpeciesMoles. rewrite LM, Nat.leb_refl, Nat.sub_diag. cbn [andb repeat].
  destruct (Nat.ltb_spec k (x_nsp m)); [|lia]. rewrite app_nil_r.
  pose proof (getMoles_length m W I) as LG.
  destruct (setMoles_ok m (set_nth (getMoles m) k (Rmax (nth k (getMoles m) 0 + dn) 0)) W A) as (m' & E & _ & _ & G & _).
  - now rewrite set_nth_length.
  - intros v Hv. apply (In_nth _ _ 0) in Hv as (i & Hi & <-). rewrite set_nth_length in Hi. rewrite set_nth_nth.
    destruct (_ && _); [apply Rmax_r|]. apply NN, nth_In. auto.
  - exists m'. split; [exact E|]. rewrite G, set_nth_length. split; [auto|]. intros j. rewrite set_nth_nth, LG.
    destruct (Nat.ltb_spec k (x_nsp m)); [|lia]. now rewrite andb_true_r.
Qed.
Print Assumptions C40_add_species.

(** Total properties are those of the mixture's own state, even if a phase object was changed behind
    its back; afterwards the phases are in line again. *)
Theorem C40_total_property f m : reached m -> x_init m = true -> accepts m (x_T m) (x_P m) ->
  exists m', extensive f m = (Ok (sum_n (fun i => match nth_error (x_ph m) i with
      | Some p => if rltb 0 (nth i (x_moles m) 0)
                  then f p (PST (x_T m) (x_P m) (normalised (block (x_ph m) (x_mf m) i))) * nth i (x_moles m) 0 else 0
      | None => 0 end) (List.length (x_ph m))), m') /\ synced m' /\ x_mf m' = x_mf m /\ x_moles m' = x_moles m /\
      x_T m' = x_T m /\ x_P m' = x_P m.
Proof. intros R. apply extensive_ok. now apply reached_wf. Qed.
Print Assumptions C40_total_property.

(** A solver works on the mixture through its public operations and may give up at any point. *)
Definition public (solver : mix -> res) : Prop :=
  forall m, fst (solver m) = UB \/ exists ops, Forall wf_op ops /\ run m ops = Some (snd (solver m)).
Theorem C40_failed_solver_restores vcs gibbs s m m' o : reached m -> x_init m = true ->
  accepts m (x_T m) (x_P m) -> public vcs -> public gibbs ->
  equilibrate vcs gibbs true s m = (o, m') -> o <> Ok tt -> o <> UB -> s <> Other ->
  x_T m' = x_T m /\ x_P m' = x_P m /\ x_moles m' = x_moles m /\ x_mf m' = x_mf m /\
  getMoles m' = getMoles m /\ getElemAbundances m' = getElemAbundances m /\ synced m'.
Proof.
  intros R I A PV PG E NO NU NS. pose proof (reached_wf m R) as W.
  assert (K : forall sol m1, public sol -> wf m1 -> static m m1 -> fst (sol m1) <> UB ->
            wf (snd (sol m1)) /\ static m (snd (sol m1))).
  { intros sol m1 P W1 S1 U. destruct (P m1) as [X|(ops & F & RO)]; [contradiction|]. split.
    - eapply run_wf; eauto.
    - eapply static_trans; [exact S1|]. eapply run_static; eauto. apply S1. }
  assert (Z : forall m1, wf m1 -> static m m1 -> forall m2, restore m m1 = (Ok tt, m2) ->
    x_T m2 = x_T m /\ x_P m2 = x_P m /\ x_moles m2 = x_moles m /\ x_mf m2 = x_mf m /\
    getMoles m2 = getMoles m /\ getElemAbundances m2 = getElemAbundances m /\ synced m2).
  { intros m1 W1 S1 m2 E2. destruct (restore_ok m m1 W I A W1 S1) as (m3 & E3 & W3 & S3 & Q1 & Q2 & Q3 & Q4 & Q5).
    rewrite E3 in E2. injection E2 as <-. destruct S3 as (S31 & S32 & _ & _ & S35 & _).
    unfold getMoles, getElemAbundances. rewrite Q3, Q4, S31, S35. repeat split; auto. }
  assert (G : forall m1, wf m1 -> static m m1 -> forall r, r = match gibbs m1 with
      | (Ok _, m') => (Ok tt, m') | (UB, m') => (UB, m') | (o, m') => rethrow o (restore m m') end ->
      r = (o, m') ->
      x_T m' = x_T m /\ x_P m' = x_P m /\ x_moles m' = x_moles m /\ x_mf m' = x_mf m /\
      getMoles m' = getMoles m /\ getElemAbundances m' = getElemAbundances m /\ synced m').
  { intros m1 W1 S1 r -> ER. pose proof (K gibbs m1 PG W1 S1) as KK. destruct (gibbs m1) as [[[]| | |] m2]; cbn [fst snd] in KK.
    - injection ER as <- <-. congruence.
    - destruct (KK ltac:(discriminate)) as [W2 S2]. destruct (restore_ok m m2 W I A W2 S2) as (m3 & E3 & _).
      unfold rethrow in ER. rewrite E3 in ER. injection ER as <- <-. exact (Z m2 W2 S2 m3 E3).
    - destruct (KK ltac:(discriminate)) as [W2 S2]. destruct (restore_ok m m2 W I A W2 S2) as (m3 & E3 & _).
      unfold rethrow in ER. rewrite E3 in ER. injection ER as <- <-. exact (Z m2 W2 S2 m3 E3).
    - injection ER as <- <-. congruence. }
  pose proof (static_refl m I) as SR. unfold equilibrate in E. cbn [negb] in E. destruct s; [| | |contradiction].
  - pose proof (K vcs m PV W SR) as KK. destruct (vcs m) as [[[]| | |] m1]; cbn [fst snd] in KK.
    + injection E as <- <-. congruence.
    + destruct (KK ltac:(discriminate)) as [W1 S1]. destruct (restore_ok m m1 W I A W1 S1) as (m3 & E3 & W3 & S3 & _).
      rewrite E3 in E. exact (G m3 W3 S3 _ eq_refl E).
    + destruct (KK ltac:(discriminate)) as [W1 S1]. destruct (restore_ok m m1 W I A W1 S1) as (m3 & E3 & W3 & S3 & _).
      rewrite E3 in E. exact (G m3 W3 S3 _ eq_refl E).
    + injection E as <- <-. congruence.
  - pose proof (K vcs m PV W SR) as KK. destruct (vcs m) as [[[]| | |] m1]; cbn [fst snd] in KK.
    + injection E as <- <-. congruence.
    + destruct (KK ltac:(discriminate)) as [W1 S1]. destruct (restore_ok m m1 W I A W1 S1) as (m3 & E3 & W3 & S3 & _).
      unfold rethrow in E. rewrite E3 in E. injection E as <- <-. exact (Z m1 W1 S1 m3 E3).
    + destruct (KK ltac:(discriminate)) as [W1 S1]. destruct (restore_ok m m1 W I A W1 S1) as (m3 & E3 & W3 & S3 & _).
      unfold rethrow in E. rewrite E3 in E. injection E as <- <-. exact (Z m1 W1 S1 m3 E3).
    + injection E as <- <-. congruence.
  - exact (G m W SR _ eq_refl E).
Qed.
Print Assumptions C40_failed_solver_restores.

(** ** Reactions of the equilibrium solver *)

(** The reaction vectors: each forms one species from the components and conserves every element;
    moving along them by any amounts changes no element total. *)
Theorem C40_reaction_vectors nel nsp atoms pref moles N o r : ordering nsp pref -> separated nel nsp atoms ->
  getComponents nel nsp atoms pref moles = (N, o, r) ->
  ordering nsp o /\ conserving nel nsp atoms N o /\ forming nel nsp N /\
  forall (xi n : nat -> R) m, (m < nel)%nat ->
    total nsp atoms (fun k => n k + unsort nsp o (extents nel nsp N xi) k) m = total nsp atoms n m.
Proof.
  intros PO SEP E. pose proof (components_ok nel nsp atoms pref moles PO SEP) as C. rewrite E in C.
  destruct C as (C1 & C2 & C3). split; [exact C1|]. split.
  { intros m j Hm Hj. apply C2; auto. unfold nFree. destruct (Nat.ltb_spec nel nsp); lia. }
  split; [exact C3|]. intros xi n m Hm. rewrite !(total_order nsp atoms o) by auto.
  transitivity (sum_n (fun k => atoms (o k) m * n (o k)) nsp + sum_n (fun k => atoms (o k) m * extents nel nsp N xi k) nsp).
  - rewrite <- sum_n_plus. apply sum_n_ext. intros k Hk. rewrite unsort_at by auto. ring.
  - rewrite (total_extents nel nsp atoms) by auto. ring.
Qed.
Print Assumptions C40_reaction_vectors.

(** Any sequence of the solver's actions that begins by finding components runs without the
    "negative omega" error and leaves every element total as it was, as long as no minor species are
    updated (those are multiplied by a factor, see C40_minor_species_refuted). *)
Theorem C40_solver_conserves nel nsp atoms ds pref l s : separated nel nsp atoms ->
  good nel nsp atoms ds s (Components pref :: l) ->
  exists s', acts nel nsp atoms ds s (Components pref :: l) = Some s' /\
    forall m, (m < nel)%nat -> total nsp atoms (e_moles s') m = total nsp atoms (e_moles s) m.
Proof. intros SEP G. apply acts_total; eauto. Qed.
Print Assumptions C40_solver_conserves.

(** With minor species, the change in one composition step is exactly what their factors account
    for. *)
Theorem C40_minor_species_drift nel nsp atoms N o ds dG other g0 g1 moles m : ordering nsp o ->
  conserving nel nsp atoms N o -> forming nel nsp N -> (m < nel)%nat ->
  exists n' om w, stepComposition nel nsp N o ds dG other g0 g1 moles = Some n' /\ 0 <= om <= 1 /\
  total nsp atoms n' m - total nsp atoms moles m
  = sum_n (fun ik => let k := o ik in
      if (nel <=? ik)%nat && ds k && negb (rltb (/ 10 ^ 12) (moles k))
      then atoms k m * (Rabs (moles k) * Rmin 10 (exp (- dG (ik - nel)%nat)) - moles k - om * w k) else 0) nsp.
Proof.
  intros O C F Hm.
  assert (B : balanced nel nsp atoms N o).
  { intros i j Hi Hj. apply C; auto. unfold nFree in Hj. destruct (Nat.ltb_spec nel nsp); lia. }
  destruct (compose_spec nel nsp N o ds dG other g0 g1 moles F O) as (om & HO & E & _).
  do 2 eexists. exists (unsort nsp o (extents nel nsp N (reaction_steps nel N o moles ds dG other))).
  split; [exact E|]. split; [exact HO|].
  pose proof (step_total nel nsp atoms N o ds dG om (reaction_steps nel N o moles ds dG other) moles m O B Hm) as S.
  cbv zeta in S. rewrite S. clear S. apply sum_n_ext. intros ik Hik. cbv zeta. unfold is_major.
  destruct (Nat.ltb_spec ik nel) as [L|L], (Nat.leb_spec nel ik) as [L'|L']; try lia; cbn [orb andb]; [auto|].
  destruct (ds (o ik)) eqn:D; cbn [andb]; [|auto]. rewrite orb_false_r. fold MAJOR.
  destruct (rltb MAJOR (moles (o ik))) eqn:J; cbn [negb]; [auto|].
  rewrite step_at by auto. unfold new_moles. rewrite majors_at by auto. unfold is_major. rewrite D, J.
  destruct (Nat.ltb_spec ik nel); [lia|]. reflexivity.
Qed.
Print Assumptions C40_minor_species_drift.

(** Mole numbers: running the reactions to estimate a starting point keeps them non-negative, and a
    composition step makes none negative that was not. *)
Theorem C40_solver_nonnegative nel nsp N o ds moles : ordering nsp o -> forming nel nsp N ->
  (forall k, (k < nsp)%nat -> 0 <= moles k) ->
  (forall fwd j k, (k < nsp)%nat -> 0 <= run_reaction nsp N o fwd moles j k) /\
  (forall dG other g0 g1, exists n', stepComposition nel nsp N o ds dG other g0 g1 moles = Some n' /\
     forall k, (k < nsp)%nat -> 0 <= n' k).
Proof.
  intros O F NN. split.
  - intros fwd j k Hk. now apply run_reaction_nonneg.
  - intros dG other g0 g1. destruct (compose_spec nel nsp N o ds dG other g0 g1 moles F O) as (om & _ & E & NG).
    eexists. split; [exact E|]. intros k Hk. specialize (NG k Hk). specialize (NN k Hk). unfold Rmin in NG.
    destruct (Rle_dec 0 (moles k)); lra.
Qed.
Print Assumptions C40_solver_nonnegative.

(** The test for convergence: below a tolerance exactly when every formation reaction is, apart from
    those of absent pure phases that should not form. *)
Theorem C40_convergence nel nsp o ds dG moles tol : 0 < tol ->
  (error nel nsp o ds dG moles < tol <->
   forall j, (j < nsp - nel)%nat ->
     (ds (o (j + nel)%nat) = false /\ moles (o (j + nel)%nat) <= 0 /\ 0 <= dG j) \/ Rabs (dG j) < tol).
Proof.
  intros HT. unfold error.
  assert (F : forall l e, fold_left (fun e j => Rmax e (error_of nel o ds dG moles j)) l e < tol <->
     e < tol /\ forall j, In j l -> error_of nel o ds dG moles j < tol).
  { induction l as [|a l IH]; intros e; cbn [fold_left].
    - split; [intros H; split; [auto|intros j []]|tauto].
    - rewrite IH. split.
      + intros [H1 H2]. pose proof (Rmax_l e (error_of nel o ds dG moles a)). pose proof (Rmax_r e (error_of nel o ds dG moles a)).
        split; [lra|]. intros j [<-|Hj]; [lra|auto].
      + intros [H1 H2]. split; [apply Rmax_lub_lt; [auto|apply H2; now left]|]. intros; apply H2; now right. }
  assert (NF : nFree nel nsp = (nsp - nel)%nat) by (unfold nFree; destruct (Nat.ltb_spec nel nsp); lia).
  assert (EJ : forall j, error_of nel o ds dG moles j < tol <->
    (ds (o (j + nel)%nat) = false /\ moles (o (j + nel)%nat) <= 0 /\ 0 <= dG j) \/ Rabs (dG j) < tol).
  { intros j. unfold error_of. destruct (ds (o (j + nel)%nat)); cbn [negb andb].
    - split; [now right|]. intros [[? _]|?]; [discriminate|auto].
    - destruct (rltb 0 (moles (o (j + nel)%nat))) eqn:E1; cbn [negb andb].
      + apply rltb_true in E1. split; [now right|]. intros [(_ & ? & _)|?]; [lra|auto].
      + apply rltb_false in E1. destruct (rltb (dG j) 0) eqn:E2; cbn [negb].
        * apply rltb_true in E2. split; [now right|]. intros [(_ & _ & ?)|?]; [lra|auto].
        * apply rltb_false in E2. split; [intros _; left; auto|auto]. }
  rewrite F, NF. split.
  - intros [_ H] j Hj. apply EJ, H, in_seq. lia.
  - intros H. split; [auto|]. intros j Hj. apply in_seq in Hj. apply EJ, H. lia.
Qed.
Print Assumptions C40_convergence.

(** ** From the mixture to the solver and back *)

(** A calculation at fixed temperature and pressure that reports success: the amounts of all the
    elements of the mixture — also of those, and of the species, that the solver leaves out — are
    what they were. *)
Theorem C40_equilibrium_conserves m m' pref l :
  reached m -> x_init m = true -> x_enames m <> [] -> accepts m (x_T m) (x_P m) ->
  (forall v, In v (getMoles m) -> 0 <= v) ->
  (forall e s, In e (x_enames m) -> electron e = false -> In s (all_species (x_ph m)) -> 0 <= atoms_of e s) ->
  let nel := List.length (elements m) in let nsp := List.length (species m) in
  let s0 := EST (initial_moles m) (fun _ _ => 0) (fun k => k) in
  separated nel nsp (solver_atoms m) ->
  good nel nsp (solver_atoms m) (dsoln m) s0 (Components pref :: l) ->
  (forall s, acts nel nsp (solver_atoms m) (dsoln m) s0 (Components pref :: l) = Some s ->
     forall k, (k < nsp)%nat -> 0 <= e_moles s k) ->
  gibbs_TP m (Components pref :: l) = (Ok tt, m') ->
  getElemAbundances m' = getElemAbundances m /\ x_T m' = x_T m /\ x_P m' = x_P m /\ x_ph m' = x_ph m.
Proof.
  intros R I NE A NN AN nel nsp s0 SEP G FIN E. pose proof (reached_wf m R) as W. unfold gibbs_TP in E.
  destruct (existsb (refused m) (seq 0 (x_nsp m))) eqn:RF; [discriminate|].
  fold nel nsp s0 in E.
  destruct (solve_acts nel nsp (solver_atoms m) (dsoln m) (species m) s0 m (Components pref :: l)) as [[s| | |] m1] eqn:SA; try discriminate.
  destruct (solve_acts_ok _ _ _ _ _ _ _ _ _ _ W I SA) as (AC & W1 & S1 & T1 & P1).
  destruct (C40_solver_conserves nel nsp (solver_atoms m) (dsoln m) pref l s0 SEP G) as (s' & AC' & TOT).
  rewrite AC in AC'. injection AC' as <-. specialize (FIN s AC).
  destruct S1 as (S11 & S12 & S13 & S14 & S15 & _).
  set (v := spread (x_nsp m) (species m) (finish (e_moles s))) in *.
  destruct (spread_ok (x_nsp m) (species m) (finish (e_moles s)) (species_nodup m)
              ltac:(intros k Hk; now apply species_in in Hk)) as (SL & SI & SO).
  destruct (setMoles_ok m1 v W1) as (m2 & E2 & W2 & I2 & GM & P2 & P3 & P4 & P5 & P6 & _).
  - unfold accepts. rewrite T1, P1, S11. exact A.
  - unfold v. rewrite SL. auto.
  - intros x Hx. apply (In_nth _ _ 0) in Hx as (k & Hk & <-). unfold v.
    destruct (in_dec Nat.eq_dec k (species m)) as [J|J]; [|rewrite SO by auto; lra].
    apply (In_nth _ _ 0%nat) in J as (i & Hi & <-). rewrite SI by auto. unfold finish.
    destruct (rltb 0 (e_moles s i)) eqn:F; [apply rltb_true in F; lra|lra].
  - rewrite E2 in E. injection E as <-. split; [|split; [congruence|split; [congruence|congruence]]].
    rewrite !abundances_ok by auto. rewrite P2, P3, GM, S11, S12. apply map_ext_in. intros name Hname.
    unfold v. apply (totals_match m W I NE NN AN RF); auto. intros i Hi. fold nsp.
    etransitivity; [|exact (TOT i Hi)]. unfold total. apply sum_n_ext. intros k Hk. rewrite finish_id by auto. reflexivity.
Qed.
Print Assumptions C40_equilibrium_conserves.
