(** C40: cases that meet the hypotheses of the theorems in Equil/Props.v, and claims that do not
    hold. *)
From Coq Require Import Reals String List Bool Arith Lia Lra.
From Verif Require Import Base.Fp Base.Outcome Base.Map2 Base.RSum.
From Verif Require Import Equil.ReactModel Equil.ReactSpec Equil.ReactProofs Equil.StepProofs Equil.SolveSpec.
From Verif Require Import Equil.MixModel Equil.MixSpec Equil.MixProofs Equil.ReadProofs Equil.SetProofs.
From Verif Require Import Equil.SolveModel Equil.SolveProofs Equil.Props.
Import ListNotations.
Local Open Scope string_scope.
Local Open Scope R_scope.
Local Open Scope list_scope.

Ltac decide_tests := repeat match goal with
  | |- context [rltb ?a ?b] => first [ replace (rltb a b) with true by (symmetry; apply rltb_true; lra)
                                     | replace (rltb a b) with false by (symmetry; apply rltb_false; lra) ]
  | |- context [reqb ?a ?b] => first [ replace (reqb a b) with true by (symmetry; apply reqb_true; lra)
                                     | replace (reqb a b) with false by (symmetry; apply reqb_false; lra) ]
  end.
Lemma setTPX_simple p q T P x : 0 < T -> p_pok p P = true -> (forall v, In v x -> 0 <= v) -> rsum x = 1 ->
  setTPX p q T P x = (Ok tt, PST T P x).
Proof.
  intros HT HP NN S. unfold setTPX, normalised. rewrite clip_id by auto. rewrite S.
  destruct (reqb 1 0) eqn:E; [apply reqb_true in E; lra|].
  assert (H : rltb 0 T = true) by (now apply rltb_true). rewrite H, HP. cbn [andb]. do 2 f_equal.
  transitivity (map (fun v : R => v) x); [|apply map_id]. apply map_ext. intros. field.
Qed.
Ltac inlist := let v := fresh in intros v; cbn [In]; intuition lra.

(** A gas of two species and a solid, all made of one element. *)
Definition gas2 : ph := PH "gas" ["A"; "B"] ["X"] (fun _ _ => 1) (fun _ => 0) 200 3000 true (fun _ => true).
Definition solid : ph := PH "solid" ["S"] ["X"] (fun _ _ => 2) (fun _ => 0) 200 3000 true (fun _ => true).
Definition ops2 : list op :=
  [AddPhase gas2 (PST 1000 100000 [1/2; 1/2]) 1; AddPhase solid (PST 1000 100000 [1]) (1/2); Init].
Definition m2 : mix :=
  MIX [gas2; solid] [PST 1000 100000 [1/2; 1/2]; PST 1000 100000 [1]] [1; 1/2] [true; true] ["X"] 3
    1000 100000 (Rmax 200 1) (Rmin 3000 100000) true [[1; 1; 2]] ["A"; "B"; "S"] [0%nat; 2%nat]
    [0%nat; 0%nat; 1%nat] [1/2; 1/2; 1].
(** The mixture before init(). *)
Definition before_init (ps : list ph) (qs : list pst) (n : list R) (k : nat) (lo hi : R) : mix :=
  MIX ps qs n (map (fun _ => true) ps) ["X"] k 1000 100000 lo hi false [] [] [] [] [].
Lemma add_gas2 : addPhase empty gas2 (PST 1000 100000 [1/2; 1/2]) 1
  = (Ok tt, before_init [gas2] [PST 1000 100000 [1/2; 1/2]] [1] 2 (Rmax 200 1) (Rmin 3000 100000)).
Proof.
  unfold addPhase. cbn [empty x_init p_compat gas2 negb x_T qT x_P qP]. decide_tests. reflexivity.
Qed.
Lemma add_solid ps q n k lo hi :
  addPhase (before_init ps q n k lo hi) solid (PST 1000 100000 [1]) (1/2)
  = (Ok tt, before_init (ps ++ [solid]) (q ++ [PST 1000 100000 [1]]) (n ++ [1/2]) (k + 1) lo hi).
Proof.
  unfold addPhase. cbn [before_init x_init p_compat solid negb x_T qT x_P qP]. decide_tests. cbn [andb fst snd].
  unfold before_init. rewrite map_app. reflexivity.
Qed.
Lemma tok_ok : negb (rltb 1000 200 || rltb 3000 1000) = true.
Proof. decide_tests. reflexivity. Qed.
Lemma init2 : init (before_init [gas2; solid] [PST 1000 100000 [1/2; 1/2]; PST 1000 100000 [1]] [1; 1/2] 3 (Rmax 200 1) (Rmin 3000 100000)) = (Ok tt, m2).
Proof.
  unfold init. cbn [x_init before_init]. unfold updatePhases, upload.
  cbn [with_mf x_T x_P x_ph x_st x_tok x_mf concat map qX before_init app update_loop List.length nsp p_species gas2 solid Nat.ltb Nat.leb firstn skipn].
  rewrite setTPX_simple by (try lra; try reflexivity; try inlist; cbn; lra).
  rewrite setTPX_simple by (try lra; try reflexivity; try inlist; cbn; lra).
  cbn [p_minT p_maxT gas2 solid fst snd]. rewrite !tok_ok. reflexivity.
Qed.
Lemma run2 : run empty ops2 = Some m2.
Proof.
  unfold ops2. cbn [run run_op]. rewrite add_gas2, add_solid. cbn [app plus]. rewrite init2. reflexivity.
Qed.
Lemma usable_gas2 : usable gas2 (PST 1000 100000 [1/2; 1/2]).
Proof. split; [cbn; lia|]. split; [reflexivity|]. split; [cbn; inlist|cbn; lra]. Qed.
Lemma usable_solid : usable solid (PST 1000 100000 [1]).
Proof. split; [cbn; lia|]. split; [reflexivity|]. split; [cbn; inlist|cbn; lra]. Qed.
Lemma ops2_wf : Forall wf_op ops2.
Proof.
  constructor; [exact usable_gas2|]. constructor; [exact usable_solid|]. constructor; [exact Logic.I|constructor].
Qed.
Lemma reached2 : reached m2.
Proof. exists ops2. split; [exact ops2_wf|exact run2]. Qed.
Lemma accepts2 T P : 0 < T -> accepts m2 T P.
Proof. intros H. split; [exact H|]. repeat constructor. Qed.

Example C40_set_moles_case : exists m', setMoles m2 [3; 1; 2] = (Ok tt, m') /\ getMoles m' = [3; 1; 2] /\
  getElemAbundances m' = [8] /\ nth 0 (x_moles m') 0 = 4.
Proof.
  destruct (C40_set_moles m2 [3; 1; 2] reached2 (accepts2 1000 100000 ltac:(lra)) eq_refl ltac:(inlist))
    as (m' & E & _ & G & _ & _ & _ & _ & P & _ & AB).
  exists m'. split; [exact E|]. split; [exact G|]. split.
  - rewrite AB. cbn. f_equal. unfold tally. cbn. lra.
  - rewrite P by (cbn; lia). cbn. lra.
Qed.
Example C40_readers_agree_case : elementMoles m2 0 = Ok 2 /\ speciesMoles m2 1 = Ok (1/2).
Proof.
  destruct (C40_readers_agree m2 reached2 eq_refl ltac:(discriminate)) as (_ & S & E & _). split.
  - destruct (E 0%nat "X" eq_refl) as (E1 & _). rewrite E1. f_equal. unfold tally, getMoles. cbn. lra.
  - rewrite S by (cbn; lia). f_equal. cbn. lra.
Qed.
Example C40_by_name_case : exists m', setMolesByName m2 [("S", 4); ("A", 1); ("B", -2)] = (Ok tt, m') /\ getMoles m' = [1; 0; 4].
Proof.
  destruct (C40_by_name m2 [("S", 4); ("A", 1); ("B", -2)] reached2 eq_refl ltac:(discriminate) (accepts2 1000 100000 ltac:(lra))) as (m' & E & G).
  exists m'. split; [exact E|]. rewrite G. cbn. repeat f_equal; unfold Rmax; destruct (Rle_dec _ _); lra.
Qed.
Example C40_add_species_case : exists m', addSpeciesMoles m2 2 1 = (Ok tt, m') /\ nth 2 (getMoles m') 0 = 3/2.
Proof.
  destruct (C40_add_species m2 2 1 reached2 eq_refl (accepts2 1000 100000 ltac:(lra)) ltac:(cbn; inlist) ltac:(cbn; lia)) as (m' & E & _ & G).
  exists m'. split; [exact E|]. rewrite G. cbn. rewrite Rmax_left; lra.
Qed.
(** The gas is changed by its owner; the enthalpy of the mixture (here: the temperature per mole) does
    not see it. *)
Example C40_total_property_case : exists m1, run m2 [External 0 2000 100000 [1; 0]] = Some m1 /\
  fst (extensive (fun _ q => qT q) m1) = Ok 1500.
Proof.
  set (m1 := with_st m2 [PST 2000 100000 [1; 0]; PST 1000 100000 [1]]).
  assert (E : run m2 [External 0 2000 100000 [1; 0]] = Some m1).
  { unfold run, run_op, external. cbn -[setTPX]. rewrite setTPX_simple by (try lra; try reflexivity; try inlist; cbn; lra). reflexivity. }
  exists m1. split; [exact E|].
  assert (R : reached m1).
  { destruct reached2 as (o & F & RO). exists (ops2 ++ [External 0 2000 100000 [1; 0]]). split.
    - apply Forall_app. split; [exact ops2_wf|]. constructor; [exact Logic.I|constructor].
    - assert (AP : forall l m0 m1 x, run m0 l = Some m1 -> run m0 (l ++ x) = run m1 x).
      { induction l as [|op l IH]; intros m0 m1' x H; cbn [run app] in *; [now injection H as <-|].
        destruct (run_op m0 op) as [[| | |] mm]; try discriminate; auto. }
      rewrite (AP _ _ _ _ run2). exact E. }
  destruct (C40_total_property (fun _ q => qT q) m1 R eq_refl (accepts2 1000 100000 ltac:(lra))) as (m' & X & _).
  rewrite X. cbn [fst]. f_equal. unfold sum_n, sum_of. cbn -[rltb]. decide_tests. lra.
Qed.
(** A solver that changes temperature and amounts and then gives up. *)
Definition quitter (m : mix) : res :=
  match setState_TP m 500 200000 with
  | (Ok _, m') => match setMoles m' [0; 0; 1] with (UB, m'') => (UB, m'') | (_, m'') => (Err, m'') end
  | (UB, m') => (UB, m')
  | (_, m') => (Err, m')
  end.
Example C40_failed_solver_restores_case : public quitter /\ exists m', equilibrate quitter quitter true Auto m2 = (Err, m') /\ x_T m' = 1000.
Proof.
  assert (P : public quitter).
  { intros m. unfold quitter. destruct (setState_TP m 500 200000) as [[| | |] m'] eqn:E.
    - destruct (setMoles m' [0; 0; 1]) as [[| | |] m''] eqn:E2; [right|right|right|now left];
        (exists [SetTP 500 200000; SetMoles [0; 0; 1]]; split; [repeat (constructor; [exact Logic.I|]); constructor|]; cbn [run run_op]; rewrite E; cbn [run run_op]; rewrite E2; reflexivity).
    - right. exists [SetTP 500 200000]. split; [repeat (constructor; [exact Logic.I|]); constructor|]. cbn [run run_op]. rewrite E. reflexivity.
    - right. exists [SetTP 500 200000]. split; [repeat (constructor; [exact Logic.I|]); constructor|]. cbn [run run_op]. rewrite E. reflexivity.
    - now left. }
  split; [exact P|].
  assert (W := reached_wf m2 reached2).
  assert (Q : forall m, wf m -> static m2 m -> exists m', quitter m = (Err, m') /\ wf m' /\ static m2 m').
  { intros m Wm Sm. pose proof (run_op_static m (SetTP 500 200000) ltac:(apply Sm)) as S1. cbn [run_op] in S1.
    pose proof Sm as (S11 & _ & S13 & S14 & _).
    destruct (w_init m Wm S14) as (_ & _ & _ & bl & E & F).
    assert (E1 : exists m1, setState_TP m 500 200000 = (Ok tt, m1) /\ wf m1 /\ x_T m1 = 500 /\ x_P m1 = 200000).
    { unfold setState_TP. rewrite (init_id m S14). cbn [andthen fst snd].
      pose proof (updatePhases_wf (with_TP m 500 200000) (wf_with_TP m _ _ Wm) S14) as (_ & WU & _).
      assert (AC : accepts (with_TP m 500 200000) 500 200000) by (split; [lra|]; cbn; rewrite S11; repeat constructor).
      rewrite (updatePhases_ok (with_TP m 500 200000) bl (wf_with_TP m _ _ Wm) S14 E F AC) in *.
      eexists. split; [reflexivity|]. split; [exact WU|auto]. }
    destruct E1 as (m1 & E1 & W1 & T1 & P1). rewrite E1 in S1. cbn [snd] in S1.
    assert (S12 := static_trans _ _ _ Sm S1). unfold quitter. rewrite E1.
    destruct (setMoles_ok m1 [0; 0; 1] W1) as (m3 & E3 & W3 & _).
    - rewrite T1, P1. split; [lra|]. destruct S12 as (-> & _). repeat constructor.
    - destruct S12 as (_ & _ & -> & _). reflexivity.
    - inlist.
    - rewrite E3. exists m3. split; [auto|]. split; [auto|].
      eapply static_trans; [exact S12|]. pose proof (setMoles_static m1 [0; 0; 1] ltac:(apply S12)) as S3. now rewrite E3 in S3. }
  destruct (Q m2 W (static_refl m2 eq_refl)) as (ma & EA & WA & SA).
  destruct (restore_ok m2 ma W eq_refl (accepts2 1000 100000 ltac:(lra)) WA SA) as (mb & EB & WB & SB & _).
  destruct (Q mb WB SB) as (mc & EC & WC & SC).
  destruct (restore_ok m2 mc W eq_refl (accepts2 1000 100000 ltac:(lra)) WC SC) as (md & ED & WD & SD & _).
  assert (EQ : equilibrate quitter quitter true Auto m2 = (Err, md)).
  { unfold equilibrate. cbn [negb]. rewrite EA, EB. cbn [andthen fst snd]. rewrite EC, ED. reflexivity. }
  exists md. split; [exact EQ|].
  apply (C40_failed_solver_restores quitter quitter Auto m2 md Err reached2 eq_refl (accepts2 1000 100000 ltac:(lra)) P P EQ); discriminate.
Qed.

(** ** Claims about mixtures that are false *)

(** "What setMoles is given, getMoles returns": not with a negative amount in a solution phase. *)
Theorem C40_negative_moles_refuted : exists m n, reached m /\ x_init m = true /\ accepts m (x_T m) (x_P m) /\
  List.length n = x_nsp m /\ fst (setMoles m n) = Ok tt /\ getMoles (snd (setMoles m n)) <> n.
Proof.
  exists m2, [2; -1; 0]. split; [exact reached2|]. split; [reflexivity|]. split; [apply accepts2; cbn; lra|].
  split; [reflexivity|]. unfold setMoles. rewrite (init_id m2 eq_refl). unfold andthen. cbn [fst snd].
  unfold moles_loop. cbn -[rltb setTPX]. decide_tests.
  rewrite setTPX_accept; [|split; [reflexivity|cbn; rewrite !Rmax_left by lra || idtac; unfold Rmax; repeat destruct (Rle_dec _ _); lra]|lra|reflexivity].
  cbn -[rltb setTPX Rmax]. split; [reflexivity|]. intros H. injection H as H1 H2 H3. revert H2. unfold Rmax; repeat destruct (Rle_dec _ _); lra.
Qed.
Print Assumptions C40_negative_moles_refuted.

(** "setMolesByName sets the amounts": before init() it reads names that are not there. *)
Theorem C40_by_name_before_init_refuted : exists ops m c, Forall wf_op ops /\ run empty ops = Some m /\
  fst (setMolesByName m c) = UB.
Proof.
  exists [AddPhase gas2 (PST 1000 100000 [1/2; 1/2]) 1].
  unfold run, run_op, addPhase, empty. cbn [x_init p_compat gas2 negb x_T qT x_P qP]. decide_tests. cbn [andb].
  do 2 eexists. split; [constructor; [exact usable_gas2|constructor]|]. split; [reflexivity|].
  exact eq_refl.
  Unshelve. exact [("A", 1)].
Qed.
Print Assumptions C40_by_name_before_init_refuted.

(** "The species amounts of a phase add up to the amount of the phase": not after
    setPhaseMoleFractions with values that do not sum to one, which are kept as given. *)
Theorem C40_unnormalised_fractions_refuted : exists m, reached m /\ x_init m = true /\
  rsum (getMoles m) <> rsum (x_moles m).
Proof.
  assert (E : run m2 [SetPhaseMoleFractions 0 [1; 1]] = Some (with_mf (with_st m2 [PST 1000 100000 (normalised [1; 1]); PST 1000 100000 [1]]) [1; 1; 1])).
  { unfold run, run_op, setPhaseMoleFractions. rewrite (init_id m2 eq_refl). unfold andthen. cbn -[setTPX normalised].
    rewrite setTPX_accept; [|split; [reflexivity|rewrite clip_id by inlist; cbn; lra]|lra|reflexivity]. cbn -[normalised]. reflexivity. }
  eexists. split.
  - exists (ops2 ++ [SetPhaseMoleFractions 0 [1; 1]]). split.
    + apply Forall_app. split; [exact ops2_wf|]. constructor; [exact Logic.I|constructor].
    + assert (AP : forall l m0 m1 x, run m0 l = Some m1 -> run m0 (l ++ x) = run m1 x).
      { induction l as [|op l IH]; intros m0 m1' x H; cbn [run app] in *; [now injection H as <-|].
        destruct (run_op m0 op) as [[| | |] mm]; try discriminate; auto. }
      rewrite (AP _ _ _ _ run2). exact E.
  - split; [reflexivity|]. cbn. lra.
Qed.
Print Assumptions C40_unnormalised_fractions_refuted.

(** "volume() is the volume at the mixture's temperature": setState_TPMoles does not pass the
    temperature on to pure phases, and volume() reads the phases as they are. *)
Theorem C40_stale_volume_refuted : exists m T P n f, reached m /\ accepts m T P /\ List.length n = x_nsp m /\
  (forall v, In v n -> 0 <= v) /\ exists m', setState_TPMoles m T P n = (Ok tt, m') /\ x_T m' = T /\
  fst (extensive f m') <> Ok (volume f m').
Proof.
  exists m2, 500, 100000, [0; 0; 1], (fun _ q => qT q). split; [exact reached2|].
  split; [apply accepts2; lra|]. split; [reflexivity|]. split; [inlist|].
  exists (with_mf (with_moles (with_TP m2 500 100000) [0; 1]) [1/2; 1/2; 1]). split; [|split; [reflexivity|]].
  - unfold setState_TPMoles, setMoles. rewrite (init_id (with_TP m2 500 100000) eq_refl). unfold andthen. cbn -[rltb setTPX].
    decide_tests. cbn. unfold with_mf, with_moles, with_TP, with_st; cbn. repeat f_equal; lra.
  - unfold extensive, updatePhases. cbn -[rltb setTPX].
    rewrite !setTPX_simple by (try lra; try reflexivity; try inlist; cbn; lra). cbn -[rltb setTPX]. decide_tests.
    intros H. injection H as H. unfold volume in H. cbn in H. lra.
Qed.
Print Assumptions C40_stale_volume_refuted.

(** "A failed equilibrium calculation leaves the mixture as it was": if the mixture was not
    initialised before, the empty mole fractions are restored and then read past their end. *)
Theorem C40_failed_before_init_refuted : exists ops m, Forall wf_op ops /\ run empty ops = Some m /\
  let gives_up := fun m => match init m with (UB, m') => (UB, m') | (_, m') => (Err, m') end in
  public gives_up /\ fst (equilibrate gives_up gives_up true Gibbs m) = UB.
Proof.
  exists [AddPhase gas2 (PST 1000 100000 [1/2; 1/2]) 1].
  unfold run, run_op, addPhase, empty. cbn [x_init p_compat gas2 negb x_T qT x_P qP]. decide_tests. cbn [andb].
  eexists. split; [constructor; [exact usable_gas2|constructor]|]. split; [reflexivity|]. split.
  - intros m. destruct (init m) as [[| | |] m'] eqn:E; [right|right|right|now left];
      (exists [Init]; split; [repeat (constructor; [exact Logic.I|]); constructor|]; cbn [run run_op]; rewrite E; reflexivity).
  - unfold equilibrate. cbn [negb]. unfold init, upload, updatePhases. cbn -[rltb setTPX Rmax Rmin IZR Rdiv].
    rewrite !setTPX_simple by (try lra; try reflexivity; try inlist; cbn; lra). cbn -[rltb setTPX Rmax Rmin IZR Rdiv]. reflexivity.
Qed.
Print Assumptions C40_failed_before_init_refuted.

(** "With solver gibbs, equilibrate either finds the state or throws": at constant temperature and
    volume, running out of iterations counts as success.  The mixture here starts with 1 kmol of gas
    and half a kmol of solid, which decomposes; after one iteration the volume is off by 60 %. *)
Definition gas1 : ph := PH "gas" ["A"] ["X"] (fun _ _ => 1) (fun _ => 0) 200 3000 true (fun _ => true).
Definition ops1 : list op :=
  [AddPhase gas1 (PST 1000 100000 [1]) 1; AddPhase solid (PST 1000 100000 [1]) (1/2); Init].
Definition m1 : mix :=
  MIX [gas1; solid] [PST 1000 100000 [1]; PST 1000 100000 [1]] [1; 1/2] [true; true] ["X"] 2
    1000 100000 1 100000 true [[1; 2]] ["A"; "S"] [0%nat; 1%nat] [0%nat; 1%nat] [1; 1].
Lemma add_gas1 : addPhase empty gas1 (PST 1000 100000 [1]) 1
  = (Ok tt, before_init [gas1] [PST 1000 100000 [1]] [1] 1 1 100000).
Proof.
  unfold addPhase. cbn [empty x_init p_compat gas1 negb x_T qT x_P qP]. decide_tests. reflexivity.
Qed.
Lemma init1 : init (before_init [gas1; solid] [PST 1000 100000 [1]; PST 1000 100000 [1]] [1; 1/2] 2 1 100000) = (Ok tt, m1).
Proof.
  unfold init. cbn [x_init before_init]. unfold updatePhases, upload.
  cbn [with_mf x_T x_P x_ph x_st x_tok x_mf concat map qX before_init app update_loop List.length nsp p_species gas1 solid Nat.ltb Nat.leb firstn skipn].
  rewrite setTPX_simple by (try lra; try reflexivity; try inlist; cbn; lra).
  rewrite setTPX_simple by (try lra; try reflexivity; try inlist; cbn; lra).
  cbn [p_minT p_maxT gas1 solid fst snd]. rewrite !tok_ok. reflexivity.
Qed.
Lemma run1 : run empty ops1 = Some m1.
Proof.
  unfold ops1. cbn [run run_op]. rewrite add_gas1, add_solid. cbn [app plus]. rewrite init1. reflexivity.
Qed.
Lemma reached1 : reached m1.
Proof.
  exists ops1. split; [|exact run1]. constructor; [|constructor; [exact usable_solid|constructor; [exact Logic.I|constructor]]].
  split; [cbn; lia|]. split; [reflexivity|]. split; [cbn; inlist|cbn; lra].
Qed.
Definition gas_volume (p : ph) (q : pst) : R := if String.eqb (p_name p) "gas" then qT q / qP q else 0.
Definition decompose (m : mix) : res := setMoles m [2; 0].
Definition m1a (P : R) (n : list R) : mix :=
  with_TP (with_moles (with_st m1 [PST 1000 P [1]; PST 1000 P [1]]) n) 1000 P.
Lemma update1 P P' n : updatePhases (with_TP (m1a P n) 1000 P') = (Ok tt, m1a P' n).
Proof.
  unfold updatePhases. cbn -[rltb setTPX].
  rewrite !setTPX_simple by (try lra; try reflexivity; try inlist; cbn; lra). cbn -[rltb setTPX]. decide_tests. reflexivity.
Qed.
Lemma decompose1 P : decompose (m1a P [1; 1/2]) = (Ok tt, m1a P [2; 0]).
Proof.
  unfold decompose, setMoles. rewrite (init_id (m1a P [1; 1/2]) eq_refl). unfold andthen. cbn -[IZR Rdiv].
  replace (2 + 0) with 2 by lra. replace (0 + 0) with 0 by lra. reflexivity.
Qed.
Theorem C40_constant_volume_refuted : exists m m' maxiter, reached m /\ (0 < maxiter)%nat /\
  equilibrate (fun m => (Err, m)) (gibbs_TV decompose gas_volume (1 / 10 ^ 9) maxiter) true Gibbs m = (Ok tt, m') /\
  getElemAbundances m' = getElemAbundances m /\
  Rabs (volume gas_volume m' - volume gas_volume m) > 1/2 * volume gas_volume m.
Proof.
  exists m1. assert (V : forall P n, 0 < P -> volume gas_volume (m1a P n) = nth 0 n 0 * (1000 / P) \/ List.length n <> 2%nat).
  { intros P n HP. destruct n as [|a [|b [|c n]]]; try (right; cbn; lia). left. unfold volume, gas_volume. cbn. ring. }
  set (P' := 100000 + 1 / 2 * (1 * (1000 / 100000) - 2 * (1000 / 100000)) /
       ((2 * (1000 / (100000 * (101 / 100))) - 2 * (1000 / 100000)) / (1 / 100 * 100000))).
  assert (HP : P' = 125250) by (unfold P'; field).
  exists (m1a P' [2; 0]), 1%nat. split; [exact reached1|]. split; [lia|]. split; [|split].
  - assert (TV : tv_loop decompose gas_volume (1 / 10 ^ 9) (volume gas_volume (m1a 100000 [1; 1/2])) 1 (m1a 100000 [1; 1/2])
                 = (Ok (-1), m1a P' [2; 0])).
    2:{ unfold equilibrate. cbn [negb]. unfold gibbs_TV. rewrite (init_id m1 eq_refl). unfold andthen. cbn [fst snd].
        change m1 with (m1a 100000 [1; 1/2]). rewrite TV. reflexivity. }
    cbn [tv_loop]. rewrite decompose1.
    destruct (V 100000 [1; 1/2] ltac:(lra)) as [V1|V1]; [|cbn in V1; lia].
    destruct (V 100000 [2; 0] ltac:(lra)) as [V2|V2]; [|cbn in V2; lia]. cbn [nth] in V1, V2. rewrite V1, V2.
    assert (NC : rltb (Rabs ((1 * (1000 / 100000) - 2 * (1000 / 100000)) / (1 * (1000 / 100000)))) (1 / 10 ^ 9) = false).
    { apply rltb_false. replace ((1 * (1000 / 100000) - 2 * (1000 / 100000)) / (1 * (1000 / 100000))) with (-1) by field.
      rewrite Rabs_left by lra. lra. }
    rewrite NC. unfold setPressure. change (x_T (m1a 100000 [2; 0])) with 1000. change (x_P (m1a 100000 [1; 1/2])) with 100000.
    rewrite update1. change (x_T (m1a (100000 * (101 / 100)) [2; 0])) with 1000.
    destruct (V (100000 * (101 / 100)) [2; 0] ltac:(lra)) as [V3|V3]; [|cbn in V3; lia]. cbn [nth] in V3. rewrite V3.
    rewrite update1. reflexivity.
  - unfold getElemAbundances. cbn. f_equal. lra.
  - destruct (V P' [2; 0] ltac:(lra)) as [V1|V1]; [|cbn in V1; lia]. rewrite V1.
    change m1 with (m1a 100000 [1; 1/2]). destruct (V 100000 [1; 1/2] ltac:(lra)) as [V2|V2]; [|cbn in V2; lia]. rewrite V2.
    cbn [nth]. rewrite HP. rewrite Rabs_right; lra.
Qed.
Print Assumptions C40_constant_volume_refuted.

(** ** The solver *)
Definition idn (k : nat) : nat := k.
Lemma ordering_id n : ordering n idn.
Proof. split; auto. Qed.
Lemma separated_one nsp atoms : (exists k, (k < nsp)%nat /\ / 10 ^ 10 < Rabs (atoms k 0%nat)) -> separated 1 nsp atoms.
Proof.
  intros (k & Hk & A) i c Hi Hc H. assert (i = 0%nat) by lia. subst i. specialize (H k Hk).
  unfold sum_n, sum_of in H. cbn [seq map rsum] in H. rewrite Hc in H.
  replace (atoms k 0%nat + (0 * atoms k 0%nat + 0)) with (atoms k 0%nat) in H by ring. lra.
Qed.
Definition atoms3 (k m : nat) : R := match k with 2%nat => 2 | _ => 1 end.
Lemma separated3 : separated 1 3 atoms3.
Proof. apply separated_one. exists 0%nat. split; [lia|]. cbn. rewrite Rabs_right; lra. Qed.
Example C40_reaction_vectors_case : exists N o r, getComponents 1 3 atoms3 idn (fun _ => 1) = (N, o, r) /\
  conserving 1 3 atoms3 N o /\ (2 <= 3)%nat.
Proof.
  destruct (getComponents 1 3 atoms3 idn (fun _ => 1)) as [[N o] r] eqn:E. exists N, o, r. split; [auto|].
  split; [|lia]. now apply (C40_reaction_vectors 1 3 atoms3 idn (fun _ => 1) N o r (ordering_id 3) separated3 E).
Qed.
Definition one_mole : est := EST (fun _ => 1) (fun _ _ => 0) idn.
Lemma good3 dG other g0 g1 : good 1 3 atoms3 (fun _ => true) one_mole [Components idn; Compose dG other g0 g1].
Proof.
  split; [apply ordering_id|]. intros s' E. cbn [act_step] in E.
  destruct (getComponents 1 3 atoms3 idn (e_moles one_mole)) as [[N o] r]. injection E as <-. split; [|intros; exact Logic.I].
  intros ik Hik _. cbn. lra.
Qed.
Example C40_solver_conserves_case dG other g0 g1 : exists s',
  acts 1 3 atoms3 (fun _ => true) one_mole [Components idn; Compose dG other g0 g1] = Some s' /\
  total 3 atoms3 (e_moles s') 0 = 4.
Proof.
  destruct (C40_solver_conserves 1 3 atoms3 (fun _ => true) idn _ one_mole separated3 (good3 dG other g0 g1)) as (s' & E & T).
  exists s'. split; [exact E|]. rewrite T by lia. unfold total, sum_n, sum_of. cbn. lra.
Qed.

(** The mixture of gas and solid, one composition step with any chemical potentials. *)
Example C40_equilibrium_conserves_case dG other g0 g1 : exists m',
  gibbs_TP m2 [Components idn; Compose dG other g0 g1] = (Ok tt, m') /\ getElemAbundances m' = [2].
Proof.
  assert (TX : tally (atoms_of "X") (x_ph m2) (getMoles m2) = 2) by (unfold tally, getMoles; cbn; lra).
  assert (EM : elementMoles m2 0 = Ok 2) by (exact (proj1 C40_readers_agree_case)).
  assert (IE : incl_element m2 0 = true).
  { unfold incl_element. rewrite EM. cbn -[rltb]. decide_tests. reflexivity. }
  assert (EL : elements m2 = [0%nat]).
  { unfold elements. cbn -[incl_element]. rewrite IE. reflexivity. }
  assert (SPK : forall k, incl_species m2 k = true -> True) by auto.
  assert (SP : species m2 = [0%nat; 1%nat; 2%nat]).
  { unfold species, incl_species. cbn -[incl_element]. rewrite IE. reflexivity. }
  assert (AT : forall k, (k < 3)%nat -> solver_atoms m2 k 0 = atoms3 k 0%nat).
  { intros k Hk. unfold solver_atoms. rewrite EL, SP. destruct k as [|[|[|k]]]; try lia; reflexivity. }
  assert (IM : forall k, (k < 3)%nat -> initial_moles m2 k = 1/2).
  { intros k Hk. unfold initial_moles. rewrite SP. destruct k as [|[|[|k]]]; try lia; cbn; lra. }
  assert (RF : existsb (refused m2) (seq 0 (x_nsp m2)) = false) by reflexivity.
  assert (SEP : separated 1 3 (solver_atoms m2)).
  { apply separated_one. exists 0%nat. split; [lia|]. rewrite AT by lia. cbn. rewrite Rabs_right; lra. }
  assert (L1 : List.length (elements m2) = 1%nat) by (rewrite EL; reflexivity).
  assert (L3 : List.length (species m2) = 3%nat) by (rewrite SP; reflexivity).
  set (s0 := EST (initial_moles m2) (fun _ _ => 0) (fun k => k)).
  set (l := [Compose dG other g0 g1]).
  assert (G : good 1 3 (solver_atoms m2) (dsoln m2) s0 (Components idn :: l)).
  { split; [apply ordering_id|]. intros s' E. cbn [act_step] in E.
    pose proof (components_ok 1 3 (solver_atoms m2) idn (e_moles s0) (ordering_id 3) SEP) as C.
    destruct (getComponents 1 3 (solver_atoms m2) idn (e_moles s0)) as [[N o] r]. injection E as <-. split; [|intros; exact Logic.I].
    intros ik Hik _. cbn [e_moles e_order s0]. rewrite IM by (apply C; lia). lra. }
  assert (FIN : forall s, acts 1 3 (solver_atoms m2) (dsoln m2) s0 (Components idn :: l) = Some s -> forall k, (k < 3)%nat -> 0 <= e_moles s k).
  { intros s E k Hk. cbn [acts act_step l] in E.
    pose proof (components_ok 1 3 (solver_atoms m2) idn (e_moles s0) (ordering_id 3) SEP) as C.
    destruct (getComponents 1 3 (solver_atoms m2) idn (e_moles s0)) as [[N o] r]. destruct C as (C1 & _ & C3). cbn [e_N e_order e_moles s0] in E.
    destruct (compose_spec 1 3 N o (dsoln m2) dG other g0 g1 (initial_moles m2) C3 C1) as (om & _ & EC & NG).
    rewrite EC in E. injection E as <-. cbn [e_moles]. specialize (NG k Hk). rewrite IM in NG by auto.
    rewrite Rmin_left in NG by lra. exact NG. }
  assert (K : exists m', gibbs_TP m2 (Components idn :: l) = (Ok tt, m')).
  { unfold gibbs_TP. rewrite RF, L1, L3. fold s0.
    destruct (C40_solver_conserves 1 3 (solver_atoms m2) (dsoln m2) idn l s0 SEP G) as (s & AC & _). pose proof (FIN s AC) as NN.
    cbn [acts solve_acts l] in *. destruct (act_step 1 3 (solver_atoms m2) (dsoln m2) s0 (Components idn)) as [s1|]; [|discriminate].
    destruct (act_step 1 3 (solver_atoms m2) (dsoln m2) s1 (Compose dG other g0 g1)) as [s2|]; [|discriminate]. injection AC as <-.
    assert (SOK : forall q, (forall k, (k < 3)%nat -> 0 <= q k) -> List.length (spread (x_nsp m2) (species m2) q) = 3%nat /\
       forall v, In v (spread (x_nsp m2) (species m2) q) -> 0 <= v).
    { intros q NQ. rewrite SP. cbn. split; [reflexivity|]. intros v [<-|[<-|[<-|[]]]]; apply NQ; lia. }
    destruct (SOK (e_moles s2) NN) as [SL SN].
    destruct (setMoles_ok m2 (spread (x_nsp m2) (species m2) (e_moles s2)) (reached_wf m2 reached2) (accepts2 1000 100000 ltac:(lra)) SL SN)
      as (ma & EA & WA & _ & _ & PA & _ & NA & TA & QA & _). rewrite EA.
    destruct (SOK (finish (e_moles s2))) as [SL2 SN2].
    { intros k Hk. unfold finish. destruct (rltb 0 (e_moles s2 k)) eqn:F; [apply rltb_true in F; lra|lra]. }
    destruct (setMoles_ok ma (spread (x_nsp m2) (species m2) (finish (e_moles s2))) WA) as (mb & EB & _).
    - rewrite TA, QA. unfold accepts. rewrite PA. apply (accepts2 1000 100000). lra.
    - rewrite NA. exact SL2.
    - exact SN2.
    - rewrite EB. eauto. }
  destruct K as (m' & K). exists m'. split; [exact K|].
  destruct (C40_equilibrium_conserves m2 m' idn l reached2 eq_refl ltac:(discriminate) (accepts2 1000 100000 ltac:(lra))) as (AB & _); auto.
  - cbn; inlist.
  - intros e s [<-|[]] _ Hs. cbn in Hs. destruct Hs as [<-|[<-|[<-|[]]]]; unfold atoms_of; cbn; lra.
  - rewrite L1, L3. exact SEP.
  - rewrite L1, L3. exact G.
  - rewrite L1, L3. exact FIN.
  - rewrite AB. unfold getElemAbundances. cbn. f_equal. lra.
Qed.

(** "Composition steps conserve the elements": not with a species of 1e-13 mol, which is multiplied by
    a factor of its own. *)
Definition N2 (n k : nat) : R := match n with 0%nat => -1 | _ => if (n =? k + 1)%nat then 1 else 0 end.
Definition few (k : nat) : R := match k with 0%nat => 1 | _ => / 10 ^ 13 end.
Theorem C40_minor_species_refuted : exists dG other n',
  conserving 1 2 (fun _ _ => 1) N2 idn /\ forming 1 2 N2 /\
  stepComposition 1 2 N2 idn (fun _ => true) dG other 0 0 few = Some n' /\
  total 2 (fun _ _ => 1) n' 0 <> total 2 (fun _ _ => 1) few 0.
Proof.
  exists (fun _ => -1), (fun _ => / 10 ^ 13).
  assert (C : conserving 1 2 (fun _ _ => 1) N2 idn).
  { intros m j Hm Hj. assert (j = 0%nat) by lia. subst j. unfold sum_n, sum_of. cbn. lra. }
  assert (F : forming 1 2 N2).
  { intros n j Hn. assert (n = 1%nat) by lia. subst n. reflexivity. }
  assert (B : balanced 1 2 (fun _ _ => 1) N2 idn) by (exact C).
  destruct (compose_spec 1 2 N2 idn (fun _ => true) (fun _ => -1) (fun _ => / 10 ^ 13) 0 0 few F (ordering_id 2)) as (om & HO & E & _).
  eexists. split; [exact C|]. split; [exact F|]. split; [exact E|]. intros Q.
  pose proof (step_total 1 2 (fun _ _ => 1) N2 idn (fun _ => true) (fun _ => -1) om
    (reaction_steps 1 N2 idn few (fun _ => true) (fun _ => -1) (fun _ => / 10 ^ 13)) few 0 (ordering_id 2) B ltac:(lia)) as S. cbv zeta in S.
  rewrite Q in S. rewrite Rminus_eq_0 in S. unfold sum_n, sum_of in S. cbn [seq map rsum Nat.ltb Nat.leb orb] in S.
  unfold is_major in S. cbn [few idn Nat.ltb Nat.leb orb] in S.
  assert (NM : rltb MAJOR (/ 10 ^ 13) = false) by (apply rltb_false; unfold MAJOR; lra). rewrite NM in S. cbn [orb] in S.
  assert (ST := step_at 1 2 idn (majors 1 2 idn (fun _ => true) few) (fun _ => -1) om
    (unsort 2 idn (extents 1 2 N2 (reaction_steps 1 N2 idn few (fun _ => true) (fun _ => -1) (fun _ => / 10 ^ 13)))) few 1 (ordering_id 2) ltac:(lia)).
  change (idn 1) with 1%nat in *. rewrite ST in S. clear ST. unfold new_moles in S.
  assert (MJ := majors_at 1 2 idn (fun _ => true) few 1 (ordering_id 2) ltac:(lia)). change (idn 1) with 1%nat in *.
  rewrite MJ in S. unfold is_major in S. cbn [few Nat.ltb Nat.leb orb] in S. rewrite NM in S. cbn [orb] in S.
  assert (US := unsort_at 2 idn (extents 1 2 N2 (reaction_steps 1 N2 idn few (fun _ => true) (fun _ => -1) (fun _ => / 10 ^ 13))) 1 (ordering_id 2) ltac:(lia)).
  change (idn 1) with 1%nat in *. rewrite US in S. clear US.
  rewrite (extents_free 1 2 N2) in S by (auto; lia). unfold reaction_steps in S. cbn [negb Nat.sub seq existsb idn few N2] in S.
  assert (POS : rltb 0 1 = true) by (apply rltb_true; lra). rewrite POS in S. cbn [negb andb orb] in S.
  rewrite Rabs_right in S by lra. replace (- (-1)) with 1 in S by lra.
  assert (EX : 2 < exp 1) by (pose proof (exp_ineq1 1 ltac:(lra)); lra).
  assert (MN : 2 < Rmin 10 (exp 1)) by (apply Rmin_glb_lt; lra). 
  assert (/ 10 ^ 13 * 2 < / 10 ^ 13 * Rmin 10 (exp 1)) by (apply Rmult_lt_compat_l; lra).
  lra.
Qed.
Print Assumptions C40_minor_species_refuted.

(** "The reaction vectors always conserve the elements": atom counts below 1e-10 are taken for zero. *)
Theorem C40_tolerance_refuted : exists N o r,
  getComponents 1 2 (fun _ _ => / 10 ^ 11) idn (fun _ => 1) = (N, o, r) /\
  ~ conserving 1 2 (fun _ _ => / 10 ^ 11) N o.
Proof.
  assert (Z : zero_from 2 (fun _ _ => / 10 ^ 11) 0 0 = true).
  { unfold zero_from. cbn [seq forallb Nat.sub].
    assert (H : rltb tol (Rabs (/ 10 ^ 11)) = false) by (apply rltb_false; rewrite Rabs_right; unfold tol; lra).
    rewrite H. reflexivity. }
  do 3 eexists. split.
  - unfold getComponents, composition_matrix. cbn [gauss]. rewrite Z. cbn [last_nonzero Nat.sub]. reflexivity.
  - intros C. specialize (C 0%nat 0%nat ltac:(lia) ltac:(lia)). unfold sum_n, sum_of in C. cbn in C. lra.
Qed.
Print Assumptions C40_tolerance_refuted.

(** "Formation reactions of trace species in solutions need not be equilibrated" (the comment in
    error()): they count like all others. *)
Theorem C40_trace_species_refuted : exists o ds dG moles, ds (o 1%nat) = true /\ moles (o 1%nat) = 0 /\
  error 1 2 o ds dG moles = 5.
Proof.
  exists idn, (fun _ => true), (fun _ => 5), (fun k => match k with 0%nat => 1 | _ => 0 end).
  split; [reflexivity|]. split; [reflexivity|]. unfold error, error_of. cbn. rewrite Rabs_right by lra. apply Rmax_right. lra.
Qed.
Print Assumptions C40_trace_species_refuted.
