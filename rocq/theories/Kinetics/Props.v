(** Theorems about mechanisms built by addReaction and the rates computed from them. *)
From Coq Require Import Reals ZArith String List Bool Arith Lia Lra.
From Verif Require Import Base.Outcome Base.RSum Base.Vec Stoich.Model Stoich.Spec Stoich.Proofs
  Kinetics.Model Kinetics.Spec Kinetics.Proofs Kinetics.Proofs2.
Import ListNotations.
Open Scope R_scope.

(** ** C18 *)

(** Net production = creation - destruction, for every mechanism, state and species. *)
Theorem C18_net_is_creation_minus_destruction phs f1 f2 rs e k :
  let s := mechanism phs f1 f2 rs in
  net_production_rates s e k = creation_rates s e k - destruction_rates s e k.
Proof. apply net_creation_destruction, mech_inv. Qed.
Print Assumptions C18_net_is_creation_minus_destruction.

(** The net production rate is the stoichiometric matrix applied to the net rates of progress. *)
Theorem C18_net_formula phs f1 f2 rs e k :
  let s := mechanism phs f1 f2 rs in
  Forall nonneg_coefs (k_rxns s) ->
  net_production_rates s e k =
  sum_of (fun '(i, r) => (coef phs (rx_products r) k - coef phs (rx_reactants r) k) * (ropf s e i - ropr s e i))
         (numbered (k_rxns s)).
Proof.
  intros s HN. pose proof (net_formula s e k (mech_inv _ _ _ _) HN) as H. assert (k_phases s = phs) as E by apply mech_phases. rewrite ?E in H. exact H.
Qed.
Print Assumptions C18_net_formula.

(** ** C19 *)

(** Any species property conserved by each reaction is conserved by the net production rates. *)
Theorem C19_conserved phs f1 f2 rs e (a : vec) :
  let s := mechanism phs f1 f2 rs in
  phases_ok phs -> Forall nonneg_coefs (k_rxns s) ->
  Forall (fun r => weighted phs a (rx_reactants r) = weighted phs a (rx_products r)) (k_rxns s) ->
  sum_n (fun k => a k * net_production_rates s e k) (total_species phs) = 0.
Proof.
  intros s HP HN HB. pose proof (conserved s e a (mech_inv _ _ _ _)) as H.
  assert (k_phases s = phs) as E by apply mech_phases. rewrite ?E in H. apply H; auto.
  eapply Forall_impl; [|exact HB]. intros r Eq. unfold delta. lra.
Qed.
Print Assumptions C19_conserved.

(** Mass: if every reaction balances every element, the production rates weighted with the molecular
    weights sum to zero. *)
Theorem C19_mass phs f1 f2 rs e (elems : list (string * R)) :
  let s := mechanism phs f1 f2 rs in
  let mw k := sum_of (fun '(el, aw) => aw * atoms_of phs el k) elems in
  phases_ok phs -> Forall nonneg_coefs (k_rxns s) ->
  (forall el, Forall (fun r => weighted phs (atoms_of phs el) (rx_reactants r)
                             = weighted phs (atoms_of phs el) (rx_products r)) (k_rxns s)) ->
  sum_n (fun k => mw k * net_production_rates s e k) (total_species phs) = 0.
Proof.
  intros s mw HP HN HB. apply C19_conserved; auto. rewrite Forall_forall. intros r Hr.
  assert (forall l, weighted phs mw l = sum_of (fun '(el, aw) => aw * weighted phs (atoms_of phs el) l) elems) as HW.
  { intros l. unfold weighted.
    rewrite (sum_of_ext (fun '(el, aw) => aw * sum_of (fun '(nm, x) => x * at_name phs (atoms_of phs el) nm) l)
       (fun y => sum_of (fun x => let '(el, aw) := y in let '(nm, z) := x in aw * (z * at_name phs (atoms_of phs el) nm)) l)).
    2:{ intros [el aw] _. rewrite <- sum_of_scal. apply sum_of_ext. now intros []. }
    rewrite sum_of_swap. apply sum_of_ext. intros [nm x] _. unfold at_name, mw.
    destruct (species_index phs nm).
    - rewrite <- sum_of_scal. apply sum_of_ext. intros [] _. lra.
    - rewrite Rmult_0_r. symmetry. apply sum_of_0. intros [] _. lra. }
  rewrite !HW. apply sum_of_ext. intros [el aw] _. specialize (HB el). rewrite Forall_forall in HB. now rewrite HB.
Qed.
Print Assumptions C19_mass.

(** What the balance check guarantees: for reactions without third body, accepted by addReaction, the
    imbalance of any element is at most 1e-4 of the turnover.  Missing for the full statement: the check
    has a tolerance, is skipped for reactions with a third body, and ignores elements of nonpositive
    total (charges); the last two are refuted below. *)
Theorem C19_accepted_bound_partial phs f1 f2 rs e el :
  let s := mechanism phs f1 f2 rs in
  phases_ok phs -> Forall nonneg_coefs (k_rxns s) ->
  Forall (fun r => rx_third r = None) (k_rxns s) ->
  (forall k, 0 <= atoms_of phs el k) ->
  Rabs (sum_n (fun k => atoms_of phs el k * net_production_rates s e k) (total_species phs))
  <= 1/10000 * sum_of (fun '(i, r) => (weighted phs (atoms_of phs el) (rx_reactants r)
                                     + weighted phs (atoms_of phs el) (rx_products r))
                                     * Rabs (ropf s e i - ropr s e i)) (numbered (k_rxns s)).
Proof.
  intros s HP HN HT HA. pose proof (accepted_bound s e el (mech_inv _ _ _ _)) as H.
  assert (k_phases s = phs) as E by apply mech_phases. rewrite ?E in H. apply H; auto.
Qed.
Print Assumptions C19_accepted_bound_partial.

(** ** Example mechanism *)
Definition sp_of (names : list string) (nm : string) : option nat :=
  (fix go (n : nat) (l : list string) := match l with
     | [] => None | x :: l' => if String.eqb x nm then Some n else go (S n) l' end) 0%nat names.

(** Species H2, O2, H2O, AR with elements H, O, Ar. *)
Definition ex_phase : phase :=
  mkPhase 4 (sp_of ["H2"; "O2"; "H2O"; "AR"]%string) ["H"; "O"; "Ar"]%string
    (fun k m => match k, m with
                | 0%nat, 0%nat => 2 | 1%nat, 1%nat => 2
                | 2%nat, 0%nat => 2 | 2%nat, 1%nat => 1 | 3%nat, 2%nat => 1 | _, _ => 0 end) 3 None.
Definition ex_burn : reaction :=
  mkReaction [("H2", 2); ("O2", 1)]%string [("H2O", 2)]%string [] true false false None true.
Definition ex_global : reaction :=
  mkReaction [("H2", 2); ("O2", 1)]%string [("H2O", 2)]%string [("H2", 1/2)]%string false false false None true.
Definition ex_third : third := mkThird "M" [("AR", 1/2); ("H2O", 12)]%string 1 true.
Definition ex_tb : reaction :=
  mkReaction [("H2O", 1)]%string [("H2", 1); ("O2", 1/2)]%string [] true false false (Some ex_third) true.
Definition ex_rxns : list reaction := [ex_burn; ex_global; ex_tb].

Example ex_phases_ok : phases_ok [ex_phase].
Proof.
  constructor; [|constructor]. simpl. intros nm k. unfold sp_of.
  repeat (match goal with |- context [if ?b then _ else _] => destruct b end; [intros H; injection H as <-; lia|]).
  discriminate.
Qed.

Ltac rl := repeat (unfold Rltb; match goal with
  | |- context [Rlt_dec ?a ?b] => destruct (Rlt_dec a b); [try (exfalso; lra)|try (exfalso; lra)]
  end; simpl).

Lemma ex_no_bad (x y : R) : x = y -> Rltb (1/10000) (Rabs (x - y) / (y + x)) = false.
Proof.
  intros ->. apply Rltb_false. replace (y - y) with 0 by lra. rewrite Rabs_R0. unfold Rdiv. lra.
Qed.

Lemma balance_accept r : check_balance [ex_phase] r =
  match bal_products [ex_phase] (rx_products r) ([], []) with
  | Ok (br, bp) => match bal_reactants [ex_phase] (rx_reactants r) br with
                   | Ok br' => if existsb (fun '(e, _) => elem_bad br' bp e) br' then Err else Ok tt
                   | Err => Err | Exn => Exn | UB => UB
                   end
  | Err => Err | Exn => Exn | UB => UB
  end.
Proof.
  unfold check_balance. destruct (bal_products _ _ _) as [[br bp]| | |]; simpl; try reflexivity.
Qed.

Example ex_accepted : Forall (accepted [ex_phase] false false) ex_rxns.
Proof.
  assert (forall r, rx_reactants r = [("H2", 2); ("O2", 1)]%string -> rx_products r = [("H2O", 2)]%string ->
     check_balance [ex_phase] r = Ok tt) as HB.
  { intros r E1 E2. rewrite balance_accept, E1, E2. simpl. unfold elem_bad. simpl.
    rewrite !ex_no_bad by lra. rewrite !andb_false_r. reflexivity. }
  constructor; [split; [reflexivity|]|constructor; [split|constructor; [split; reflexivity|constructor]]].
  - unfold check_species. simpl. unfold undeclared. simpl. now rewrite HB.
  - unfold rx_check. simpl. rl. reflexivity.
  - unfold check_species. simpl. unfold undeclared. simpl. now rewrite HB.
Qed.

Example ex_mech_rxns : k_rxns (mechanism [ex_phase] false false ex_rxns) = ex_rxns.
Proof. apply mechanism_rxns, ex_accepted. Qed.

Example ex_nonneg : Forall nonneg_coefs ex_rxns.
Proof. repeat (apply Forall_cons; [split; repeat (apply Forall_cons; [lra|]); apply Forall_nil|]). apply Forall_nil. Qed.

(** The hypotheses of C19_conserved hold for H and O in this mechanism. *)
Example ex_balanced el : Forall (fun r => weighted [ex_phase] (atoms_of [ex_phase] el) (rx_reactants r)
                             = weighted [ex_phase] (atoms_of [ex_phase] el) (rx_products r))
                  (k_rxns (mechanism [ex_phase] false false ex_rxns)).
Proof.
  rewrite ex_mech_rxns.
  assert (atoms_of [ex_phase] el 0 + 1/2 * atoms_of [ex_phase] el 1 = atoms_of [ex_phase] el 2) as H.
  { unfold atoms_of, elem_count, sum_of. cbn -[String.eqb].
    destruct (String.eqb "H" el), (String.eqb "O" el), (String.eqb "Ar" el); lra. }
  revert H. generalize (atoms_of [ex_phase] el). intros v H.
  repeat (apply Forall_cons; [unfold weighted, at_name, sum_of; simpl; lra|]). apply Forall_nil.
Qed.

Example ex_mass_conserved e :
  sum_n (fun k => sum_of (fun '(el, aw) => aw * atoms_of [ex_phase] el k) [("H", 1.008); ("O", 15.999); ("Ar", 39.95)]%string
                  * net_production_rates (mechanism [ex_phase] false false ex_rxns) e k) 4 = 0.
Proof.
  apply (C19_mass [ex_phase] false false ex_rxns e); [apply ex_phases_ok|rewrite ex_mech_rxns; apply ex_nonneg|apply ex_balanced].
Qed.

(** ** Refutations for C19 *)

(** addReaction accepts a reaction with third body that creates matter: H2 + M <=> 2 H2O + M. *)
Definition bad_tb : reaction :=
  mkReaction [("H2", 1)]%string [("H2O", 2)]%string [] true false false (Some (mkThird "M" [] 1 true)) true.

Definition ones_env : env := mkEnv (fun _ => 0) 0 1 (fun _ => 1) (fun _ => 1) 4 (fun _ => 2) (fun _ => 1) (fun _ => 0).

Lemma bad_tb_accepted : Forall (accepted [ex_phase] false false) [bad_tb].
Proof. repeat constructor. Qed.

Theorem C19_third_body_balance_unchecked_refuted :
  snd (kin_add (kin_init [ex_phase] false false) bad_tb) = Added /\
  exists e, sum_n (fun k => atoms_of [ex_phase] "H" k
                   * net_production_rates (mechanism [ex_phase] false false [bad_tb]) e k) 4 <> 0.
Proof.
  split.
  { apply accepted_added; [apply inv_init|]. pose proof bad_tb_accepted as H. now inversion H. }
  set (s := mechanism [ex_phase] false false [bad_tb]).
  assert (k_rxns s = [bad_tb]) as HR by (apply mechanism_rxns, bad_tb_accepted).
  assert (Forall nonneg_coefs [bad_tb]) as HN.
  { repeat (apply Forall_cons; [split; repeat (apply Forall_cons; [lra|]); apply Forall_nil|]). apply Forall_nil. }
  pose proof (mech_inv [ex_phase] false false [bad_tb]) as HI. fold s in HI.
  pose proof (mech_phases [ex_phase] false false [bad_tb]) as HPh. fold s in HPh.
  exists (mkEnv (fun k => match k with 0%nat => 1 | _ => 0 end) 0 1 (fun _ => 1) (fun _ => 1) 4 (fun _ => 2) (fun _ => 1) (fun _ => 0)).
  match goal with |- context [net_production_rates s ?ee] => set (e := ee) end.
  pose proof (weighted_net s e (atoms_of [ex_phase] "H") HI) as HW. rewrite HPh, HR in HW.
  specialize (HW ex_phases_ok HN). unfold total_species in HW. simpl fold_left in HW. rewrite HW.
  unfold numbered, sum_of. simpl. unfold delta, weighted, at_name, sum_of. simpl. unfold elem_count, sum_of. simpl.
  assert (ropnet s e 0%nat <> 0) as HX.
  { unfold ropnet. assert (nth_error (k_rxns s) 0 = Some bad_tb) as Hn by now rewrite HR.
    assert (forall k, (k < total_species (k_phases s))%nat -> 0 <= e_act e k) as HC by (intros; simpl; lra).
    rewrite (ropf_val s e 0 bad_tb), (ropr_val s e 0 bad_tb); auto; try (rewrite HPh; apply ex_phases_ok); try (rewrite HR; exact HN).
    rewrite (rop_base_val s e 0 bad_tb HI Hn). simpl.
    rewrite (concm_val s e 0 bad_tb (mkThird "M" [] 1 true) HI); try reflexivity; auto;
      try (rewrite HPh; first [apply ex_phases_ok|unfold sum_n, sum_of; simpl; lra]).
    rewrite (rkcn_rev s e 0 bad_tb HI Hn eq_refl), (rev_delta_val s _ 0 bad_tb HI Hn); [|now inversion HN|reflexivity].
    rewrite HPh. unfold rdecl, pdecl, d_sp, d_order. simpl.
    rewrite !factor_pos by lra. unfold Rpower. rewrite ln_1, !Rmult_0_r, exp_0.
    unfold delta, weighted, at_name, sum_of. simpl.
    match goal with |- context [exp ?x] => set (y := x) end.
    assert (exp y < 1) as HE.
    { pose proof (exp_increasing y 0) as X. rewrite exp_0 in X. apply X. unfold y. lra. }
    assert (1 < BigNumber) as HBg by (unfold BigNumber; apply IZR_lt; reflexivity).
    rewrite Rmin_left by lra.
    unfold sum_n, sum_of, stated_eff. simpl.
    revert HE. generalize (exp y). intros x Hx. nra. }
  intros H. apply HX. lra.
Qed.
Print Assumptions C19_third_body_balance_unchecked_refuted.

(** addReaction accepts X => X+, which creates charge: the element E has counts 0 and -1, their sum is
    not positive, so the check does not look at it. *)
Definition ion_phase : phase :=
  mkPhase 2 (sp_of ["X"; "X+"]%string) ["X"; "E"]%string
    (fun k m => match k, m with 0%nat, 0%nat => 1 | 1%nat, 0%nat => 1 | 1%nat, 1%nat => -1 | _, _ => 0 end) 3 None.
Definition ionize : reaction :=
  mkReaction [("X", 1)]%string [("X+", 1)]%string [] false false false None true.

Theorem C19_charge_balance_unchecked_refuted :
  accepted [ion_phase] false false ionize /\
  snd (kin_add (kin_init [ion_phase] false false) ionize) = Added /\
  weighted [ion_phase] (atoms_of [ion_phase] "E") (rx_products ionize) = -1 /\
  weighted [ion_phase] (atoms_of [ion_phase] "E") (rx_reactants ionize) = 0.
Proof.
  assert (accepted [ion_phase] false false ionize) as HA.
  { split; [reflexivity|]. unfold check_species. simpl. unfold undeclared. simpl.
    unfold check_balance. simpl. unfold elem_bad. simpl.
    rewrite ex_no_bad by lra. rewrite andb_false_r.
    assert (Rltb 0 (0 + 1 * 0 + (0 + 1 * -1)) = false) as -> by (apply Rltb_false; lra). reflexivity. }
  split; [exact HA|]. split; [apply accepted_added; [apply inv_init|exact HA]|].
  unfold weighted, at_name, sum_of. simpl. unfold elem_count, sum_of. simpl. lra.
Qed.
Print Assumptions C19_charge_balance_unchecked_refuted.

(** ** C21 *)
Theorem C21_third_body_concentration phs f1 f2 rs e i r tb :
  let s := mechanism phs f1 f2 rs in
  phases_ok phs -> nth_error (k_rxns s) i = Some r -> rx_third r = Some tb ->
  e_ctot e = sum_n (e_conc e) (total_species phs) ->
  concm s e i = effective_conc phs tb (e_conc e).
Proof.
  intros s HP Hn Ht Hc. pose proof (concm_val s e i r tb (mech_inv _ _ _ _)) as H.
  assert (k_phases s = phs) as E by apply mech_phases. rewrite ?E in H. now apply H.
Qed.
Print Assumptions C21_third_body_concentration.

(** Matrix of third-body efficiencies used for derivatives. *)
Theorem C21_efficiency_matrix phs f1 f2 rs i r tb k :
  let s := mechanism phs f1 f2 rs in
  phases_ok phs -> nth_error (k_rxns s) i = Some r -> rx_third r = Some tb ->
  (k < total_species phs)%nat ->
  tb_multiplier (k_tb s) (total_species phs) i k = stated_eff phs tb k.
Proof.
  intros s HP Hn Ht Hk. pose proof (multiplier_val s i r tb k (mech_inv _ _ _ _)) as H.
  assert (k_phases s = phs) as E by apply mech_phases. rewrite ?E in H. now apply H.
Qed.
Print Assumptions C21_efficiency_matrix.

Example ex_third_body (c : vec) :
  effective_conc [ex_phase] ex_third c = c 0%nat + c 1%nat + 12 * c 2%nat + 1/2 * c 3%nat.
Proof. unfold effective_conc, stated_eff, sum_n, sum_of. simpl. lra. Qed.

Example ex_third_in_mechanism :
  nth_error (k_rxns (mechanism [ex_phase] false false ex_rxns)) 2 = Some ex_tb /\ rx_third ex_tb = Some ex_third.
Proof. now rewrite ex_mech_rxns. Qed.

(** ** C43: mass-action law *)
Theorem C43_forward_rate_law phs f1 f2 rs e i r :
  let s := mechanism phs f1 f2 rs in
  phases_ok phs -> Forall nonneg_coefs (k_rxns s) ->
  (forall k, (k < total_species phs)%nat -> 0 <= e_act e k) ->
  e_ctot e = sum_n (e_conc e) (total_species phs) ->
  nth_error (k_rxns s) i = Some r -> distinct_species phs (rx_reactants r) ->
  ropf s e i = e_kf0 e i * e_perturb e i
     * match rx_third r with
       | Some tb => if tb_mass_action tb then effective_conc phs tb (e_conc e) else 1
       | None => 1
       end
     * prod_of (fun k => factor (e_act e k) (order_of phs r k)) (seq 0 (total_species phs)).
Proof.
  intros s HP HN HC Hct Hn HD. pose proof (forward_law s e i r (mech_inv _ _ _ _)) as H.
  assert (k_phases s = phs) as E by apply mech_phases. rewrite E in H. now apply H.
Qed.
Print Assumptions C43_forward_rate_law.

Example ex_distinct : Forall (fun r => distinct_species [ex_phase] (rx_reactants r)) ex_rxns.
Proof.
  repeat constructor; simpl; try (intros H; repeat destruct H as [H|H]; try discriminate; destruct H).
Qed.

(** The overriding order 1/2 of H2 in the second reaction. *)
Example ex_orders : order_of [ex_phase] ex_global 0 = 1/2 /\ order_of [ex_phase] ex_global 1 = 1 /\
                    order_of [ex_phase] ex_burn 0 = 2.
Proof. unfold order_of, coef, sum_of. simpl. lra. Qed.

(** ** C22 *)

(** The equilibrium constants reported are exp(-dG0/RT) c0^dn. *)
Theorem C22_equilibrium_constant phs f1 f2 rs e i r :
  let s := mechanism phs f1 f2 rs in
  nth_error (k_rxns s) i = Some r -> nonneg_coefs r ->
  equilibrium_constants s e i = Kc phs (e_mu0 e) (e_logc0 e) (e_rt e) r.
Proof.
  intros s Hn HN. unfold equilibrium_constants, Kc. rewrite (delta_val s _ i r (mech_inv _ _ _ _) Hn HN).
  assert (nth i (k_dn s) 0 = mole_change r) as ->.
  { rewrite (inv_dn s (mech_inv _ _ _ _)). apply nth_error_nth. apply (map_nth_error rx_dn) in Hn. exact Hn. }
  unfold s. rewrite mech_phases, <- exp_plus. f_equal. unfold Rdiv. lra.
Qed.
Print Assumptions C22_equilibrium_constant.

(** kf / kr is the equilibrium constant (as long as 1/Kc stays below the cap 1e300). *)
Theorem C22_rate_constant_ratio phs f1 f2 rs e i r :
  let s := mechanism phs f1 f2 rs in
  nth_error (k_rxns s) i = Some r -> nonneg_coefs r -> rx_reversible r = true ->
  / Kc phs (e_mu0 e) (e_logc0 e) (e_rt e) r <= BigNumber ->
  rev_rate_constants s e false i * equilibrium_constants s e i = rfn s e i /\
  rev_rate_constants s e true i * equilibrium_constants s e i = rfn s e i.
Proof.
  intros s Hn HN Hr Hb.
  assert (equilibrium_constants s e i = Kc phs (e_mu0 e) (e_logc0 e) (e_rt e) r) as HKc by (apply C22_equilibrium_constant; assumption).
  rewrite HKc.
  assert (0 < Kc phs (e_mu0 e) (e_logc0 e) (e_rt e) r) as HK.
  { unfold Kc. apply Rmult_lt_0_compat; apply exp_pos. }
  split.
  - unfold rev_rate_constants. rewrite (rkcn_rev s e i r (mech_inv _ _ _ _) Hn Hr), (rev_delta_val s _ i r (mech_inv _ _ _ _) Hn HN Hr).
    assert (k_phases s = phs) as -> by apply mech_phases.
    assert (exp (delta phs (e_mu0 e) r * (1 / e_rt e) - rx_dn r * e_logc0 e) = / Kc phs (e_mu0 e) (e_logc0 e) (e_rt e) r) as ->.
    { unfold Kc. rewrite <- exp_plus, <- exp_Ropp. f_equal. unfold rx_dn, mole_change, Rdiv. lra. }
    rewrite Rmin_left by assumption. field. lra.
  - unfold rev_rate_constants. rewrite HKc. field. lra.
Qed.
Print Assumptions C22_rate_constant_ratio.

(** Ideal activities: act_k = c0 exp((mu_k - mu0_k)/RT).  Reverse over forward rate is exp(dmu/RT). *)
Theorem C22_detailed_balance phs f1 f2 rs e mu i r :
  let s := mechanism phs f1 f2 rs in
  phases_ok phs -> Forall nonneg_coefs (k_rxns s) ->
  nth_error (k_rxns s) i = Some r -> rx_reversible r = true -> 0 < e_rt e ->
  (forall k, (k < total_species phs)%nat ->
     e_act e k = exp (e_logc0 e) * exp ((mu k - e_mu0 e k) / e_rt e)) ->
  / Kc phs (e_mu0 e) (e_logc0 e) (e_rt e) r <= BigNumber ->
  ropr s e i = ropf s e i * exp (delta phs mu r / e_rt e).
Proof.
  intros s HP HN Hn Hr Hrt Hact Hb.
  pose proof (detailed_balance s e mu i r (mech_inv _ _ _ _)) as H.
  assert (k_phases s = phs) as E by apply mech_phases. rewrite E in H. apply H; auto.
  - apply (accepted_rev_orders _ _ _ _ (acc_at s i r (mech_inv _ _ _ _) Hn) Hr).
  - eapply Rle_trans; [|exact Hb]. apply Req_le. unfold Kc. rewrite <- exp_plus, <- exp_Ropp. f_equal.
    unfold rx_dn, mole_change, Rdiv. lra.
Qed.
Print Assumptions C22_detailed_balance.

(** Hence the net rate vanishes exactly at equilibrium and its sign is that of the affinity. *)
Theorem C22_sign_of_net_rate phs f1 f2 rs e mu i r :
  let s := mechanism phs f1 f2 rs in
  phases_ok phs -> Forall nonneg_coefs (k_rxns s) ->
  nth_error (k_rxns s) i = Some r -> rx_reversible r = true -> 0 < e_rt e ->
  (forall k, (k < total_species phs)%nat ->
     e_act e k = exp (e_logc0 e) * exp ((mu k - e_mu0 e k) / e_rt e)) ->
  / Kc phs (e_mu0 e) (e_logc0 e) (e_rt e) r <= BigNumber ->
  (delta phs mu r = 0 -> ropf s e i - ropr s e i = 0) /\
  (0 < ropf s e i ->
     (delta phs mu r < 0 <-> 0 < ropf s e i - ropr s e i) /\
     (0 < delta phs mu r <-> ropf s e i - ropr s e i < 0)).
Proof.
  intros s HP HN Hn Hr Hrt Hact Hb.
  assert (ropr s e i = ropf s e i * exp (delta phs mu r / e_rt e)) as HD
    by (apply C22_detailed_balance with (mu := mu); assumption).
  rewrite HD. generalize (ropf s e i) (delta phs mu r). intros f d.
  assert (d / e_rt e = d * / e_rt e) as Ed by reflexivity.
  pose proof (Rinv_0_lt_compat _ Hrt) as Hi. split.
  - intros ->. unfold Rdiv. rewrite Rmult_0_l, exp_0. lra.
  - intros Hf.
    assert (d < 0 -> exp (d / e_rt e) < 1) as H1.
    { intros H. rewrite <- exp_0. apply exp_increasing. rewrite Ed. nra. }
    assert (0 < d -> 1 < exp (d / e_rt e)) as H2.
    { intros H. rewrite <- exp_0. apply exp_increasing. rewrite Ed. nra. }
    assert (d = 0 -> exp (d / e_rt e) = 1) as H3.
    { intros ->. unfold Rdiv. now rewrite Rmult_0_l, exp_0. }
    destruct (Rtotal_order d 0) as [H|[H|H]].
    + specialize (H1 H). split; split; intros; nra.
    + specialize (H3 H). rewrite H3. split; split; intros; nra.
    + assert (0 < d) as H' by lra. specialize (H2 H'). split; split; intros; nra.
Qed.
Print Assumptions C22_sign_of_net_rate.

(** An equilibrium state of the first reaction meets the hypotheses: zero standard potentials, unit
    activities. *)
Example ex_equilibrium :
  let e := mkEnv (fun _ => 0) 0 1 (fun _ => 1) (fun _ => 1) 4 (fun _ => 2) (fun _ => 1) (fun _ => 0) in
  let s := mechanism [ex_phase] false false ex_rxns in
  ropf s e 0%nat = 2 /\ ropr s e 0%nat = 2.
Proof.
  intros e s.
  assert (ropf s e 0%nat = 2) as HF.
  { unfold s. rewrite (C43_forward_rate_law [ex_phase] false false ex_rxns e 0 ex_burn).
    - simpl. unfold prod_of. simpl. unfold order_of, coef, sum_of. simpl. rewrite !factor_pos by lra.
      unfold Rpower. rewrite ln_1, !Rmult_0_r, exp_0. lra.
    - apply ex_phases_ok.
    - rewrite ex_mech_rxns. apply ex_nonneg.
    - intros. simpl. lra.
    - unfold sum_n, sum_of. simpl. lra.
    - now rewrite ex_mech_rxns.
    - pose proof ex_distinct as H. now inversion H. }
  split; [exact HF|].
  unfold s. rewrite (C22_detailed_balance [ex_phase] false false ex_rxns e (fun _ => 0) 0 ex_burn).
  - fold s. rewrite HF. unfold delta, weighted, at_name, sum_of. simpl.
    replace ((2 * 0 + 0 - (2 * 0 + (1 * 0 + 0))) / 1) with 0 by lra. rewrite exp_0. lra.
  - apply ex_phases_ok.
  - rewrite ex_mech_rxns. apply ex_nonneg.
  - now rewrite ex_mech_rxns.
  - reflexivity.
  - simpl. lra.
  - intros k _. simpl. rewrite exp_0. replace ((0 - 0) / 1) with 0 by lra. rewrite exp_0. lra.
  - unfold Kc, delta, weighted, at_name, sum_of. simpl.
    replace (- (2 * 0 + 0 - (2 * 0 + (1 * 0 + 0))) / 1) with 0 by lra. rewrite Rmult_0_r, exp_0.
    replace (/ (1 * 1)) with 1 by lra. unfold BigNumber. apply IZR_le. discriminate.
Qed.

(** ** C44: addReaction is atomic *)
Theorem C44_add_reaction_atomic phs f1 f2 rs r :
  let s := mechanism phs f1 f2 rs in
  (snd (kin_add s r) = Added -> k_rxns (fst (kin_add s r)) = k_rxns s ++ [r]) /\
  (snd (kin_add s r) <> Added -> fst (kin_add s r) = s) /\
  (phs <> [] -> snd (kin_add s r) <> Undefined).
Proof.
  intros s. assert (k_phases s = phs) as E by apply mech_phases.
  destruct (kin_add_cases s r (mech_inv _ _ _ _)) as [(H1 & H2 & H3)|(H1 & H2)].
  - repeat split; [auto|intros H; contradiction|]. intros _. rewrite H1. discriminate.
  - repeat split; [intros H; contradiction|auto|]. intros H. apply kin_add_no_ub; [apply mech_inv|now rewrite E].
Qed.
Print Assumptions C44_add_reaction_atomic.

(** Both outcomes occur. *)
Example ex_add_outcomes :
  snd (kin_add (kin_init [ex_phase] false false) ex_burn) = Added /\
  snd (kin_add (kin_init [ex_phase] false false)
         (mkReaction [("H2", 1); ("Q", 1)]%string [("H2O", 1)]%string [] true false false None true)) = Threw /\
  snd (kin_add (kin_init [ex_phase] true false)
         (mkReaction [("H2", 1); ("Q", 1)]%string [("H2O", 1)]%string [] true false false None true)) = Skipped.
Proof.
  split; [|split; reflexivity]. apply accepted_added; [apply inv_init|]. pose proof ex_accepted as H. now inversion H.
Qed.

(** ** C45: property changes of reactions *)
Theorem C45_reaction_delta phs f1 f2 rs (v : vec) i r :
  let s := mechanism phs f1 f2 rs in
  nth_error (k_rxns s) i = Some r -> nonneg_coefs r ->
  reaction_delta s v i = weighted phs v (rx_products r) - weighted phs v (rx_reactants r) /\
  (rx_reversible r = true -> rev_reaction_delta s v i = reaction_delta s v i).
Proof.
  intros s Hn HN. pose proof (delta_val s v i r (mech_inv _ _ _ _) Hn HN) as H. split.
  - rewrite H. unfold s. now rewrite mech_phases.
  - intros Hr. now rewrite H, (rev_delta_val s v i r (mech_inv _ _ _ _) Hn HN Hr).
Qed.
Print Assumptions C45_reaction_delta.

Example ex_delta (v : vec) :
  reaction_delta (mechanism [ex_phase] false false ex_rxns) v 2%nat = v 0%nat + 1/2 * v 1%nat - v 2%nat.
Proof.
  destruct (C45_reaction_delta [ex_phase] false false ex_rxns v 2 ex_tb) as [-> _].
  - now rewrite ex_mech_rxns.
  - pose proof ex_nonneg as H. inversion H as [|? ? _ H2]; subst. inversion H2 as [|? ? _ H3]; subst. now inversion H3.
  - unfold weighted, at_name, sum_of. simpl. lra.
Qed.

(** ** C46: modifyReaction *)

(** A refused modification changes nothing; an accepted one keeps the participants and touches no other
    reaction. *)
Theorem C46_modify_reaction s i r same_type :
  let (s', ok) := modify_reaction s i r same_type in
  (ok = false -> s' = s) /\
  (ok = true -> exists old, nth_error (k_rxns s) i = Some old /\
     rx_reactants r = rx_reactants old /\ rx_products r = rx_products old /\
     (forall j, nth_error (k_rxns s') j = if Nat.eqb j i then Some r else nth_error (k_rxns s) j) /\
     (forall e k, net_production_rates s' e k = net_production_rates s e k)).
Proof.
  unfold modify_reaction. destruct (nth_error (k_rxns s) i) as [old|] eqn:En; [|split; [reflexivity|discriminate]].
  destruct same_type; simpl; [|split; [reflexivity|discriminate]].
  assert (forall l1 l2, maps_eqb l1 l2 = true -> l1 = l2) as HM.
  { induction l1 as [|[a x] l1 IH]; intros [|[b y] l2] H; try discriminate; [reflexivity|]. simpl in H.
    apply andb_true_iff in H as [H H3]. apply andb_true_iff in H as [H1 H2].
    apply String.eqb_eq in H1. apply Reqb_spec in H2. subst. f_equal. auto. }
  destruct (maps_eqb (rx_reactants r) _) eqn:E1; simpl; [|split; [reflexivity|discriminate]].
  destruct (maps_eqb (rx_products r) _) eqn:E2; simpl; [|split; [reflexivity|discriminate]].
  split; [discriminate|]. intros _. exists old. repeat split; auto.
  intros j. clear - En. revert i j En. induction (k_rxns s) as [|x l IH]; intros [|i] [|j] H; simpl in *; try discriminate; auto.
Qed.
Print Assumptions C46_modify_reaction.

(** The object left by an accepted modification does not always compute the rates of a mechanism built
    from the reactions it lists: replacing A => B by A <=> B is accepted, the reverse rate stays zero. *)
Definition irrev_burn : reaction :=
  mkReaction [("H2", 2); ("O2", 1)]%string [("H2O", 2)]%string [] false false false None true.

Theorem C46_modify_reversibility_refuted :
  exists e, let s := mechanism [ex_phase] false false [irrev_burn] in
  let (s', ok) := modify_reaction s 0 ex_burn true in
  ok = true /\ k_rxns s' = [ex_burn] /\
  ropr s' e 0%nat <> ropr (mechanism [ex_phase] false false (k_rxns s')) e 0%nat.
Proof.
  exists (mkEnv (fun _ => 0) 0 1 (fun _ => 1) (fun _ => 1) 4 (fun _ => 2) (fun _ => 1) (fun _ => 0)).
  match goal with |- context [ropr _ ?ee] => set (e := ee) end.
  assert (Forall (accepted [ex_phase] false false) [ex_burn]) as HA1.
  { pose proof ex_accepted as H. constructor; [now inversion H|constructor]. }
  assert (Forall (accepted [ex_phase] false false) [irrev_burn]) as HA2.
  { constructor; [|constructor]. pose proof ex_accepted as H. inversion H as [|? ? [_ Hc] _]; subst. split; [reflexivity|].
    exact Hc. }
  set (s := mechanism [ex_phase] false false [irrev_burn]).
  assert (k_rxns s = [irrev_burn]) as HR by apply (mechanism_rxns _ _ _ _ HA2).
  cbv zeta. fold s.
  destruct (modify_reaction s 0 ex_burn true) as [s' ok] eqn:Em.
  unfold modify_reaction in Em. rewrite HR in Em. simpl in Em.
  assert (forall x, Reqb x x = true) as HQ by (intros; now apply Reqb_spec). rewrite !HQ in Em. simpl in Em.
  injection Em as <- <-. split; [reflexivity|]. simpl. split; [reflexivity|].
  match goal with |- ropr ?x e 0%nat <> _ => change (ropr x e 0%nat) with (ropr s e 0%nat) end.
  rewrite (ropr_irrev s e 0 irrev_burn (mech_inv _ _ _ _)); [|now rewrite HR|reflexivity].
  set (f := mechanism [ex_phase] false false [ex_burn]).
  assert (k_rxns f = [ex_burn]) as HRf by apply (mechanism_rxns _ _ _ _ HA1).
  assert (k_phases f = [ex_phase]) as HPf by apply mech_phases.
  assert (Forall nonneg_coefs [ex_burn]) as HN.
  { pose proof ex_nonneg as H. constructor; [now inversion H|constructor]. }
  assert (nth_error (k_rxns f) 0 = Some ex_burn) as Hn by now rewrite HRf.
  rewrite (ropr_val f e 0 ex_burn (mech_inv _ _ _ _)); try (rewrite ?HPf, ?HRf; first [apply ex_phases_ok|exact HN|reflexivity]).
  2:{ intros; simpl; lra. }
  rewrite (rop_base_val f e 0 ex_burn (mech_inv _ _ _ _) Hn), (rkcn_rev f e 0 ex_burn (mech_inv _ _ _ _) Hn eq_refl).
  rewrite HPf. unfold pdecl, d_sp, d_order. simpl. rewrite factor_pos by lra.
  pose proof (exp_pos (rev_reaction_delta f (fun _ : nat => 0) 0%nat * (1 / 1) - rx_dn ex_burn * 0)) as H1.
  assert (0 < BigNumber) as H2 by (unfold BigNumber; apply IZR_lt; reflexivity).
  pose proof (Rmin_glb_lt _ _ _ H1 H2) as H3.
  assert (0 < Rpower 1 2) as H4 by apply exp_pos. revert H3 H4.
  generalize (Rpower 1 2). match goal with |- context [Rmin ?a ?b] => generalize (Rmin a b) end. intros x y H3 H4 H.
  pose proof (Rmult_lt_0_compat _ _ H3 H4). nra.
Qed.
Print Assumptions C46_modify_reversibility_refuted.
