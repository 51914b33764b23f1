From Coquelicot Require Import Coquelicot.
From Coq Require Import Reals String List Bool Arith Lia Lra.
From Verif Require Import IdealGas.Proofs.
From Verif Require Import Base.Fp Base.Outcome Base.RSum Base.Map2 Units.Model Units.Proofs Surf.Model Surf.Spec Surf.Proofs Surf.ThermoProofs.
From Verif Require IdealGas.Spec IdealGas.DerivProofs IdealGas.AmountProofs.
Import ListNotations.
Local Open Scope list_scope.
Local Open Scope R_scope.

(* ---- Coverages ---- *)

(* Coverages set are reported normalised, negative ones counting as zero; the state set is consistent;
   nothing but the composition changes; a vector without positive sum is refused and changes nothing. *)
Theorem C41_set_coverages : forall mw sz, positive mw -> positive sz -> length sz = length mw ->
  forall s theta, surface (length mw) s -> length theta = length mw ->
  (0 < rsum (map2 Rdiv theta sz) -> exists s', setCoverages mw sz s theta = (Ok tt, s') /\ surface (length mw) s' /\ same_but_composition s s' /\
     (forall k, (k < length mw)%nat -> nth k (getCoverages sz s') 0 = share theta k) /\
     sum_n (fun k => nth k (getCoverages sz s') 0) (length mw) = 1 /\ sum_n (X s') (length mw) = 1) /\
  (rsum (map2 Rdiv theta sz) <= 0 -> setCoverages mw sz s theta = (Err, s)).
Proof.
  intros mw sz HM HS L s theta S LT. split.
  - intros P. destruct (setCov_X mw sz HM HS L s theta S LT P) as (s' & E & S' & B & CP & HX).
    set (c := sum_n (fun j => pos theta j / nth j sz 0) (length mw)) in *.
    pose proof (positive_part mw sz HS L theta LT P) as TP.
    assert (CV : forall k, (k < length mw)%nat -> nth k (getCoverages sz s') 0 = share theta k).
    { intros k HK. rewrite (cov_of_X mw sz HS L s' (pos theta) c S' CP HX eq_refl TP k HK). unfold share. rewrite LT. reflexivity. }
    exists s'. split; [exact E|]. split; [exact S'|]. split; [exact B|]. split; [exact CV|]. split.
    + rewrite (sum_n_ext _ (fun k => pos theta k * / sum_n (pos theta) (length mw))).
      * rewrite sum_n_scal_r. apply Rinv_r. lra.
      * intros k HK. rewrite CV by auto. unfold share. rewrite LT. reflexivity.
    + rewrite (sum_n_ext _ (fun j => pos theta j / nth j sz 0 * / c)) by (intros; rewrite HX by auto; reflexivity). rewrite sum_n_scal_r. apply Rinv_r. lra.
  - intros P. unfold setCoverages. rewrite (proj2 (rltb_false _ _) P). reflexivity.
Qed.
Print Assumptions C41_set_coverages.

(* Without normalisation the coverages read back are exactly those set, whatever their sum and signs;
   the phase holds in all the sum of the coverages times the site density. *)
Theorem C41_no_norm : forall mw sz, positive mw -> positive sz -> length sz = length mw ->
  forall s theta s', surface (length mw) s -> length theta = length mw -> setCoveragesNoNorm mw sz s theta = (Ok tt, s') ->
  surface (length mw) s' /\ same_but_composition s s' /\
  (forall k, (k < length mw)%nat -> nth k (getCoverages sz s') 0 = nth k theta 0) /\
  sum_n (X s') (length mw) = rsum theta /\ sum_n (C s') (length mw) = vN0 s * rsum theta.
Proof.
  intros mw sz HM HS L s theta s' S LT H. destruct (setCovNN mw sz HS L s theta s' S LT H) as (S' & B & CP & TN & HX).
  set (c := sum_n (fun j => nth j theta 0 / nth j sz 0) (length mw)) in *. set (t := sum_n (fun j => nth j theta 0) (length mw)) in *.
  assert (SX : sum_n (X s') (length mw) = t).
  { rewrite (sum_n_ext _ (fun j => nth j theta 0 / nth j sz 0 * (t / c))) by (intros k HK; rewrite HX by auto; pose proof (HS k ltac:(lia)); field; lra).
    rewrite sum_n_scal_r. fold c. field. lra. }
  assert (SS : sum_n (fun j => X s' j * nth j sz 0) (length mw) = t * t / c).
  { rewrite (sum_n_ext _ (fun j => nth j theta 0 * (t / c))) by (intros k HK; rewrite HX by auto; pose proof (HS k ltac:(lia)); field; lra).
    rewrite sum_n_scal_r. fold t. field. lra. }
  assert (RT : rsum theta = t) by (rewrite rsum_nth, LT; reflexivity).
  split; [auto|]. split; [auto|]. split; [|split].
  - intros k HK. rewrite (coverage_nth mw sz L) by auto. rewrite SX, SS, HX by auto. pose proof (HS k ltac:(lia)). field. lra.
  - rewrite RT. exact SX.
  - rewrite RT, <- SX, <- sum_n_scal. apply sum_n_ext. intros k HK. rewrite (C_X mw) by auto. destruct B as (_ & _ & -> & _). reflexivity.
Qed.
Print Assumptions C41_no_norm.

Lemma getValue_given cov n : getValue cov n 0 = given cov n.
Proof.
  unfold given. induction cov as [|[m v] cov IH]; [reflexivity|]. cbn [getValue find fst]. destruct (String.eqb m n); auto.
Qed.
(* By name: every species has the share of the value under its name, zero if it has none. *)
Theorem C41_by_name : forall mw sz, positive mw -> positive sz -> length sz = length mw ->
  forall names s cov, surface (length mw) s -> length names = length mw ->
  let c := map (given cov) names in
  ((exists k, (k < length mw)%nat /\ 0 < nth k c 0) -> exists s', setCoveragesByName mw sz names s cov = (Ok tt, s') /\ surface (length mw) s' /\
     same_but_composition s s' /\ forall k, (k < length mw)%nat -> nth k (getCoverages sz s') 0 = share c k) /\
  ((forall k, (k < length mw)%nat -> nth k c 0 <= 0) -> setCoveragesByName mw sz names s cov = (Err, s)).
Proof.
  intros mw sz HM HS L names s cov S LN c. assert (LC : length c = length mw) by (unfold c; rewrite map_length; auto). unfold setCoveragesByName.
  rewrite (map_ext _ (given cov) (getValue_given cov)). fold c. split.
  - intros (k0 & K0 & P0). assert (E : existsb (fun v => rltb 0 v) c = true).
    { apply existsb_exists. exists (nth k0 c 0). split; [apply nth_In; lia|apply rltb_true; auto]. }
    rewrite E. set (t := map (fun v => if rltb 0 v then v else 0) c). assert (LT : length t = length mw) by (unfold t; rewrite map_length; auto).
    assert (TN : forall k, (k < length mw)%nat -> nth k t 0 = Rmax (nth k c 0) 0).
    { intros k HK. unfold t. rewrite nth_map0 by lia. destruct (rltb 0 (nth k c 0)) eqn:Q; [apply rltb_true in Q; rewrite Rmax_left; lra|apply rltb_false in Q; rewrite Rmax_right; lra]. }
    destruct (proj1 (C41_set_coverages mw sz HM HS L s t S LT)) as (s' & E2 & S' & B & CV & _).
    { rewrite rsum_map2_nth by lia. rewrite L. apply sum_n_pos1 with k0; auto.
      - intros k HK. rewrite TN by auto. apply Rmult_le_pos; [apply Rmax_r|apply Rlt_le, Rinv_0_lt_compat, HS; lia].
      - rewrite TN by auto. rewrite Rmax_left by lra. apply Rdiv_lt_0_compat; auto. apply HS; lia. }
    exists s'. split; [exact E2|]. split; [exact S'|]. split; [exact B|]. intros k HK. rewrite CV by auto. unfold share. rewrite LT, LC.
    rewrite TN by auto. rewrite (Rmax_left (Rmax _ 0)) by apply Rmax_r. f_equal. apply sum_n_ext. intros j J. rewrite TN by auto. apply Rmax_left, Rmax_r.
  - intros N. assert (E : existsb (fun v => rltb 0 v) c = false).
    { destruct (existsb (fun v => rltb 0 v) c) eqn:E; auto. apply existsb_exists in E as (v & V & P). apply rltb_true in P. apply (In_nth _ _ 0) in V as (k & HK & <-).
      specialize (N k ltac:(lia)). lra. }
    rewrite E. reflexivity.
Qed.
Print Assumptions C41_by_name.

(* After any calls from construction on, if none that sets the composition or the site density has
   thrown, the surface density is that of the site density; setting density or concentrations is
   refused without effect. *)
Theorem C41_consistent : forall mw sz, positive mw -> positive sz -> length sz = length mw -> (0 < length mw)%nat ->
  forall t h l s, Forall (fits (length mw)) h -> calls mw sz (new_phase mw sz t) h = (l, s) ->
  (forall i o, nth_error h i = Some o -> writes o = true -> nth_error l i = Some (Ok tt)) ->
  surface (length mw) s /\ (forall k, (k < length mw)%nat -> C s k = vN0 s * X s k) /\
  (forall d c, setDensity s d = (Err, s) /\ setConcentrations s c = (Err, s)).
Proof.
  intros mw sz HM HS L KP t h l s F H W. destruct (new_surface mw sz HM HS L t KP) as [S0 _].
  pose proof (calls_surface mw sz HM HS L h _ _ _ S0 F H W) as S. split; [exact S|]. split; [intros; apply (C_X mw); auto|auto].
Qed.
Print Assumptions C41_consistent.

(* Changing the site density keeps mole fractions and coverages, scales the concentrations, and makes
   the logarithm of the standard concentration that of the standard concentration. *)
Theorem C41_site_density : forall mw sz : list R, positive sz -> length sz = length mw ->
  forall s n, surface (length mw) s ->
  (0 < n -> exists s', setSiteDensity s n = (Ok tt, s') /\ surface (length mw) s' /\ vN0 s' = n /\ vT s' = vT s /\ vP s' = vP s /\
     getMoleFractions s' = getMoleFractions s /\ getCoverages sz s' = getCoverages sz s /\
     (forall k, (k < length mw)%nat -> C s' k = n * X s k) /\
     (forall k, (k < length mw)%nat -> logStandardConc sz s' k = Ok (ln (standardConcentration sz s' k)))) /\
  (n <= 0 -> setSiteDensity s n = (Err, s)).
Proof.
  intros mw sz HS L s n S. split.
  - intros N. assert (Q : 0 < n * vW s) by (apply Rmult_lt_0_compat; auto; apply S).
    eexists. split; [unfold setSiteDensity, assignDensity; rewrite (proj2 (rltb_true _ _) N), (proj2 (rltb_true _ _) Q), (f_nan _ s S); cbn; reflexivity|].
    assert (S' : surface (length mw) (SST (vT s) n (Some (ln n)) (vYM s) (vW s) (n * vW s) (vP s) (vNaN s))).
    { destruct S as [A B C D E G]. split; cbn; auto. intros l E2. congruence. }
    rewrite (f_nan _ s S) in S'. split; [exact S'|]. do 5 (split; [reflexivity|]). split.
    + intros k HK. rewrite (C_X mw _ k S' HK). reflexivity.
    + intros k HK. unfold logStandardConc, standardConcentration. cbn. rewrite ln_quot; auto. apply HS. lia.
  - intros N. unfold setSiteDensity. rewrite (proj2 (rltb_false _ _) N). reflexivity.
Qed.
Print Assumptions C41_site_density.

(* A surface whose input gives no site density: the logarithm of the site density is read without ever
   having been written. *)
Theorem C41_log_site_density_refuted : forall mw sz, positive mw -> positive sz -> length sz = length mw -> (0 < length mw)%nat ->
  forall t hRT sR, let (r, s) := initThermo (new_phase mw sz t) None in
  r = Ok tt /\ surface (length mw) s /\ vN0 s = 1 /\ getChemPotentials sz hRT sR s = UB /\ logStandardConc sz s 0 = UB.
Proof.
  intros mw sz HM HS L KP t hRT sR. cbn [initThermo]. destruct (new_surface mw sz HM HS L t KP) as [S0 _].
  assert (V : vN0 (new_phase mw sz t) = 1 /\ vLogN0 (new_phase mw sz t) = None).
  { unfold new_phase. destruct mw as [|w ws] eqn:E; [cbn in KP; lia|]. rewrite <- E.
    unfold setCoverages, setMoleFractions, compositionChanged, with_comp, assignDensity. cbn [vNaN vN0 vW vLogN0].
    repeat match goal with |- context [if ?b then _ else _] => destruct b end; auto. }
  destruct V as [V1 V2]. unfold getChemPotentials, logStandardConc. rewrite V2. auto.
Qed.
Print Assumptions C41_log_site_density_refuted.

(* ---- Concentrations ---- *)

(* What the concentrations are in terms of the coverages, and that they are coverage times site density
   over size, with activity equal to the coverage, when every species present takes one site. *)
Theorem C41_concentrations : forall mw sz, positive mw -> positive sz -> length sz = length mw ->
  forall s, surface (length mw) s -> (forall k, (k < length mw)%nat -> 0 <= X s k) -> 0 < sum_n (X s) (length mw) ->
  let mean_size := sum_n (fun j => X s j * nth j sz 0) (length mw) / sum_n (X s) (length mw) in
  0 < mean_size /\
  (forall k, (k < length mw)%nat -> C s k = nth k (getCoverages sz s) 0 * vN0 s / nth k sz 0 * mean_size) /\
  ((forall k, (k < length mw)%nat -> X s k <> 0 -> nth k sz 0 = 1) -> forall k, (k < length mw)%nat ->
     C s k = nth k (getCoverages sz s) 0 * vN0 s / nth k sz 0 /\
     C s k / standardConcentration sz s k = nth k (getCoverages sz s) 0).
Proof.
  intros mw sz HM HS L s S XN XP mean_size.
  destruct (sum_n_pos_inv _ _ XP) as (k0 & K0 & P0).
  assert (SP : 0 < sum_n (fun j => X s j * nth j sz 0) (length mw)).
  { apply sum_n_pos1 with k0; auto; [intros k HK; apply Rmult_le_pos; auto; apply Rlt_le, HS; lia|apply Rmult_lt_0_compat; auto; apply HS; lia]. }
  assert (F : forall k, (k < length mw)%nat -> C s k = nth k (getCoverages sz s) 0 * vN0 s / nth k sz 0 * mean_size).
  { intros k HK. rewrite (C_X mw) by auto. rewrite (coverage_nth mw sz L) by auto. unfold mean_size. pose proof (HS k ltac:(lia)). field. lra. }
  split; [apply Rdiv_lt_0_compat; auto|]. split; [exact F|]. intros U k HK.
  assert (M : mean_size = 1).
  { unfold mean_size. rewrite (sum_n_ext (fun j => X s j * nth j sz 0) (X s)); [field; lra|]. intros j J.
    destruct (Req_dec (X s j) 0) as [E|E]; [rewrite E; ring|rewrite U; auto; ring]. }
  specialize (F k HK). rewrite M, Rmult_1_r in F. split; [exact F|]. rewrite F. unfold standardConcentration, size. pose proof (HS k ltac:(lia)). pose proof (f_n0 _ s S). field. lra.
Qed.
Print Assumptions C41_concentrations.

(* With a species on two sites the documented relation C = theta n0 / size fails: coverages one half
   each, and the sites taken are not the sites there are. *)
Theorem C41_concentrations_refuted : exists mw sz s s', positive mw /\ positive sz /\ surface 2 s /\
  length mw = 2%nat /\ length sz = 2%nat /\ setCoverages mw sz s [1 / 2; 1 / 2] = (Ok tt, s') /\
  nth 0 (getCoverages sz s') 0 = 1 / 2 /\ nth 1 (getCoverages sz s') 0 = 1 / 2 /\
  C s' 0 <> nth 0 (getCoverages sz s') 0 * vN0 s' / nth 0 sz 0 /\
  C s' 0 / standardConcentration sz s' 0 <> nth 0 (getCoverages sz s') 0 /\
  sum_n (fun k => C s' k * nth k sz 0) 2 <> vN0 s'.
Proof.
  set (mw := [1; 1]). set (sz := [1; 2]). set (s := new_phase mw sz 300).
  assert (HM : positive mw) by (intros [|[|k]] H; cbn in *; try lra; lia).
  assert (HS : positive sz) by (intros [|[|k]] H; cbn in *; try lra; lia).
  destruct (new_surface mw sz HM HS eq_refl 300 ltac:(cbn; lia)) as [S _].
  destruct (setCov_X mw sz HM HS eq_refl s [1 / 2; 1 / 2] S eq_refl) as (s' & E & S' & B & CP & HX); [cbn; lra|].
  assert (VC : sum_n (fun j => pos [1 / 2; 1 / 2] j / nth j sz 0) (length mw) = 3 / 4).
  { unfold RSum.sum_n, sum_of, rsum, pos, mw, sz; cbn. rewrite !Rmax_left by lra. lra. }
  rewrite VC in HX. pose proof (HX 0%nat ltac:(cbn; lia)) as X0. pose proof (HX 1%nat ltac:(cbn; lia)) as X1. unfold pos, sz in X0, X1. cbn in X0, X1. rewrite Rmax_left in X0, X1 by lra.
  exists mw, sz, s, s'. split; [exact HM|]. split; [exact HS|]. split; [exact S|]. split; [reflexivity|]. split; [reflexivity|]. split; [exact E|].
  repeat match goal with |- _ /\ _ => split end.
  all: try rewrite (coverage_nth mw sz eq_refl s' 0 S') by (cbn; lia); try rewrite (coverage_nth mw sz eq_refl s' 1 S') by (cbn; lia).
  all: try rewrite (C_X mw s' 0 S') by (cbn; lia).
  all: pose proof (f_n0 _ s' S') as N0; unfold standardConcentration, size.
  - unfold RSum.sum_n, sum_of, rsum, sz; cbn. rewrite X0, X1. field.
  - unfold RSum.sum_n, sum_of, rsum, sz; cbn. rewrite X0, X1. field.
  - unfold RSum.sum_n, sum_of, rsum, sz; cbn. rewrite X0, X1. intros H. lra.
  - unfold RSum.sum_n, sum_of, rsum, sz; cbn. rewrite X0, X1. intros H. assert (Q : vN0 s' * (1 / 2 / 1 / (3 / 4)) / (vN0 s' / 1) = 2 / 3) by (field; lra). rewrite Q in H. lra.
  - unfold RSum.sum_n, sum_of, rsum; cbn [seq map fold_right]. rewrite (C_X mw s' 0 S'), (C_X mw s' 1 S') by (cbn; lia). unfold sz; cbn. rewrite X0, X1. intros H. lra.
Qed.
Print Assumptions C41_concentrations_refuted.

(* ---- Thermodynamic properties ---- *)

(* ready: consistent, mole fractions adding up to one, no traces. *)
Theorem C41_molar : forall mw sz cpR hRT sR s, positive mw -> positive sz -> length sz = length mw -> ready mw sz s ->
  let mixed q := sum_n (fun k => X s k * nth k q 0) (length mw) in
  enthalpy_mole hRT s = mixed (getPartialMolarEnthalpies hRT s) /\
  intEnergy_mole hRT s = enthalpy_mole hRT s /\
  entropy_mole sz sR s = mixed (values (getPartialMolarEntropies sz sR s)) /\
  cp_mole cpR s = mixed (getPartialMolarCp cpR s) /\
  gibbs_mole sz hRT sR s = Ok (enthalpy_mole hRT s - vT s * entropy_mole sz sR s) /\
  gibbs_mole sz hRT sR s = Ok (mixed (values (getChemPotentials sz hRT sR s))) /\
  (forall k, (k < length mw)%nat -> X s k <> 0 -> nth k (values (getChemPotentials sz hRT sR s)) 0 =
     nth k (mu0 hRT sR s) 0 + GasConstant * vT s * ln (C s k / standardConcentration sz s k)).
Proof.
  intros mw sz cpR hRT sR s HM HS L R mixed. pose proof (r_surf mw sz s R) as S. repeat split.
  - apply enthalpy_sum; auto. apply R.
  - apply entropy_sum; auto.
  - apply cp_sum; auto.
  - apply (gibbs_hTs mw sz HS L); auto.
  - unfold gibbs_mole. rewrite (chem_eq mw sz) by auto. cbn [omap obind values]. f_equal. rewrite (mean_sum mw) by auto. apply sum_n_ext. intros k HK.
    rewrite nth_map_seq by (rewrite (kkK mw s S); auto). reflexivity.
  - intros k HK NX. rewrite (chem_nth mw sz HS L) by auto. f_equal. f_equal. f_equal. rewrite (C_X mw) by auto. unfold standardConcentration, size.
    pose proof (HS k ltac:(lia)). pose proof (f_n0 _ s S). field. lra.
Qed.
Print Assumptions C41_molar.

Theorem C41_derivatives : forall mw sz cpR hRT sR s T, positive mw -> positive sz -> length sz = length mw -> ready mw sz s -> 0 < T ->
  species_ok cpR hRT sR T ->
  is_derive (fun t => enthalpy_mole hRT (at_T s t)) T (cp_mole cpR (at_T s T)) /\
  is_derive (fun t => entropy_mole sz sR (at_T s t)) T (cp_mole cpR (at_T s T) / T) /\
  is_derive (fun t => value (gibbs_mole sz hRT sR (at_T s t))) T (- entropy_mole sz sR (at_T s T)) /\
  setTemperature s T = (Ok tt, at_T s T).
Proof.
  intros mw sz cpR hRT sR s T HM HS L R HT H. repeat match goal with |- _ /\ _ => split end.
  - exact (deriv_h mw sz cpR hRT sR s T R H).
  - exact (deriv_s mw sz cpR hRT sR s T R HT H).
  - exact (deriv_g mw sz HS L cpR hRT sR s T R HT H).
  - unfold setTemperature. rewrite (proj2 (rltb_true _ _) HT). reflexivity.
Qed.
Print Assumptions C41_derivatives.

(* Partial molar properties are derivatives of the property of the whole surface with respect to the
   amount of the species, at the given site density. *)
Theorem C41_partial_molar : forall mw sz hRT sR s n k, positive mw -> positive sz -> length sz = length mw ->
  surface (length mw) s -> 0 < vT s -> vLogN0 s = Some (ln (vN0 s)) -> (k < length mw)%nat -> surf_amounts_ok mw sz s n ->
  let whole (q : sst -> R) x := total mw (with_amount n k x) * q (with_moles mw s (with_amount n k x)) in
  let s' := with_moles mw s n in
  is_derive (whole (enthalpy_mole hRT)) (n k) (nth k (getPartialMolarEnthalpies hRT s') 0) /\
  is_derive (whole (entropy_mole sz sR)) (n k) (nth k (values (getPartialMolarEntropies sz sR s')) 0) /\
  is_derive (whole (fun s => value (gibbs_mole sz hRT sR s))) (n k) (nth k (values (getChemPotentials sz hRT sR s')) 0).
Proof.
  intros mw sz hRT sR s n k HM HS L S T LG HK A whole s'. unfold whole, s'. repeat match goal with |- _ /\ _ => split end.
  - apply amount_h with (sz := sz); auto.
  - apply amount_s; auto.
  - apply amount_g; auto.
Qed.
Print Assumptions C41_partial_molar.

(* ---- Reactors ---- *)

(* The coverages of a surface in a reactor keep their sum, whatever the production rates; and the first
   coverage, taken by difference, changes at its own production rate up to the tolerance with which
   sites are balanced in the reactions accepted. *)
Theorem C41_reactor : forall n0 sz, 0 < n0 -> (0 < length sz)%nat -> positive sz ->
  (forall sdot, sum_n (fun k => nth k (coverage_rates n0 sz sdot) 0) (length sz) = 0) /\
  (forall sdot k, (0 < k < length sz)%nat -> nth k (coverage_rates n0 sz sdot) 0 = nth k sdot 0 * nth k sz 0 / n0) /\
  (forall (theta : R -> nat -> R) (sdot : R -> list R) a b, a <= b ->
     (forall t k, a <= t <= b -> (k < length sz)%nat -> is_derive (fun u => theta u k) t (nth k (coverage_rates n0 sz (sdot t)) 0)) ->
     sum_n (theta b) (length sz) = sum_n (theta a) (length sz)) /\
  (forall rxns q, length q = length rxns ->
     (forall r, In r rxns -> length (fst r) = length sz /\ length (snd r) = length sz /\ site_check sz (fst r) (snd r) = Ok tt) ->
     let sdot := net_rates (length sz) rxns q in
     Rabs (nth 0 (coverage_rates n0 sz sdot) 0 - nth 0 sdot 0 * nth 0 sz 0 / n0) <=
     1 / 100000 / n0 * rsum (map2 (fun r v => (sites sz (fst r) + sites sz (snd r)) * Rabs v) rxns q)).
Proof.
  intros n0 sz N0 KP HS.
  assert (CR : forall sdot, coverage_rates n0 sz sdot = - rsum (map (fun k => nth k sdot 0 * (1 / n0) * nth k sz 0) (seq 1 (length sz - 1))) :: map (fun k => nth k sdot 0 * (1 / n0) * nth k sz 0) (seq 1 (length sz - 1))).
  { intros. unfold coverage_rates. destruct sz; [cbn in KP; lia|reflexivity]. }
  assert (REST : forall sdot k, (0 < k < length sz)%nat -> nth k (coverage_rates n0 sz sdot) 0 = nth k sdot 0 * nth k sz 0 / n0).
  { intros sdot k HK. rewrite CR. destruct k as [|k]; [lia|]. cbn [nth].
    rewrite (nth_indep _ 0 ((fun k => nth k sdot 0 * (1 / n0) * nth k sz 0) 0%nat)) by (rewrite map_length, seq_length; lia).
    rewrite (map_nth (fun k => nth k sdot 0 * (1 / n0) * nth k sz 0)). rewrite seq_nth by lia. cbn [Nat.add]. field. lra. }
  assert (SHIFT : forall f, sum_n f (length sz) = f 0%nat + rsum (map f (seq 1 (length sz - 1)))).
  { intros f. unfold RSum.sum_n, sum_of. destruct (length sz) as [|m]; [lia|]. cbn [seq map]. replace (S m - 1)%nat with m by lia. reflexivity. }
  assert (ZERO : forall sdot, sum_n (fun k => nth k (coverage_rates n0 sz sdot) 0) (length sz) = 0).
  { intros sdot. rewrite SHIFT.
    rewrite (map_ext_in _ (fun k => nth k sdot 0 * (1 / n0) * nth k sz 0)).
    - rewrite CR. cbn [nth]. lra.
    - intros k IK. apply in_seq in IK. rewrite REST by lia. field. lra. }
  split; [exact ZERO|]. split; [exact REST|]. split.
  - intros theta sdot a b AB H. destruct AB as [AB| ->]; [|reflexivity]. symmetry.
    apply (eq_is_derive (fun t => sum_n (theta t) (length sz))); [|exact AB]. intros t T. change (is_derive (fun t => sum_n (theta t) (length sz)) t 0).
    rewrite <- (ZERO (sdot t)). apply (IdealGas.DerivProofs.is_derive_sum_n (fun k u => theta u k)). intros k HK. apply H; auto.
  - intros rxns q LQ CK sdot.
    assert (F : nth 0 (coverage_rates n0 sz sdot) 0 - nth 0 sdot 0 * nth 0 sz 0 / n0 = - (1 / n0) * sum_n (fun k => nth k sdot 0 * nth k sz 0) (length sz)).
    { rewrite CR. cbn [nth]. rewrite SHIFT. transitivity (- (1 / n0) * (nth 0 sdot 0 * nth 0 sz 0) - 1 / n0 * rsum (map (fun k => nth k sdot 0 * nth k sz 0) (seq 1 (length sz - 1)))); [|ring].
      fold (sum_of (fun k => nth k sdot 0 * (1 / n0) * nth k sz 0) (seq 1 (length sz - 1))). fold (sum_of (fun k => nth k sdot 0 * nth k sz 0) (seq 1 (length sz - 1))).
      rewrite <- sum_of_scal. rewrite (sum_of_ext (fun k => nth k sdot 0 * (1 / n0) * nth k sz 0) (fun k => 1 / n0 * (nth k sdot 0 * nth k sz 0))) by (intros; ring). field. lra. }
    assert (G : sum_n (fun k => nth k sdot 0 * nth k sz 0) (length sz) = rsum (map2 (fun r v => (sites sz (snd r) - sites sz (fst r)) * v) rxns q)).
    { rewrite (sum_n_ext _ (fun k => rsum (map2 (fun r v => (nth k (snd r) 0 - nth k (fst r) 0) * v) rxns q) * nth k sz 0)).
      2:{ intros k HK. unfold sdot, net_rates. rewrite nth_map_seq by auto. reflexivity. }
      clear F. revert q LQ sdot. induction rxns as [|r rs IH]; intros [|v q] LQ sdot; cbn in LQ; try discriminate.
      - cbn. rewrite (sum_n_ext _ (fun _ => 0 * 0)) by (intros; unfold rsum; cbn; ring). rewrite sum_n_scal. unfold rsum; cbn. ring.
      - cbn [map2]. change (rsum (((sites sz (snd r) - sites sz (fst r)) * v) :: ?l)) with ((sites sz (snd r) - sites sz (fst r)) * v + rsum l).
        rewrite (sum_n_ext _ (fun k => (nth k (snd r) 0 * nth k sz 0 - nth k (fst r) 0 * nth k sz 0) * v + rsum (map2 (fun r v => (nth k (snd r) 0 - nth k (fst r) 0) * v) rs q) * nth k sz 0)) by (intros; unfold rsum; cbn; ring).
        rewrite sum_n_plus, sum_n_scal_r, sum_n_minus. destruct (CK r (or_introl eq_refl)) as (L1 & L2 & _).
        rewrite IH; [|intros; apply CK; right; auto|lia]. unfold sites. rewrite !rsum_map2_nth by auto. reflexivity. }
    rewrite F, G, Rabs_mult, Rabs_Ropp, (Rabs_right (1 / n0)) by (apply Rle_ge, Rlt_le, Rdiv_lt_0_compat; lra).
    replace (1 / 100000 / n0 * rsum (map2 (fun r v => (sites sz (fst r) + sites sz (snd r)) * Rabs v) rxns q))
      with (1 / n0 * (1 / 100000 * rsum (map2 (fun r v => (sites sz (fst r) + sites sz (snd r)) * Rabs v) rxns q))) by (field; lra).
    apply Rmult_le_compat_l; [apply Rlt_le, Rdiv_lt_0_compat; lra|]. clear F G sdot. revert q LQ. induction rxns as [|r rs IH]; intros [|v q] LQ; cbn in LQ; try discriminate.
    + cbn. rewrite Rabs_R0. lra.
    + cbn [map2]. assert (RS : forall a l, rsum (a :: l) = a + rsum l) by reflexivity. rewrite !RS.
      specialize (IH (fun r I => CK r (or_intror I)) q ltac:(lia)). destruct (CK r (or_introl eq_refl)) as (_ & _ & SC).
      unfold site_check in SC. destruct (rltb _ _) eqn:Q in SC; [discriminate|]. apply rltb_false in Q.
      eapply Rle_trans; [apply Rabs_triang|]. rewrite Rmult_plus_distr_l. apply Rplus_le_compat; [|exact IH].
      rewrite Rabs_mult, Rabs_minus_sym. rewrite <- Rmult_assoc. apply Rmult_le_compat_r; [apply Rabs_pos|exact Q].
Qed.
Print Assumptions C41_reactor.

(* ---- The hypotheses hold ---- *)

(* Free sites, an atom on one site and a molecule on two. *)
Definition ex_mw : list R := [195; 196; 227].
Definition ex_sz : list R := [1; 1; 2].
Definition ex_history : list sop := [SiteDensity (1 / 100000); Temperature 500; Coverages [1 / 2; 1 / 4; 1 / 4]; Pressure 100000; Density 3; CoveragesNoNorm [1 / 2; 1 / 4; 1 / 2]].
Example C41_history_example : positive ex_mw /\ positive ex_sz /\ Forall (fits 3) ex_history /\
  fst (calls ex_mw ex_sz (new_phase ex_mw ex_sz 300) ex_history) = [Ok tt; Ok tt; Ok tt; Ok tt; Err; Ok tt].
Proof.
  assert (HM : positive ex_mw) by (intros [|[|[|k]]] H; cbn in *; try lra; lia).
  assert (HS : positive ex_sz) by (intros [|[|[|k]]] H; cbn in *; try lra; lia).
  split; [exact HM|]. split; [exact HS|]. split; [repeat constructor|].
  destruct (new_surface ex_mw ex_sz HM HS eq_refl 300 ltac:(cbn; lia)) as [S0 _]. revert S0. generalize (new_phase ex_mw ex_sz 300). intros s0 S0.
  unfold ex_history. cbn [calls sstep].
  destruct (proj1 (C41_site_density ex_mw ex_sz HS eq_refl s0 (1 / 100000) S0)) as (s1 & E1 & S1 & _); [lra|]. rewrite E1.
  unfold setTemperature. rewrite (proj2 (rltb_true 0 500)) by lra.
  assert (S2 : surface 3 (SST 500 (vN0 s1) (vLogN0 s1) (vYM s1) (vW s1) (vD s1) (vP s1) (vNaN s1))) by (destruct S1; split; auto).
  revert S2. generalize (SST 500 (vN0 s1) (vLogN0 s1) (vYM s1) (vW s1) (vD s1) (vP s1) (vNaN s1)). intros s2 S2.
  destruct (proj1 (C41_set_coverages ex_mw ex_sz HM HS eq_refl s2 [1 / 2; 1 / 4; 1 / 4] S2 eq_refl)) as (s3 & E3 & S3 & _); [cbn; lra|]. rewrite E3.
  cbn [setPressure]. unfold setDensity.
  set (s4 := SST (vT s3) _ _ _ _ _ _ _).
  assert (S4 : surface 3 s4) by (destruct S3; split; auto). clearbody s4.
  assert (E5 : fst (setCoveragesNoNorm ex_mw ex_sz s4 [1 / 2; 1 / 4; 1 / 2]) = Ok tt).
  { unfold setCoveragesNoNorm. rewrite (proj2 (rltb_true _ _)) by (cbn; lra).
    unfold setMoleFractions_NoNorm, compositionChanged, with_comp, assignDensity. cbn [vNaN vN0 vW].
    set (m := rsum (map2 Rmult _ ex_mw)). assert (MP : 0 < m) by (unfold m, ex_mw, ex_sz; cbn; lra).
    rewrite (proj2 (reqb_false m 0)) by lra. rewrite (proj2 (rltb_true _ _)) by (apply Rmult_lt_0_compat; auto; apply S4). reflexivity. }
  destruct (setCoveragesNoNorm ex_mw ex_sz s4 _) as [r s5]. cbn in E5 |- *. rewrite E5. reflexivity.
Qed.
(* Dissociative adsorption O2(2 sites) => 2 O(s): sites balance. *)
Example C41_sites_example : site_check ex_sz [0; 0; 1] [0; 2; 0] = Ok tt /\ site_check ex_sz [0; 0; 1] [0; 1; 0] = Err.
Proof.
  unfold site_check, sites, ex_sz. cbn. split.
  - rewrite (proj2 (rltb_false _ _)); [reflexivity|]. rewrite Rabs_right by lra. lra.
  - rewrite (proj2 (rltb_true _ _)); [reflexivity|]. rewrite Rabs_right by lra. lra.
Qed.
Example C41_ready_example : exists s, ready ex_mw ex_sz s /\ X s 2 = 1 / 4.
Proof.
  assert (HM : positive ex_mw) by (intros [|[|[|k]]] H; cbn in *; try lra; lia).
  assert (HS : positive ex_sz) by (intros [|[|[|k]]] H; cbn in *; try lra; lia).
  destruct (new_surface ex_mw ex_sz HM HS eq_refl 300 ltac:(cbn; lia)) as [S0 _].
  assert (T0 : vT (new_phase ex_mw ex_sz 300) = 300).
  { unfold new_phase, ex_mw. unfold setCoverages, setMoleFractions, compositionChanged, with_comp, assignDensity. cbn [vNaN vN0 vW vT].
    repeat match goal with |- context [if ?b then _ else _] => destruct b end; reflexivity. }
  revert S0 T0. generalize (new_phase ex_mw ex_sz 300). intros s0 S0 T0.
  destruct (proj1 (C41_site_density ex_mw ex_sz HS eq_refl s0 1 S0)) as (s1 & E1 & S1 & N1 & T1 & _); [lra|].
  assert (L1 : vLogN0 s1 = Some (ln (vN0 s1))).
  { unfold setSiteDensity, assignDensity in E1. rewrite (proj2 (rltb_true 0 1)) in E1 by lra. cbn in E1.
    destruct (rltb 0 (1 * vW s0)); cbn in E1; [|discriminate E1]. rewrite (f_nan _ _ S0) in E1. injection E1 as <-. reflexivity. }
  assert (SM : forall x, 1 / 1000 <= x -> SmallNumber < x).
  { intros x H. apply Rlt_le_trans with (1 / 1000); auto. unfold SmallNumber. cbn [powerRZ]. assert (10 ^ 4 <= 10 ^ Pos.to_nat 300) by (apply Rle_pow; [lra|lia]).
    apply Rle_lt_trans with (/ 10 ^ 4); [apply Rinv_le_contravar; [apply pow_lt; lra|auto]|]. cbn. lra. }
  assert (A : surf_amounts_ok ex_mw ex_sz s1 (fun k => match k with O => 2 | _ => 1 end)).
  { intros j J. rewrite N1. unfold IdealGas.Spec.total, RSum.sum_n, sum_of, rsum. cbn in J |- *. destruct j as [|[|[|j]]]; [| | |lia]; cbn; (split; [lra|split; apply SM; lra]). }
  destruct (with_moles_ready ex_mw ex_sz HM eq_refl s1 S1 ltac:(rewrite T1, T0; lra) L1 _ ltac:(cbn; lia) A) as (R & _ & _ & XX).
  exists (with_moles ex_mw s1 (fun k => match k with O => 2 | _ => 1 end)). split; [exact R|]. rewrite XX by (cbn; lia).
  unfold IdealGas.Spec.total, RSum.sum_n, sum_of, rsum. cbn. lra.
Qed.
