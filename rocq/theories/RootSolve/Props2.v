(** Setting the pressure of a real gas: theorems about densityCalc and setPressure. *)
From Coq Require Import Reals ZArith Bool Lra Lia.
From Verif Require Import Base.Fp Units.Model Excess.Proofs Cubic.Model RootSolve.Model RootSolve.Spec
  RootSolve.Proofs RootSolve.Props.
Open Scope R_scope.

Local Ltac rt H := let E := fresh in assert (E : H = true) by (apply rltb_true; lra); rewrite E; clear E.
Local Ltac rf H := let E := fresh in assert (E : H = false) by (apply rltb_false; lra); rewrite E; clear E.

(** The coefficients of the polynomials, written out. *)
Definition pr_b (T p b : R) : R := b - GasConstant * T / p.
Definition pr_c (T p b a : R) : R := a / p - 2 * (GasConstant * T / p) * b - 3 * b ^ 2.
Definition pr_d (T p b a : R) : R := b ^ 2 * (GasConstant * T / p) + b ^ 3 - a / p * b.
Definition rk_b (T p : R) : R := - (GasConstant * T / p).
Definition rk_c (T p b a : R) : R := a / (p * sqrt T) - GasConstant * T / p * b - b ^ 2.
Definition rk_d (T p b a : R) : R := - (a / (p * sqrt T) * b).
(** B and the A that the solver compares with its bounds for a nearly ideal gas. *)
Definition z_B (T p b : R) : R := p * b / (GasConstant * T).
Definition z_A (T p a : R) : R := a / (GasConstant * T) * p / (GasConstant * T).

Lemma pr_solve_eq T p a b aA : exists tc vc,
  pr_solve T p a b aA = solve_cubic T p b aA (pr_b T p b) (pr_c T p b aA) (pr_d T p b aA) tc vc.
Proof.
  unfold pr_solve, pr_cubic. do 2 eexists. f_equal; unfold pr_c, pr_d, Rdiv; ring.
Qed.
Lemma rk_solve_eq T p a b : exists tc vc,
  rk_solve T p a b = solve_cubic T p b a (rk_b T p) (rk_c T p b a) (rk_d T p b a) tc vc.
Proof.
  unfold rk_solve, rk_cubic. do 2 eexists. f_equal; unfold rk_b, rk_c, rk_d, Rdiv; ring.
Qed.

(** The roots are the volumes at which the law gives the pressure. *)
Lemma pr_root_law T p b a v : 0 < T -> 0 < p -> 0 < b -> a <> 0 ->
  (root (pr_b T p b) (pr_c T p b a) (pr_d T p b a) v
   <-> v <> b /\ v * v + 2 * v * b - b * b <> 0 /\ pr_law T v a b = p).
Proof.
  intros HT Hp Hb Ha. pose proof R_pos as HR.
  assert (HRT : 0 < GasConstant * T) by (apply Rmult_lt_0_compat; assumption).
  assert (E : p * cubic (pr_b T p b) (pr_c T p b a) (pr_d T p b a) v
     = p * (v - b) * (v * v + 2 * v * b - b * b) - GasConstant * T * (v * v + 2 * v * b - b * b) + a * (v - b)).
  { unfold cubic, pr_b, pr_c, pr_d. field. lra. }
  unfold root. set (K := cubic _ _ _ v) in *. set (RT := GasConstant * T) in *. split.
  - intros HK. rewrite HK, Rmult_0_r in E.
    assert (Hv : v <> b).
    { intros ->. replace (b * b + 2 * b * b - b * b) with (2 * (b * b)) in E by ring.
      rewrite Rminus_eq_0 in E. assert (0 < RT * (b * b)) by (apply Rmult_lt_0_compat; nra). lra. }
    assert (Hd : v * v + 2 * v * b - b * b <> 0).
    { intros Hd. rewrite Hd in E. assert (E2 : a * (v - b) = 0) by lra.
      apply Rmult_integral in E2. destruct E2; lra. }
    split; [exact Hv|]. split; [exact Hd|]. unfold pr_law. fold RT.
    assert (Hvb : v - b <> 0) by lra. set (de := v * v + 2 * v * b - b * b) in *.
    apply (Rmult_eq_reg_r ((v - b) * de)); [|now apply Rmult_integral_contrapositive].
    transitivity (RT * de - a * (v - b)); [field; tauto|lra].
  - intros (Hv & Hd & HL). unfold pr_law in HL. fold RT in HL.
    assert (Hvb : v - b <> 0) by lra. set (de := v * v + 2 * v * b - b * b) in *.
    assert (E2 : p * (v - b) * de = RT * de - a * (v - b)) by (rewrite <- HL; field; tauto).
    assert (E3 : p * K = 0) by lra. apply Rmult_integral in E3. destruct E3; lra.
Qed.
Lemma rk_root_law T p b a v : 0 < T -> 0 < p -> 0 < b -> a <> 0 ->
  (root (rk_b T p) (rk_c T p b a) (rk_d T p b a) v
   <-> v <> b /\ v <> 0 /\ v + b <> 0 /\ rk_law T v a b = p).
Proof.
  intros HT Hp Hb Ha. pose proof R_pos as HR.
  assert (HRT : 0 < GasConstant * T) by (apply Rmult_lt_0_compat; assumption).
  assert (Hs : 0 < sqrt T) by (now apply sqrt_lt_R0).
  assert (E : p * cubic (rk_b T p) (rk_c T p b a) (rk_d T p b a) v
     = p * (v - b) * (v * (v + b)) - GasConstant * T * (v * (v + b)) + a / sqrt T * (v - b)).
  { unfold cubic, rk_b, rk_c, rk_d. field. lra. }
  assert (Has : a / sqrt T <> 0).
  { unfold Rdiv. apply Rmult_integral_contrapositive. split; [assumption|]. apply Rinv_neq_0_compat. lra. }
  unfold root. set (K := cubic _ _ _ v) in *. set (RT := GasConstant * T) in *.
  unfold rk_law. fold RT.
  replace (a / (sqrt T * v * (v + b))) with (a / sqrt T / (v * (v + b))).
  2:{ unfold Rdiv. rewrite !Rinv_mult. ring. }
  set (q := a / sqrt T) in *. split.
  - intros HK. rewrite HK, Rmult_0_r in E.
    assert (Hv : v <> b).
    { intros ->. rewrite Rminus_eq_0 in E. assert (0 < RT * (b * (b + b))) by (apply Rmult_lt_0_compat; nra). lra. }
    assert (Hd : v * (v + b) <> 0).
    { intros Hd. rewrite Hd in E. assert (E2 : q * (v - b) = 0) by lra.
      apply Rmult_integral in E2. destruct E2; lra. }
    split; [exact Hv|]. split; [intros ->; apply Hd; ring|].
    split; [intros K0; apply Hd; rewrite K0; ring|].
    assert (Hvb : v - b <> 0) by lra. set (de := v * (v + b)) in *.
    apply (Rmult_eq_reg_r ((v - b) * de)); [|now apply Rmult_integral_contrapositive].
    transitivity (RT * de - q * (v - b)); [field; tauto|lra].
  - intros (Hv & Hv0 & Hvp & HL). assert (Hvb : v - b <> 0) by lra.
    assert (Hd : v * (v + b) <> 0) by (apply Rmult_integral_contrapositive; tauto).
    set (de := v * (v + b)) in *.
    assert (E2 : p * (v - b) * de = RT * de - q * (v - b)) by (rewrite <- HL; field; tauto).
    assert (E3 : p * K = 0) by lra. apply Rmult_integral in E3. destruct E3; lra.
Qed.

(** With well separated roots every number the solver hands out is a root. *)
Lemma clear_roots T p b aA bn cn dn tc vc : 0 < T ->
  ~ nearly_ideal bn cn (z_B T p b) (z_A T p aA) -> clear bn cn dn ->
  exists n v0 v1 v2, solve_cubic T p b aA bn cn dn tc vc = SRoots n (Some v0) (Some v1) (Some v2)
    /\ ((n = 3%Z /\ v0 < v1 < v2 /\ forall v, root bn cn dn v <-> v = v0 \/ v = v1 \/ v = v2)
        \/ ((n = 1%Z \/ n = (-1)%Z) /\ forall v, root bn cn dn v <-> v = v0)).
Proof.
  intros HT Hn Hc.
  destruct (Rtotal_order (discriminant bn cn dn) 0) as [H|[H|H]].
  - destruct (C68_one T p b aA bn cn dn tc vc HT Hn Hc H) as (n & v0 & E & R & En).
    exists n, v0, 0, 0. split; [exact E|]. right. split; [|exact R].
    destruct (Rlt_dec v0 _) in En; tauto.
  - exfalso. destruct Hc as [_ Hc]. rewrite H in Hc. unfold Rdiv in Hc. rewrite Rmult_0_l, Rabs_R0 in Hc.
    assert (0 < / 10 ^ 14) by (apply Rinv_0_lt_compat, pow_lt; lra). lra.
  - destruct (C68_three T p b aA bn cn dn tc vc HT Hn Hc H) as (v0 & v1 & v2 & E & O & R).
    exists 3%Z, v0, v1, v2. split; [exact E|]. left. tauto.
Qed.
(** Whatever densityCalc returns is the density at a root, or -2. *)
Lemma density_root solve liq T tcrit mmw p ph r n v0 v1 v2 rho :
  r <> -1 -> solve p = SRoots n (Some v0) (Some v1) (Some v2) -> 
  (n = 3%Z \/ n = 1%Z \/ n = (-1)%Z) ->
  density_calc solve liq T tcrit mmw p ph r = DRet (DNum rho) -> 0 < rho ->
  rho = mmw / v0 \/ (n = 3%Z /\ rho = mmw / v2).
Proof.
  intros Hr Hs Hn. unfold density_calc.
  assert (E : reqb r (-1) = false) by (now apply reqb_false). rewrite E, Hs.
  assert (O : forall v, DRet (over mmw (Some v)) = DRet (DNum rho) -> rho = mmw / v).
  { intros v. unfold over. destruct (reqb v 0); [discriminate|]. intros H. now injection H. }
  assert (M : forall k, k < 0 -> DRet (DNum k) = DRet (DNum rho) -> 0 < rho -> False).
  { intros k Hk H. injection H as ->. lra. }
  destruct Hn as [->|[->| ->]]; cbn [Z.leb Z.eqb Z.compare Pos.compare Pos.compare_cont Pos.eqb].
  - destruct (Z.leb FLUID_LIQUID_0 ph); [intros H _; left; now apply O|].
    destruct (_ || _)%bool; [intros H _; right; split; [reflexivity|now apply O]|].
    destruct (rltb v1 _); intros H _; [right; split; [reflexivity|now apply O]|left; now apply O].
  - destruct (_ || _)%bool; intros H Hp; [left; now apply O|]. exfalso. apply (M (-2)); [lra|exact H|exact Hp].
  - destruct (_ || _)%bool; [intros H _; left; now apply O|].
    destruct (rltb tcrit T); intros H Hp; [left; now apply O|]. exfalso. apply (M (-2)); [lra|exact H|exact Hp].
Qed.

(* If setting the pressure succeeds, with no branch forced, the phase then has the pressure that was
   asked for. *)
Section Pressure.
Context (liq : R -> option (option R * R)) (a b aA tcrit mmw T : R) (ps : dval -> Z).
Context (HT : 0 < T) (Hb : 0 < b) (HaA : aA <> 0) (Hm : 0 < mmw).

Lemma set_calc calc s p s' : set_pressure calc ps FLUID_UNDEFINED s p = POk s' ->
  exists ph rho, calc ph p (r_rho s) = DRet rho /\ dpos rho = true /\ s' = Rstate rho (ps rho).
Proof.
  unfold set_pressure. rewrite Z.eqb_refl.
  destruct (calc (r_state s) p (r_rho s)) as [|d] eqn:E1; [discriminate|].
  destruct (dpos d) eqn:E2; [intros H; injection H as <-; eauto|].
  destruct (dlow d); [|discriminate].
  destruct (calc FLUID_UNDEFINED p (r_rho s)) as [|d2] eqn:E3; [discriminate|].
  destruct (dpos d2) eqn:E4; [|discriminate]. intros H; injection H as <-; eauto.
Qed.

Theorem C68_pr_set_pressure : forall s r p s' rho,
  r_rho s = DNum r -> 0 < r -> 0 < p ->
  clear (pr_b T p b) (pr_c T p b aA) (pr_d T p b aA) ->
  ~ nearly_ideal (pr_b T p b) (pr_c T p b aA) (z_B T p b) (z_A T p aA) ->
  set_pressure (pr_density liq a b aA tcrit mmw T) ps FLUID_UNDEFINED s p = POk s' ->
  r_rho s' = DNum rho ->
  0 < rho /\ pr_law T (mmw / rho) aA b = p.
Proof.
  intros s r p s' rho Hr0 Hr Hp Hc Hn H Hrho. assert (Hr1 : r <> -1) by lra.
  destruct (set_calc _ _ _ _ H) as (ph & d & E & Ed & ->). cbn in Hrho. subst d.
  cbn in Ed. apply rltb_true in Ed. split; [exact Ed|].
  unfold pr_density in E. rewrite Hr0 in E.
  destruct (pr_solve_eq T p a b aA) as (tc & vc & Es).
  destruct (clear_roots T p b aA _ _ _ tc vc HT Hn Hc) as (n & v0 & v1 & v2 & Ev & Hv).
  assert (Hn3 : n = 3%Z \/ n = 1%Z \/ n = (-1)%Z) by (destruct Hv as [[? _]|[[?|?] _]]; tauto).
  assert (Hroot : exists v, rho = mmw / v /\ root (pr_b T p b) (pr_c T p b aA) (pr_d T p b aA) v).
  { destruct (density_root (fun q => pr_solve T q a b aA) liq T tcrit mmw p ph r n v0 v1 v2 rho Hr1 (eq_trans Es Ev)
       Hn3 E Ed) as [R|[-> R]].
    - exists v0. split; [exact R|]. destruct Hv as [(_ & _ & R2)|[_ R2]]; apply R2; tauto.
    - exists v2. split; [exact R|]. destruct Hv as [(_ & _ & R2)|[[K|K] R2]]; [apply R2; tauto|discriminate|discriminate]. }
  destruct Hroot as (v & -> & Hv2). apply pr_root_law in Hv2; try assumption.
  destruct Hv2 as (_ & _ & HL).
  assert (Hv0 : v <> 0). { intros ->. unfold Rdiv in Ed. rewrite Rinv_0 in Ed. lra. }
  replace (mmw / (mmw / v)) with v by (field; repeat split; lra). exact HL.
Qed.
Theorem C68_rk_set_pressure : forall s r p s' rho,
  r_rho s = DNum r -> 0 < r -> 0 < p ->
  clear (rk_b T p) (rk_c T p b aA) (rk_d T p b aA) ->
  ~ nearly_ideal (rk_b T p) (rk_c T p b aA) (z_B T p b) (z_A T p aA) ->
  set_pressure (rk_density liq aA b tcrit mmw T) ps FLUID_UNDEFINED s p = POk s' ->
  r_rho s' = DNum rho ->
  0 < rho /\ rk_law T (mmw / rho) aA b = p.
Proof.
  intros s r p s' rho Hr0 Hr Hp Hc Hn H Hrho. assert (Hr1 : r <> -1) by lra.
  destruct (set_calc _ _ _ _ H) as (ph & d & E & Ed & ->). cbn in Hrho. subst d.
  cbn in Ed. apply rltb_true in Ed. split; [exact Ed|].
  unfold rk_density in E. rewrite Hr0 in E.
  destruct (rk_solve_eq T p aA b) as (tc & vc & Es).
  destruct (clear_roots T p b aA _ _ _ tc vc HT Hn Hc) as (n & v0 & v1 & v2 & Ev & Hv).
  assert (Hn3 : n = 3%Z \/ n = 1%Z \/ n = (-1)%Z) by (destruct Hv as [[? _]|[[?|?] _]]; tauto).
  assert (Hroot : exists v, rho = mmw / v /\ root (rk_b T p) (rk_c T p b aA) (rk_d T p b aA) v).
  { destruct (density_root (fun q => rk_solve T q aA b) liq T tcrit mmw p ph r n v0 v1 v2 rho Hr1 (eq_trans Es Ev)
       Hn3 E Ed) as [R|[-> R]].
    - exists v0. split; [exact R|]. destruct Hv as [(_ & _ & R2)|[_ R2]]; apply R2; tauto.
    - exists v2. split; [exact R|]. destruct Hv as [(_ & _ & R2)|[[K|K] R2]]; [apply R2; tauto|discriminate|discriminate]. }
  destruct Hroot as (v & -> & Hv2). apply rk_root_law in Hv2; try assumption.
  destruct Hv2 as (_ & _ & _ & HL).
  assert (Hv0 : v <> 0). { intros ->. unfold Rdiv in Ed. rewrite Rinv_0 in Ed. lra. }
  replace (mmw / (mmw / v)) with v by (field; repeat split; lra). exact HL.
Qed.

(* Above the covolume the law takes every positive pressure somewhere. *)
Lemma cubic_big bn cn dn : 0 < cubic bn cn dn (1 + Rabs bn + Rabs cn + Rabs dn).
Proof.
  unfold cubic. set (M := 1 + Rabs bn + Rabs cn + Rabs dn).
  pose proof (Rabs_pos bn). pose proof (Rabs_pos cn). pose proof (Rabs_pos dn).
  pose proof (Rle_abs (- bn)) as B. pose proof (Rle_abs (- cn)) as C. pose proof (Rle_abs (- dn)) as D.
  rewrite Rabs_Ropp in B, C, D.
  assert (M1 : 1 <= M) by (unfold M; lra).
  assert (M2 : M <= M ^ 2) by nra.
  assert (X1 : - Rabs bn * M ^ 2 <= bn * M ^ 2) by (apply Rmult_le_compat_r; nra).
  assert (X2 : - Rabs cn * M ^ 2 <= cn * M).
  { apply Rle_trans with (- Rabs cn * M); [|apply Rmult_le_compat_r; lra].
    apply Ropp_le_cancel. replace (- (- Rabs cn * M)) with (Rabs cn * M) by ring.
    replace (- (- Rabs cn * M ^ 2)) with (Rabs cn * M ^ 2) by ring. apply Rmult_le_compat_l; lra. }
  assert (X3 : - Rabs dn * M ^ 2 <= dn).
  { apply Rle_trans with (- Rabs dn); [|lra]. 
    apply Ropp_le_cancel. replace (- - Rabs dn) with (Rabs dn * 1) by ring.
    replace (- (- Rabs dn * M ^ 2)) with (Rabs dn * M ^ 2) by ring. apply Rmult_le_compat_l; lra. }
  assert (X4 : M ^ 3 = M ^ 2 + Rabs bn * M ^ 2 + Rabs cn * M ^ 2 + Rabs dn * M ^ 2) by (unfold M; ring).
  lra.
Qed.
Lemma cubic_root_above bn cn dn u : cubic bn cn dn u < 0 -> exists v, u < v /\ root bn cn dn v.
Proof.
  intros Hu. set (M := 1 + Rabs bn + Rabs cn + Rabs dn).
  assert (HM := cubic_big bn cn dn). fold M in HM.
  assert (Hc : continuity (fun v => cubic bn cn dn v)) by (unfold cubic; reg).
  destruct (Rlt_le_dec u M) as [L|L].
  - destruct (IVT _ u M Hc L Hu HM) as [z [[Z1 Z2] Z3]]. exists z. split; [|exact Z3].
    destruct Z1 as [Z1|Z1]; [exact Z1|]. subst. lra.
  - exfalso. unfold cubic in Hu.
    (* beyond M the polynomial is positive *)
    assert (K : 0 < cubic bn cn dn u); [|unfold cubic in K; lra].
    unfold cubic. pose proof (Rabs_pos bn). pose proof (Rabs_pos cn). pose proof (Rabs_pos dn).
    pose proof (Rle_abs (- bn)) as B. pose proof (Rle_abs (- cn)) as C. pose proof (Rle_abs (- dn)) as D.
    rewrite Rabs_Ropp in B, C, D.
    assert (M1 : 1 <= u) by (unfold M in L; lra).
    assert (M2 : u <= u ^ 2) by nra.
    assert (X1 : - Rabs bn * u ^ 2 <= bn * u ^ 2) by (apply Rmult_le_compat_r; nra).
    assert (X2 : - (Rabs cn * u ^ 2) <= cn * u).
    { assert (Rabs cn * u <= Rabs cn * u ^ 2) by (apply Rmult_le_compat_l; lra).
      assert (- cn * u <= Rabs cn * u) by (apply Rmult_le_compat_r; lra). lra. }
    assert (X3 : - (Rabs dn * u ^ 2) <= dn).
    { assert (Rabs dn * 1 <= Rabs dn * u ^ 2) by (apply Rmult_le_compat_l; lra). lra. }
    assert (X4 : M * u ^ 2 <= u ^ 3).
    { replace (u ^ 3) with (u * u ^ 2) by ring. apply Rmult_le_compat_r; nra. }
    unfold M in X4. nra.
Qed.

(* A request for the supercritical fluid, or above the critical temperature for the gas, always gets
   the largest volume at that pressure, and it exceeds the covolume. *)
Theorem C68_pr_gas : forall p r ph, r <> -1 -> 0 < p ->
  (ph = FLUID_SUPERCRIT \/ ph = FLUID_GAS /\ tcrit < T) ->
  clear (pr_b T p b) (pr_c T p b aA) (pr_d T p b aA) ->
  ~ nearly_ideal (pr_b T p b) (pr_c T p b aA) (z_B T p b) (z_A T p aA) ->
  exists v, pr_density liq a b aA tcrit mmw T ph p (DNum r) = DRet (DNum (mmw / v))
    /\ b < v /\ pr_law T v aA b = p /\ (forall u, b < u -> pr_law T u aA b = p -> u <= v).
Proof.
  intros p r ph Hr Hp Hph Hc Hn. pose proof R_pos as HR.
  destruct (pr_solve_eq T p a b aA) as (tc & vc & Es).
  destruct (clear_roots T p b aA _ _ _ tc vc HT Hn Hc) as (n & v0 & v1 & v2 & Ev & Hv).
  set (bn := pr_b T p b) in *. set (cn := pr_c T p b aA) in *. set (dn := pr_d T p b aA) in *.
  assert (Hneg : cubic bn cn dn b < 0).
  { assert (E : cubic bn cn dn b = - (2 * b ^ 2 * (GasConstant * T / p))).
    { unfold cubic, bn, cn, dn, pr_b, pr_c, pr_d. field. lra. }
    rewrite E. assert (0 < GasConstant * T / p).
    { apply Rdiv_lt_0_compat; [apply Rmult_lt_0_compat; lra|assumption]. }
    assert (0 < 2 * b ^ 2 * (GasConstant * T / p)) by (apply Rmult_lt_0_compat; [nra|assumption]). lra. }
  destruct (cubic_root_above bn cn dn b Hneg) as (w & Hw & Rw).
  set (v := if Z.eqb n 3 then v2 else v0).
  assert (Hv' : root bn cn dn v /\ forall u, root bn cn dn u -> u <= v).
  { unfold v. destruct Hv as [(-> & O & R)|(Hn1 & R)].
    - cbn. split; [apply R; tauto|]. intros u Hu. apply R in Hu. lra.
    - destruct Hn1 as [-> | ->]; cbn; (split; [apply R; reflexivity|]); intros u Hu; apply R in Hu; lra. }
  destruct Hv' as [Rv Mv].
  assert (Hbv : b < v) by (specialize (Mv w Rw); lra).
  exists v. split.
  - unfold pr_density, density_calc. assert (E : reqb r (-1) = false) by (now apply reqb_false).
    rewrite E, Es, Ev.
    assert (Ov : reqb v 0 = false) by (apply reqb_false; lra).
    assert (Hl : Z.leb FLUID_LIQUID_0 ph = false) by (destruct Hph as [->|[-> _]]; reflexivity).
    assert (Hg : (Z.eqb ph FLUID_GAS || Z.eqb ph FLUID_SUPERCRIT)%bool = true) by (destruct Hph as [->|[-> _]]; reflexivity).
    rewrite Hl, Hg. unfold v in *. destruct Hv as [(-> & _ & _)|([-> | ->] & _)]; cbn in Ov |- *; unfold over; rewrite Ov; try reflexivity.
    destruct Hph as [->|[-> Htc]]; [reflexivity|]. cbn. rt (rltb tcrit T). reflexivity.
  - split; [exact Hbv|]. split; [now apply pr_root_law in Rv|].
    intros u Hu HL. apply Mv. apply pr_root_law; try assumption. split; [lra|]. split; [nra|exact HL].
Qed.
End Pressure.
Print Assumptions C68_pr_set_pressure.
Print Assumptions C68_rk_set_pressure.
Print Assumptions C68_pr_gas.

(* ---- Where it fails ---- *)

(* With the liquid branch forced (FLUID_LIQUID_0, the value meant for it), or the supercritical one, or
   the gas branch on a liquid, setPressure returns normally and does nothing. *)
Theorem C68_forced_refuted : forall calc ps s p,
  set_pressure calc ps FLUID_LIQUID_0 s p = POk s
  /\ set_pressure calc ps FLUID_SUPERCRIT s p = POk s
  /\ ((0 <= r_state s)%Z -> set_pressure calc ps FLUID_GAS s p = POk s).
Proof.
  intros calc ps s p. split; [reflexivity|]. split; [reflexivity|].
  intros H. unfold set_pressure. cbn [Z.eqb FLUID_GAS FLUID_UNDEFINED Pos.eqb].
  destruct (Z.ltb_spec (r_state s) FLUID_LIQUID_0) as [K|K]; [unfold FLUID_LIQUID_0 in K; lia|reflexivity].
Qed.
Print Assumptions C68_forced_refuted.

(* A Peng-Robinson fluid near its critical point (R T/p = 10 b, a = 56 b^2 p) has exactly one molar
   volume, 3 b, and the solver throws. *)
Theorem C68_single_root_refuted : forall T b a, 0 < T -> / 50 <= b ->
  let p := GasConstant * T / (10 * b) in
  let aA := 56 * b ^ 2 * p in
  pr_solve T p a b aA = SThrow
  /\ (forall v, v <> b -> v * v + 2 * v * b - b * b <> 0 -> (pr_law T v aA b = p <-> v = 3 * b)).
Proof.
  intros T b a HT Hb p aA. pose proof R_pos as HR.
  assert (HRT : 0 < GasConstant * T) by (apply Rmult_lt_0_compat; assumption).
  assert (Hp : 0 < p) by (unfold p; apply Rdiv_lt_0_compat; lra).
  assert (HaA : aA <> 0) by (unfold aA; assert (0 < 56 * b ^ 2 * p) by (apply Rmult_lt_0_compat; nra); lra).
  assert (Eb : pr_b T p b = -9 * b) by (unfold pr_b, p; field; lra).
  assert (Ec : pr_c T p b aA = 33 * b ^ 2) by (unfold pr_c, aA, p; field; lra).
  assert (Ed : pr_d T p b aA = -45 * b ^ 3) by (unfold pr_d, aA, p; field; lra).
  split.
  - destruct (pr_solve_eq T p a b aA) as (tc & vc & Es). rewrite Es.
    rewrite (solve_unfold T p b aA _ _ _ tc vc HT).
    + cbv zeta. rewrite disc_discriminant, yN_middle, h_height. rewrite Eb, Ec, Ed.
      assert (E1 : middle (-9 * b) (33 * b ^ 2) (-45 * b ^ 3) = 0) by (unfold middle, cubic, inflection; field).
      assert (E2 : height (-9 * b) (33 * b ^ 2) = 0).
      { unfold height. destruct (Rlt_dec 0 _) as [K|K]; [|reflexivity]. exfalso. nra. }
      rewrite E1, E2, Rabs_R0, Rminus_eq_0, Rabs_R0.
      assert (P10 : 0 < / 10 ^ 10) by (apply Rinv_0_lt_compat, pow_lt; lra).
      rt (rltb 0 (/ 10 ^ 10)).
      assert (E3 : - (discriminant (-9 * b) (33 * b ^ 2) (-45 * b ^ 3) / 27) = 32 * b ^ 6) by (unfold discriminant; field).
      rewrite E3. assert (H6 : (/ 50) ^ 6 <= b ^ 6) by (apply pow_incr; lra).
      assert (H7 : / 10 ^ 10 < 32 * (/ 50) ^ 6) by lra.
      rt (rltb (/ 10 ^ 10) (32 * b ^ 6)). reflexivity.
    + rewrite Eb, Ec. intros (_ & K & _).
      replace (3 * (33 * b ^ 2) / (-9 * b) ^ 2) with (99 / 81) in K by (field; lra).
      rewrite Rabs_right in K by lra. lra.
  - intros v Hv Hd.
    assert (E : root (pr_b T p b) (pr_c T p b aA) (pr_d T p b aA) v <-> v = 3 * b).
    { rewrite Eb, Ec, Ed. unfold root, cubic.
      replace (v ^ 3 + -9 * b * v ^ 2 + 33 * b ^ 2 * v + -45 * b ^ 3)
        with ((v - 3 * b) * ((v - 3 * b) ^ 2 + 6 * b ^ 2)) by ring.
      split; [|intros ->; ring]. intros K. apply Rmult_integral in K. destruct K as [K|K]; [lra|].
      exfalso. pose proof (pow2_ge_0 (v - 3 * b)). nra. }
    rewrite (pr_root_law T p b aA v HT Hp ltac:(lra) HaA) in E. tauto.
Qed.
Print Assumptions C68_single_root_refuted.

(* A state with a stable gas at 9 b, at the pressure of the liquid spinodal (R T/p = 16 b, a = 98 b^2 p):
   asked for the gas, densityCalc returns an infinite density, which setPressure accepts. *)
Theorem C68_spinodal_refuted : forall liq T b a tcrit mmw r ps, 0 < T -> / 100 <= b -> r <> -1 ->
  let p := GasConstant * T / (16 * b) in
  let aA := 98 * b ^ 2 * p in
  let calc := pr_density liq a b aA tcrit mmw T in
  pr_law T (9 * b) aA b = p
  /\ calc FLUID_GAS p (DNum r) = DRet DInf
  /\ set_pressure calc ps FLUID_UNDEFINED (Rstate (DNum r) FLUID_GAS) p = POk (Rstate DInf (ps DInf)).
Proof.
  intros liq T b a tcrit mmw r ps HT Hb Hr p aA calc. pose proof R_pos as HR.
  assert (HRT : 0 < GasConstant * T) by (apply Rmult_lt_0_compat; assumption).
  assert (Hp : 0 < p) by (unfold p; apply Rdiv_lt_0_compat; lra).
  assert (Eb : pr_b T p b = -15 * b) by (unfold pr_b, p; field; lra).
  assert (Ec : pr_c T p b aA = 63 * b ^ 2) by (unfold pr_c, aA, p; field; lra).
  assert (Ed : pr_d T p b aA = -81 * b ^ 3) by (unfold pr_d, aA, p; field; lra).
  split; [unfold pr_law, aA, p; field; nra|].
  assert (C : calc FLUID_GAS p (DNum r) = DRet DInf).
  { unfold calc, pr_density, density_calc. assert (E : reqb r (-1) = false) by (now apply reqb_false).
    rewrite E. destruct (pr_solve_eq T p a b aA) as (tc & vc & Es). rewrite Es, Eb, Ec, Ed.
    assert (Em : middle (-15 * b) (63 * b ^ 2) (-81 * b ^ 3) = - (16 * b ^ 3)) by (unfold middle, cubic, inflection; field).
    assert (H3 : (/ 100) ^ 3 <= b ^ 3) by (apply pow_incr; lra).
    assert (H4 : / 10 ^ 18 < 16 * (/ 100) ^ 3) by lra.
    destruct (C68_double T p b aA (-15 * b) (63 * b ^ 2) (-81 * b ^ 3) tc vc HT) as (n & v0 & v1 & Ev & _ & _ & En).
    - intros (_ & K & _). replace (3 * (63 * b ^ 2) / (-15 * b) ^ 2) with (189 / 225) in K by (field; lra).
      rewrite Rabs_right in K by lra. lra.
    - unfold discriminant. ring.
    - rewrite Em, Rabs_Ropp, Rabs_right by lra. lra.
    - rewrite Em in En. destruct (Rlt_dec 0 _) as [K|K] in En; [lra|]. subst n. rewrite Ev. cbn.
      assert (E0 : reqb 0 0 = true) by (now apply reqb_true). now rewrite E0. }
  split; [exact C|]. unfold set_pressure. rewrite Z.eqb_refl. cbn [r_state r_rho]. now rewrite C.
Qed.
Print Assumptions C68_spinodal_refuted.

(* At the pressure of the gas spinodal every request fails, although the liquid volume 19/7 b has that
   pressure (R T/p = 96/7 b, a = 578/7 b^2 p). *)
Theorem C68_gas_spinodal_refuted : forall liq T b a tcrit mmw s ps, 0 < T -> / 100 <= b ->
  r_rho s <> DNum (-1) ->
  let p := 7 * (GasConstant * T) / (96 * b) in
  let aA := 578 / 7 * b ^ 2 * p in
  pr_law T (19 / 7 * b) aA b = p
  /\ set_pressure (pr_density liq a b aA tcrit mmw T) ps FLUID_UNDEFINED s p = PThrow.
Proof.
  intros liq T b a tcrit mmw s ps HT Hb Hr p aA. pose proof R_pos as HR.
  assert (HRT : 0 < GasConstant * T) by (apply Rmult_lt_0_compat; assumption).
  assert (Hp : 0 < p) by (unfold p; apply Rdiv_lt_0_compat; lra).
  set (bn := - (89 / 7) * b). set (cn := 365 / 7 * b ^ 2). set (dn := - (475 / 7) * b ^ 3).
  assert (Eb : pr_b T p b = bn) by (unfold bn, pr_b, p; field; lra).
  assert (Ec : pr_c T p b aA = cn) by (unfold cn, pr_c, aA, p; field; lra).
  assert (Ed : pr_d T p b aA = dn) by (unfold dn, pr_d, aA, p; field; lra).
  split; [unfold pr_law, aA, p; field; repeat split; nra|].
  assert (C : forall ph r, r <> -1 -> density_calc (fun q => pr_solve T q a b aA) liq T tcrit mmw p ph r = DRet (DNum (-1))).
  { intros ph r Hr'. unfold density_calc. assert (E : reqb r (-1) = false) by (now apply reqb_false).
    rewrite E. destruct (pr_solve_eq T p a b aA) as (tc & vc & Es). rewrite Es, Eb, Ec, Ed.
    assert (Em : middle bn cn dn = 8192 / 9261 * b ^ 3) by (unfold bn, cn, dn, middle, cubic, inflection; field).
    assert (H3 : (/ 100) ^ 3 <= b ^ 3) by (apply pow_incr; lra).
    assert (H4 : / 10 ^ 18 < 8192 / 9261 * (/ 100) ^ 3) by lra.
    destruct (C68_double T p b aA bn cn dn tc vc HT) as (n & v0 & v1 & Ev & _ & _ & En).
    - intros (_ & K & _). replace (3 * cn / bn ^ 2) with (7665 / 7921) in K by (unfold bn, cn; field; lra).
      rewrite Rabs_right in K by lra. lra.
    - unfold bn, cn, dn, discriminant. field.
    - rewrite Em, Rabs_right by lra. lra.
    - rewrite Em in En. destruct (Rlt_dec 0 _) as [K|K] in En; [|lra]. subst n. rewrite Ev. reflexivity. }
  assert (C' : forall ph, pr_density liq a b aA tcrit mmw T ph p (r_rho s) = DRet (DNum (-1))).
  { intros ph. unfold pr_density. destruct (r_rho s) as [r| |]; apply C; try lra.
    intros ->. now apply Hr. }
  unfold set_pressure. rewrite Z.eqb_refl, C'. cbn. rf (rltb 0 (-1)). rf (rltb (-1) (- (3/2))). reflexivity.
Qed.
Print Assumptions C68_gas_spinodal_refuted.

(* A nearly ideal Redlich-Kwong gas: the shortcut leaves out the square root of the temperature in the
   attraction, so the volume it returns does not have the pressure asked for. *)
Theorem C68_rk_nearly_ideal_refuted : forall T p b, 4 <= T -> 0 < p -> 0 < b ->
  let B := p * b / (GasConstant * T) in
  sqrt T * (B + B ^ 2) < / 10 ^ 5 ->
  let a := sqrt T * (GasConstant * T * b + p * b ^ 2) in
  exists v, rk_solve T p a b = SRoots 1 (Some v) (Some 0) (Some 0) /\ 0 < v
    /\ rk_law T v a b <> p.
Proof.
  intros T p b HT Hp Hb B HB a. pose proof R_pos as HR.
  assert (HRT : 0 < GasConstant * T) by (apply Rmult_lt_0_compat; lra).
  assert (Hs : 2 <= sqrt T).
  { replace 2 with (sqrt 4) by (replace 4 with (2 * 2) by ring; apply sqrt_square; lra). apply sqrt_le_1; lra. }
  assert (HB0 : 0 < B) by (unfold B; apply Rdiv_lt_0_compat; [apply Rmult_lt_0_compat|]; assumption).
  assert (Ha : 0 < a).
  { unfold a. apply Rmult_lt_0_compat; [lra|]. assert (0 < GasConstant * T * b) by (apply Rmult_lt_0_compat; assumption).
    assert (0 < p * b ^ 2) by (apply Rmult_lt_0_compat; nra). lra. }
  assert (Ec : rk_c T p b a = 0) by (unfold rk_c, a; field; lra).
  assert (EA : z_A T p a = sqrt T * (B + B ^ 2)) by (unfold z_A, a, B; field; lra).
  assert (Hbn : rk_b T p <> 0).
  { unfold rk_b. assert (0 < GasConstant * T / p) by (apply Rdiv_lt_0_compat; assumption). lra. }
  destruct (rk_solve_eq T p a b) as (tc & vc & Es).
  assert (P5 : 0 < / 10 ^ 5) by (apply Rinv_0_lt_compat, pow_lt; lra).
  assert (P7 : 0 < / 10 ^ 7) by (apply Rinv_0_lt_compat, pow_lt; lra).
  assert (P5' : / 10 ^ 5 <= 1 / 100) by lra.
  assert (HBs : 2 * B <= sqrt T * (B + B ^ 2)).
  { apply Rle_trans with (sqrt T * B); [apply Rmult_le_compat_r; lra|]. apply Rmult_le_compat_l; nra. }
  set (A := sqrt T * (B + B ^ 2)) in *.
  assert (Hnear : s_near T p b a (rk_b T p) (rk_c T p b a) = true).
  { apply near_spec. split; [exact Hbn|]. rewrite Ec. split; [|split].
    - replace (3 * 0 / rk_b T p ^ 2) with 0 by (unfold Rdiv; ring). rewrite Rabs_R0. exact P7.
    - fold B. rewrite Rabs_right by lra. lra.
    - change (Rabs (z_A T p a) < / 10 ^ 5). rewrite EA, Rabs_right by lra. exact HB. }
  assert (E1 : s_ratio1 (rk_b T p) (rk_c T p b a) = 0) by (unfold s_ratio1; rewrite Ec; unfold Rdiv; ring).
  assert (It : forall fuel z, 9 / 10 <= z <= 1 ->
     9 / 10 <= near_iter fuel 0 B A z <= 1 /\ (fuel <> O -> near_iter fuel 0 B A z < 1)).
  { assert (Step : forall z, 9 / 10 <= z <= 1 -> 9 / 10 <= z / (z - B) - A / (z + 0) < 1).
    { intros z Hz. rewrite Rplus_0_r.
      assert (E : z / (z - B) = 1 + B / (z - B)) by (field; lra).
      assert (U : B / (z - B) <= 10 / 8 * B).
      { apply (Rmult_le_reg_r (z - B)); [lra|]. unfold Rdiv. rewrite Rmult_assoc, Rinv_l by lra. nra. }
      assert (U0 : 0 < B / (z - B)) by (apply Rdiv_lt_0_compat; lra).
      assert (L : A <= A / z).
      { apply (Rmult_le_reg_r z); [lra|]. unfold Rdiv. rewrite Rmult_assoc, Rinv_l by lra. nra. }
      assert (L2 : A / z <= 10 / 9 * A).
      { apply (Rmult_le_reg_r z); [lra|]. unfold Rdiv. rewrite Rmult_assoc, Rinv_l by lra. nra. }
      rewrite E. lra. }
    induction fuel as [|fuel IH]; intros z Hz; cbn [near_iter]; [split; [exact Hz|congruence]|].
    specialize (Step z Hz). destruct (rltb _ tol14); [split; [lra|intros _; lra]|].
    destruct (IH (z / (z - B) - A / (z + 0)) ltac:(lra)) as [I1 I2]. split; [exact I1|].
    intros _. destruct fuel; [cbn [near_iter]; lra|]. apply I2. congruence. }
  destruct (It 10%nat 1 ltac:(lra)) as [I1 I2]. specialize (I2 ltac:(congruence)).
  set (z := near_iter 10 0 B A 1) in *.
  assert (Hsol : rk_solve T p a b = SRoots 1 (Some (z * GasConstant * T / p)) (Some 0) (Some 0)).
  { rewrite Es. unfold solve_cubic. rt (rltb 0 T). cbn [negb]. rewrite Hnear, E1.
    change (s_ratio2 T p b) with B. change (s_ratio3 T p a) with (z_A T p a). rewrite EA. reflexivity. }
  clearbody z. exists (z * GasConstant * T / p). split; [exact Hsol|].
  assert (Hq : 0 < GasConstant * T / p) by (apply Rdiv_lt_0_compat; assumption).
  set (q := GasConstant * T / p) in *.
  assert (Ev : z * GasConstant * T / p = z * q) by (unfold q; field; lra). rewrite Ev.
  assert (Hv0 : 0 < z * q) by (apply Rmult_lt_0_compat; lra). split; [exact Hv0|].
  intros HL.
  assert (R : root (rk_b T p) (rk_c T p b a) (rk_d T p b a) (z * q)).
  { apply rk_root_law; try lra. split; [|split; [lra|split; [lra|exact HL]]].
    intro K. assert (Bq : b = B * q) by (unfold B, q; field; lra). rewrite Bq in K.
    assert (z = B) by (apply (Rmult_eq_reg_r q); lra). lra. }
  unfold root, cubic in R. rewrite Ec in R. unfold rk_b, rk_d in R. fold q in R.
  assert (Had : 0 < a / (p * sqrt T) * b).
  { apply Rmult_lt_0_compat; [|assumption]. apply Rdiv_lt_0_compat; [assumption|]. apply Rmult_lt_0_compat; lra. }
  assert (E2 : (z * q) ^ 3 + - q * (z * q) ^ 2 = - ((1 - z) * (z ^ 2 * q ^ 3))) by ring.
  assert (0 < q ^ 3) by (apply pow_lt; assumption).
  assert (0 < z ^ 2) by nra.
  assert (0 < (1 - z) * (z ^ 2 * q ^ 3)) by (apply Rmult_lt_0_compat; [lra|apply Rmult_lt_0_compat; lra]).
  lra.
Qed.
Print Assumptions C68_rk_nearly_ideal_refuted.

(* Without a guess, the liquid density does not depend on the pressure asked for, below the estimate of
   the saturation pressure: liquidVolEst overwrites the pressure. *)
Theorem C68_liquid_request_refuted : forall fuel solve pc psat T tcrit mmw p p' ph,
  (0 <= ph)%Z -> p <= psat -> p' <= psat ->
  let liq := fun q => match liquid_vol fuel solve pc psat q with Some r => r | None => None end in
  density_calc solve liq T tcrit mmw p ph (-1) = density_calc solve liq T tcrit mmw p' ph (-1).
Proof.
  intros fuel solve pc psat T tcrit mmw p p' ph Hph Hp Hp' liq.
  assert (E : liq p = liq p') by (unfold liq, liquid_vol; rewrite !Rmax_left by assumption; reflexivity).
  unfold density_calc. assert (E1 : reqb (-1) (-1) = true) by (now apply reqb_true).
  rewrite E1, E. destruct (Z.leb_spec FLUID_LIQUID_0 ph) as [K|K]; [reflexivity|].
  unfold FLUID_LIQUID_0 in K. lia.
Qed.
Print Assumptions C68_liquid_request_refuted.

(* The search for a liquid volume ends, although its counter is never incremented. *)
Theorem C68_liquid_search : forall solve pc psat p, 0 < Rmax psat p ->
  exists fuel, liquid_vol fuel solve pc psat p <> None.
Proof.
  intros solve pc psat p. unfold liquid_vol. generalize (Rmax psat p) as q. intros q Hq.
  assert (Hk : exists k, pc < q * (104/100) ^ k).
  { destruct (Pow_x_infinity (104/100) ltac:(rewrite Rabs_right; lra) (pc / q + 1)) as [N HN].
    exists N. specialize (HN N (le_n N)). rewrite Rabs_right in HN by (apply Rle_ge, pow_le; lra).
    assert (K : pc / q < (104/100) ^ N) by lra.
    apply (Rmult_lt_compat_l q) in K; [|exact Hq]. replace (q * (pc / q)) with pc in K by (field; lra). exact K. }
  destruct Hk as [k Hk]. exists (S k). revert q Hq Hk. induction k as [|k IH]; intros q Hq Hk.
  - cbn [liquid_loop]. destruct (solve q) as [|n v0 v1 v2]; [discriminate|].
    destruct (_ || _)%bool; [|discriminate]. cbn in Hk. rt (rltb pc q). discriminate.
  - cbn [liquid_loop]. destruct (solve q) as [|n v0 v1 v2]; [discriminate|].
    destruct (_ || _)%bool; [|discriminate]. destruct (rltb pc q); [discriminate|].
    apply IH; [lra|]. replace (q * (104 / 100) * (104 / 100) ^ k) with (q * (104/100) ^ S k) by (cbn; ring). exact Hk.
Qed.
Print Assumptions C68_liquid_search.

(* ---- The hypotheses are met ---- *)

(* (v - 1)(v - 2)(v - 3) and (v - 1)(v^2 + 1). *)
Example C68_three_example : clear (-6) 11 (-6) /\ 0 < discriminant (-6) 11 (-6)
  /\ ~ nearly_ideal (-6) 11 1 1.
Proof.
  assert (D : discriminant (-6) 11 (-6) = 4) by (unfold discriminant; ring).
  assert (M : middle (-6) 11 (-6) = 0) by (unfold middle, cubic, inflection; field).
  split; [|split; [lra|]].
  - unfold clear. rewrite D, M, Rabs_R0. split.
    + unfold height. destruct (Rlt_dec 0 ((-6) ^ 2 - 3 * 11)) as [K|K]; [|exfalso; lra].
      set (w := sqrt (((-6) ^ 2 - 3 * 11) / 9)).
      assert (Hw : 1 / 2 <= w).
      { unfold w. replace (1/2) with (sqrt (1/4)) by (replace (1/4) with ((1/2) * (1/2)) by field; apply sqrt_square; lra).
        apply sqrt_le_1; lra. }
      assert (H3 : (1/2) ^ 3 <= w ^ 3) by (apply pow_incr; lra).
      rewrite Rminus_0_r, Rabs_right by lra. lra.
    + rewrite Rabs_right by lra. lra.
  - intros (_ & K & _). rewrite Rabs_right in K by lra. lra.
Qed.
Example C68_one_example : clear (-1) 1 (-1) /\ discriminant (-1) 1 (-1) < 0
  /\ ~ nearly_ideal (-1) 1 1 1.
Proof.
  assert (D : discriminant (-1) 1 (-1) = -16) by (unfold discriminant; ring).
  assert (M : middle (-1) 1 (-1) = - (20 / 27)) by (unfold middle, cubic, inflection; field).
  split; [|split; [lra|]].
  - unfold clear. rewrite D, M. split.
    + unfold height. destruct (Rlt_dec 0 ((-1) ^ 2 - 3 * 1)) as [K|K]; [exfalso; lra|].
      rewrite Rabs_Ropp, (Rabs_right (20 / 27)) by lra. rewrite Rabs_left by lra. lra.
    + rewrite Rabs_left by lra. lra.
  - intros (_ & K & _). rewrite Rabs_right in K by lra. lra.
Qed.
Example C68_double_example : discriminant (-4) 5 (-2) = 0 /\ / 10 ^ 18 <= Rabs (middle (-4) 5 (-2)).
Proof.
  split; [unfold discriminant; ring|].
  assert (M : middle (-4) 5 (-2) = - (2 / 27)) by (unfold middle, cubic, inflection; field).
  rewrite M, Rabs_Ropp, Rabs_right by lra. lra.
Qed.
Example C68_triple_example : discriminant (-3) 3 (-1) = 0 /\ middle (-3) 3 (-1) = 0.
Proof. split; [unfold discriminant; ring|unfold middle, cubic, inflection; field]. Qed.
(* A Peng-Robinson fluid with one molar volume at the given pressure: b = 1, R T/p = 2, a/p = 10. *)
Example C68_pr_example : forall T, 0 < T ->
  let p := GasConstant * T / 2 in
  0 < p /\ clear (pr_b T p 1) (pr_c T p 1 (10 * p)) (pr_d T p 1 (10 * p))
  /\ ~ nearly_ideal (pr_b T p 1) (pr_c T p 1 (10 * p)) (z_B T p 1) (z_A T p (10 * p)).
Proof.
  intros T HT p. pose proof R_pos as HR.
  assert (HRT : 0 < GasConstant * T) by (apply Rmult_lt_0_compat; assumption).
  assert (Hp : 0 < p) by (unfold p; lra).
  assert (Eb : pr_b T p 1 = -1) by (unfold pr_b, p; field; lra).
  assert (Ec : pr_c T p 1 (10 * p) = 3) by (unfold pr_c, p; field; lra).
  assert (Ed : pr_d T p 1 (10 * p) = -7) by (unfold pr_d, p; field; lra).
  rewrite Eb, Ec, Ed. split; [exact Hp|].
  assert (D : discriminant (-1) 3 (-7) = -1072) by (unfold discriminant; ring).
  assert (M : middle (-1) 3 (-7) = - (164 / 27)) by (unfold middle, cubic, inflection; field).
  split.
  - unfold clear. rewrite D, M. split.
    + unfold height. destruct (Rlt_dec 0 ((-1) ^ 2 - 3 * 3)) as [K|K]; [exfalso; lra|].
      rewrite Rabs_Ropp, (Rabs_right (164 / 27)) by lra. rewrite Rabs_left by lra. lra.
    + rewrite Rabs_left by lra. lra.
  - intros (_ & K & _). rewrite Rabs_right in K by lra. lra.
Qed.
(* Setting that pressure on a supercritical phase succeeds. *)
Example C68_pr_set_example : forall liq a tcrit mmw T r ps, 0 < T -> 0 < mmw -> r <> -1 ->
  let p := GasConstant * T / 2 in
  exists s' rho, r_rho s' = DNum rho
    /\ set_pressure (pr_density liq a 1 (10 * p) tcrit mmw T) ps FLUID_UNDEFINED (Rstate (DNum r) FLUID_SUPERCRIT) p = POk s'.
Proof.
  intros liq a tcrit mmw T r ps HT Hm Hr p.
  destruct (C68_pr_example T HT) as (Hp & Hc & Hn). fold p in Hp, Hc, Hn.
  destruct (C68_pr_gas liq a 1 (10 * p) tcrit mmw T HT ltac:(lra) ltac:(lra) p r FLUID_SUPERCRIT Hr Hp
              (or_introl eq_refl) Hc Hn) as (v & E & Hv & _).
  assert (Hd : 0 < mmw / v) by (apply Rdiv_lt_0_compat; lra).
  exists (Rstate (DNum (mmw / v)) (ps (DNum (mmw / v)))), (mmw / v). split; [reflexivity|].
  unfold set_pressure. rewrite Z.eqb_refl. cbn [r_rho r_state]. rewrite E. cbn [dpos]. rt (rltb 0 (mmw / v)). reflexivity.
Qed.
Example C68_rk_example : forall T, 0 < T ->
  let p := GasConstant * T / 2 in
  let a := 10 * p * sqrt T in
  0 < p /\ a <> 0 /\ clear (rk_b T p) (rk_c T p 1 a) (rk_d T p 1 a)
  /\ ~ nearly_ideal (rk_b T p) (rk_c T p 1 a) (z_B T p 1) (z_A T p a).
Proof.
  intros T HT p a. pose proof R_pos as HR.
  assert (HRT : 0 < GasConstant * T) by (apply Rmult_lt_0_compat; assumption).
  assert (Hp : 0 < p) by (unfold p; lra).
  assert (Hs : 0 < sqrt T) by (now apply sqrt_lt_R0).
  assert (Ha : 0 < a) by (unfold a; apply Rmult_lt_0_compat; lra).
  assert (Eb : rk_b T p = -2) by (unfold rk_b, p; field; lra).
  assert (Ec : rk_c T p 1 a = 7) by (unfold rk_c, a, p; field; lra).
  assert (Ed : rk_d T p 1 a = -10) by (unfold rk_d, a, p; field; lra).
  rewrite Eb, Ec, Ed. split; [exact Hp|]. split; [lra|].
  assert (D : discriminant (-2) 7 (-10) = -1676) by (unfold discriminant; ring).
  assert (M : middle (-2) 7 (-10) = - (160 / 27)) by (unfold middle, cubic, inflection; field).
  split.
  - unfold clear. rewrite D, M. split.
    + unfold height. destruct (Rlt_dec 0 ((-2) ^ 2 - 3 * 7)) as [K|K]; [exfalso; lra|].
      rewrite Rabs_Ropp, (Rabs_right (160 / 27)) by lra. rewrite Rabs_left by lra. lra.
    + rewrite Rabs_left by lra. lra.
  - intros (_ & K & _). rewrite Rabs_right in K by lra. lra.
Qed.
(* A gas at B = 10^-6 and 4 K. *)
Example C68_rk_near_example : let p := GasConstant * 4 / 10 ^ 6 in
  0 < p /\ sqrt 4 * (p * 1 / (GasConstant * 4) + (p * 1 / (GasConstant * 4)) ^ 2) < / 10 ^ 5.
Proof.
  intros p. pose proof R_pos as HR.
  split; [unfold p; lra|].
  assert (E : p * 1 / (GasConstant * 4) = / 10 ^ 6) by (unfold p; field; lra). rewrite E.
  replace (sqrt 4) with 2 by (symmetry; replace 4 with (2 * 2) by ring; apply sqrt_square; lra). lra.
Qed.

(* ---- Which branch is taken ---- *)

(* With three volumes at the pressure: a liquid request gets the smallest; an undefined one the largest
   if the ideal gas volume lies beyond the middle one, else the smallest. *)
Section Branch.
Context (liq : R -> option (option R * R)) (T p b aA bn cn dn tc vc tcrit mmw : R) (solve : R -> sres).
Context (Hsol : solve p = solve_cubic T p b aA bn cn dn tc vc).
Context (HT : 0 < T) (Hp : 0 < p) (Hm : 0 < mmw).
Context (Hc : clear bn cn dn) (Hn : ~ nearly_ideal bn cn (z_B T p b) (z_A T p aA)) (Hd0 : dn <> 0).

Lemma nonzero_root v : root bn cn dn v -> v <> 0.
Proof. unfold root, cubic. intros H ->. apply Hd0. lra. Qed.
Lemma over_some v : v <> 0 -> over mmw (Some v) = DNum (mmw / v).
Proof. intros H. unfold over. assert (E : reqb v 0 = false) by (now apply reqb_false). now rewrite E. Qed.

Lemma branch_three r : r <> -1 -> 0 < discriminant bn cn dn ->
  exists v0 v1 v2, v0 < v1 < v2 /\ (forall v, root bn cn dn v <-> v = v0 \/ v = v1 \/ v = v2)
  /\ (forall ph, (0 <= ph)%Z -> density_calc solve liq T tcrit mmw p ph r = DRet (DNum (mmw / v0)))
  /\ density_calc solve liq T tcrit mmw p FLUID_UNDEFINED r
     = DRet (DNum (mmw / (if Rlt_dec v1 (GasConstant * T / p) then v2 else v0)))
  /\ (forall ph, ph = FLUID_GAS \/ ph = FLUID_SUPERCRIT ->
      density_calc solve liq T tcrit mmw p ph r = DRet (DNum (mmw / v2))).
Proof.
  intros Hr Hd. destruct (C68_three T p b aA bn cn dn tc vc HT Hn Hc Hd) as (v0 & v1 & v2 & E & O & R).
  exists v0, v1, v2. split; [exact O|]. split; [exact R|].
  assert (N0 : v0 <> 0) by (apply nonzero_root, R; tauto).
  assert (N2 : v2 <> 0) by (apply nonzero_root, R; tauto).
  pose proof R_pos as HR.
  assert (Er : reqb r (-1) = false) by (now apply reqb_false).
  assert (Eg : mmw / (p * mmw / (GasConstant * T)) = GasConstant * T / p) by (field; lra).
  split; [|split].
  - intros ph Hph. unfold density_calc. rewrite Er, Hsol, E. cbn [Z.leb Z.compare Pos.compare Pos.compare_cont].
    change (2 <=? 3)%Z with true. destruct (Z.leb_spec FLUID_LIQUID_0 ph) as [K|K]; [|unfold FLUID_LIQUID_0 in K; lia].
    now rewrite over_some.
  - unfold density_calc. rewrite Er, Hsol, E. change (2 <=? 3)%Z with true. cbn -[over Rdiv].
    rewrite Eg. destruct (Rlt_dec v1 _) as [K|K].
    + rt (rltb v1 (GasConstant * T / p)). now rewrite over_some.
    + rf (rltb v1 (GasConstant * T / p)). now rewrite over_some.
  - intros ph Hph. unfold density_calc. rewrite Er, Hsol, E. change (2 <=? 3)%Z with true.
    destruct Hph as [-> | ->]; cbn -[over Rdiv]; now rewrite over_some.
Qed.
(* With a single volume the label must fit: an inadmissible one gives the value -2, never another
   density. *)
Lemma branch_one r : r <> -1 -> discriminant bn cn dn < 0 ->
  exists v0, (forall v, root bn cn dn v <-> v = v0)
  /\ (let liquid_like := v0 < (if Rlt_dec tc T then vc else inflection bn) in
      forall ph, density_calc solve liq T tcrit mmw p ph r = DRet (DNum (mmw / v0))
        <-> mmw / v0 = -2 \/ ph = FLUID_UNDEFINED \/ ph = FLUID_SUPERCRIT
            \/ (ph = FLUID_GAS /\ (~ liquid_like \/ tcrit < T))
            \/ ((0 <= ph)%Z /\ liquid_like)
            \/ (ph = FLUID_UNSTABLE /\ liquid_like /\ tcrit < T)
            \/ ((ph < FLUID_UNSTABLE)%Z /\ liquid_like /\ tcrit < T)).
Proof.
  intros Hr Hd. destruct (C68_one T p b aA bn cn dn tc vc HT Hn Hc Hd) as (n & v0 & E & R & En).
  exists v0. split; [exact R|].
  assert (N0 : v0 <> 0) by (apply nonzero_root, R; tauto).
  assert (Er : reqb r (-1) = false) by (now apply reqb_false).
  intros LL ph.
  assert (E2 : forall x y, DRet (DNum x) = DRet (DNum y) <-> y = x) by (intros; split; [now intros H; injection H|now intros ->]).
  unfold density_calc. rewrite Er, Hsol, E, over_some by assumption.
  assert (HL : (LL /\ n = (-1)%Z) \/ (~ LL /\ n = 1%Z)).
  { subst LL. destruct (Rlt_dec v0 (if Rlt_dec tc T then vc else inflection bn)) as [K|K] in *.
    - left. split; [exact K|exact En].
    - right. split; [exact K|exact En]. }
  unfold FLUID_UNDEFINED, FLUID_SUPERCRIT, FLUID_GAS, FLUID_UNSTABLE, FLUID_LIQUID_0 in *.
  destruct HL as [[HL ->]|[HL ->]]; cbn [Z.leb Z.eqb Z.compare Pos.compare Pos.compare_cont Pos.eqb].
  - destruct (Z.leb_spec 0 ph) as [K|K]; cbn [orb]; [tauto|].
    destruct (Z.eqb_spec ph (-3)) as [K3|K3]; cbn [orb]; [tauto|].
    destruct (Z.eqb_spec ph (-2)) as [K2|K2]; cbn [orb]; [tauto|].
    destruct (rltb tcrit T) eqn:Et.
    + apply rltb_true in Et. split; [intros _|reflexivity].
      assert (ph = -1 \/ ph = -4 \/ ph < -4)%Z as [Q|[Q|Q]] by lia; tauto.
    + apply rltb_false in Et. rewrite E2. split; [tauto|].
      assert (~ tcrit < T) by lra. assert (~ (0 <= ph)%Z) by lia. tauto.
  - destruct (Z.eqb_spec ph (-1)) as [K1|K1]; cbn [orb]; [tauto|].
    destruct (Z.eqb_spec ph (-2)) as [K2|K2]; cbn [orb]; [tauto|].
    destruct (Z.eqb_spec ph (-3)) as [K3|K3]; cbn [orb]; [tauto|].
    rewrite E2. tauto.
Qed.
End Branch.

Theorem C68_branches : forall liq T p a b aA tcrit mmw r, 0 < T -> 0 < p -> 0 < mmw -> r <> -1 ->
  clear (pr_b T p b) (pr_c T p b aA) (pr_d T p b aA) ->
  ~ nearly_ideal (pr_b T p b) (pr_c T p b aA) (z_B T p b) (z_A T p aA) -> pr_d T p b aA <> 0 ->
  0 < discriminant (pr_b T p b) (pr_c T p b aA) (pr_d T p b aA) ->
  let calc := fun ph => pr_density liq a b aA tcrit mmw T ph p (DNum r) in
  exists v0 v1 v2, v0 < v1 < v2
  /\ (forall v, root (pr_b T p b) (pr_c T p b aA) (pr_d T p b aA) v <-> v = v0 \/ v = v1 \/ v = v2)
  /\ (forall ph, (0 <= ph)%Z -> calc ph = DRet (DNum (mmw / v0)))
  /\ calc FLUID_UNDEFINED = DRet (DNum (mmw / (if Rlt_dec v1 (GasConstant * T / p) then v2 else v0)))
  /\ (forall ph, ph = FLUID_GAS \/ ph = FLUID_SUPERCRIT -> calc ph = DRet (DNum (mmw / v2))).
Proof.
  intros liq T p a b aA tcrit mmw r HT Hp Hm Hr Hc Hn Hd0 Hd calc.
  destruct (pr_solve_eq T p a b aA) as (tc & vc & Es).
  exact (branch_three liq T p b aA _ _ _ tc vc tcrit mmw (fun q => pr_solve T q a b aA) Es HT Hp Hm Hc Hn Hd0 r Hr Hd).
Qed.
Print Assumptions C68_branches.
Theorem C68_rk_branches : forall liq T p b a tcrit mmw r, 0 < T -> 0 < p -> 0 < mmw -> r <> -1 ->
  clear (rk_b T p) (rk_c T p b a) (rk_d T p b a) ->
  ~ nearly_ideal (rk_b T p) (rk_c T p b a) (z_B T p b) (z_A T p a) -> rk_d T p b a <> 0 ->
  0 < discriminant (rk_b T p) (rk_c T p b a) (rk_d T p b a) ->
  let calc := fun ph => rk_density liq a b tcrit mmw T ph p (DNum r) in
  exists v0 v1 v2, v0 < v1 < v2
  /\ (forall v, root (rk_b T p) (rk_c T p b a) (rk_d T p b a) v <-> v = v0 \/ v = v1 \/ v = v2)
  /\ (forall ph, (0 <= ph)%Z -> calc ph = DRet (DNum (mmw / v0)))
  /\ calc FLUID_UNDEFINED = DRet (DNum (mmw / (if Rlt_dec v1 (GasConstant * T / p) then v2 else v0)))
  /\ (forall ph, ph = FLUID_GAS \/ ph = FLUID_SUPERCRIT -> calc ph = DRet (DNum (mmw / v2))).
Proof.
  intros liq T p b a tcrit mmw r HT Hp Hm Hr Hc Hn Hd0 Hd calc.
  destruct (rk_solve_eq T p a b) as (tc & vc & Es).
  exact (branch_three liq T p b a _ _ _ tc vc tcrit mmw (fun q => rk_solve T q a b) Es HT Hp Hm Hc Hn Hd0 r Hr Hd).
Qed.
Print Assumptions C68_rk_branches.
Theorem C68_single : forall liq T p b aA bn cn dn tc vc tcrit mmw r, 0 < T -> 0 < p -> 0 < mmw -> r <> -1 ->
  clear bn cn dn -> ~ nearly_ideal bn cn (z_B T p b) (z_A T p aA) -> dn <> 0 -> discriminant bn cn dn < 0 ->
  let calc := fun ph => density_calc (fun q => solve_cubic T q b aA bn cn dn tc vc) liq T tcrit mmw p ph r in
  exists v0, (forall v, root bn cn dn v <-> v = v0)
  /\ (let liquid_like := v0 < (if Rlt_dec tc T then vc else inflection bn) in
      forall ph, calc ph = DRet (DNum (mmw / v0))
        <-> mmw / v0 = -2 \/ ph = FLUID_UNDEFINED \/ ph = FLUID_SUPERCRIT
            \/ (ph = FLUID_GAS /\ (~ liquid_like \/ tcrit < T))
            \/ ((0 <= ph)%Z /\ liquid_like)
            \/ (ph = FLUID_UNSTABLE /\ liquid_like /\ tcrit < T)
            \/ ((ph < FLUID_UNSTABLE)%Z /\ liquid_like /\ tcrit < T)).
Proof.
  intros liq T p b aA bn cn dn tc vc tcrit mmw r HT Hp Hm Hr Hc Hn Hd0 Hd calc.
  exact (branch_one liq T p b aA bn cn dn tc vc tcrit mmw _ eq_refl HT Hc Hn Hd0 r Hr Hd).
Qed.
Print Assumptions C68_single.

(* A forced branch is kept: after a successful call a gas-forced gas is no liquid, a liquid-forced
   liquid is no gas. *)
Theorem C68_forced : forall calc ps forced s p s', set_pressure calc ps forced s p = POk s' ->
  (forced = FLUID_GAS -> (r_state s < 0)%Z -> (r_state s' < 0)%Z)
  /\ ((0 < forced)%Z -> (0 <= r_state s)%Z -> r_state s' <> FLUID_GAS)
  /\ (s' <> s -> exists ph, calc ph p (r_rho s) = DRet (r_rho s') /\ dpos (r_rho s') = true
                            /\ r_state s' = ps (r_rho s')).
Proof.
  intros calc ps forced s p s'. unfold set_pressure, FLUID_UNDEFINED, FLUID_GAS, FLUID_LIQUID_0.
  destruct (Z.eqb_spec forced (-3)) as [F|F].
  - destruct (calc (r_state s) p (r_rho s)) as [|d] eqn:E1; [discriminate|].
    destruct (dpos d) eqn:E2.
    + intros H; injection H as <-. split; [lia|]. split; [lia|]. cbn. eauto.
    + destruct (dlow d); [|discriminate].
      destruct (calc (-3)%Z p (r_rho s)) as [|d2] eqn:E3; [discriminate|].
      destruct (dpos d2) eqn:E4; [|discriminate]. intros H; injection H as <-.
      split; [lia|]. split; [lia|]. cbn. eauto.
  - destruct (Z.eqb_spec forced (-1)) as [F1|F1].
    + destruct (Z.ltb_spec (r_state s) 0) as [K|K].
      * destruct (calc (r_state s) p (r_rho s)) as [|d] eqn:E1; [discriminate|].
        destruct (dpos d) eqn:E2; [|discriminate].
        destruct (Z.leb_spec 0 (ps d)) as [K2|K2]; [discriminate|].
        intros H; injection H as <-. cbn. split; [intros; lia|]. split; [lia|]. eauto.
      * intros H; injection H as <-. split; [lia|]. split; [lia|]. congruence.
    + destruct (Z.ltb_spec 0 forced) as [K|K].
      * destruct (Z.leb_spec 0 (r_state s)) as [K2|K2].
        -- destruct (calc (r_state s) p (r_rho s)) as [|d] eqn:E1; [discriminate|].
           destruct (dpos d) eqn:E2; [|discriminate].
           destruct (Z.eqb_spec (ps d) (-1)) as [K3|K3]; [discriminate|].
           intros H; injection H as <-. cbn. split; [lia|]. split; [tauto|]. eauto.
        -- intros H; injection H as <-. split; [lia|]. split; [lia|]. congruence.
      * intros H; injection H as <-. split; [lia|]. split; [lia|]. congruence.
Qed.
Print Assumptions C68_forced.
(* A temperature that is not positive is refused. *)
Theorem C68_temperature : forall T p a b aA, T <= 0 -> pr_solve T p a b aA = SThrow /\ rk_solve T p a b = SThrow.
Proof.
  intros T p a b aA HT. destruct (pr_solve_eq T p a b aA) as (tc & vc & Es). destruct (rk_solve_eq T p a b) as (tc' & vc' & Es').
  rewrite Es, Es'. unfold solve_cubic. assert (E : rltb 0 T = false) by (now apply rltb_false). rewrite E. split; reflexivity.
Qed.
Print Assumptions C68_temperature.
(* Three volumes: R T/p = 20 b and a/p = 130 b^2 with b = 1. *)
Example C68_branches_example : forall T, 0 < T ->
  let p := GasConstant * T / 20 in
  0 < p /\ clear (pr_b T p 1) (pr_c T p 1 (130 * p)) (pr_d T p 1 (130 * p))
  /\ ~ nearly_ideal (pr_b T p 1) (pr_c T p 1 (130 * p)) (z_B T p 1) (z_A T p (130 * p))
  /\ pr_d T p 1 (130 * p) <> 0
  /\ 0 < discriminant (pr_b T p 1) (pr_c T p 1 (130 * p)) (pr_d T p 1 (130 * p)).
Proof.
  intros T HT p. pose proof R_pos as HR.
  assert (HRT : 0 < GasConstant * T) by (apply Rmult_lt_0_compat; assumption).
  assert (Hp : 0 < p) by (unfold p; lra).
  assert (Eb : pr_b T p 1 = -19) by (unfold pr_b, p; field; lra).
  assert (Ec : pr_c T p 1 (130 * p) = 87) by (unfold pr_c, p; field; lra).
  assert (Ed : pr_d T p 1 (130 * p) = -109) by (unfold pr_d, p; field; lra).
  rewrite Eb, Ec, Ed. split; [exact Hp|].
  assert (D : discriminant (-19) 87 (-109) = 30272) by (unfold discriminant; ring).
  assert (M : middle (-19) 87 (-109) = - (1784 / 27)) by (unfold middle, cubic, inflection; field).
  split; [|split; [|lra]].
  - unfold clear. rewrite D, M. split.
    + unfold height. destruct (Rlt_dec 0 ((-19) ^ 2 - 3 * 87)) as [K|K]; [|exfalso; lra].
      replace (((-19) ^ 2 - 3 * 87) / 9) with ((10 / 3) * (10 / 3)) by field.
      rewrite sqrt_square by lra.
      rewrite Rabs_Ropp, (Rabs_right (1784 / 27)) by lra. rewrite Rabs_right by lra. lra.
    + rewrite Rabs_right by lra. lra.
  - intros (_ & K & _). rewrite Rabs_right in K by lra. lra.
Qed.
