From Coq Require Import Reals Lra List Bool Psatz Lia.
From Verif Require Import Base.Fp Base.Outcome StateSolve.Model StateSolve.Spec StateSolve.Proofs StateSolve.Proofs2.
Open Scope R_scope.

Lemma start_first ph T : start_T ph T = first_T ph T.
Proof.
  unfold start_T, first_T, Tmax, Tmin.
  destruct (rltb _ T) eqn:A; [apply tt_true in A|apply tt_false in A]; destruct (Rlt_dec _ T); try lra.
  destruct (rltb T _) eqn:B; [apply tt_true in B|apply tt_false in B]; destruct (Rlt_dec T _); lra.
Qed.
Lemma first_pos ph T : 0 < T -> 1 <= ph_minT ph <= ph_maxT ph -> 0 < first_T ph T.
Proof. intros H M. unfold first_T. destruct (Rlt_dec _ _); [lra|]. destruct (Rlt_dec _ _); lra. Qed.

Lemma stable_S its ph ent vol p Told dt uns last s :
  stable_loop ph ent vol p (S its) Told dt uns last s =
  (let low := negb ent && rltb (Told + dt) (Told / 3) in
   let Tnew := if low then Told / 3 else Told + dt in
   let dt1 := if low then -2 * Told / 3 else dt in
   match setState_cond ph vol s Tnew p with
   | (Done, s1) => if rltb (heat ph vol s1) 0
                   then stable_loop ph ent vol p its Told (if uns then dt1 else dt1 * (1 / 4)) uns Tnew s1
                   else ((Done, s1), (Tnew, dt1))
   | r => (r, (Tnew, dt1))
   end).
Proof. reflexivity. Qed.
Lemma loop_500 ph ent vol target p rtol v s :
  loop ph ent vol target p rtol 500 v s =
  match iterate ph ent vol target p rtol v s with
  | inl r => r | inr (v', s') => loop ph ent vol target p rtol 499 v' s' end.
Proof. reflexivity. Qed.

Lemma property_value ph ent vol s : property ph ent vol s = value ph ent vol s.
Proof. destruct ent, vol; reflexivity. Qed.
Lemma capacity_heat ph vol s : capacity ph vol s = heat ph vol s.
Proof. destruct vol; reflexivity. Qed.


(** C64_result: a call that returns has set the pressure (volume) asked for at a positive temperature,
    and either the property is exactly the target, or its error is within the tolerance relative to
    the larger of the target and cp*T (cp of the iterate before), or the temperature was last changed by
    less than four times the tolerance (less than the tolerance, if cp is not negative). *)
Theorem C64_result : forall ph ent vol target p rtol s s',
  0 < st_T s -> setState ph ent vol target p rtol s = (Done, s') ->
  held ph vol p s' /\ 0 < st_T s' /\
  exists s0, held ph vol p s0 /\ 0 < st_T s0 /\
    (property ph ent vol s' = target \/
     Rabs (target - property ph ent vol s') * (if ent then st_T s' else 1) <
       rtol * Rmax (Rabs target) (Rmax (Rabs (capacity ph vol s0)) (/ 100000) * st_T s') \/
     (Rabs (st_T s' - st_T s0) < 4 * rtol * st_T s' /\
      (0 <= capacity ph vol s' -> Rabs (st_T s' - st_T s0) < rtol * st_T s'))).
Proof.
  intros * HT H. destruct (setState_done _ _ _ _ _ _ _ _ HT H) as (s0&H0&P0&G1&G2&G3).
  split; auto. split; auto. exists s0. auto.
Qed.
Print Assumptions C64_result.

(** C64_accurate: for enthalpy and internal energy of a phase whose mean and point-wise heat capacities
    lie between c1 and c2, a call that returns is at the solution: the property agrees to the tolerance
    or the temperature to (4/3 + c2/c1) times the tolerance. *)
Theorem C64_accurate : forall ph vol target p rtol f c c1 c2 Tst s s',
  curve ph false vol p f c -> slopes f c c1 c2 -> 1 <= ph_minT ph <= ph_maxT ph ->
  0 < Tst -> f Tst = target -> 0 < st_T s -> 0 < rtol <= 2 -> rtol * st_T s' <= 100 ->
  setState ph false vol target p rtol s = (Done, s') ->
  held ph vol p s' /\ 0 < st_T s' /\ property ph false vol s' = f (st_T s') /\
  (Rabs (target - f (st_T s')) <= rtol * Rmax (Rabs target) (Rmax c2 (/ 100000) * st_T s') \/
   Rabs (Tst - st_T s') <= rtol * st_T s' * (4 / 3 + c2 / c1)).
Proof.
  intros * HC HS M HTst Hf HT Hr H100 H. destruct (C64_result _ _ _ _ _ _ _ _ HT H) as (A&B&_).
  destruct (curve_held _ _ _ _ _ _ HC _ A B) as [V _].
  split; auto. split; auto. split; auto.
  destruct (Rlt_dec p (/ 10 ^ 300)) as [L|L].
  { unfold setState in H. apply rltb_true in L. rewrite L in H. discriminate. }
  destruct (start_ok ph false vol target p rtol f c HC s) as (s0&H0&T0&E); auto; [lra|rewrite start_first; now apply first_pos|].
  rewrite E in H. assert (0 < st_T s0) by (rewrite T0, start_first; now apply first_pos).
  eapply loop_accurate with (v := start_vars ph false vol s0) (Tst := Tst); eauto; try (unfold Tmin, Tmax; lra).
  eapply start_inv; eauto.
Qed.
Print Assumptions C64_accurate.

(** C64_converges: if the heat capacities differ by less than a factor two, the solution is found from
    every starting temperature that is not too far away: [J] halvings (factor q) and 100 K per further
    iteration, 500 in all. *)
Theorem C64_converges : forall ph vol target p rtol f c c1 c2 q J Tst s,
  curve ph false vol p f c -> slopes f c c1 c2 -> 1 <= ph_minT ph <= ph_maxT ph ->
  0 < Tst -> f Tst = target -> 0 < st_T s -> / 10 ^ 300 <= p -> 0 < rtol <= 1 ->
  1 / 3 <= q < 1 -> c2 <= (1 + q) * c1 ->
  100 / (1 - q) * q ^ J <= rtol * Tst / 4 -> (J <= 499)%nat ->
  Rabs (Tst - first_T ph (st_T s)) <= 100 / (1 - q) + 100 * INR (499 - J) ->
  exists s', setState ph false vol target p rtol s = (Done, s').
Proof.
  intros * HC HS M HTst Hf HT Hp Hr Hq Hc HJ LJ HD.
  destruct (start_ok ph false vol target p rtol f c HC s) as (s0&H0&T0&E); auto; [rewrite start_first; now apply first_pos|].
  rewrite start_first in T0. assert (0 < st_T s0) by (rewrite T0; now apply first_pos). rewrite E.
  replace 500%nat with ((499 - J) + (S J + 0))%nat by lia.
  eapply loop_ends with (q := q) (Tst := Tst); eauto; try (unfold Tmin, Tmax; lra).
  - eapply start_inv; eauto.
  - unfold start_vars. cbn [v_T]. rewrite T0. exact HD.
Qed.
Print Assumptions C64_converges.

(** C64_energy_no_throw: the search for enthalpy or internal energy never leaves the positive
    temperatures: it returns or reports that 500 iterations did not suffice, and the state it leaves is
    at a positive temperature and at the pressure (volume) asked for. *)
Theorem C64_energy_no_throw : forall ph vol target p rtol f c s,
  curve ph false vol p f c -> 1 <= ph_minT ph <= ph_maxT ph -> 0 < st_T s -> / 10 ^ 300 <= p ->
  exists s', setState ph false vol target p rtol s = (Done, s') \/
             setState ph false vol target p rtol s = (NoConv 0 p, s').
Proof.
  intros * HC M HT Hp.
  destruct (start_ok ph false vol target p rtol f c HC s) as (s0&H0&T0&E); auto; [rewrite start_first; now apply first_pos|].
  rewrite start_first in T0. rewrite E. apply (loop_not_thrown ph false vol target p rtol f c HC); auto; try (unfold Tmin, Tmax; lra).
  unfold sync, start_vars. simpl. repeat split; auto. rewrite T0. now apply first_pos.
Qed.
Print Assumptions C64_energy_no_throw.

(** C64_fixed: a state that has the property already keeps its temperature, for all four pairs. *)
Theorem C64_fixed : forall ph ent vol target p rtol f c s,
  curve ph ent vol p f c -> 0 < st_T s -> ph_minT ph <= st_T s <= ph_maxT ph -> / 10 ^ 300 <= p ->
  0 < c (st_T s) -> f (st_T s) = target ->
  exists s', setState ph ent vol target p rtol s = (Done, s') /\ st_T s' = st_T s /\ held ph vol p s' /\ property ph ent vol s' = target.
Proof.
  intros * HC HT HB Hp PC Hf.
  assert (first_T ph (st_T s) = st_T s) as FT by (unfold first_T; destruct (Rlt_dec _ _); [lra|]; destruct (Rlt_dec _ _); lra).
  destruct (start_ok ph ent vol target p rtol f c HC s) as (s0&H0&T0&E); auto; [rewrite start_first, FT; auto|].
  rewrite start_first, FT in T0. rewrite E. rewrite loop_500.
  destruct (curve_held _ _ _ _ _ _ HC s0 H0 ltac:(lra)) as [V C]. rewrite T0 in V, C.
  unfold iterate. set (v := start_vars ph ent vol s0).
  assert (v_T v = st_T s /\ v_H v = target /\ v_C v = c (st_T s) /\ v_Htop v = target /\ v_Hbot v = target /\ v_uns v = false /\ v_ign v = false) as (A1&A2&A3&A4&A5&A6&A7).
  { unfold v, start_vars. cbn [v_T v_H v_C v_Htop v_Hbot v_uns v_ign]. rewrite V, C, Hf, T0. auto 10. }
  assert (newton_step ent target v = 0) as N0.
  { unfold newton_step. rewrite A1, A2, A3. destruct ent; rewrite fdiv_fin by lra; rewrite clip_fin.
    - replace ((target - target) * st_T s / c (st_T s)) with 0 by (field; lra). rewrite Rmin_right, Rmax_right; lra.
    - replace ((target - target) / c (st_T s)) with 0 by (field; lra). rewrite Rmin_right, Rmax_right; lra. }
  assert (rltb target target = false) as TT by (apply rltb_false; lra).
  assert (limited_step ent target v (rltb (v_C v) 0 || v_uns v) (newton_step ent target v) = 0) as L0.
  { unfold limited_step. rewrite A4, A5, TT. cbn [andb]. destruct (_ || _); exact N0. }
  rewrite L0, A1, A3, A6, A7. rewrite Rplus_0_r.
  assert (rltb (c (st_T s)) 0 = false) as CN by (apply rltb_false; lra). rewrite CN. cbn [orb].
  unfold check_bounds, check_max, check_min. unfold Tmax, Tmin.
  assert (rltb (ph_maxT ph + 1 / 10) (st_T s) = false) as -> by (apply rltb_false; lra). cbn [andb].
  cbv beta iota zeta. rewrite ?andb_false_r.
  assert (rltb (st_T s) (ph_minT ph - 1 / 10) = false) as -> by (apply rltb_false; lra). cbn [andb].
  rewrite (stable_S 9). cbv zeta. rewrite Rplus_0_r. assert (rltb (st_T s) (st_T s / 3) = false) as -> by (apply rltb_false; lra). rewrite andb_false_r.
  destruct (curve_cond ph ent vol p f c HC s0 (st_T s)) as (s1&E1&ET&HH&EV&EC); [eapply held_vheld; eauto|auto|].
  rewrite E1, EC, CN, EV, Hf. assert (reqb target target = true) as -> by (now apply reqb_true).
  exists s1. repeat split; auto. now rewrite property_value, EV.
Qed.
Print Assumptions C64_fixed.

(** C64_rejected: a pressure or volume below 1e-300 is refused and the state kept. *)
Theorem C64_rejected : forall ph ent vol target p rtol s,
  p < / 10 ^ 300 -> setState ph ent vol target p rtol s = (Thrown, s).
Proof. intros * H. unfold setState. apply rltb_true in H. now rewrite H. Qed.
Print Assumptions C64_rejected.

(** C64_TP: setting temperature and pressure gives that temperature and the density of that pressure,
    or fails and leaves temperature and density as they were. *)
Theorem C64_TP : forall ph s t p e s',
  0 < st_T s -> 0 < st_D s -> setState_TP ph s t p = (e, s') ->
  e = Done /\ 0 < t /\ st_T s' = t /\ ph_setP ph t (st_D s) p = Ok (st_D s') \/
  e = Thrown /\ s' = s /\ (t <= 0 \/ forall d, ph_setP ph t (st_D s) p <> Ok d).
Proof.
  intros * HT HD. destruct s as [T D]. cbn [st_T st_D] in *. unfold setState_TP, setTemperature, setDensity, setPressure. cbn [st_T st_D].
  pose proof HT as HT'. apply rltb_true in HT'. pose proof HD as HD'. apply rltb_true in HD'.
  destruct (rltb 0 t) eqn:Ht; cbn [andthen st_T st_D].
  - apply tt_true in Ht. destruct (ph_setP ph t D p) eqn:EP; cbn [st_T st_D]; try rewrite HT'; cbn [andthen st_T st_D]; try rewrite HD'; cbn [snd st_T];
      intros H; injection H as <- <-; [left; auto|right|right|right]; repeat split; auto; right; congruence.
  - apply tt_false in Ht. rewrite HT'. cbn [andthen st_T st_D]. rewrite HD'. cbn [snd st_T]. intros H. injection H as <- <-. right. auto.
Qed.
Print Assumptions C64_TP.

(** C64_message: the failure report names the pressure, and for entropy the volume, of the call. *)
Theorem C64_message : forall ph ent vol target p rtol s v q s',
  setState ph ent vol target p rtol s = (NoConv v q, s') ->
  q = p /\ (ent = true -> vol = true -> v = p).
Proof.
  intros * H. unfold setState in H. destruct (rltb p _); [discriminate|].
  assert (forall s t e s1, setState_cond ph vol s t p = (e, s1) -> e = Done \/ e = Thrown) as HC.
  { intros s0 t e s1. unfold setState_cond, setTemperature. destruct (rltb 0 t); cbn [andthen]; [|intros E; injection E as <- _; auto].
    destruct vol; [intros E; injection E as <- _; auto|]. unfold setPressure. destruct (ph_setP _ _ _ _); intros E; injection E as <- _; auto. }
  assert (forall n w s0, loop ph ent vol target p rtol n w s0 = (NoConv v q, s') -> v = printed_v ent vol p /\ q = p) as HL.
  { induction n as [|n IH]; intros w s0; cbn [loop]; [intros E; injection E; auto|].
    destruct (iterate ph ent vol target p rtol w s0) as [r|[w' s1]] eqn:EI; [|apply IH].
    intros ->. exfalso. unfold iterate in EI.
    destruct (check_bounds _ _ _ _ _ _ _ _) as [[e s1] v1] eqn:CB.
    assert (e = Done \/ e = Thrown) as HE.
    { unfold check_bounds, check_max, check_min in CB.
      destruct (rltb (Tmax ph) _ && _).
      - destruct (setState_cond ph vol s0 (Tmax ph) p) as [e1 s2] eqn:E1. apply HC in E1.
        destruct E1 as [-> | ->]; [|cbn [snd] in CB; destruct (negb _); injection CB as <- _ _; auto].
        cbn [snd] in CB. destruct (negb _); cbn [fst snd] in CB; destruct (ent && _); try (injection CB as <- _ _; auto; fail);
        (destruct (rltb _ (Tmin ph) && _); [|injection CB as <- _ _; auto]);
        injection CB as CB _; eapply HC; exact CB.
      - destruct (ent && _); [injection CB as <- _ _; auto|].
        destruct (rltb _ (Tmin ph) && _); [|injection CB as <- _ _; auto]. injection CB as CB _. eapply HC; exact CB. }
    destruct HE as [-> | ->]; [|discriminate].
    match goal with EI : context [stable_loop ph ent vol p ?a ?b ?c ?d ?e ?f] |- _ =>
      assert (forall x y, stable_loop ph ent vol p a b c d e f = (x, y) -> fst x = Done \/ fst x = Thrown) as HSL;
      [clear EI CB; generalize c e f; generalize a as its|] end.
    { induction its as [|its IHs]; intros c0 e0 f0 x y; cbn [stable_loop]; [intros E; injection E as <- _; auto|].
      destruct (setState_cond ph vol f0 _ p) as [e1 s2] eqn:E1. apply HC in E1. destruct E1 as [-> | ->].
      - destruct (rltb (heat ph vol s2) 0); [apply IHs|intros E; injection E as <- _; auto].
      - intros E; injection E as <- _; auto. }
    destruct (stable_loop _ _ _ _ _ _ _ _ _ _) as [[e2 s2] [Tn d2]] eqn:SL. specialize (HSL _ _ eq_refl). cbn [fst] in HSL.
    destruct HSL as [-> | ->]; [|discriminate]. destruct (reqb _ _); [discriminate|]. destruct (converged _ _ _ _ _ _ _); discriminate. }
  assert (forall s0, andthen (if reqb (start_T ph (st_T s0)) (st_T s0) then (Done, s0) else setState_cond ph vol s0 (start_T ph (st_T s0)) p)
        (fun s => loop ph ent vol target p rtol 500 (start_vars ph ent vol s) s) = (NoConv v q, s') -> v = printed_v ent vol p /\ q = p) as HA.
  { intros s0. destruct (reqb _ _); [apply HL|]. destruct (setState_cond ph vol s0 _ p) as [e s1] eqn:E1. apply HC in E1.
    destruct E1 as [-> | ->]; [apply HL|discriminate]. }
  assert (v = printed_v ent vol p /\ q = p) as [-> ->].
  { destruct vol.
    - unfold setDensity in H. destruct (rltb 0 (1 / p)); [|discriminate]. cbn [andthen] in H. now apply HA in H.
    - unfold setPressure in H. destruct (ph_setP _ _ _ _); try discriminate. cbn [andthen] in H. now apply HA in H. }
  split; auto. intros -> ->. reflexivity.
Qed.
Print Assumptions C64_message.

(** ** Where the expected behaviour fails *)

(** C64_volume_message_refuted: the report for an internal energy that was not found names the volume 0
    instead of the one asked for. *)
Theorem C64_volume_message_refuted :
  exists ph target v rtol s s', setState_UV ph target v rtol s = (NoConv 0 v, s') /\ v = 2.
Proof.
  pose (ph := mk_phase 200 3000 (fun T _ p => Ok (p / T)) (fun _ _ => 0) (fun _ _ => 0) (fun _ _ => 0) (fun _ _ => 1) (fun _ _ => 1)).
  assert (curve ph false true 2 (fun _ => 0) (fun _ => 1)) as HC by (intros T HT; split; reflexivity).
  pose proof (C64_energy_no_throw ph true 1 2 0 _ _ (mk_state 300 1) HC) as Q.
  destruct Q as [s' Q]; [simpl; lra|simpl; lra| |].
  { apply Rle_trans with (/ 1); [|lra]. apply Rinv_le_contravar; [lra|]. apply pow_R1_Rle. lra. }
  exists ph, 1, 2, 0, (mk_state 300 1), s'. split; [|reflexivity]. destruct Q as [Q|Q]; [exfalso|exact Q].
  apply C64_result in Q; [|simpl; lra]. destruct Q as (_&_&s0&_&_&Q). unfold value in Q. cbn in Q.
  destruct Q as [Q|[Q|[Q _]]]; [lra| |].
  - rewrite Rmult_0_l, Rmult_1_r in Q. pose proof (Rabs_pos (1 - 0)). lra.
  - rewrite Rmult_0_r, Rmult_0_l in Q. pose proof (Rabs_pos (st_T s' - st_T s0)). lra.
Qed.
Print Assumptions C64_volume_message_refuted.

Lemma p1 : / 10 ^ 300 <= 1.
Proof. apply Rle_trans with (/ 1); [|lra]. apply Rinv_le_contravar; [lra|]. apply pow_R1_Rle. lra. Qed.

(** C64_entropy_refuted: for a gas of constant specific heats valid from 10 to 1000 K, the entropy of
    90*exp(-2) K (about 12 K) at the present pressure is not found from 90 K: the first step is 100 K
    downwards, the negative temperature is refused, and the call leaves the gas at 9.9 K. *)
Theorem C64_entropy_refuted :
  let ph := perfect 10 1000 1 1 in
  let s := mk_state 90 (1 / 90) in
  exists Tst target s', 10 <= Tst < 30 /\
    curve ph true false 1 (fun T => ln T - ln 1) (fun _ => 1) /\ ln Tst - ln 1 = target /\
    held ph false 1 s /\ setState_SP ph target 1 (/ 10 ^ 9) s = (Thrown, s') /\ st_T s' = 99 / 10.
Proof.
  intros ph s.
  assert (forall T, 0 < T -> 1 * T * (1 / (1 * T)) = 1) as EQ1 by (intros T HT; field; lra).
  assert (curve ph true false 1 (fun T => ln T - ln 1) (fun _ => 1)) as HC.
  { intros T HT D. exists (1 / (1 * T)). split; [reflexivity|]. split; [|reflexivity].
    unfold property, ph, perfect. cbn [ph_s st_T st_D]. rewrite EQ1 by auto. ring. }
  assert (ln (90 * exp (-2)) = ln 90 - 2) as LN.
  { rewrite ln_mult by (try apply exp_pos; lra). rewrite ln_exp. ring. }
  assert (4 < exp 2 <= 9) as E2.
  { replace 2 with (1 + 1) by ring. rewrite exp_plus. pose proof exp_le_3. pose proof (exp_ineq1 1 ltac:(lra)). split; nra. }
  assert (exp (-2) = / exp 2) as E3 by (replace (-2) with (- (2)) by lra; apply exp_Ropp).
  assert (/ 9 <= exp (-2) < / 4) as E4.
  { rewrite E3. split; [apply Rinv_le_contravar; lra|apply Rinv_lt_contravar; lra]. }
  exists (90 * exp (-2)), (ln 90 - 2), (mk_state (99 / 10) (1 / (1 * (99 / 10)))).
  split; [lra|]. split; [exact HC|]. split; [rewrite LN, ln_1; ring|].
  split; [exists 1; unfold ph, perfect, s; cbn [ph_setP st_T st_D]; f_equal; field|]. split; [|reflexivity].
  unfold setState_SP, setState. assert (rltb 1 (/ 10 ^ 300) = false) as -> by (apply rltb_false, p1).
  assert (setPressure ph s 1 = (Done, s)) as ->.
  { unfold setPressure, ph, perfect, s. cbn [ph_setP st_T st_D]. do 2 f_equal. field. }
  cbn [andthen]. assert (start_T ph (st_T s) = 90) as ->.
  { rewrite start_first. unfold first_T, ph, perfect, s. cbn [ph_minT ph_maxT st_T].
    destruct (Rlt_dec _ _); [lra|]. destruct (Rlt_dec _ _); lra. }
  assert (reqb 90 (st_T s) = true) as -> by (now apply reqb_true). cbn [andthen].
  assert (value ph true false s = ln 90) as VS.
  { unfold value, ph, perfect, s. cbn [ph_s st_T st_D]. replace (1 * 90 * (1 / 90)) with 1 by field. rewrite ln_1. ring. }
  unfold start_vars. rewrite VS. change (heat ph false s) with 1. change (st_T s) with 90.
  rewrite loop_500. unfold iterate. cbn [v_T v_H v_C v_Htop v_Ttop v_Hbot v_Tbot v_ign v_uns].
  assert (rltb 1 0 = false) as R10 by (apply rltb_false; lra). rewrite R10. cbn [orb].
  assert (newton_step true (ln 90 - 2) (mk_vars 90 (ln 90) 1 (ln 90) 90 (ln 90) 90 false false) = -100) as ->.
  { unfold newton_step. cbn [v_T v_H v_C]. rewrite fdiv_fin by lra. rewrite clip_fin.
    replace ((ln 90 - 2 - ln 90) * 90 / 1) with (-180) by field. rewrite Rmin_right, Rmax_left; lra. }
  unfold limited_step. cbn [v_T v_H v_C v_Htop v_Ttop v_Hbot v_Tbot].
  assert (rltb 0 (-100) = false) as -> by (apply rltb_false; lra). cbn [andb orb negb].
  assert (rltb (ln 90) (ln 90 - 2) = false) as -> by (apply rltb_false; lra). cbn [andb].
  unfold check_bounds, check_max, check_min. cbn [v_T v_H v_C v_Htop v_Ttop v_Hbot v_Tbot v_ign v_uns].
  assert (Tmax ph = 1000 + 1 / 10) as -> by reflexivity. assert (Tmin ph = 99 / 10) as -> by (unfold Tmin, ph, perfect; cbn [ph_minT]; lra).
  assert (rltb (1000 + 1 / 10) (90 + -100) = false) as -> by (apply rltb_false; lra). cbn [andb]. cbv beta iota.
  assert (rltb (90 + -100) (99 / 10) = true) as -> by (apply rltb_true; lra). cbn [andb negb v_ign]. cbv beta iota.
  assert (setState_cond ph false s (99 / 10) 1 = (Done, mk_state (99 / 10) (1 / (1 * (99 / 10))))) as ->.
  { unfold setState_cond, setTemperature. assert (rltb 0 (99 / 10) = true) as -> by (apply rltb_true; lra). reflexivity. }
  cbn [snd]. set (s9 := mk_state _ _).
  cbv beta iota.
  assert (stable_loop ph true false 1 10 90 (-100) false (90 + -100) s9 = ((Thrown, s9), (90 + -100, -100))) as ->.
  { rewrite (stable_S 9). cbv zeta. cbn [negb andb]. unfold setState_cond, setTemperature.
    assert (rltb 0 (90 + -100) = false) as -> by (apply rltb_false; lra). reflexivity. }
  reflexivity.
Qed.
Print Assumptions C64_entropy_refuted.

(** C64_range_refuted: the range of validity of the phase does not limit the result: a gas valid up to
    1000 K is set to 1050 K. *)
Theorem C64_range_refuted :
  let ph := perfect 200 1000 1 1 in
  exists target s s', st_T s = 1000 /\ setState_HP ph target 1 (/ 10 ^ 9) s = (Done, s') /\ st_T s' = 1050.
Proof.
  intros ph. exists 1050, (mk_state 1000 (1 / (1 * 1000))), (mk_state 1050 (1 / (1 * 1050))).
  split; [reflexivity|]. split; [|reflexivity].
  assert (forall T, 0 < T -> forall d, setState_cond ph false (mk_state d d) T 1 = (Done, mk_state T (1 / (1 * T)))) as _ by
    (intros T HT d; unfold setState_cond, setTemperature; apply rltb_true in HT; rewrite HT; reflexivity).
  set (s := mk_state 1000 _).
  unfold setState_HP, setState. assert (rltb 1 (/ 10 ^ 300) = false) as -> by (apply rltb_false, p1).
  assert (setPressure ph s 1 = (Done, s)) as -> by reflexivity.
  cbn [andthen]. assert (start_T ph (st_T s) = 1000) as ->.
  { rewrite start_first. unfold first_T, ph, perfect, s. cbn [ph_minT ph_maxT st_T].
    destruct (Rlt_dec _ _); [lra|]. destruct (Rlt_dec _ _); lra. }
  assert (reqb 1000 (st_T s) = true) as -> by (now apply reqb_true). cbn [andthen].
  unfold start_vars. assert (value ph false false s = 1000) as -> by (unfold value, ph, perfect, s; cbn [ph_h st_T]; ring).
  change (heat ph false s) with 1. change (st_T s) with 1000.
  rewrite loop_500. unfold iterate. cbn [v_T v_H v_C v_Htop v_Ttop v_Hbot v_Tbot v_ign v_uns].
  assert (rltb 1 0 = false) as R10 by (apply rltb_false; lra). rewrite R10. cbn [orb].
  assert (newton_step false 1050 (mk_vars 1000 1000 1 1000 1000 1000 1000 false false) = 50) as ->.
  { unfold newton_step. cbn [v_T v_H v_C]. rewrite fdiv_fin by lra. rewrite clip_fin.
    replace ((1050 - 1000) / 1) with 50 by field. rewrite Rmin_right, Rmax_right; lra. }
  unfold limited_step. cbn [v_T v_H v_C v_Htop v_Ttop v_Hbot v_Tbot].
  assert (rltb 0 50 = true) as -> by (apply rltb_true; lra). cbn [andb orb negb].
  assert (rltb 1050 1000 = false) as -> by (apply rltb_false; lra). cbn [andb].
  unfold check_bounds, check_max, check_min. cbn [v_T v_H v_C v_Htop v_Ttop v_Hbot v_Tbot v_ign v_uns].
  assert (Tmax ph = 1000 + 1 / 10) as -> by reflexivity.
  assert (rltb (1000 + 1 / 10) (1000 + 50) = true) as -> by (apply rltb_true; lra). cbn [andb negb].
  assert (setState_cond ph false s (1000 + 1 / 10) 1 = (Done, mk_state (1000 + 1 / 10) (1 / (1 * (1000 + 1 / 10))))) as ->.
  { unfold setState_cond, setTemperature. assert (rltb 0 (1000 + 1 / 10) = true) as -> by (apply rltb_true; lra). reflexivity. }
  cbn [snd]. set (s9 := mk_state _ _). assert (value ph false false s9 = 1000 + 1 / 10) as -> by (unfold value, ph, perfect, s9; cbn [ph_h st_T]; ring).
  assert (rltb (1000 + 1 / 10) 1050 = true) as -> by (apply rltb_true; lra). cbn [negb v_ign]. rewrite andb_false_r.
  assert (stable_loop ph false false 1 10 1000 50 false (1000 + 50) s9 = ((Done, mk_state 1050 (1 / (1 * 1050))), (1050, 50))) as ->.
  { rewrite (stable_S 9). cbv zeta. cbn [negb andb]. assert (rltb (1000 + 50) (1000 / 3) = false) as -> by (apply rltb_false; lra).
    replace (1000 + 50) with 1050 by lra. unfold setState_cond, setTemperature.
    assert (rltb 0 1050 = true) as -> by (apply rltb_true; lra). cbn [andthen setPressure ph_setP].
    change (setPressure ph (mk_state 1050 (st_D s9)) 1) with (Done, mk_state 1050 (1 / (1 * 1050))). cbv iota beta.
    change (heat ph false _) with 1. rewrite R10. reflexivity. }
  set (s2 := mk_state 1050 _). assert (value ph false false s2 = 1050) as -> by (unfold value, ph, perfect, s2; cbn [ph_h st_T]; ring).
  assert (reqb 1050 1050 = true) as -> by (now apply reqb_true). reflexivity.
Qed.
Print Assumptions C64_range_refuted.

(** ** The hypotheses are met *)
Lemma perfect_curve minT maxT r cp p : 0 < r < cp -> 0 < p ->
  curve (perfect minT maxT r cp) false false p (fun T => cp * T) (fun _ => cp) /\
  curve (perfect minT maxT r cp) false true p (fun T => (cp - r) * T) (fun _ => cp - r) /\
  slopes (fun T => cp * T) (fun _ => cp) cp cp /\ slopes (fun T => (cp - r) * T) (fun _ => cp - r) (cp - r) (cp - r).
Proof.
  intros H Hp. split; [|split; [|split]].
  - intros T HT D. eexists. split; [reflexivity|]. split; reflexivity.
  - intros T HT. split; reflexivity.
  - split; [lra|]. split; intros; [lra|nra].
  - split; [lra|]. split; intros; [lra|nra].
Qed.

(** A gas of constant specific heats with gas constant 287 and cp 1005, at 300 K, is set to the enthalpy of 2500 K,
    and to the internal energy of 2500 K. *)
Example perfect_found :
  let ph := perfect 200 3000 287 1005 in let s := mk_state 300 (101325 / (287 * 300)) in
  exists s', setState_HP ph (1005 * 2500) 101325 (/ 10 ^ 9) s = (Done, s') /\
    (st_T s' <= 10 ^ 10 -> Rabs (2500 - st_T s') <= 7 / 3 * (/ 10 ^ 9) * st_T s' \/
     Rabs (1005 * 2500 - 1005 * st_T s') <= / 10 ^ 9 * Rmax (Rabs (1005 * 2500)) (Rmax 1005 (/ 100000) * st_T s')).
Proof.
  intros ph s. destruct (perfect_curve 200 3000 287 1005 101325 ltac:(lra) ltac:(lra)) as (HC&_&HS&_).
  assert (/ 10 ^ 300 <= 101325) as HP by (pose proof p1; lra).
  assert (0 < / 10 ^ 9) as P9 by (apply Rinv_0_lt_compat, pow_lt; lra).
  assert (/ 10 ^ 9 = 1 / 1000000000) as E9 by field.
  destruct (C64_converges ph false (1005 * 2500) 101325 (/ 10 ^ 9) _ _ _ _ (1 / 3) 18 2500 s HC HS) as [s' E]; try (simpl; lra); auto.
  - lia.
  - unfold first_T. cbn [ph perfect ph_minT ph_maxT s st_T]. destruct (Rlt_dec _ _); [lra|]. destruct (Rlt_dec _ _); [lra|].
    rewrite Rabs_right by lra. replace (INR (499 - 18)) with 481; [lra|]. change (499 - 18)%nat with 481%nat. rewrite INR_IZR_INZ. reflexivity.
  - exists s'. split; [exact E|]. intros L.
    destruct (C64_accurate ph false (1005 * 2500) 101325 (/ 10 ^ 9) _ _ _ _ 2500 s s' HC HS) as (_&_&_&Q); try (simpl; lra); auto.
Qed.
(** The gas at 300 K keeps its temperature when it is given its own entropy. *)
Example perfect_fixed :
  let ph := perfect 200 3000 1 2 in let s := mk_state 300 (1 / (1 * 300)) in
  exists s', setState_SP ph (property ph true false s) 1 (/ 10 ^ 9) s = (Done, s') /\ st_T s' = 300.
Proof.
  intros ph s.
  assert (curve ph true false 1 (fun T => 2 * ln T - 1 * ln 1) (fun _ => 2)) as HC.
  { intros T HT D. exists (1 / (1 * T)). split; [reflexivity|]. split; [|reflexivity].
    unfold property, value, ph, perfect. cbn [ph_s st_T st_D]. replace (1 * T * (1 / (1 * T))) with 1 by (field; lra). reflexivity. }
  destruct (C64_fixed ph true false (value ph true false s) 1 (/ 10 ^ 9) _ _ s HC) as (s'&E&ET&_); try (simpl; lra).
  - unfold property, value, ph, perfect, s. cbn [ph_s st_T st_D]. replace (1 * 300 * (1 / (1 * 300))) with 1 by field. reflexivity.
  - exists s'. split; [exact E|exact ET].
Qed.
(** Temperature and pressure: 500 K is accepted, a negative temperature refused. *)
Example TP_cases :
  let ph := perfect 200 3000 1 2 in let s := mk_state 300 1 in
  setState_TP ph s 500 1 = (Done, mk_state 500 (1 / (1 * 500))) /\ setState_TP ph s (-1) 1 = (Thrown, s).
Proof.
  intros ph s. split.
  - unfold setState_TP, setTemperature. assert (rltb 0 500 = true) as -> by (apply rltb_true; lra). reflexivity.
  - unfold setState_TP, setTemperature, setDensity. assert (rltb 0 (-1) = false) as -> by (apply rltb_false; lra). cbn [andthen s st_T st_D].
    assert (rltb 0 300 = true) as -> by (apply rltb_true; lra). cbn [andthen st_T st_D].
    assert (rltb 0 1 = true) as -> by (apply rltb_true; lra). reflexivity.
Qed.
