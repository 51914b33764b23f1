From Coq Require Import Reals Lra List Bool Psatz Lia.
From Verif Require Import Base.Fp Base.Outcome StateSolve.Model StateSolve.Spec StateSolve.Proofs.
Open Scope R_scope.

(** ** Enthalpy and internal energy: no temperature is refused. *)
Section Curve.
  Context (ph : phase) (ent vol : bool) (target p rtol : R) (f c : R -> R).
  Context (HC : curve ph ent vol p f c).
  Notation held := (held ph vol p).

  Lemma curve_cond s t : vheld vol p s -> 0 < t ->
    exists s1, setState_cond ph vol s t p = (Done, s1) /\ st_T s1 = t /\ held s1 /\
      value ph ent vol s1 = f t /\ heat ph vol s1 = c t.
  Proof.
    intros V HT. unfold setState_cond, setTemperature. apply rltb_true in HT. rewrite HT. apply rltb_true in HT.
    cbn [andthen]. specialize (HC t HT). unfold vheld in V. unfold Spec.held. destruct vol.
    - destruct HC as [A B]. specialize (V eq_refl). eexists. split; [reflexivity|]. cbn [st_T st_D]. rewrite V. auto.
    - unfold setPressure. cbn [st_T st_D]. destruct (HC (st_D s)) as (D'&E&A&B). rewrite E.
      eexists. split; [reflexivity|]. cbn [st_T st_D]. repeat split; eauto.
  Qed.
  Lemma curve_held s : held s -> 0 < st_T s -> value ph ent vol s = f (st_T s) /\ heat ph vol s = c (st_T s).
  Proof.
    intros H HT. specialize (HC (st_T s) HT). unfold Spec.held in H. destruct s as [T D]. cbn [st_T st_D] in *. destruct vol.
    - subst D. exact HC.
    - destruct H as [D0 E]. destruct (HC D0) as (D'&E'&A). rewrite E in E'. injection E' as <-. exact A.
  Qed.

  Context (HTmin : 0 < Tmin ph) (HTmax : 0 < Tmax ph).

  Lemma check_ok v tn s : vheld vol p s ->
    exists s1 v1, check_bounds ph ent vol target p v tn s = ((Done, s1), v1) /\ vheld vol p s1 /\
      v_T v1 = v_T v /\ v_H v1 = v_H v /\ v_C v1 = v_C v /\ v_uns v1 = v_uns v /\
      ((v_Htop v1 = v_Htop v /\ v_Ttop v1 = v_Ttop v) \/ (v_Htop v1 = f (Tmax ph) /\ v_Ttop v1 = Tmax ph)) /\
      ((v_Hbot v1 = v_Hbot v /\ v_Tbot v1 = v_Tbot v) \/ (v_Hbot v1 = f (Tmin ph) /\ v_Tbot v1 = Tmin ph)).
  Proof.
    intros V.
    assert (exists s1 v1 tn1, check_max ph ent vol target p v tn s = ((Done, s1), (v1, tn1)) /\ vheld vol p s1 /\
      v_T v1 = v_T v /\ v_H v1 = v_H v /\ v_C v1 = v_C v /\ v_uns v1 = v_uns v /\
      ((v_Htop v1 = v_Htop v /\ v_Ttop v1 = v_Ttop v) \/ (v_Htop v1 = f (Tmax ph) /\ v_Ttop v1 = Tmax ph)) /\
      v_Hbot v1 = v_Hbot v /\ v_Tbot v1 = v_Tbot v) as (s1&v1&tn1&E1&V1&A1&A2&A3&A4&A5&A6&A7).
    { unfold check_max. destruct (rltb _ tn && _).
      - destruct (curve_cond s (Tmax ph) V HTmax) as (s1&E&ET&HH&EV&EC). rewrite E. cbn [snd]. rewrite EV.
        destruct (negb _); [destruct (rltb _ _)|]; do 3 eexists; (split; [reflexivity|]); (split; [eapply held_vheld; eauto|]); simpl; repeat split; auto.
      - do 3 eexists. split; [reflexivity|]. repeat split; auto. }
    assert (forall tn, exists s2 v2, check_min ph ent vol target p v1 tn s1 = ((Done, s2), v2) /\ vheld vol p s2 /\
      v_T v2 = v_T v1 /\ v_H v2 = v_H v1 /\ v_C v2 = v_C v1 /\ v_uns v2 = v_uns v1 /\
      ((v_Hbot v2 = v_Hbot v1 /\ v_Tbot v2 = v_Tbot v1) \/ (v_Hbot v2 = f (Tmin ph) /\ v_Tbot v2 = Tmin ph)) /\
      v_Htop v2 = v_Htop v1 /\ v_Ttop v2 = v_Ttop v1) as MIN.
    { intros tn'. unfold check_min. destruct (rltb tn' _ && _).
      - destruct (curve_cond s1 (Tmin ph) V1 HTmin) as (s2&E&ET&HH&EV&EC). rewrite E. cbn [snd]. rewrite EV.
        destruct (negb _); [destruct (rltb _ _)|]; do 2 eexists; (split; [reflexivity|]); (split; [eapply held_vheld; eauto|]); simpl; repeat split; auto.
      - do 2 eexists. split; [reflexivity|]. repeat split; auto. }
    unfold check_bounds. rewrite E1. destruct (ent && _).
    - do 2 eexists. split; [reflexivity|]. rewrite A6, A7. repeat split; auto.
    - destruct (MIN tn1) as (s2&v2&E2&V2&B1&B2&B3&B4&B5&B6&B7). rewrite E2.
      do 2 eexists. split; [reflexivity|]. rewrite B1, B2, B3, B4, B6, B7. rewrite A6, A7 in B5. repeat split; auto.
  Qed.

  Context (Hent : ent = false).

  Lemma stable_ok its Told dt uns last s : vheld vol p s -> 0 < Told ->
    exists s2 Tn dt2, stable_loop ph ent vol p its Told dt uns last s = ((Done, s2), (Tn, dt2)).
  Proof.
    intros V HT. rewrite Hent. revert dt last s V. induction its as [|its IH]; intros dt last s V; cbn [stable_loop]; [eauto|].
    cbn [negb andb].
    set (low := rltb (Told + dt) (Told / 3)). set (T1 := if low then Told / 3 else Told + dt).
    assert (0 < T1) as P1.
    { unfold T1. destruct low eqn:L; [lra|]. unfold low in L. apply tt_false in L. lra. }
    destruct (curve_cond s T1 V P1) as (s1&E&ET&HH&EV&EC). rewrite E.
    destruct (rltb _ 0); [|eauto]. apply IH. eapply held_vheld; eauto.
  Qed.

  Lemma iterate_not_thrown v s r : sync ph ent vol p v s -> iterate ph ent vol target p rtol v s = inl r -> exists s', r = (Done, s').
  Proof.
    intros (S1&S2&S3&S4&S5). unfold iterate. set (uns := _ || _). set (dt := limited_step _ _ _ _ _).
    set (v0 := mk_vars _ _ _ _ _ _ _ _ _).
    destruct (check_ok v0 (v_T v + dt) s) as (s1&v1&CB&V1&_); [eapply held_vheld; eauto|]. rewrite CB.
    destruct (stable_ok 10 (v_T v) dt uns (v_T v + dt) s1 V1) as (s2&Tn&dt2&SL); [lra|]. rewrite SL.
    destruct (reqb _ _); [intros H; injection H as <-; eauto|].
    destruct (converged _ _ _ _ _ _ _); [intros H; injection H as <-; eauto|discriminate].
  Qed.
  Lemma loop_not_thrown n v s : sync ph ent vol p v s ->
    exists s', loop ph ent vol target p rtol n v s = (Done, s') \/ loop ph ent vol target p rtol n v s = (NoConv (printed_v ent vol p) p, s').
  Proof.
    revert v s. induction n as [|n IH]; intros v s SY; cbn [loop]; [eauto|].
    destruct (iterate ph ent vol target p rtol v s) as [r|[v' s1]] eqn:E.
    - destruct (iterate_not_thrown _ _ _ SY E) as [s' ->]. eauto.
    - apply IH. eapply iterate_next; eauto.
  Qed.
End Curve.

(** The start of the call on a curve. *)
Section Start.
  Context (ph : phase) (ent vol : bool) (target p rtol : R) (f c : R -> R).
  Context (HC : curve ph ent vol p f c).
  Notation held := (held ph vol p).
  Lemma start_ok s : 0 < st_T s -> / 10 ^ 300 <= p -> 0 < start_T ph (st_T s) ->
    exists s0, held s0 /\ st_T s0 = start_T ph (st_T s) /\
      setState ph ent vol target p rtol s = loop ph ent vol target p rtol 500 (start_vars ph ent vol s0) s0.
  Proof.
    intros HT Hp HS. unfold setState. assert (rltb p (/ 10 ^ 300) = false) as -> by (now apply rltb_false).
    assert (0 < / 10 ^ 300) as P3 by (apply Rinv_0_lt_compat, pow_lt; lra).
    assert (exists s1, held s1 /\ st_T s1 = st_T s /\
      (if vol then setDensity s (1 / p) else setPressure ph s p) = (Done, s1)) as (s1&H1&T1&E1).
    { unfold Spec.held. pose proof (HC (st_T s) HT) as Q. destruct vol.
      - unfold setDensity. assert (rltb 0 (1 / p) = true) as -> by (apply rltb_true; apply Rdiv_lt_0_compat; lra).
        exists (mk_state (st_T s) (1 / p)). repeat split; reflexivity.
      - destruct (Q (st_D s)) as (D'&E&_). unfold setPressure. rewrite E. eexists. split; [|split; [|reflexivity]]; simpl; eauto. }
    rewrite E1. cbn [andthen]. rewrite T1. destruct (reqb _ _) eqn:RE.
    - apply reqb_true in RE. exists s1. repeat split; auto. lra.
    - destruct (curve_cond ph ent vol p f c HC s1 (start_T ph (st_T s))) as (s2&E2&ET&HH&_); auto.
      { eapply held_vheld; eauto. }
      rewrite E2. cbn [andthen]. exists s2. repeat split; auto.
  Qed.
End Start.

(** ** One step for a stable phase, enthalpy or internal energy. *)
Section Stable.
  Context (ph : phase) (vol : bool) (target p rtol : R) (f c : R -> R) (c1 c2 Tst : R).
  Context (HC : curve ph false vol p f c) (HS : slopes f c c1 c2).
  Context (HTst : 0 < Tst) (Hf : f Tst = target).
  Context (HTmin : 0 < Tmin ph) (HTmax : 0 < Tmax ph).
  Notation held := (held ph vol p).

  Definition inv (v : vars) (s : state) : Prop :=
    sync ph false vol p v s /\ v_uns v = false /\
    v_Hbot v = f (v_Tbot v) /\ 0 < v_Tbot v /\ v_Htop v = f (v_Ttop v) /\ 0 < v_Ttop v.

  Lemma c12 : 0 < c1 <= c2.
  Proof. destruct HS as (A&B&_). specialize (B 1 ltac:(lra)). lra. Qed.

  Lemma f_lt a : 0 < a -> f a < target -> a < Tst.
  Proof.
    intros Ha H. destruct HS as (A&_&B). destruct (Rlt_dec a Tst); auto. exfalso. rewrite <- Hf in H.
    destruct (Req_dec a Tst) as [->|N]; [lra|]. specialize (B Tst a HTst). assert (Tst < a) by lra.
    specialize (B H0). pose proof c12. nra.
  Qed.
  Lemma f_gt a : 0 < a -> target < f a -> Tst < a.
  Proof.
    intros Ha H. destruct HS as (A&_&B). destruct (Rlt_dec Tst a); auto. exfalso. rewrite <- Hf in H.
    destruct (Req_dec a Tst) as [->|N]; [lra|]. specialize (B a Tst Ha). assert (a < Tst) by lra.
    specialize (B H0). pose proof c12. nra.
  Qed.

  (** [x] is the distance to go, [d] the step, both in the same direction. *)
  Definition towards (x d : R) : Prop :=
    0 <= d /\ c1 * d <= c2 * x /\ d <= 100 /\ (d = 100 \/ c1 * x <= c2 * d \/ x <= 4 / 3 * d).

  Lemma newton_raw T : 0 < T ->
    (T <= Tst -> 0 <= (target - f T) / c T /\ c1 * ((target - f T) / c T) <= c2 * (Tst - T) /\ c1 * (Tst - T) <= c2 * ((target - f T) / c T)) /\
    (Tst <= T -> 0 <= - ((target - f T) / c T) /\ c1 * - ((target - f T) / c T) <= c2 * (T - Tst) /\ c1 * (T - Tst) <= c2 * - ((target - f T) / c T)).
  Proof.
    intros HT. destruct HS as (A&B&C). pose proof (B T HT) as BT. pose proof c12 as P12.
    assert (0 < c T) as PC by lra.
    assert (forall y, 0 <= y -> c1 * y <= target - f T <= c2 * y ->
      0 <= (target - f T) / c T /\ c1 * ((target - f T) / c T) <= c2 * y /\ c1 * y <= c2 * ((target - f T) / c T)) as Q.
    { intros y Hy [L U]. set (N := (target - f T) / c T). assert (N * c T = target - f T) as EN by (unfold N; field; lra).
      rewrite <- EN in L, U. assert (0 <= N).
      { unfold N. apply Rmult_le_pos; [nra|]. left. now apply Rinv_0_lt_compat. }
      split; [auto|]. split; nra. }
    assert (forall y, 0 <= y -> c1 * y <= f T - target <= c2 * y ->
      0 <= - ((target - f T) / c T) /\ c1 * - ((target - f T) / c T) <= c2 * y /\ c1 * y <= c2 * - ((target - f T) / c T)) as Q'.
    { intros y Hy [L U]. set (N := - ((target - f T) / c T)). assert (N * c T = f T - target) as EN by (unfold N; field; lra).
      rewrite <- EN in L, U. assert (0 <= N).
      { unfold N. replace (- ((target - f T) / c T)) with ((f T - target) / c T) by (unfold Rdiv; ring).
        apply Rmult_le_pos; [nra|]. left. now apply Rinv_0_lt_compat. }
      split; [auto|]. split; nra. }
    split; intros L.
    - apply Q; [lra|]. destruct (Req_dec T Tst) as [->|N]; [rewrite Hf; lra|]. rewrite <- Hf. apply C; lra.
    - apply Q'; [lra|]. destruct (Req_dec T Tst) as [->|N]; [rewrite Hf; lra|]. rewrite <- Hf. apply C; lra.
  Qed.

  Lemma inv_curve v s : inv v s -> v_H v = f (v_T v) /\ v_C v = c (v_T v) /\ 0 < v_T v.
  Proof.
    intros ((S1&S2&S3&S4&S5)&_). destruct (curve_held _ _ _ _ _ _ HC s S4 S5) as [A B]. rewrite S1, S2, S3. auto.
  Qed.

  Lemma newton_towards v s : inv v s ->
    (v_T v <= Tst -> towards (Tst - v_T v) (newton_step false target v)) /\
    (Tst <= v_T v -> towards (v_T v - Tst) (- newton_step false target v)).
  Proof.
    intros I. destruct (inv_curve v s I) as (E1&E2&HT). unfold newton_step. rewrite E1, E2.
    destruct HS as (A&B&_). pose proof (B _ HT) as BT. rewrite fdiv_fin by lra. rewrite clip_fin.
    destruct (newton_raw (v_T v) HT) as [U D]. set (N := (target - f (v_T v)) / c (v_T v)) in *. pose proof c12 as P.
    split; intros L; unfold towards.
    - destruct (U L) as (U1&U2&U3). unfold Rmin. destruct (Rle_dec 100 N).
      + rewrite Rmax_right by lra. repeat split; try lra. nra.
      + rewrite Rmax_right by lra. repeat split; try lra; auto.
    - destruct (D L) as (U1&U2&U3). rewrite (Rmin_right 100 N) by lra. unfold Rmax. destruct (Rle_dec (-100) N).
      + repeat split; try lra; auto.
      + repeat split; try lra. nra.
  Qed.

  Lemma limited_towards v s : inv v s ->
    let dt := limited_step false target v false (newton_step false target v) in
    (v_T v <= Tst -> towards (Tst - v_T v) dt) /\ (Tst <= v_T v -> towards (v_T v - Tst) (- dt)).
  Proof.
    intros I dt. destruct (newton_towards v s I) as [U D]. destruct (inv_curve v s I) as (E1&E2&HT).
    pose proof I as (_&_&B1&B2&B3&B4). pose proof c12 as P.
    assert (rltb (v_Hbot v) target = true -> v_Tbot v < Tst) as HB.
    { intros H. apply tt_true in H. rewrite B1 in H. now apply f_lt. }
    assert (rltb target (v_Htop v) = true -> Tst < v_Ttop v) as HTop.
    { intros H. apply tt_true in H. rewrite B3 in H. now apply f_gt. }
    set (N := newton_step false target v) in *.
    assert (dt = if rltb 0 N
      then (if rltb target (v_Htop v) && rltb (3 / 4 * v_Ttop v + 1 / 4 * v_T v) (v_T v + N) then 3 / 4 * (v_Ttop v - v_T v) else N)
      else (if rltb (v_Hbot v) target && rltb (v_T v + N) (3 / 4 * v_Tbot v + 1 / 4 * v_T v) then 3 / 4 * (v_Tbot v - v_T v) else N)) as Edt.
    { unfold dt, limited_step. rewrite andb_false_r, orb_false_l. cbn [negb]. rewrite andb_true_r. destruct (rltb 0 N); reflexivity. }
    clearbody dt. destruct (rltb 0 N) eqn:EN.
    - (* upwards *)
      apply tt_true in EN. assert (v_T v < Tst) as LT.
      { destruct (Rlt_dec (v_T v) Tst); auto. exfalso. destruct D as (D1&_); [lra|]. lra. }
      split; [|intros; lra]. intros L. specialize (U L). destruct U as (U1&U2&U3&U4).
      destruct (rltb target (v_Htop v)) eqn:ET; cbn [andb] in Edt; [|rewrite Edt; unfold towards; auto].
      specialize (HTop eq_refl).
      destruct (rltb _ (v_T v + N)) eqn:EL; [|rewrite Edt; unfold towards; auto].
      apply tt_true in EL. rewrite Edt. unfold towards. repeat split; try lra. nra.
    - apply tt_false in EN. assert (Tst <= v_T v) as LT.
      { destruct (Rle_dec Tst (v_T v)); auto. exfalso. destruct U as (U1&U2&U3&[U4|[U4|U4]]); try lra.
        nra. }
      specialize (D LT). destruct D as (D1&D2&D3&D4).
      assert (Tst = v_T v -> N = 0) as HZ.
      { intros EQ. assert (c1 * - N <= 0) by nra. nra. }
      destruct (rltb (v_Hbot v) target) eqn:ET; cbn [andb] in Edt.
      + specialize (HB eq_refl). destruct (rltb (v_T v + N) _) eqn:EL.
        * apply tt_true in EL. assert (towards (v_T v - Tst) (- dt)) as Q.
          { rewrite Edt. unfold towards. repeat split; try lra. nra. }
          split; [|auto]. intros L. assert (Tst = v_T v) as EQ by lra. specialize (HZ EQ). exfalso. lra.
        * rewrite Edt. split; [|unfold towards; auto]. intros L. assert (Tst = v_T v) as EQ by lra. rewrite (HZ EQ). replace (Tst - v_T v) with 0 by lra. unfold towards. repeat split; lra.
      + rewrite Edt. split; [|unfold towards; auto]. intros L. assert (Tst = v_T v) as EQ by lra. rewrite (HZ EQ). replace (Tst - v_T v) with 0 by lra. unfold towards. repeat split; lra.
  Qed.

  (** The step that is made. *)
  Definition final_step (T dt : R) : R := if rltb (T + dt) (T / 3) then -2 * T / 3 else dt.

  Lemma iterate_shape v s : inv v s ->
    let dt := limited_step false target v false (newton_step false target v) in
    let d := final_step (v_T v) dt in
    let T' := v_T v + d in
    exists s2, st_T s2 = T' /\ 0 < T' /\
      (f T' = target /\ iterate ph false vol target p rtol v s = inl (Done, s2) \/
       f T' <> target /\ converged false target rtol (f T') T' (c (v_T v)) d = true /\ iterate ph false vol target p rtol v s = inl (Done, s2) \/
       f T' <> target /\ converged false target rtol (f T') T' (c (v_T v)) d = false /\ exists v', v_T v' = T' /\ inv v' s2 /\ iterate ph false vol target p rtol v s = inr (v', s2)).
  Proof.
    intros I dt d T'. pose proof I as (SY&US&B1&B2&B3&B4). destruct (inv_curve v s I) as (E1&E2&HT).
    pose proof SY as (S1&S2&S3&S4&S5). destruct HS as (PC1&PC&_).
    assert (0 < T') as PT.
    { unfold T', d, final_step. destruct (rltb (v_T v + dt) (v_T v / 3)) eqn:L; [lra|]. apply tt_false in L. lra. }
    unfold iterate. assert (rltb (v_C v) 0 || v_uns v = false) as UN.
    { rewrite US, orb_false_r, E2. apply rltb_false. pose proof (PC _ HT). lra. }
    rewrite UN. fold dt. set (v0 := mk_vars _ _ _ _ _ _ _ _ _).
    destruct (check_ok ph false vol target p f c HC HTmin HTmax v0 (v_T v + dt) s) as (s1&v1&CB&V1&C1&C2&C3&C4&C5&C6).
    { eapply held_vheld; eauto. }
    rewrite CB. cbn [stable_loop]. cbn [negb andb].
    replace (if rltb (v_T v + dt) (v_T v / 3) then v_T v / 3 else v_T v + dt) with T'.
    2:{ unfold T', d, final_step. destruct (rltb (v_T v + dt) (v_T v / 3)); [field|reflexivity]. }
    fold (final_step (v_T v) dt). fold d.
    destruct (curve_cond ph false vol p f c HC s1 T' V1 PT) as (s2&EC&ET&HH&EV&EH). rewrite EC, EH.
    assert (rltb (c T') 0 = false) as NU by (apply rltb_false; pose proof (PC _ PT); lra). rewrite NU.
    rewrite EV. exists s2. split; auto. split; auto. rewrite E2.
    destruct (reqb (f T') target) eqn:RE; [left; split; [now apply reqb_true in RE|reflexivity]|].
    right. apply reqb_false in RE. destruct (converged false target rtol (f T') T' (c (v_T v)) d) eqn:CV; [left; auto|].
    right. split; auto. split; auto. eexists. split; [|split; [|reflexivity]].
    - match goal with |- context [rebracket target ?w] => destruct (rebracket_same target w) as (R1&_) end. rewrite R1. reflexivity.
    - unfold inv.
      match goal with |- context [rebracket target ?w] => set (w0 := w); destruct (rebracket_same target w) as (R1&R2&R3&R4) end.
      fold w0 in R1, R2, R3, R4. split.
      + unfold sync. rewrite R1, R2, R3. unfold w0. cbn [v_T v_H v_C]. rewrite ET, EV, EH. auto.
      + rewrite R4. split; [reflexivity|].
        assert (v_Hbot v1 = f (v_Tbot v1) /\ 0 < v_Tbot v1) as [K1 K2].
        { unfold v0 in C6. simpl in C6. destruct C6 as [[-> ->]|[-> ->]]; auto. }
        assert (v_Htop v1 = f (v_Ttop v1) /\ 0 < v_Ttop v1) as [K3 K4].
        { unfold v0 in C5. simpl in C5. destruct C5 as [[-> ->]|[-> ->]]; auto. }
        unfold rebracket, w0. cbn [v_T v_H v_C v_Htop v_Ttop v_Hbot v_Tbot].
        destruct (_ && _); [simpl; auto|]. destruct (_ && _); simpl; auto.
  Qed.

  (** Accuracy of a normal return. *)
  Lemma small_step x d : towards x d -> 0 <= x -> d < 100 -> Rabs (x - d) <= (4 / 3 + c2 / c1) * d.
  Proof.
    intros (A&B&C&D) Hx Hd. pose proof c12 as P.
    assert (c1 * (4 / 3 * d + c2 / c1 * d) = 4 / 3 * c1 * d + c2 * d) as E by (field; lra).
    assert (0 <= c2 / c1 * d). { apply Rmult_le_pos; [|lra]. apply Rmult_le_pos; [lra|]. left. apply Rinv_0_lt_compat. lra. }
    rewrite Rmult_plus_distr_r. apply Rabs_le. destruct D as [D|[D|D]]; [lra| |].
    - split; [nra|]. apply (Rmult_le_reg_l c1); [lra|]. rewrite E. nra.
    - split; nra.
  Qed.

  Lemma iterate_accurate v s s' : inv v s -> 0 < rtol <= 2 -> rtol * st_T s' <= 100 ->
    iterate ph false vol target p rtol v s = inl (Done, s') ->
    Rabs (target - f (st_T s')) <= rtol * Rmax (Rabs target) (Rmax c2 (/ 100000) * st_T s') \/
    Rabs (Tst - st_T s') <= rtol * st_T s' * (4 / 3 + c2 / c1).
  Proof.
    intros I R2 R100 H. destruct (iterate_shape v s I) as (s2&ET&PT&Q).
    destruct (limited_towards v s I) as [U D].
    set (dt := limited_step false target v false (newton_step false target v)) in *.
    set (d := final_step (v_T v) dt) in *. set (T' := v_T v + d) in *.
    destruct (inv_curve v s I) as (E1&E2&HT). pose proof c12 as P12.
    assert (iterate ph false vol target p rtol v s = inl (Done, s2) /\
      (f T' = target \/ converged false target rtol (f T') T' (c (v_T v)) d = true)) as [HI HQ].
    { destruct Q as [[A B]|[(A&B&C)|(A&B&v'&_&_&C)]]; auto. rewrite H in C. discriminate. }
    rewrite H in HI. injection HI as ->. rewrite ET in *.
    assert (0 < 4 / 3 + c2 / c1) as PK.
    { assert (0 < c2 / c1) by (apply Rdiv_lt_0_compat; lra). lra. }
    destruct HQ as [HQ|HQ].
    - left. rewrite HQ. replace (target - target) with 0 by lra. rewrite Rabs_R0. apply Rmult_le_pos; [lra|].
      apply Rle_trans with (2 := Rmax_l _ _). apply Rabs_pos.
    - apply converged_true in HQ; auto. rewrite Rmult_1_r in HQ. destruct HQ as [HQ|HQ].
      + left. left. eapply Rlt_le_trans; [exact HQ|]. apply Rmult_le_compat_l; [lra|].
        apply Rle_max_compat_l. apply Rmult_le_compat_r; [lra|]. apply Rle_max_compat_r.
        destruct HS as (_&B&_). specialize (B _ HT). rewrite Rabs_right; lra.
      + right. assert (Rabs d < 100) as H1 by lra.
        unfold T' in *. clear T'. unfold d, final_step in *. destruct (rltb (v_T v + dt) (v_T v / 3)) eqn:L.
        * exfalso. rewrite Rabs_left in HQ by lra. assert (rtol * (v_T v + -2 * v_T v / 3) <= 2 * (v_T v + -2 * v_T v / 3)) by (apply Rmult_le_compat_r; lra). lra.
        * clear d. apply Rle_trans with ((4 / 3 + c2 / c1) * Rabs dt).
          2:{ rewrite (Rmult_comm (rtol * _)). apply Rmult_le_compat_l; lra. }
          destruct (Rle_dec (v_T v) Tst) as [LE|GE].
          -- destruct (U LE) as (A&B&C&DD). rewrite (Rabs_right dt) by lra. rewrite Rabs_right in H1 by lra.
             replace (Tst - (v_T v + dt)) with (Tst - v_T v - dt) by lra. apply small_step; auto; lra.
          -- assert (Tst <= v_T v) as GE' by lra. destruct (D GE') as (A&B&C&DD). rewrite <- (Rabs_Ropp dt) in *.
             rewrite (Rabs_right (- dt)) by lra. rewrite Rabs_right in H1 by lra.
             replace (Tst - (v_T v + dt)) with (- (v_T v - Tst - - dt)) by lra. rewrite Rabs_Ropp. apply small_step; auto; lra.
  Qed.

  Lemma loop_accurate n v s s' : inv v s -> 0 < rtol <= 2 -> rtol * st_T s' <= 100 ->
    loop ph false vol target p rtol n v s = (Done, s') ->
    Rabs (target - f (st_T s')) <= rtol * Rmax (Rabs target) (Rmax c2 (/ 100000) * st_T s') \/
    Rabs (Tst - st_T s') <= rtol * st_T s' * (4 / 3 + c2 / c1).
  Proof.
    intros I R2 R100. revert v s I. induction n as [|n IH]; intros v s I; cbn [loop]; [discriminate|].
    destruct (iterate ph false vol target p rtol v s) as [r|[v' s1]] eqn:E.
    - intros ->. eapply iterate_accurate; eauto.
    - apply IH. destruct (iterate_shape v s I) as (s2&_&_&Q).
      destruct Q as [[A B]|[(A&B&C)|(A&B&v2&_&I2&C)]]; try (rewrite E in B; discriminate); try (rewrite E in C; discriminate).
      rewrite E in C. injection C as -> ->. exact I2.
  Qed.

  Lemma start_inv s0 : held s0 -> 0 < st_T s0 -> inv (start_vars ph false vol s0) s0.
  Proof.
    intros H P. destruct (curve_held _ _ _ _ _ _ HC s0 H P) as [A B]. unfold inv, sync, start_vars. cbn [v_T v_H v_C v_Htop v_Ttop v_Hbot v_Tbot v_uns]. rewrite A. repeat split; auto.
  Qed.

  (** Convergence. *)
  Section Contract.
    Context (q : R) (Hq : 1 / 3 <= q < 1) (Hc : c2 <= (1 + q) * c1).
    Lemma towards_shrinks x d : 0 <= x -> towards x d ->
      Rabs (x - d) <= Rmax (x - 100) (q * x) /\ d <= (1 + q) * x.
    Proof.
      intros Hx (A&B&C&D). pose proof c12 as P.
      assert (d <= (1 + q) * x) as DU.
      { apply (Rmult_le_reg_l c1); [lra|]. apply Rle_trans with (1 := B).
        replace (c1 * ((1 + q) * x)) with ((1 + q) * c1 * x) by ring. apply Rmult_le_compat_r; lra. }
      split; auto. destruct D as [D|[D|D]].
      - subst d. destruct (Rle_dec 100 x).
        + rewrite Rabs_right by lra. apply Rmax_l.
        + rewrite Rabs_left by lra. apply Rle_trans with (2 := Rmax_r _ _). lra.
      - apply Rle_trans with (2 := Rmax_r _ _). apply Rabs_le. split; [lra|].
        assert (x <= (1 + q) * d).
        { apply (Rmult_le_reg_l c1); [lra|]. apply Rle_trans with (1 := D).
          replace (c1 * ((1 + q) * d)) with ((1 + q) * c1 * d) by ring. apply Rmult_le_compat_r; lra. }
        destruct (Rle_dec d x); nra.
      - apply Rle_trans with (2 := Rmax_r _ _). apply Rabs_le. split; [lra|]. nra.
    Qed.

    (** The distance to the solution after a step, and the size of that step. *)
    Lemma step_shrinks v s : inv v s ->
      let dt := limited_step false target v false (newton_step false target v) in
      let d := final_step (v_T v) dt in
      Rabs (Tst - (v_T v + d)) <= Rmax (Rabs (Tst - v_T v) - 100) (q * Rabs (Tst - v_T v)) /\
      Rabs d <= (1 + q) * Rabs (Tst - v_T v).
    Proof.
      intros I dt d. destruct (inv_curve v s I) as (_&_&HT). destruct (limited_towards v s I) as [U D].
      fold dt in U, D. unfold d, final_step. clear d. clearbody dt. destruct (Rle_dec (v_T v) Tst) as [LE|GE].
      - specialize (U LE). pose proof U as (A&_). apply towards_shrinks in U; [|lra]. destruct U as [E1 E2].
        assert (rltb (v_T v + dt) (v_T v / 3) = false) as -> by (apply rltb_false; lra).
        rewrite (Rabs_right (Tst - v_T v)) by lra. rewrite (Rabs_right dt) by lra.
        replace (Tst - (v_T v + dt)) with (Tst - v_T v - dt) by lra. auto.
      - assert (Tst <= v_T v) as GE' by lra. specialize (D GE'). pose proof D as (A&_).
        apply towards_shrinks in D; [|lra]. destruct D as [E1 E2]. rewrite (Rabs_left (Tst - v_T v)) by lra.
        destruct (rltb (v_T v + dt) (v_T v / 3)) eqn:L.
        + apply tt_true in L. rewrite (Rabs_left (-2 * v_T v / 3)) by lra. split; [|lra].
          apply Rle_trans with (2 := Rmax_r _ _). apply Rabs_le. split; nra.
        + rewrite (Rabs_left1 dt) by lra. replace (- (Tst - v_T v)) with (v_T v - Tst) by lra.
          replace (Tst - (v_T v + dt)) with (- (v_T v - Tst - - dt)) by lra. rewrite Rabs_Ropp. auto.
    Qed.

    Context (Hr : 0 < rtol <= 1).
    Lemma near_ends n v s : inv v s -> Rabs (Tst - v_T v) <= rtol * Tst / 4 ->
      exists s', loop ph false vol target p rtol (S n) v s = (Done, s').
    Proof.
      intros I N. cbn [loop]. destruct (iterate_shape v s I) as (s2&ET&PT&Q). destruct (step_shrinks v s I) as [E1 E2].
      set (dt := limited_step false target v false (newton_step false target v)) in *.
      set (d := final_step (v_T v) dt) in *. set (T' := v_T v + d) in *.
      destruct Q as [[A B]|[(A&B&C)|(A&B&C)]]; [rewrite B; eauto|rewrite C; eauto|].
      exfalso. assert (Rabs (Tst - T') <= rtol * Tst / 4) as E3.
      { apply Rle_trans with (1 := E1). pose proof (Rabs_pos (Tst - v_T v)). apply Rmax_lub; nra. }
      pose proof (Rle_abs (Tst - T')) as E4. assert (rtol * Tst <= Tst) as E5 by nra.
      assert (3 / 4 * Tst <= T') as E6 by lra.
      assert (Rabs (d / T') < rtol) as E7.
      { unfold Rdiv. rewrite Rabs_mult, (Rabs_right (/ T')) by (left; now apply Rinv_0_lt_compat).
        apply (Rmult_lt_reg_r T'); [auto|]. rewrite Rmult_assoc, Rinv_l by lra.
        pose proof (Rabs_pos (Tst - v_T v)). nra. }
      unfold converged in B. apply orb_false_iff in B. destruct B as [_ B]. apply tt_false in B. lra.
    Qed.

    Lemma contract_ends J v s n : inv v s -> Rabs (Tst - v_T v) * q ^ J <= rtol * Tst / 4 ->
      Rabs (Tst - v_T v) <= 100 / (1 - q) ->
      exists s', loop ph false vol target p rtol (S J + n) v s = (Done, s').
    Proof.
      revert v s. induction J as [|J IH]; intros v s I N M.
      - cbn [pow] in N. rewrite Rmult_1_r in N. now apply near_ends.
      - change (S (S J) + n)%nat with (S (S J + n)). cbn [loop].
        destruct (iterate_shape v s I) as (s2&ET&PT&Q). destruct (step_shrinks v s I) as [E1 E2].
        set (dt := limited_step false target v false (newton_step false target v)) in *.
        set (d := final_step (v_T v) dt) in *. set (T' := v_T v + d) in *.
        destruct Q as [[A B]|[(A&B&C)|(A&B&v'&ET'&I'&C)]]; [rewrite B; eauto|rewrite C; eauto|]. rewrite C.
        assert (Rabs (Tst - v_T v) - 100 <= q * Rabs (Tst - v_T v)) as E3.
        { assert ((1 - q) * (100 / (1 - q)) = 100) as E by (field; lra). nra. }
        rewrite Rmax_right in E1 by auto. rewrite <- ET' in E1. pose proof (Rabs_pos (Tst - v_T v)).
        apply IH; auto; [|nra]. cbn [pow] in N. assert (0 <= q ^ J) by (apply pow_le; lra). nra.
    Qed.

    Lemma loop_ends k J v s n : inv v s -> 100 / (1 - q) * q ^ J <= rtol * Tst / 4 ->
      Rabs (Tst - v_T v) <= 100 / (1 - q) + 100 * INR k ->
      exists s', loop ph false vol target p rtol (k + (S J + n)) v s = (Done, s').
    Proof.
      revert v s. induction k as [|k IH]; intros v s I N M.
      - cbn [INR] in M. cbn [plus]. apply contract_ends; auto; [|lra]. assert (0 <= q ^ J) by (apply pow_le; lra).
        apply Rle_trans with (2 := N). apply Rmult_le_compat_r; lra.
      - change (S k + (S J + n))%nat with (S (k + (S J + n))). cbn [loop].
        destruct (iterate_shape v s I) as (s2&ET&PT&Q). destruct (step_shrinks v s I) as [E1 E2].
        set (dt := limited_step false target v false (newton_step false target v)) in *.
        set (d := final_step (v_T v) dt) in *. set (T' := v_T v + d) in *.
        destruct Q as [[A B]|[(A&B&C)|(A&B&v'&ET'&I'&C)]]; [rewrite B; eauto|rewrite C; eauto|]. rewrite C.
        rewrite <- ET' in E1. apply IH; auto. apply Rle_trans with (1 := E1).
        rewrite S_INR in M. assert ((1 - q) * (100 / (1 - q)) = 100) as E by (field; lra).
        pose proof (pos_INR k). apply Rmax_lub; nra.
    Qed.
  End Contract.
End Stable.
