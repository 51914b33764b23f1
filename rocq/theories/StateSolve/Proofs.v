From Coq Require Import Reals Lra List Bool Psatz.
From Verif Require Import Base.Fp Base.Outcome StateSolve.Model StateSolve.Spec.
Open Scope R_scope.

Lemma tt_true a b : rltb a b = true -> a < b. Proof. apply rltb_true. Qed.
Lemma tt_false a b : rltb a b = false -> b <= a. Proof. apply rltb_false. Qed.

Lemma clip_fin x : clip100 (Fin x) = Rmax (-100) (Rmin 100 x).
Proof. unfold clip100. rewrite fmin_fin, fmax_fin. reflexivity. Qed.

(** ** All four functions: what a normal return means. *)
Section Result.
  Context (ph : phase) (ent vol : bool) (target p rtol : R).
  Notation value := (value ph ent vol).
  Notation heat := (heat ph vol).
  Notation held := (held ph vol p).

  Definition vheld (s : state) : Prop := vol = true -> st_D s = 1 / p.
  Lemma held_vheld s : held s -> vheld s.
  Proof. unfold vheld, Spec.held. destruct vol; auto. discriminate. Qed.

  Lemma cond_done s t s1 : vheld s -> setState_cond ph vol s t p = (Done, s1) ->
    0 < t /\ st_T s1 = t /\ held s1.
  Proof.
    intros V. unfold setState_cond, setTemperature. destruct (rltb 0 t) eqn:E; [|discriminate].
    apply tt_true in E. cbn [andthen]. unfold Spec.held. unfold vheld in V. destruct vol.
    - intros H. injection H as <-. simpl. auto.
    - unfold setPressure. cbn [st_T st_D]. destruct (ph_setP _ _ _ _) eqn:P; try discriminate.
      intros H. injection H as <-. simpl. repeat split; eauto.
  Qed.
  Lemma cond_vheld s t e s1 : vheld s -> setState_cond ph vol s t p = (e, s1) -> vheld s1.
  Proof.
    intros V. unfold setState_cond, setTemperature, vheld in *. destruct (rltb 0 t).
    - cbn [andthen]. destruct vol; [|discriminate]. intros H. injection H as <- <-. simpl. auto.
    - simpl. intros H. injection H as <- <-. auto.
  Qed.

  Lemma check_max_vheld v tn s : vheld s -> vheld (snd (fst (check_max ph ent vol target p v tn s))).
  Proof.
    intros V. unfold check_max. destruct (rltb _ tn && _); simpl; auto.
    destruct (setState_cond ph vol s (Tmax ph) p) as [e s1] eqn:E. simpl. eapply cond_vheld; eauto.
  Qed.
  Lemma check_min_vheld v tn s : vheld s -> vheld (snd (fst (check_min ph ent vol target p v tn s))).
  Proof.
    intros V. unfold check_min. destruct (rltb tn _ && _); simpl; auto.
    destruct (setState_cond ph vol s (Tmin ph) p) as [e s1] eqn:E. simpl. eapply cond_vheld; eauto.
  Qed.
  Lemma check_bounds_vheld v tn s : vheld s -> vheld (snd (fst (check_bounds ph ent vol target p v tn s))).
  Proof.
    intros V. unfold check_bounds. pose proof (check_max_vheld v tn s V) as M.
    destruct (check_max ph ent vol target p v tn s) as [[e s1] [v1 tn1]]. cbn [fst snd] in M.
    destruct e; cbn [fst snd]; auto. destruct (ent && _); cbn [fst snd]; auto. now apply check_min_vheld.
  Qed.

  Lemma stable_result its Told dt uns last s s2 Tn dt2 :
    (0 < its)%nat -> vheld s -> stable_loop ph ent vol p its Told dt uns last s = ((Done, s2), (Tn, dt2)) ->
    st_T s2 = Tn /\ 0 < Tn /\ held s2 /\ Rabs (Tn - Told) <= 4 * Rabs dt2 /\
    (0 <= heat s2 -> Rabs (Tn - Told) = Rabs dt2).
  Proof.
    revert dt last s. induction its as [|its IH]; intros dt last s HP V; [inversion HP|]. cbn [stable_loop].
    set (low := negb ent && rltb (Told + dt) (Told / 3)).
    set (T1 := if low then Told / 3 else Told + dt). set (dt1 := if low then -2 * Told / 3 else dt).
    assert (T1 - Told = dt1) as ED by (unfold T1, dt1; destruct low; lra).
    destruct (setState_cond ph vol s T1 p) as [e s1] eqn:E. destruct e; try discriminate.
    destruct (cond_done _ _ _ V E) as (P&ET&HH). destruct (rltb (heat s1) 0) eqn:C.
    - apply tt_true in C. destruct its as [|its'].
      + cbn [stable_loop]. intros H. injection H as <- <- <-. repeat split; auto; try lra.
        * rewrite ED. destruct uns.
          -- pose proof (Rabs_pos dt1). lra.
          -- rewrite Rabs_mult, (Rabs_right (1/4)) by lra. lra.
      + intros H. apply IH in H; [exact H|apply Nat.lt_0_succ|]. now apply held_vheld.
    - intros H. injection H as <- <- <-. repeat split; auto; rewrite ED; pose proof (Rabs_pos dt1); try lra; reflexivity.
  Qed.

  (** The variables describe the state. *)
  Definition sync (v : vars) (s : state) : Prop :=
    v_T v = st_T s /\ v_H v = value s /\ v_C v = heat s /\ held s /\ 0 < st_T s.

  Lemma rebracket_same v : v_T (rebracket target v) = v_T v /\ v_H (rebracket target v) = v_H v /\
    v_C (rebracket target v) = v_C v /\ v_uns (rebracket target v) = v_uns v.
  Proof. unfold rebracket. destruct (_ && _); [simpl; auto|]. destruct (_ && _); simpl; auto. Qed.

  (** The two convergence criteria, in terms of the states before and after the last step. *)
  Definition good (s0 s' : state) : Prop :=
    held s' /\ 0 < st_T s' /\
    (value s' = target \/
     Rabs (target - value s') * (if ent then st_T s' else 1) <
       rtol * Rmax (Rabs target) (Rmax (Rabs (heat s0)) (/ 100000) * st_T s') \/
     (Rabs (st_T s' - st_T s0) < 4 * rtol * st_T s' /\
      (0 <= heat s' -> Rabs (st_T s' - st_T s0) < rtol * st_T s'))).

  Lemma converged_true H T c dt : 0 < T -> converged ent target rtol H T c dt = true ->
    Rabs (target - H) * (if ent then T else 1) < rtol * Rmax (Rabs target) (Rmax (Rabs c) (/ 100000) * T) \/
    Rabs dt < rtol * T.
  Proof.
    intros HT. unfold converged. set (d := Rmax (Rabs target) (Rmax (Rabs c) (/ 100000) * T)).
    assert (0 < d) as HD.
    { unfold d. apply Rlt_le_trans with (2 := Rmax_r _ _). apply Rmult_lt_0_compat; auto.
      apply Rlt_le_trans with (2 := Rmax_r _ _). lra. }
    rewrite orb_true_iff. intros [E|E]; apply tt_true in E; [left|right].
    - assert (forall x, Rabs (x / d) < rtol -> Rabs x < rtol * d) as Q.
      { intros x Hx. unfold Rdiv in Hx. rewrite Rabs_mult, (Rabs_right (/ d)) in Hx.
        2:{ left. now apply Rinv_0_lt_compat. }
        apply (Rmult_lt_compat_r d) in Hx; auto. rewrite Rmult_assoc, Rinv_l in Hx by lra. lra. }
      destruct ent.
      + apply Q in E. rewrite Rabs_mult, (Rabs_right T) in E by lra. exact E.
      + apply Q in E. lra.
    - unfold Rdiv in E. rewrite Rabs_mult, (Rabs_right (/ T)) in E.
      2:{ left. now apply Rinv_0_lt_compat. }
      apply (Rmult_lt_compat_r T) in E; auto. rewrite Rmult_assoc, Rinv_l in E by lra. lra.
  Qed.

  Lemma iterate_done v s s' : sync v s -> iterate ph ent vol target p rtol v s = inl (Done, s') -> good s s'.
  Proof.
    intros (S1&S2&S3&S4&S5). unfold iterate. set (uns := _ || _). set (dt := limited_step _ _ _ _ _).
    set (v0 := mk_vars _ _ _ _ _ _ _ _ _).
    destruct (check_bounds ph ent vol target p v0 (v_T v + dt) s) as [[e s1] v1] eqn:CB. destruct e; try discriminate.
    pose proof (check_bounds_vheld v0 (v_T v + dt) s (held_vheld _ S4)) as V1. rewrite CB in V1. cbn [fst snd] in V1.
    destruct (stable_loop ph ent vol p 10 (v_T v) dt uns (v_T v + dt) s1) as [[e s2] [Tn dt2]] eqn:SL. destruct e; try discriminate.
    destruct (stable_result 10 _ _ _ _ _ _ _ _ (Nat.lt_0_succ _) V1 SL) as (E1&E2&E3&E4&E5).
    assert (forall s'', s'' = s2 -> held s'' /\ 0 < st_T s'') as HB by (intros ? ->; rewrite E1; auto).
    destruct (reqb _ _) eqn:RE.
    - intros H. injection H as <-. apply reqb_true in RE. unfold good. destruct (HB _ eq_refl). auto.
    - destruct (converged _ _ _ _ _ _ _) eqn:CV; [|discriminate]. intros H. injection H as <-.
      apply converged_true in CV; auto. unfold good. destruct (HB _ eq_refl). split; auto. split; auto. right.
      rewrite S3 in CV. rewrite E1. destruct CV as [CV|CV]; [left; exact CV|right].
      rewrite <- S1. split; [lra|]. intros Hh. rewrite E5; auto.
  Qed.
  Lemma iterate_next v s v' s' : sync v s -> iterate ph ent vol target p rtol v s = inr (v', s') -> sync v' s'.
  Proof.
    intros (S1&S2&S3&S4&S5). unfold iterate. set (uns := _ || _). set (dt := limited_step _ _ _ _ _).
    set (v0 := mk_vars _ _ _ _ _ _ _ _ _).
    destruct (check_bounds ph ent vol target p v0 (v_T v + dt) s) as [[e s1] v1] eqn:CB. destruct e; try discriminate.
    pose proof (check_bounds_vheld v0 (v_T v + dt) s (held_vheld _ S4)) as V1. rewrite CB in V1. cbn [fst snd] in V1.
    destruct (stable_loop ph ent vol p 10 (v_T v) dt uns (v_T v + dt) s1) as [[e s2] [Tn dt2]] eqn:SL. destruct e; try discriminate.
    destruct (stable_result 10 _ _ _ _ _ _ _ _ (Nat.lt_0_succ _) V1 SL) as (E1&E2&E3&E4&E5).
    destruct (reqb _ _); [discriminate|]. destruct (converged _ _ _ _ _ _ _); [discriminate|].
    intros H. injection H as <- <-. unfold sync.
    match goal with |- context [rebracket target ?w] => destruct (rebracket_same w) as (R1&R2&R3&R4) end.
    rewrite R1, R2, R3. simpl. rewrite E1. auto.
  Qed.
  Lemma loop_done n v s s' : sync v s -> loop ph ent vol target p rtol n v s = (Done, s') ->
    exists s0, held s0 /\ 0 < st_T s0 /\ good s0 s'.
  Proof.
    revert v s. induction n as [|n IH]; intros v s SY; cbn [loop]; [discriminate|].
    destruct (iterate ph ent vol target p rtol v s) as [[e r]|[v' s1]] eqn:E.
    - intros H. injection H as -> ->. exists s. pose proof SY as (_&_&_&A&B). repeat split; auto; eapply iterate_done; eauto.
    - intros H. eapply IH; [|exact H]. eapply iterate_next; eauto.
  Qed.

  Lemma start_held s s1 : setState ph ent vol target p rtol s = (Done, s1) -> 0 < st_T s ->
    exists v s0, sync v s0 /\ loop ph ent vol target p rtol 500 v s0 = (Done, s1).
  Proof.
    unfold setState. destruct (rltb p _); [discriminate|]. intros H HT.
    assert (exists s0, held s0 /\ st_T s0 = st_T s /\
      andthen (if reqb (start_T ph (st_T s0)) (st_T s0) then (Done, s0) else setState_cond ph vol s0 (start_T ph (st_T s0)) p)
        (fun s => loop ph ent vol target p rtol 500 (start_vars ph ent vol s) s) = (Done, s1)) as (s0&H0&T0&H1).
    { unfold Spec.held. destruct vol.
      - unfold setDensity in H. destruct (rltb 0 (1 / p)); [|discriminate]. cbn [andthen] in H. eexists. split; [|split; [|exact H]]; reflexivity.
      - unfold setPressure in H. destruct (ph_setP _ _ _ _) eqn:P; try discriminate. cbn [andthen] in H.
        eexists. split; [|split; [|exact H]]; [simpl; eauto|reflexivity]. }
    clear H. destruct (reqb _ _) eqn:RE.
    - cbn [andthen] in H1. exists (start_vars ph ent vol s0), s0. split; auto. unfold sync, start_vars. simpl. repeat split; auto. lra.
    - destruct (setState_cond ph vol s0 _ p) as [e s2] eqn:E. destruct e; try discriminate. cbn [andthen] in H1.
      destruct (cond_done _ _ _ (held_vheld _ H0) E) as (P&ET&HH).
      exists (start_vars ph ent vol s2), s2. split; auto. unfold sync, start_vars. simpl. repeat split; auto. lra.
  Qed.

  Lemma setState_done s s' : 0 < st_T s -> setState ph ent vol target p rtol s = (Done, s') ->
    exists s0, held s0 /\ 0 < st_T s0 /\ good s0 s'.
  Proof.
    intros HT H. destruct (start_held _ _ H HT) as (v&s0&SY&L). eapply loop_done; eauto.
  Qed.
End Result.
