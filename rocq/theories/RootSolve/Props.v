(** Density from temperature and pressure in a real gas: theorems. *)
From Coq Require Import Reals ZArith Bool Lra Lia.
From Verif Require Import Base.Fp Units.Model Cubic.Model RootSolve.Model RootSolve.Spec RootSolve.Proofs.
Open Scope R_scope.

Local Ltac rt H := let E := fresh in assert (E : H = true) by (apply rltb_true; lra); rewrite E; clear E.
Local Ltac rf H := let E := fresh in assert (E : H = false) by (apply rltb_false; lra); rewrite E; clear E.

Section Roots.
Context (T pres b aAlpha bn cn dn tc vc : R).
Local Notation solve := (solve_cubic T pres b aAlpha bn cn dn tc vc).
Context (HT : 0 < T).
Context (Hni : ~ nearly_ideal bn cn (pres * b / (GasConstant * T))
                 (aAlpha / (GasConstant * T) * pres / (GasConstant * T))).

Lemma solve_unfold : solve =
    let snapped := rltb (Rabs (Rabs (s_h bn cn) - Rabs (s_yN bn cn dn))) (/ 10 ^ 10) in
    if snapped && rltb (/ 10 ^ 10) (s_disc bn cn dn) then SThrow
    else
      let disc := if snapped then 0 else s_disc bn cn dn in
      let n := s_count disc in
      match s_start bn cn dn disc with
      | None => SThrow
      | Some (v0, v1, v2, delta) =>
          match s_polish bn cn dn n v0 v1 v2 with
          | None => SThrow
          | Some (w0, w1, w2) => SRoots (s_final T bn tc vc n w0 delta) w0 w1 w2
          end
      end.
Proof.
  unfold solve_cubic. rt (rltb 0 T). simpl negb. cbv iota.
  destruct (s_near T pres b aAlpha bn cn) eqn:E; [|reflexivity].
  apply near_spec in E. contradiction.
Qed.
Lemma solve_clear : clear bn cn dn -> solve =
      let disc := s_disc bn cn dn in
      let n := s_count disc in
      match s_start bn cn dn disc with
      | None => SThrow
      | Some (v0, v1, v2, delta) =>
          match s_polish bn cn dn n v0 v1 v2 with
          | None => SThrow
          | Some (w0, w1, w2) => SRoots (s_final T bn tc vc n w0 delta) w0 w1 w2
          end
      end.
Proof.
  intros [Hc _]. rewrite solve_unfold. cbv zeta.
  rewrite h_height, yN_middle, (Rabs_right (height bn cn)) by (apply Rle_ge, height_nonneg).
  assert (E : rltb (Rabs (height bn cn - Rabs (middle bn cn dn))) (/ 10 ^ 10) = false) by (now apply rltb_false).
  rewrite E. reflexivity.
Qed.

(* Three real roots: all are found, in increasing order. *)
Theorem C68_three : clear bn cn dn -> 0 < discriminant bn cn dn ->
  exists v0 v1 v2, solve = SRoots 3 (Some v0) (Some v1) (Some v2)
    /\ v0 < v1 < v2 /\ (forall v, root bn cn dn v <-> v = v0 \/ v = v1 \/ v = v2).
Proof.
  intros Hc HD. rewrite (solve_clear Hc). cbv zeta. destruct Hc as [_ Hc].
  rewrite Rabs_right in Hc by lra.
  assert (E : s_disc bn cn dn < - tol14) by (rewrite disc_discriminant; unfold tol14; lra).
  pose proof tol_pos as Ht.
  unfold s_count, s_start. rt (rltb (s_disc bn cn dn) (- tol14)). rf (rltb 0 (s_disc bn cn dn)).
  rt (rltb (s_disc bn cn dn) 0).
  destruct (viete bn cn dn ltac:(lra)) as [O R].
  unfold s_polish. cbn [Z.ltb Z.compare].
  rewrite !polished_root by (apply R; tauto).
  do 3 eexists. split; [reflexivity|]. split; [exact O|exact R].
Qed.

(* One real root: it is found.  The count is 1 for a gas and -1 for a liquid: at most the critical
   temperature the volume at the inflection point decides, above it the critical volume. *)
Theorem C68_one : clear bn cn dn -> discriminant bn cn dn < 0 ->
  exists n v0, solve = SRoots n (Some v0) (Some 0) (Some 0)
    /\ (forall v, root bn cn dn v <-> v = v0)
    /\ n = (if Rlt_dec v0 (if Rlt_dec tc T then vc else inflection bn) then -1 else 1)%Z.
Proof.
  intros Hc HD. rewrite (solve_clear Hc). cbv zeta. destruct Hc as [_ Hc].
  rewrite Rabs_left in Hc by lra.
  assert (E : tol14 < s_disc bn cn dn) by (rewrite disc_discriminant; unfold tol14; lra).
  pose proof tol_pos as Ht.
  unfold s_count, s_start. rf (rltb (s_disc bn cn dn) (- tol14)). rewrite (Rabs_right (s_disc bn cn dn)) by lra.
  rf (rltb (s_disc bn cn dn) tol14). rt (rltb tol14 (s_disc bn cn dn)). rt (rltb 0 (s_disc bn cn dn)).
  assert (R := cardano bn cn dn ltac:(lra)). cbv zeta in R.
  unfold s_polish. cbn [Z.ltb Z.compare].
  rewrite polished_root by (now apply R).
  do 2 eexists. split; [reflexivity|]. split; [exact R|].
  unfold s_final. rewrite Z.eqb_refl. unfold oltb. rewrite xN_inflection.
  destruct (Rlt_dec tc T) as [H|H].
  - rt (rltb tc T). match goal with |- context [rltb ?x vc] => destruct (rltb x vc) eqn:E1 end.
    + apply rltb_true in E1. destruct (Rlt_dec _ vc); [reflexivity|contradiction].
    + apply rltb_false in E1. destruct (Rlt_dec _ vc); [lra|reflexivity].
  - rf (rltb tc T). match goal with |- context [rltb ?x (inflection bn)] => destruct (rltb x (inflection bn)) eqn:E1 end.
    + apply rltb_true in E1. destruct (Rlt_dec _ (inflection bn)); [reflexivity|contradiction].
    + apply rltb_false in E1. destruct (Rlt_dec _ (inflection bn)); [lra|reflexivity].
Qed.

(* A double root and a simple one: both are found and the third place holds 0.  The sign of the count
   tells whether the double root is the larger one. *)
Theorem C68_double : discriminant bn cn dn = 0 -> / 10 ^ 18 <= Rabs (middle bn cn dn) ->
  exists n v0 v1, solve = SRoots n (Some v0) (Some v1) (Some 0)
    /\ v0 < v1 /\ (forall v, root bn cn dn v <-> v = v0 \/ v = v1)
    /\ n = (if Rlt_dec 0 (middle bn cn dn) then -2 else 2)%Z.
Proof.
  intros HD Hm. rewrite solve_unfold. cbv zeta.
  assert (E0 : s_disc bn cn dn = 0) by (rewrite disc_discriminant, HD; field).
  assert (P18 : 0 < / 10 ^ 18) by (apply Rinv_0_lt_compat, pow_lt; lra).
  assert (P10 : 0 < / 10 ^ 10) by (apply Rinv_0_lt_compat, pow_lt; lra).
  assert (Hy : s_yN bn cn dn <> 0).
  { rewrite yN_middle. intro K. rewrite K, Rabs_R0 in Hm. lra. }
  destruct (double_root bn cn dn E0 Hy) as (Hde & Hh & Hc & Rp & Rn).
  rewrite E0, Hh, Rabs_Rabsolu, Rminus_eq_0, Rabs_R0. rt (rltb 0 (/ 10 ^ 10)). rf (rltb (/ 10 ^ 10) 0).
  cbn [andb]. pose proof tol_pos as Ht.
  unfold s_count. rf (rltb 0 (- tol14)). rewrite Rabs_R0. rt (rltb 0 tol14).
  unfold s_start. rf (rltb 0 0). rewrite Hh.
  rewrite yN_middle in *. set (y := middle bn cn dn) in *. set (de := s_delta bn cn) in *.
  assert (E1 : (rltb y (/ 10 ^ 18) && rltb (Rabs y) (/ 10 ^ 18))%bool = false).
  { assert (E : rltb (Rabs y) (/ 10 ^ 18) = false) by (now apply rltb_false). rewrite E. apply andb_false_r. }
  rewrite E1. assert (P9 : 0 < / 10 ^ 9) by (apply Rinv_0_lt_compat, pow_lt; lra).
  destruct (Rlt_dec 0 y) as [Hp|Hp].
  - assert (Ec : cbrt (y / 2) = Some de).
    { unfold cbrt. rt (rltb 0 (y / 2)). f_equal. apply cube_inj. rewrite rpower_third by lra.
      rewrite Rabs_right in Hc by lra. lra. }
    rewrite Ec, Rminus_eq_0, Rabs_R0. rf (rltb (/ 10 ^ 9) 0). rt (rltb 0 y).
    specialize (Rp Hp). unfold s_polish. cbn [Z.ltb Z.compare Pos.compare Pos.compare_cont].
    rewrite !polished_root by (apply Rp; tauto).
    do 3 eexists. split; [reflexivity|]. split; [lra|]. split; [exact Rp|].
    unfold s_final. cbn [Z.eqb Pos.eqb andb].
    assert (Hd : tol14 < de).
    { apply cube_lt. rewrite Rabs_right in Hc, Hm by lra. apply Rlt_le_trans with (/ 10 ^ 18 / 2); [|lra].
      unfold tol14. lra. }
    rt (rltb tol14 de). reflexivity.
  - assert (Hn : y < 0) by lra.
    assert (Ec : cbrt (y / 2) = None).
    { unfold cbrt. rf (rltb 0 (y / 2)). assert (E : reqb (y / 2) 0 = false) by (apply reqb_false; lra).
      now rewrite E. }
    rewrite Ec. rf (rltb 0 y).
    specialize (Rn Hn). unfold s_polish. cbn [Z.ltb Z.compare Pos.compare Pos.compare_cont].
    rewrite !polished_root by (apply Rn; tauto).
    do 3 eexists. split; [reflexivity|]. split; [lra|]. split; [exact Rn|].
    unfold s_final. cbn [Z.eqb Pos.eqb andb]. rf (rltb tol14 (- de)). reflexivity.
Qed.

(* A triple root is found three times. *)
Theorem C68_triple : discriminant bn cn dn = 0 -> middle bn cn dn = 0 ->
  let v := inflection bn in
  solve = SRoots 2 (Some v) (Some v) (Some v) /\ (forall u, root bn cn dn u <-> u = v).
Proof.
  intros HD Hm v. rewrite solve_unfold. cbv zeta.
  assert (E0 : s_disc bn cn dn = 0) by (rewrite disc_discriminant, HD; field).
  assert (Ey : s_yN bn cn dn = 0) by (now rewrite yN_middle).
  assert (P18 : 0 < / 10 ^ 18) by (apply Rinv_0_lt_compat, pow_lt; lra).
  assert (P10 : 0 < / 10 ^ 10) by (apply Rinv_0_lt_compat, pow_lt; lra).
  assert (Ed : s_delta2 bn cn = 0).
  { apply cube_inj. unfold s_disc, s_h2 in E0. rewrite Ey in E0. lra. }
  assert (Ede : s_delta bn cn = 0) by (apply delta_0; lra).
  assert (Eh : s_h bn cn = 0) by (unfold s_h; rewrite Ede; ring).
  rewrite E0, Eh, Ey, !Rabs_R0, Rminus_eq_0, Rabs_R0. rt (rltb 0 (/ 10 ^ 10)). rf (rltb (/ 10 ^ 10) 0).
  cbn [andb]. pose proof tol_pos as Ht.
  unfold s_count. rf (rltb 0 (- tol14)). rewrite Rabs_R0. rt (rltb 0 tol14).
  unfold s_start. rf (rltb 0 0). rewrite Eh, Ey, Ede. rt (rltb 0 (/ 10 ^ 18)). cbn [andb].
  assert (R : forall u, root bn cn dn u <-> u = v).
  { intros u. unfold root.
    assert (F : cubic bn cn dn u = (u - v) * (u - v) * (u - v)).
    { replace u with (s_xN bn + (u - s_xN bn)) at 1 by ring. rewrite shift, Ed, Ey.
      change (s_xN bn) with v. ring. }
    rewrite F. split.
    - intros K. assert (K2 : u - v = 0); [|lra]. apply cube_inj. lra.
    - intros ->. ring. }
  split; [|exact R]. unfold s_polish. cbn [Z.ltb Z.compare Pos.compare Pos.compare_cont].
  rewrite xN_inflection. fold v. rewrite !polished_root by (now apply R).
  unfold s_final. cbn [Z.eqb Pos.eqb andb]. rf (rltb tol14 0). reflexivity.
Qed.

(* Whatever the conditioning: a number that the solver returns as a root came out of at most one
   Newton step from a point where the residual or the step was negligible. *)
Definition nearly_root (v : R) : Prop :=
  exists u, let f := cubic bn cn dn u in
            let f' := 3 * u ^ 2 + 2 * bn * u + cn in
    (v = u \/ f' <> 0 /\ (v = u - f / f' \/ v = u - f / f' / 10))
    /\ (Rabs f <= / 10 ^ 14 \/ Rabs f <= / 10 ^ 14 * Rabs f' * Rabs v).
Lemma polish_post fuel : forall u v res d, polish fuel bn cn dn u = Some (v, res, d) ->
  exists w, res = cubic bn cn dn w /\ (v = w /\ Rabs res < tol14
     \/ d = 3 * w ^ 2 + 2 * bn * w + cn /\ d <> 0 /\ (v = w - res / d \/ v = w - res / d / 10)).
Proof.
  induction fuel as [|fuel IH]; intros u v res d; cbn [polish];
    destruct (rltb (Rabs (c_res bn cn dn u)) tol14) eqn:E1.
  1,3: intros H; injection H as <- <- <-; exists u; rewrite <- res_cubic; split; [reflexivity|left];
       apply rltb_true in E1; tauto.
  all: destruct (reqb (c_dres bn cn u) 0) eqn:E2; [discriminate|]; apply reqb_false in E2;
       assert (Ed : c_dres bn cn u = 3 * u ^ 2 + 2 * bn * u + cn) by (unfold c_dres; ring);
       destruct (rltb (Rabs (- c_res bn cn dn u / c_dres bn cn u) / _) tol14) eqn:E3.
  1,3: intros H; injection H as <- <- <-; exists u; rewrite <- res_cubic; split; [reflexivity|right];
       split; [exact Ed|]; split; [exact E2|]; left; field; exact E2.
  - intros H; injection H as <- <- <-; exists u; rewrite <- res_cubic; split; [reflexivity|right].
    split; [exact Ed|]; split; [exact E2|].
    destruct (rltb (Rabs (c_res bn cn dn (u + _))) _); [left|right]; field; exact E2.
  - apply IH.
Qed.
Lemma polished_post u v : polished bn cn dn u = Some (Some v) -> nearly_root v.
Proof.
  unfold polished, accept. destruct (polish 19 bn cn dn u) as [[[v' res] d]|] eqn:E; [|discriminate].
  destruct (rltb tol14 (Rabs res) && rltb (tol14 * Rabs d * Rabs v') (Rabs res))%bool eqn:E2; [discriminate|].
  intros H. injection H as <-. destruct (polish_post _ _ _ _ _ E) as (w & Er & Hw).
  exists w. cbv zeta. rewrite <- Er. destruct Hw as [[-> Hr]|(Ed & Hd & Hv)].
  - split; [now left|]. left. unfold tol14 in Hr. lra.
  - rewrite <- Ed. split; [right; tauto|]. apply andb_false_iff in E2. unfold tol14 in E2.
    destruct E2 as [E2|E2]; apply rltb_false in E2; [left|right]; exact E2.
Qed.
Lemma s_polish_post n v0 v1 v2 w0 w1 w2 : s_polish bn cn dn n v0 v1 v2 = Some (w0, w1, w2) ->
  ((0 < n)%Z -> polished bn cn dn v0 = Some w0) /\ ((1 < n)%Z -> polished bn cn dn v1 = Some w1)
  /\ ((2 < n)%Z -> polished bn cn dn v2 = Some w2).
Proof.
  unfold s_polish. generalize (polished bn cn dn) as P. intros P H. cbv beta zeta in H.
  destruct (Z.ltb_spec 0 n); destruct (Z.ltb_spec 1 n); destruct (Z.ltb_spec 2 n);
    repeat match type of H with context [P ?v] => destruct (P v) eqn:?; [|discriminate] end;
    injection H as <- <- <-; (split; [|split]); intros; first [reflexivity | assumption | exfalso; lia].
Qed.
Theorem C68_accepted : forall n w0 w1 w2, solve = SRoots n w0 w1 w2 -> n <> (-1)%Z ->
  (forall v, w0 = Some v -> nearly_root v)
  /\ ((2 <= Z.abs n)%Z -> forall v, w1 = Some v -> nearly_root v)
  /\ (n = 3%Z -> forall v, w2 = Some v -> nearly_root v).
Proof.
  intros n w0 w1 w2. rewrite solve_unfold. cbv zeta.
  destruct (rltb (Rabs (Rabs (s_h bn cn) - Rabs (s_yN bn cn dn))) (/ 10 ^ 10) && _)%bool; [discriminate|].
  set (disc := if rltb _ (/ 10 ^ 10) then 0 else s_disc bn cn dn).
  destruct (s_start bn cn dn disc) as [[[[v0 v1] v2] de]|]; [|discriminate].
  destruct (s_polish bn cn dn (s_count disc) v0 v1 v2) as [[[a0 a1] a2]|] eqn:E; [|discriminate].
  intros H. injection H as En <- <- <-. intros Hn.
  assert (Hk : s_count disc = 3%Z \/ s_count disc = 2%Z \/ s_count disc = 1%Z \/ s_count disc = (-1)%Z).
  { unfold s_count. destruct (rltb disc _); [tauto|]. destruct (rltb (Rabs disc) _); [tauto|].
    destruct (rltb tol14 disc); tauto. }
  apply s_polish_post in E. destruct E as (P0 & P1 & P2). unfold s_final in En.
  destruct Hk as [K|[K|[K|K]]]; rewrite K in *; cbn in En; clear disc K.
  - split; [|split]; intros; subst; eapply polished_post; [apply P0|apply P1|apply P2]; lia.
  - split; [|split].
    + intros; subst; eapply polished_post; apply P0; lia.
    + intros; subst; eapply polished_post; apply P1; lia.
    + intros N3. destruct (rltb tol14 de); subst n; discriminate.
  - split; [|split].
    + intros; subst; eapply polished_post; apply P0; lia.
    + intros N2. exfalso.
      destruct (rltb tc T); [destruct (oltb a0 vc)|destruct (oltb a0 (s_xN bn))]; subst n; cbn in N2; lia.
    + intros N3. exfalso.
      destruct (rltb tc T); [destruct (oltb a0 vc)|destruct (oltb a0 (s_xN bn))]; subst n; discriminate.
  - exfalso. congruence.
Qed.
End Roots.
Print Assumptions C68_three.
Print Assumptions C68_one.
Print Assumptions C68_double.
Print Assumptions C68_triple.
Print Assumptions C68_accepted.
