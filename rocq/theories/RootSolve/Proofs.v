(** The cubic solver: lemmas. *)
From Coq Require Import Reals ZArith Bool Lra Lia.
From Verif Require Import Base.Fp Units.Model Cubic.Model RootSolve.Model RootSolve.Spec.
Open Scope R_scope.

Lemma res_cubic b c d v : c_res b c d v = cubic b c d v.
Proof. unfold c_res, cubic. ring. Qed.
Lemma xN_inflection b : s_xN b = inflection b.
Proof. reflexivity. Qed.
Lemma yN_middle b c d : s_yN b c d = middle b c d.
Proof. unfold s_yN, middle, cubic, inflection. field. Qed.
Lemma disc_discriminant b c d : s_disc b c d = - (discriminant b c d / 27).
Proof. unfold s_disc, s_h2, s_yN, s_delta2, discriminant. field. Qed.
Lemma delta_sq b c : 0 < s_delta2 b c -> s_delta b c * s_delta b c = s_delta2 b c /\ 0 < s_delta b c.
Proof.
  intros H. unfold s_delta. assert (E : rltb 0 (s_delta2 b c) = true) by (now apply rltb_true).
  rewrite E. split; [apply sqrt_sqrt; lra|now apply sqrt_lt_R0].
Qed.
Lemma delta_0 b c : s_delta2 b c <= 0 -> s_delta b c = 0.
Proof.
  intros H. unfold s_delta. assert (E : rltb 0 (s_delta2 b c) = false) by (now apply rltb_false).
  now rewrite E.
Qed.
Lemma delta_nonneg b c : 0 <= s_delta b c.
Proof.
  destruct (Rlt_dec 0 (s_delta2 b c)) as [H|H].
  - destruct (delta_sq b c H). lra.
  - rewrite delta_0; lra.
Qed.
Lemma h_height b c : s_h b c = height b c.
Proof.
  unfold s_h, height. destruct (Rlt_dec 0 (b ^ 2 - 3 * c)) as [H|H].
  - assert (H2 : 0 < s_delta2 b c) by (unfold s_delta2; apply Rdiv_lt_0_compat; [nra|lra]).
    destruct (delta_sq b c H2) as [E1 E2].
    replace ((b ^ 2 - 3 * c) / 9) with (s_delta2 b c) by (unfold s_delta2; field).
    rewrite <- E1. rewrite sqrt_square by lra. ring.
  - rewrite delta_0; [ring|]. unfold s_delta2. nra.
Qed.
Lemma height_nonneg b c : 0 <= height b c.
Proof.
  rewrite <- h_height. unfold s_h. destruct (Rlt_dec 0 (s_delta2 b c)) as [H|H].
  - destruct (delta_sq b c H). nra.
  - rewrite delta_0; lra.
Qed.
(* The cubic around its inflection point. *)
Lemma shift b c d y :
  cubic b c d (s_xN b + y) = y * y * y - 3 * s_delta2 b c * y + s_yN b c d.
Proof. unfold cubic, s_xN, s_delta2, s_yN. field. Qed.

Lemma tol_pos : 0 < tol14.
Proof. unfold tol14. apply Rinv_0_lt_compat, pow_lt. lra. Qed.
Lemma polished_root b c d v : root b c d v -> polished b c d v = Some (Some v).
Proof.
  intros H. unfold root in H. rewrite <- res_cubic in H. pose proof tol_pos as Ht.
  unfold polished. generalize 19%nat as fuel. intros fuel.
  assert (E : rltb 0 tol14 = true) by (now apply rltb_true).
  assert (P : polish fuel b c d v = Some (v, 0, 0)).
  { destruct fuel; cbn [polish]; rewrite H, Rabs_R0, E; reflexivity. }
  rewrite P. unfold accept.
  rewrite Rabs_R0. assert (E2 : rltb tol14 0 = false) by (apply rltb_false; lra). now rewrite E2.
Qed.

Lemma pow2_gt_0 x : x <> 0 -> 0 < x ^ 2.
Proof. intros H. replace (x ^ 2) with (Rsqr x) by (unfold Rsqr; ring). now apply Rsqr_pos_lt. Qed.
Lemma cube_lt x y : x * x * x < y * y * y -> x < y.
Proof.
  intros H. destruct (Rlt_le_dec x y) as [|K]; [assumption|].
  exfalso. destruct (Req_EM_T x y) as [->|N]; [lra|].
  assert (x - y > 0) by lra.
  assert (Q : 0 < x * x + x * y + y * y).
  { assert (x * x + x * y + y * y = (x + y / 2) ^ 2 + 3 / 4 * y ^ 2) by field.
    destruct (Req_EM_T y 0) as [->|Ny]; [nra|].
    assert (0 < y ^ 2) by (apply pow2_gt_0; assumption). pose proof (pow2_ge_0 (x + y/2)). lra. }
  assert (x * x * x - y * y * y = (x - y) * (x * x + x * y + y * y)) by ring. nra.
Qed.
Lemma cube_inj x y : x * x * x = y * y * y -> x = y.
Proof.
  intros H. destruct (Rtotal_order x y) as [L|[E|L]]; [|assumption|]; exfalso.
  - assert (K : x * x * x < y * y * y).
    { destruct (Rlt_le_dec (x*x*x) (y*y*y)); [assumption|]. exfalso.
      assert (Q : 0 < x * x + x * y + y * y).
      { assert (x * x + x * y + y * y = (x + y / 2) ^ 2 + 3 / 4 * y ^ 2) by field.
        destruct (Req_EM_T y 0) as [->|Ny]; [nra|].
        assert (0 < y ^ 2) by (apply pow2_gt_0; assumption). pose proof (pow2_ge_0 (x + y/2)). lra. }
      assert (y * y * y - x * x * x = (y - x) * (x * x + x * y + y * y)) by ring. nra. }
    lra.
  - assert (K : y * y * y < x * x * x).
    { destruct (Rlt_le_dec (y*y*y) (x*x*x)); [assumption|]. exfalso.
      assert (Q : 0 < x * x + x * y + y * y).
      { assert (x * x + x * y + y * y = (y + x / 2) ^ 2 + 3 / 4 * x ^ 2) by field.
        destruct (Req_EM_T x 0) as [->|Ny]; [nra|].
        assert (0 < x ^ 2) by (apply pow2_gt_0; assumption). pose proof (pow2_ge_0 (y + x/2)). lra. }
      assert (x * x * x - y * y * y = (x - y) * (x * x + x * y + y * y)) by ring. nra. }
    lra.
Qed.
Lemma rpower_third x : 0 < x -> Rpower x (1/3) * Rpower x (1/3) * Rpower x (1/3) = x.
Proof.
  intros H. rewrite <- !Rpower_plus. replace (1/3 + 1/3 + 1/3) with 1 by field. now apply Rpower_1.
Qed.
Lemma signed_cbrt_cube x : signed_cbrt x * signed_cbrt x * signed_cbrt x = x.
Proof.
  unfold signed_cbrt. destruct (rltb x 0) eqn:E.
  - apply rltb_true in E. assert (H := rpower_third (- x)). specialize (H ltac:(lra)).
    set (u := Rpower (- x) (1/3)) in *. replace (- u * - u * - u) with (- (u * u * u)) by ring. lra.
  - apply rltb_false in E. destruct (reqb x 0) eqn:E2.
    + apply reqb_true in E2. subst. ring.
    + apply reqb_false in E2. apply rpower_third. lra.
Qed.

(* One real root. *)
Lemma cardano b c d :
  0 < s_disc b c d ->
  let D := sqrt (s_disc b c d) in
  let r := s_xN b + signed_cbrt ((- s_yN b c d + D) / 2) + signed_cbrt ((- s_yN b c d - D) / 2) in
  forall v, root b c d v <-> v = r.
Proof.
  intros HD D r v.
  set (u := signed_cbrt ((- s_yN b c d + D) / 2)) in *.
  set (w := signed_cbrt ((- s_yN b c d - D) / 2)) in *.
  assert (Hu : u * u * u = (- s_yN b c d + D) / 2) by apply signed_cbrt_cube.
  assert (Hw : w * w * w = (- s_yN b c d - D) / 2) by apply signed_cbrt_cube.
  assert (HDD : D * D = s_disc b c d) by (apply sqrt_sqrt; lra).
  assert (HDp : 0 < D) by (now apply sqrt_lt_R0).
  assert (Huw : u * w = s_delta2 b c).
  { apply cube_inj. replace (u * w * (u * w) * (u * w)) with (u * u * u * (w * w * w)) by ring.
    rewrite Hu, Hw.
    replace ((- s_yN b c d + D) / 2 * ((- s_yN b c d - D) / 2))
      with ((s_yN b c d * s_yN b c d - D * D) / 4) by field.
    rewrite HDD. unfold s_disc, s_h2. field. }
  assert (Hne : u <> w) by (intro E; rewrite E in Hu; lra).
  assert (F : forall y, cubic b c d (s_xN b + y)
            = (y - (u + w)) * ((y + (u + w) / 2) ^ 2 + 3 / 4 * (u - w) ^ 2)).
  { intros y. rewrite shift, <- Huw. replace (s_yN b c d) with (- (u * u * u + w * w * w)) by lra. field. }
  unfold root. replace v with (s_xN b + (v - s_xN b)) at 1 by ring. rewrite F.
  assert (Q : 0 < (v - s_xN b + (u + w) / 2) ^ 2 + 3 / 4 * (u - w) ^ 2).
  { assert (0 < (u - w) ^ 2) by (apply pow2_gt_0; lra).
    pose proof (pow2_ge_0 (v - s_xN b + (u + w) / 2)). lra. }
  split; intros H.
  - apply Rmult_integral in H. destruct H as [H|H]; [unfold r; lra|lra].
  - rewrite H. unfold r. ring.
Qed.

Lemma triple_angle t : 4 * (cos t * cos t * cos t) - 3 * cos t = cos (3 * t).
Proof.
  replace (3 * t) with (t + 2 * t) by ring. rewrite cos_plus, cos_2a, sin_2a.
  pose proof (sin2_cos2 t) as H. unfold Rsqr in H.
  replace (sin t * (2 * sin t * cos t)) with (2 * (sin t * sin t) * cos t) by ring.
  replace (sin t * sin t) with (1 - cos t * cos t) by lra. ring.
Qed.

Lemma factor3 b c d r0 r1 r2 : root b c d r0 -> root b c d r1 -> root b c d r2 ->
  r0 <> r1 -> r0 <> r2 -> r1 <> r2 -> forall v, root b c d v <-> v = r0 \/ v = r1 \/ v = r2.
Proof.
  unfold root. intros H0 H1 H2 N01 N02 N12 v. split.
  2:{ intros [->|[->| ->]]; assumption. }
  intros H. destruct (Req_EM_T v r0) as [E|E]; [now left|]. right.
  assert (G : forall z, z <> r0 -> cubic b c d z = 0 -> z * z + z * r0 + r0 * r0 + b * (z + r0) + c = 0).
  { intros z Hz Ez. assert (K : (z - r0) * (z * z + z * r0 + r0 * r0 + b * (z + r0) + c) = 0).
    { transitivity (cubic b c d z - cubic b c d r0); [unfold cubic; ring|lra]. }
    apply Rmult_integral in K. destruct K; [lra|assumption]. }
  assert (G1 := G r1 (not_eq_sym N01) H1). assert (G2 := G r2 (not_eq_sym N02) H2). assert (Gv := G v E H).
  destruct (Req_EM_T v r1) as [E1|E1]; [now left|]. right.
  assert (A : (r2 - r1) * (r2 + r1 + r0 + b) = 0) by lra.
  assert (B : (v - r1) * (v + r1 + r0 + b) = 0) by lra.
  apply Rmult_integral in A. apply Rmult_integral in B. destruct A; destruct B; lra.
Qed.

(* Three real roots. *)
Lemma viete b c d :
  s_disc b c d < 0 ->
  let th := acos (- s_yN b c d / s_h b c) / 3 in
  let r0 := s_xN b + 2 * s_delta b c * cos (th + 2 * PI / 3) in
  let r1 := s_xN b + 2 * s_delta b c * cos (th + 2 * (2 * PI / 3)) in
  let r2 := s_xN b + 2 * s_delta b c * cos th in
  r0 < r1 < r2 /\ forall v, root b c d v <-> v = r0 \/ v = r1 \/ v = r2.
Proof.
  intros HD th r0 r1 r2.
  assert (H2 : 0 < s_delta2 b c).
  { apply cube_lt. unfold s_disc, s_h2 in HD. assert (0 <= s_yN b c d * s_yN b c d) by nra. lra. }
  destruct (delta_sq b c H2) as [E1 E2]. set (de := s_delta b c) in *.
  assert (Hh : s_h b c = 2 * (de * de * de)) by (unfold s_h; fold de; rewrite <- E1; ring).
  assert (Hp : 0 < de * de * de) by (repeat apply Rmult_lt_0_compat; assumption).
  assert (Hb : - s_h b c < s_yN b c d < s_h b c).
  { unfold s_disc, s_h2 in HD. rewrite <- E1 in HD. set (y := s_yN b c d) in *.
    assert (HD' : y * y < s_h b c * s_h b c) by (rewrite Hh; nra). clear HD. split; nra. }
  set (y := s_yN b c d) in *. set (h := s_h b c) in *.
  assert (Hq : -1 < - y / h < 1).
  { split.
    - apply (Rmult_lt_reg_r h); [lra|]. unfold Rdiv. rewrite Rmult_assoc, Rinv_l by lra. lra.
    - apply (Rmult_lt_reg_r h); [lra|]. unfold Rdiv. rewrite Rmult_assoc, Rinv_l by lra. lra. }
  assert (Hac := acos_bound_lt _ Hq). assert (Hc : cos (acos (- y / h)) = - y / h) by (apply cos_acos; lra).
  assert (Hth : 0 < th < PI / 3) by (unfold th; lra).
  assert (P : forall t, cos (3 * t) = - y / h -> root b c d (s_xN b + 2 * de * cos t)).
  { intros t Ht. unfold root. rewrite shift, <- E1.
    replace (2 * de * cos t * (2 * de * cos t) * (2 * de * cos t) - 3 * (de * de) * (2 * de * cos t))
      with (2 * (de * de * de) * (4 * (cos t * cos t * cos t) - 3 * cos t)) by ring.
    rewrite triple_angle, Ht, <- Hh. fold h. fold y. field. lra. }
  assert (C0 : cos (3 * th) = - y / h) by (replace (3 * th) with (acos (- y / h)) by (unfold th; field); exact Hc).
  assert (R2 : root b c d r2) by (apply P; exact C0).
  assert (R0 : root b c d r0).
  { apply P. rewrite <- C0. replace (3 * (th + 2 * PI / 3)) with (3 * th + 2 * INR 1 * PI) by (simpl; field).
    apply cos_period. }
  assert (R1 : root b c d r1).
  { apply P. rewrite <- C0. replace (3 * (th + 2 * (2 * PI / 3))) with (3 * th + 2 * INR 2 * PI) by (simpl; field).
    apply cos_period. }
  assert (HPI := PI_RGT_0).
  assert (K1 : cos (th + 2 * (2 * PI / 3)) = cos (2 * PI / 3 - th)).
  { rewrite <- (cos_neg (2 * PI / 3 - th)).
    replace (th + 2 * (2 * PI / 3)) with (- (2 * PI / 3 - th) + 2 * INR 1 * PI) by (simpl; field).
    apply cos_period. }
  assert (L1 : cos (th + 2 * PI / 3) < cos (th + 2 * (2 * PI / 3))).
  { rewrite K1. apply cos_decreasing_1; lra. }
  assert (L2 : cos (th + 2 * (2 * PI / 3)) < cos th).
  { rewrite K1. apply cos_decreasing_1; lra. }
  assert (O : r0 < r1 < r2).
  { unfold r0, r1, r2. split; apply Rplus_lt_compat_l; apply Rmult_lt_compat_l; lra. }
  split; [exact O|]. apply factor3; try assumption; lra.
Qed.

(* A double root. *)
Lemma double_root b c d :
  s_disc b c d = 0 -> s_yN b c d <> 0 ->
  let de := s_delta b c in
  0 < de /\ s_h b c = Rabs (s_yN b c d) /\ 2 * (de * de * de) = Rabs (s_yN b c d)
  /\ (0 < s_yN b c d -> forall v, root b c d v <-> v = s_xN b - 2 * de \/ v = s_xN b + de)
  /\ (s_yN b c d < 0 -> forall v, root b c d v <-> v = s_xN b - de \/ v = s_xN b + 2 * de).
Proof.
  intros HD Hy de.
  assert (H2 : 0 < s_delta2 b c).
  { apply cube_lt. unfold s_disc, s_h2 in HD. assert (0 < s_yN b c d * s_yN b c d) by nra. lra. }
  destruct (delta_sq b c H2) as [E1 E2]. fold de in E1, E2.
  assert (Hp : 0 < de * de * de) by (repeat apply Rmult_lt_0_compat; assumption).
  assert (Hc : 2 * (de * de * de) = Rabs (s_yN b c d)).
  { unfold s_disc, s_h2 in HD. rewrite <- E1 in HD.
    assert (E : (Rabs (s_yN b c d) - 2 * (de * de * de)) * (Rabs (s_yN b c d) + 2 * (de * de * de)) = 0).
    { transitivity (Rabs (s_yN b c d) * Rabs (s_yN b c d) - 4 * (de * de) * (de * de) * (de * de)); [ring|].
      rewrite <- Rabs_mult, Rabs_right by nra. lra. }
    pose proof (Rabs_pos (s_yN b c d)). apply Rmult_integral in E. destruct E; lra. }
  split; [exact E2|]. split; [unfold s_h; fold de; rewrite <- E1; lra|]. split; [exact Hc|].
  assert (G : forall v, cubic b c d v = (v - s_xN b) * (v - s_xN b) * (v - s_xN b) - 3 * (de * de) * (v - s_xN b) + s_yN b c d).
  { intros v. rewrite E1, <- shift. f_equal. ring. }
  split; intros Hs v; unfold root; rewrite G; set (y := v - s_xN b).
  - rewrite Rabs_right in Hc by lra. rewrite <- Hc.
    replace (y * y * y - 3 * (de * de) * y + 2 * (de * de * de)) with ((y + 2 * de) * ((y - de) * (y - de))) by ring.
    split.
    + intros K. apply Rmult_integral in K. destruct K as [K|K]; [left; unfold y in K; lra|].
      apply Rmult_integral in K. right. unfold y in K. destruct K; lra.
    + unfold y. intros [->| ->]; ring.
  - rewrite Rabs_left in Hc by lra. replace (s_yN b c d) with (- (2 * (de * de * de))) by lra.
    replace (y * y * y - 3 * (de * de) * y + - (2 * (de * de * de))) with ((y - 2 * de) * ((y + de) * (y + de))) by ring.
    split.
    + intros K. apply Rmult_integral in K. destruct K as [K|K]; [right; unfold y in K; lra|].
      apply Rmult_integral in K. left. unfold y in K. destruct K; lra.
    + unfold y. intros [->| ->]; ring.
Qed.

Lemma near_spec T p b a bn cn :
  s_near T p b a bn cn = true <->
  nearly_ideal bn cn (p * b / (GasConstant * T)) (a / (GasConstant * T) * p / (GasConstant * T)).
Proof.
  unfold s_near, nearly_ideal, s_ratio1, s_ratio2, s_ratio3.
  replace (bn ^ 2) with (bn * bn) by ring. rewrite !andb_true_iff, !rltb_true.
  destruct (reqb bn 0) eqn:E.
  - apply reqb_true in E. split; [intros [K _]; discriminate|]. intros [K _]. contradiction.
  - apply reqb_false in E. rewrite rltb_true. tauto.
Qed.
