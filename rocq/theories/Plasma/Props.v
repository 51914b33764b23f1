(** C72: the electron energy distribution of a plasma and its electron temperature. *)
From Coq Require Import Reals String List Bool Lra Lia.
From Verif Require Import Base.Outcome Base.Fp Base.RSum Units.Model Numerics.Model Numerics.Spec Numerics.FuncsProofs Plasma.Model Plasma.Spec.
Import ListNotations.
Open Scope R_scope.

Lemma k_pos : 0 < Boltzmann.
Proof. unfold Boltzmann. apply Rmult_lt_0_compat; [lra|apply powerRZ_lt; lra]. Qed.
Lemma q_pos : 0 < ElectronCharge.
Proof. unfold ElectronCharge. apply Rmult_lt_0_compat; [lra|apply powerRZ_lt; lra]. Qed.

Lemma pw_power x p : pw x p = power x p.
Proof.
  unfold pw, power. destruct (reqb x 0) eqn:E; destruct (Req_EM_T x 0) as [H|H]; try reflexivity.
  - apply reqb_true in E. contradiction.
  - apply reqb_false in E. contradiction.
Qed.
Lemma pw_lt x y p : 0 <= x -> x < y -> 0 < p -> pw x p < pw y p.
Proof.
  intros Hx Hy Hp. rewrite !pw_power. unfold power.
  destruct (Req_EM_T x 0) as [H|H]; destruct (Req_EM_T y 0) as [K|K]; try lra.
  - apply exp_pos.
  - unfold Rpower. apply exp_increasing, Rmult_lt_compat_l; [exact Hp|]. apply ln_increasing; lra.
Qed.
Lemma grid_nonneg l : grid l -> forall i, (i < length l)%nat -> 0 <= nth i l 0.
Proof.
  intros (_ & H0 & H) i. induction i as [|i IH]; intros L; [exact H0|].
  specialize (IH ltac:(lia)). specialize (H i L). lra.
Qed.
Lemma nth_map0 (g : R -> R) l i : (i < length l)%nat -> nth i (map g l) 0 = g (nth i l 0).
Proof. intros H. rewrite (nth_indep _ 0 (g 0)) by (now rewrite map_length). apply map_nth. Qed.
Lemma grid_pw l p : grid l -> 0 < p -> increasing (map (fun e => pw e p) l).
Proof.
  intros G Hp i Hi. rewrite map_length in Hi. rewrite !nth_map0 by lia.
  apply pw_lt; [apply (grid_nonneg l G); lia|apply G; exact Hi|exact Hp].
Qed.

(** ** Quadrature is linear *)

Lemma dot_scal c a : forall b, dot (map (Rmult c) a) b = c * dot a b.
Proof. induction a as [|x a IH]; intros [|y b]; cbn [map dot]; [ring|ring|ring|rewrite IH; ring]. Qed.
Lemma pair_sums_scal c f : pair_sums (map (Rmult c) f) = map (Rmult c) (pair_sums f).
Proof.
  induction f as [|a [|b f] IH]; [reflexivity|reflexivity|]. cbn [map pair_sums] in *. rewrite IH.
  f_equal. ring.
Qed.
Lemma nth_scal c f i : nth i (map (Rmult c) f) 0 = c * nth i f 0.
Proof. rewrite <- (map_nth (Rmult c)). now rewrite Rmult_0_r. Qed.
Lemma simpson_term_scal c f x i : simpson_term (map (Rmult c) f) x i = c * simpson_term f x i.
Proof. unfold simpson_term. rewrite !nth_scal. ring. Qed.
Lemma basicSimpson_scal c f x : basicSimpson (map (Rmult c) f) x = omap (Rmult c) (basicSimpson f x).
Proof.
  unfold basicSimpson. rewrite map_length. destruct (Nat.ltb _ _); [reflexivity|].
  destruct (Nat.even _); [reflexivity|]. cbn [omap obind]. f_equal.
  assert (K : forall l a, fold_left (fun s k => s + simpson_term (map (Rmult c) f) x (2 * k + 1)) l (c * a)
                          = c * fold_left (fun s k => s + simpson_term f x (2 * k + 1)) l a).
  { induction l as [|k l IH]; intros a; cbn [fold_left]; [reflexivity|].
    rewrite simpson_term_scal. rewrite <- IH. f_equal. ring. }
  rewrite <- K. f_equal. ring.
Qed.
Lemma quadrature_scal m c f x :
  numericalQuadrature m (map (Rmult c) f) x = omap (Rmult c) (numericalQuadrature m f x).
Proof.
  unfold numericalQuadrature. destruct (String.eqb m "simpson").
  - unfold simpson. rewrite !map_length. destruct x as [|a x]; [reflexivity|].
    destruct (any_nonpos _); [reflexivity|]. destruct (negb _); [reflexivity|].
    destruct (Nat.odd _); [apply basicSimpson_scal|]. destruct (Nat.eqb _ 2).
    + cbn [omap obind]. rewrite !nth_scal. f_equal. ring.
    + rewrite firstn_map, basicSimpson_scal. destruct (basicSimpson _ _); cbn [omap obind]; try reflexivity.
      rewrite !nth_scal. f_equal. ring.
  - destruct (String.eqb m "trapezoidal"); [|reflexivity].
    unfold trapezoidal. rewrite map_length. destruct (negb _); [reflexivity|].
    destruct f as [|a f]; [reflexivity|]. cbn [map].
    destruct (any_nonpos _); [reflexivity|]. cbn [omap obind].
    change (Rmult c a :: map (Rmult c) f) with (map (Rmult c) (a :: f)).
    rewrite pair_sums_scal, dot_scal. f_equal. field.
Qed.
Lemma map_div n f : map (fun v => v / n) f = map (Rmult (/ n)) f.
Proof. apply map_ext. intros v. unfold Rdiv. ring. Qed.

Lemma trapezoids_quad l f p : grid l -> length f = length l -> 0 < p ->
  numericalQuadrature "trapezoidal" f (map (fun e => pw e p) l) = Ok (trapezoids p l f).
Proof.
  intros G L Hp. unfold numericalQuadrature. cbn [String.eqb Ascii.eqb Bool.eqb].
  unfold trapezoidal. rewrite map_length, L, Nat.eqb_refl. cbn [negb].
  rewrite (proj2 (any_nonpos_false _) (grid_pw l p G Hp)).
  destruct f as [|a f0] eqn:F; [destruct G as [G _]; cbn in L; lia|]. rewrite <- F in *. f_equal.
  rewrite dot_sum by (now rewrite map_length). rewrite map_length. unfold trapezoids, Rdiv.
  rewrite Rmult_comm. unfold sum_n. rewrite <- sum_of_scal. apply sum_of_ext. intros i Hi. apply in_seq in Hi.
  rewrite !nth_map0 by lia. rewrite !pw_power. ring.
Qed.

(** ** Setting a distribution *)

Lemma check_levels_ok s : grid (p_levels s) -> check_levels s = (s, Done).
Proof.
  intros (H & H0 & I). unfold check_levels. destruct (p_levels s) as [|e l] eqn:E; [cbn in H; lia|].
  cbn [nth] in H0. rewrite (proj2 (rltb_false e 0)) by exact H0.
  rewrite (proj2 (any_nonpos_false (e :: l)) I). reflexivity.
Qed.
Lemma check_levels_inv s s' : check_levels s = (s', Done) ->
  s' = s /\ p_levels s <> [] /\ 0 <= nth 0 (p_levels s) 0 /\ increasing (p_levels s).
Proof.
  unfold check_levels. destruct (p_levels s) as [|e l] eqn:E; [discriminate|].
  destruct (rltb e 0) eqn:A; [discriminate|]. cbn [orb].
  destruct (any_nonpos (diffs (e :: l))) eqn:B; [discriminate|]. intros H. injection H as H.
  repeat split; [now symmetry|discriminate|cbn; now apply rltb_false|now apply any_nonpos_false].
Qed.
Lemma check_dist_ok s : (forall v, In v (p_dist s) -> 0 <= v) -> check_dist s = (s, Done).
Proof.
  intros H. unfold check_dist. destruct (existsb _ _) eqn:E; [|reflexivity].
  apply existsb_exists in E. destruct E as (v & Hv & E). apply rltb_true in E. specialize (H v Hv). lra.
Qed.
Lemma check_dist_inv s s' : check_dist s = (s', Done) -> s' = s /\ forall v, In v (p_dist s) -> 0 <= v.
Proof.
  unfold check_dist. destruct (existsb _ _) eqn:E; [discriminate|]. intros H. injection H as H.
  split; [now symmetry|]. intros v Hv. destruct (Rlt_dec v 0) as [L|L]; [|lra].
  assert (existsb (fun f => rltb f 0) (p_dist s) = true); [|congruence].
  apply existsb_exists. exists v. split; [exact Hv|]. now apply rltb_true.
Qed.

(* What setting a distribution does, when the norm is positive and the mean energy is not negative. *)
Lemma set_dist_ok gamma l f s q e n : grid l -> length f = length l -> (forall v, In v f -> 0 <= v) ->
  n = (if p_norm s then 2 / 3 * q else 1) ->
  numericalQuadrature (p_quad s) f (map (fun e => pw e (3 / 2)) l) = Ok q ->
  numericalQuadrature (p_quad s) f (map (fun e => pw e (5 / 2)) l) = Ok e ->
  0 < n -> 0 <= e ->
  exists s', setDiscretizedElectronEnergyDist gamma l f s = (s', Done) /\
    p_type s' = "discretized"%string /\ p_levels s' = l /\ p_dist s' = map (fun v => v / n) f /\
    p_Te s' = Te_of (2 / 5 * (/ n * e)) /\ p_quad s' = p_quad s /\ p_norm s' = p_norm s /\ p_shape s' = p_shape s /\
    p_diff s' = map (diff_at l (map (fun v => v / n) f) (length l)) (seq 0 (length l)) /\
    p_distNum s' = S (p_distNum s) /\ p_levelNum s' = S (S (p_levelNum s)).
Proof.
  intros G L Hf En Q E Hn He. unfold setDiscretizedElectronEnergyDist, set_levels.
  rewrite check_levels_ok by exact G. cbn [andthen fst snd].
  rewrite check_levels_ok by exact G. cbn [andthen fst snd].
  set (s1 := put_dist f _).
  assert (N : (if p_norm s1 then normalize s1 else (s1, Done)) = (put_dist (map (fun v => v / n) f) s1, Done)).
  { change (p_norm s1) with (p_norm s). destruct (p_norm s).
    - unfold normalize, quad.
      change (p_quad s1) with (p_quad s). change (p_dist s1) with f. change (p_levels s1) with l. rewrite Q.
      rewrite <- En. rewrite (proj2 (rltb_false n 0)) by lra.
      rewrite (proj2 (reqb_false n 0)) by lra. reflexivity.
    - subst n. rewrite (map_ext _ (fun v => v)) by (intros v; field). rewrite map_id. reflexivity. }
  rewrite N. cbn [andthen fst snd]. set (s2 := put_dist _ s1).
  rewrite check_dist_ok.
  2:{ intros v Hv. change (p_dist s2) with (map (fun v => v / n) f) in Hv. apply in_map_iff in Hv.
      destruct Hv as (w & <- & Hw). apply Rmult_le_pos; [now apply Hf|]. left. now apply Rinv_0_lt_compat. }
  cbn [andthen fst snd]. unfold update_diff. change (p_levels s2) with l.
  destruct (Nat.ltb_spec (length l) 2) as [B|B]; [destruct G as [G _]; lia|]. cbn [andthen fst snd].
  set (s3 := put_diff _ s2). unfold temperature_from, quad at 1.
  change (p_quad s3) with (p_quad s). change (p_dist s3) with (map (fun v => v / n) f). change (p_levels s3) with l.
  rewrite map_div, quadrature_scal, E. cbn [omap obind]. rewrite <- map_div.
  assert (P : 0 <= 2 / 5 * (/ n * e)).
  { apply Rmult_le_pos; [lra|]. apply Rmult_le_pos; [left; now apply Rinv_0_lt_compat|exact He]. }
  rewrite (proj2 (rltb_false _ 0)) by exact P. cbn [andb].
  rewrite (proj2 (rltb_false _ 0)) by exact P. cbn [andthen fst snd].
  eexists. split; [reflexivity|]. repeat split.
Qed.

Lemma mean_of_Te s em : p_Te s = Te_of em -> mean_energy s = em.
Proof. intros H. unfold mean_energy. rewrite H. unfold Te_of. pose proof k_pos. pose proof q_pos. field. lra. Qed.

Lemma trapezoids_nonneg p l f : grid l -> length f = length l -> 0 < p -> (forall v, In v f -> 0 <= v) ->
  0 <= trapezoids p l f /\ ((exists v, In v f /\ 0 < v) -> 0 < trapezoids p l f).
Proof.
  intros G L Hp Hf.
  assert (F : forall i, (i < length l)%nat -> 0 <= nth i f 0) by (intros i Hi; apply Hf, nth_In; lia).
  assert (W : forall i, (S i < length l)%nat -> 0 < power (nth (S i) l 0) p - power (nth i l 0) p).
  { intros i Hi. rewrite <- !pw_power.
    assert (pw (nth i l 0) p < pw (nth (S i) l 0) p); [|lra].
    apply pw_lt; [apply (grid_nonneg l G); lia|apply G; exact Hi|exact Hp]. }
  unfold trapezoids.
  assert (S1 : forall n, (n <= length l - 1)%nat ->
    0 <= sum_n (fun i => (power (nth (S i) l 0) p - power (nth i l 0) p) * ((nth (S i) f 0 + nth i f 0) / 2)) n /\
    ((exists i, (i <= n)%nat /\ (1 <= n)%nat /\ 0 < nth i f 0) ->
     0 < sum_n (fun i => (power (nth (S i) l 0) p - power (nth i l 0) p) * ((nth (S i) f 0 + nth i f 0) / 2)) n)).
  { induction n as [|n IH]; intros Hn.
    - rewrite sum_n_0. split; [lra|]. intros (i & _ & H & _). lia.
    - rewrite sum_n_S. destruct (IH ltac:(lia)) as [A B].
      pose proof (W n ltac:(lia)) as Wn. pose proof (F n ltac:(lia)) as F0. pose proof (F (S n) ltac:(lia)) as F1.
      split.
      + apply Rplus_le_le_0_compat; [exact A|]. apply Rmult_le_pos; lra.
      + intros (i & Hi & _ & Pi). destruct (Nat.eq_dec i (S n)) as [->|D1]; [|destruct (Nat.eq_dec i n) as [->|D2]].
        * apply Rplus_le_lt_0_compat; [exact A|]. apply Rmult_lt_0_compat; lra.
        * apply Rplus_le_lt_0_compat; [exact A|]. apply Rmult_lt_0_compat; lra.
        * apply Rplus_lt_le_0_compat; [|apply Rmult_le_pos; lra].
          apply B. exists i. repeat split; [lia|lia|exact Pi]. }
  destruct G as [G2 _]. destruct (S1 (length l - 1)%nat ltac:(lia)) as [A B]. split; [exact A|].
  intros (v & Hv & Pv). apply B. apply (In_nth _ _ 0) in Hv. destruct Hv as (i & Hi & Ei).
  exists i. repeat split; [lia|lia|now rewrite Ei].
Qed.

(* With the trapezoidal rule every grid and every distribution that is nowhere negative and somewhere positive
   is accepted.  The distribution that is stored is the given one up to a factor, its total probability is one,
   and the electron temperature is two thirds of its mean energy. *)
Theorem C72_trapezoidal : forall gamma l f s, p_norm s = true -> p_quad s = "trapezoidal"%string ->
  grid l -> length f = length l -> (forall v, In v f -> 0 <= v) -> (exists v, In v f /\ 0 < v) ->
  exists s' c, setDiscretizedElectronEnergyDist gamma l f s = (s', Done) /\
    p_type s' = "discretized"%string /\ p_levels s' = l /\
    0 < c /\ p_dist s' = map (Rmult c) f /\
    2 / 3 * trapezoids (3 / 2) l (p_dist s') = 1 /\
    mean_energy s' = 2 / 5 * trapezoids (5 / 2) l (p_dist s') /\
    3 / 2 * volts (p_Te s') = 2 / 5 * trapezoids (5 / 2) l (p_dist s') /\ 0 < p_Te s' /\
    p_shape s' = p_shape s /\ p_quad s' = p_quad s /\ p_norm s' = p_norm s.
Proof.
  intros gamma l f s HN HQ G L Hf Hp.
  destruct (trapezoids_nonneg (3 / 2) l f G L ltac:(lra) Hf) as [_ T1]. specialize (T1 Hp).
  destruct (trapezoids_nonneg (5 / 2) l f G L ltac:(lra) Hf) as [_ T2]. specialize (T2 Hp).
  set (n := 2 / 3 * trapezoids (3 / 2) l f). assert (P : 0 < n) by (unfold n; lra).
  destruct (set_dist_ok gamma l f s (trapezoids (3 / 2) l f) (trapezoids (5 / 2) l f) n G L Hf) as (s' & E & A1 & A2 & A3 & A4 & A5 & A6 & A7 & A8).
  - now rewrite HN.
  - rewrite HQ. now apply trapezoids_quad; [| |lra].
  - rewrite HQ. now apply trapezoids_quad; [| |lra].
  - exact P.
  - lra.
  - assert (S1 : forall p, trapezoids p l (map (Rmult (/ n)) f) = / n * trapezoids p l f).
    { intros p. unfold trapezoids, sum_n. rewrite <- sum_of_scal. apply sum_of_ext. intros i _. rewrite !nth_scal. field. lra. }
    rewrite map_div in A3. pose proof k_pos as Kp. pose proof q_pos as Qp.
    exists s', (/ n). rewrite A3, !S1. repeat split; try assumption.
    + now apply Rinv_0_lt_compat.
    + unfold n. field. unfold n in P. lra.
    + now apply mean_of_Te.
    + unfold volts. rewrite A4. unfold Te_of. field. lra.
    + rewrite A4. unfold Te_of, Rdiv. assert (0 < / n) by now apply Rinv_0_lt_compat.
      assert (0 < / Boltzmann) by now apply Rinv_0_lt_compat.
      assert (0 < / n * trapezoids (5 / 2) l f) by (now apply Rmult_lt_0_compat).
      apply Rmult_lt_0_compat; [apply Rmult_lt_0_compat; [lra|exact Qp]|assumption].
Qed.
Print Assumptions C72_trapezoidal.
Definition p0 : plasma := Plasma "isotropic" [0; 1] [1; 1] [0; 0] 1 true "trapezoidal" 2 0 0.
Example C72_trapezoidal_ex : p_norm p0 = true /\ p_quad p0 = "trapezoidal"%string /\ grid [0; 1; 4] /\
  (forall v, In v [1; 1 / 2; 0] -> 0 <= v) /\ (exists v, In v [1; 1 / 2; 0] /\ 0 < v).
Proof.
  split; [reflexivity|]. split; [reflexivity|]. split; [|split].
  - repeat split; [cbn; lia|cbn; lra|]. intros [|[|i]] H; cbn in *; try lra; lia.
  - intros v H. cbn in H. intuition lra.
  - exists 1. cbn. split; [now left|lra].
Qed.

(* Only the shape of the distribution matters when it is normalised, with either rule. *)
Theorem C72_scale : forall gamma l f s c, p_norm s = true -> grid l -> length f = length l ->
  (forall v, In v f -> 0 <= v) -> 0 < c ->
  forall s1, setDiscretizedElectronEnergyDist gamma l f s = (s1, Done) ->
  setDiscretizedElectronEnergyDist gamma l (map (Rmult c) f) s = (s1, Done).
Proof.
  intros gamma l f s c HN G L Hf Hc s1 H. revert H.
  unfold setDiscretizedElectronEnergyDist, set_levels.
  rewrite check_levels_ok by exact G. cbn [andthen fst snd].
  rewrite check_levels_ok by exact G. rewrite check_levels_ok by exact G. cbn [andthen fst snd].
  set (s2 := level_changed (put_levels l (set_type "discretized" s))).
  change (p_norm (put_dist f s2)) with (p_norm s). change (p_norm (put_dist (map (Rmult c) f) s2)) with (p_norm s).
  rewrite HN.
  assert (K : normalize (put_dist f s2) = (fst (normalize (put_dist f s2)), Done) ->
              normalize (put_dist (map (Rmult c) f) s2) = normalize (put_dist f s2)).
  { unfold normalize, quad. change (p_quad (put_dist f s2)) with (p_quad s).
    change (p_quad (put_dist (map (Rmult c) f) s2)) with (p_quad s).
    change (p_dist (put_dist f s2)) with f. change (p_dist (put_dist (map (Rmult c) f) s2)) with (map (Rmult c) f).
    change (p_levels (put_dist f s2)) with l. change (p_levels (put_dist (map (Rmult c) f) s2)) with l.
    rewrite quadrature_scal. destruct (numericalQuadrature _ f _) as [q| | |]; cbn [omap obind]; try discriminate.
    destruct (rltb (2 / 3 * q) 0) eqn:A; [discriminate|]. destruct (reqb (2 / 3 * q) 0) eqn:B; [discriminate|]. intros _.
    apply rltb_false in A. apply reqb_false in B.
    assert (Pq : 0 < q) by lra. assert (Pc : 0 < c * q) by (now apply Rmult_lt_0_compat).
    rewrite (proj2 (rltb_false _ 0)) by lra. rewrite (proj2 (reqb_false _ 0)) by lra.
    f_equal. unfold put_dist at 1 3. cbn [p_type p_levels p_diff p_Te p_norm p_quad p_shape p_distNum p_levelNum put_dist].
    f_equal. rewrite map_map. apply map_ext. intros v. field. lra. }
  destruct (normalize (put_dist f s2)) as [s3 e]. destruct e; try discriminate.
  rewrite K by reflexivity. cbn [andthen fst snd]. tauto.
Qed.
Print Assumptions C72_scale.
Example C72_scale_ex : exists gamma s1, setDiscretizedElectronEnergyDist gamma [0; 1; 4] [1; 1 / 2; 0] p0 = (s1, Done).
Proof.
  destruct C72_trapezoidal_ex as (A & B & C & D & E).
  destruct (C72_trapezoidal (fun _ => 1) [0; 1; 4] [1; 1 / 2; 0] p0 A B C eq_refl D E) as (s1 & c & H & _).
  now exists (fun _ => 1), s1.
Qed.

(* A distribution that is zero everywhere is neither refused nor usable: it is divided by its norm, zero. *)
Theorem C72_zero_refuted : forall gamma l s, p_norm s = true -> p_quad s = "trapezoidal"%string -> grid l ->
  snd (setDiscretizedElectronEnergyDist gamma l (map (fun _ => 0) l) s) = NotNumber.
Proof.
  intros gamma l s HN HQ G. unfold setDiscretizedElectronEnergyDist, set_levels.
  rewrite check_levels_ok by exact G. cbn [andthen fst snd].
  rewrite check_levels_ok by exact G. cbn [andthen fst snd].
  cbn [p_norm put_dist level_changed put_levels set_type]. rewrite HN.
  unfold normalize, quad. cbn [p_quad p_dist p_levels put_dist level_changed put_levels set_type]. rewrite HQ.
  rewrite trapezoids_quad by (try exact G; try (now rewrite map_length); lra).
  replace (trapezoids _ _ _) with 0.
  - rewrite (proj2 (rltb_false _ 0)) by lra. rewrite (proj2 (reqb_true _ 0)) by lra. reflexivity.
  - symmetry. unfold trapezoids. rewrite (sum_n_ext _ (fun _ => 0 * 0)).
    + unfold sum_n. rewrite sum_of_scal. ring.
    + intros i Hi. rewrite !nth_map0 by lia. field.
Qed.
Print Assumptions C72_zero_refuted.

(* Simpson's rule, the default, can make the norm of a good distribution negative; it is then refused. *)
Theorem C72_simpson_refuted : forall gamma s, p_norm s = true -> p_quad s = "simpson"%string ->
  grid [0; 1; 4] /\ snd (setDiscretizedElectronEnergyDist gamma [0; 1; 4] [1; 0; 0] s) = Throws.
Proof.
  intros gamma s HN HQ. assert (G : grid [0; 1; 4]) by apply C72_trapezoidal_ex. split; [exact G|].
  unfold setDiscretizedElectronEnergyDist, set_levels.
  rewrite check_levels_ok by exact G. cbn [andthen fst snd].
  rewrite check_levels_ok by exact G. cbn [andthen fst snd].
  cbn [p_norm put_dist level_changed put_levels set_type]. rewrite HN.
  unfold normalize, quad. cbn [p_quad p_dist p_levels put_dist level_changed put_levels set_type map]. rewrite HQ.
  assert (E0 : pw 0 (3 / 2) = 0) by (unfold pw; now rewrite (proj2 (reqb_true 0 0)) by reflexivity).
  assert (E1 : pw 1 (3 / 2) = 1).
  { unfold pw. rewrite (proj2 (reqb_false 1 0)) by lra. unfold Rpower. rewrite ln_1, Rmult_0_r. apply exp_0. }
  assert (E4 : pw 4 (3 / 2) = 8).
  { unfold pw. rewrite (proj2 (reqb_false 4 0)) by lra. replace 4 with (Rpower 2 2).
    - rewrite Rpower_mult. replace (2 * (3 / 2)) with (INR 3) by (cbn; lra). rewrite Rpower_pow by lra. ring.
    - change 2 with (INR 2) at 2. rewrite Rpower_pow by lra. ring. }
  rewrite E0, E1, E4. unfold numericalQuadrature. cbn [String.eqb Ascii.eqb Bool.eqb]. unfold simpson.
  rewrite (proj2 (any_nonpos_false [0; 1; 8])).
  2:{ intros [|[|i]] H; cbn in *; try lra; lia. }
  cbn [length Nat.eqb negb Nat.odd Nat.even]. unfold basicSimpson. cbn [length Nat.ltb Nat.leb Nat.even Nat.sub].
  change (seq 0 (2 / 2)) with [0%nat]. cbn [fold_left].
  replace (simpson_term _ _ _) with (- 20 / 3).
  - rewrite (proj2 (rltb_true _ 0)) by lra. reflexivity.
  - unfold simpson_term. cbn [Nat.mul Nat.add Nat.sub nth]. field.
Qed.
Print Assumptions C72_simpson_refuted.
