(** C72, continued: isotropic distributions, histories, and what a refused call leaves behind. *)
From Coquelicot Require Import Coquelicot.
From Coq Require Import Reals String List Bool Lra Lia.
From Verif Require Import Base.Outcome Base.Fp Base.RSum Units.Model Numerics.Model Numerics.Spec Numerics.FuncsProofs Plasma.Model Plasma.Spec Plasma.Props.
Import ListNotations.
Open Scope R_scope.

(** ** Isotropic distributions *)

Lemma iso_pos gamma x em e : 0 < x -> 0 < iso_value gamma x em e.
Proof.
  intros Hx. unfold iso_value, iso_c1. apply Rmult_lt_0_compat; [|apply exp_pos]. unfold Rdiv.
  repeat (apply Rmult_lt_0_compat; [|try apply Rinv_0_lt_compat; apply exp_pos]). exact Hx.
Qed.

Lemma update_iso gamma s : p_type s = "isotropic"%string -> 0 < p_Te s -> 0 < p_shape s -> (2 <= length (p_levels s))%nat ->
  exists d, update_dist gamma s
  = (dist_changed (put_diff d (put_dist (map (iso_value gamma (p_shape s) (mean_energy s)) (p_levels s)) s)), Done).
Proof.
  intros HT H1 H2 HL. unfold update_dist. rewrite HT. cbn [String.eqb Ascii.eqb Bool.eqb]. unfold set_isotropic.
  rewrite (proj2 (rltb_true 0 _) H1), (proj2 (rltb_true 0 _) H2). cbn [andb].
  rewrite check_dist_ok.
  2:{ intros v Hv. cbn [p_dist put_dist] in Hv. apply in_map_iff in Hv. destruct Hv as (w & <- & _). left. now apply iso_pos. }
  cbn [andthen fst snd]. unfold update_diff. cbn [p_levels put_dist].
  destruct (Nat.ltb_spec (length (p_levels s)) 2) as [B|B]; [lia|]. cbn [andthen fst snd]. eexists. reflexivity.
Qed.

(* Setting the temperature, or the mean energy, of an isotropic distribution: both read back, and the
   distribution is the isotropic one for them on the grid that was there. *)
Theorem C72_temperature : forall gamma s v, p_type s = "isotropic"%string -> 0 < v -> 0 < p_shape s -> grid (p_levels s) ->
  (exists s', setElectronTemperature gamma v s = (s', Done) /\ p_Te s' = v /\ mean_energy s' = 3 / 2 * volts v /\
     p_levels s' = p_levels s /\ p_shape s' = p_shape s /\
     p_dist s' = map (iso_value gamma (p_shape s) (3 / 2 * volts v)) (p_levels s) /\ p_distNum s' = S (p_distNum s) /\
     p_quad s' = p_quad s /\ p_norm s' = p_norm s /\ p_type s' = p_type s) /\
  (exists s', setMeanElectronEnergy gamma v s = (s', Done) /\ mean_energy s' = v /\ volts (p_Te s') = 2 / 3 * v /\
     p_levels s' = p_levels s /\ p_shape s' = p_shape s /\
     p_dist s' = map (iso_value gamma (p_shape s) v) (p_levels s) /\ p_distNum s' = S (p_distNum s) /\
     p_quad s' = p_quad s /\ p_norm s' = p_norm s /\ p_type s' = p_type s).
Proof.
  intros gamma s v HT Hv Hs [HL _]. pose proof k_pos as Kp. pose proof q_pos as Qp.
  assert (E1 : mean_energy (put_Te v s) = 3 / 2 * volts v).
  { unfold mean_energy, volts. cbn [p_Te put_Te]. field. lra. }
  assert (E2 : mean_energy (put_Te (Te_of v) s) = v) by (now apply mean_of_Te).
  split.
  - destruct (update_iso gamma (put_Te v s) HT Hv Hs HL) as [d E]. exists (fst (update_dist gamma (put_Te v s))).
    unfold setElectronTemperature. rewrite E. cbn [fst]. rewrite E1. repeat split. exact E1.
  - assert (P : 0 < Te_of v).
    { unfold Te_of, Rdiv. apply Rmult_lt_0_compat; [|now apply Rinv_0_lt_compat]. apply Rmult_lt_0_compat; lra. }
    destruct (update_iso gamma (put_Te (Te_of v) s) HT P Hs HL) as [d E].
    exists (fst (update_dist gamma (put_Te (Te_of v) s))).
    unfold setMeanElectronEnergy. rewrite E. cbn [fst]. rewrite E2. repeat split; [exact E2|].
    unfold volts. cbn. unfold Te_of. field. lra.
Qed.
Print Assumptions C72_temperature.
Example C72_temperature_ex : p_type p0 = "isotropic"%string /\ 0 < p_shape p0 /\ grid (p_levels p0).
Proof. repeat split; cbn; try lra; try lia. intros [|i] H; cbn in *; lra || lia. Qed.

Lemma Rpower_32 x : 0 < x -> Rpower x (3 / 2) = x * sqrt x.
Proof. intros H. replace (3 / 2) with (1 + / 2) by lra. rewrite Rpower_plus, Rpower_1, Rpower_sqrt by exact H. reflexivity. Qed.
Lemma Rpower_52 x : 0 < x -> Rpower x (5 / 2) = x * x * sqrt x.
Proof. intros H. replace (5 / 2) with (1 + (1 + / 2)) by lra. rewrite !Rpower_plus, Rpower_1, Rpower_sqrt by exact H. ring. Qed.
Lemma Rpower_sq x : 0 < x -> Rpower x 2 = x ^ 2.
Proof. intros H. rewrite <- Rpower_pow by exact H. f_equal. Qed.

(* Shape factor one gives the Maxwellian (the gamma function at 3/2 and 5/2 is given). *)
Theorem C72_maxwell : forall gamma Te e, gamma (3 / 2) = sqrt PI / 2 -> gamma (5 / 2) = 3 * sqrt PI / 4 ->
  0 < Te -> 0 <= e ->
  iso_value gamma 1 (3 / 2 * volts Te) e = maxwellian (volts Te) e.
Proof.
  intros gamma Te e G1 G2 HT He.
  assert (Ht : 0 < volts Te).
  { unfold volts, Rdiv. pose proof k_pos. pose proof q_pos. apply Rmult_lt_0_compat; [|now apply Rinv_0_lt_compat]. now apply Rmult_lt_0_compat. }
  set (t := volts Te) in *. clearbody t. unfold iso_value, iso_c1, iso_c2, maxwellian.
  rewrite !Rmult_1_r, G1, G2. pose proof (sqrt_lt_R0 PI PI_RGT_0) as HP.
  set (g := sqrt PI / 2). assert (Hg : 0 < g) by (unfold g; lra).
  replace (3 * sqrt PI / 4) with (3 / 2 * g) by (unfold g; field).
  rewrite !Rpower_32 by lra. rewrite Rpower_52 by lra. rewrite Rpower_1.
  2:{ unfold Rdiv. apply Rmult_lt_0_compat; [lra|]. now apply Rinv_0_lt_compat. }
  rewrite !sqrt_mult by lra.
  assert (E : pw (e / (3 / 2 * t)) 1 = e / (3 / 2 * t)).
  { unfold pw. destruct (reqb (e / (3 / 2 * t)) 0) eqn:B.
    - apply reqb_true in B. now symmetry.
    - apply reqb_false in B. apply Rpower_1.
      assert (0 <= e / (3 / 2 * t)) by (apply Rmult_le_pos; [exact He|left; apply Rinv_0_lt_compat; lra]). lra. }
  rewrite E. assert (0 < sqrt (3 / 2)) by (apply sqrt_lt_R0; lra).
  assert (0 < sqrt g) by (now apply sqrt_lt_R0). assert (0 < sqrt t) by (now apply sqrt_lt_R0).
  replace (- (1 * (3 / 2 * g / g)) * (e / (3 / 2 * t))) with (- e / t) by (field; lra).
  apply f_equal2; [|reflexivity]. unfold g in *. field. lra.
Qed.
Print Assumptions C72_maxwell.

(* Shape factor two, the default, does not: the total probability stays below three quarters however far the
   energies reach, although it is documented to be one (the gamma function at 3 and 5 is given). *)
Theorem C72_druyvesteyn_refuted : forall gamma em b, gamma 3 = 2 -> gamma 5 = 24 -> 0 < em -> 0 < b ->
  exists I, is_RInt (fun e => sqrt e * iso_value gamma 2 em e) 0 b I /\ I <= 3 / 4.
Proof.
  intros gamma em b G3 G5 Hem Hb.
  set (C := iso_c1 gamma 2).
  assert (S12 : sqrt 12 <= 3.4642).
  { rewrite <- (sqrt_Rsqr 3.4642) by lra. apply sqrt_le_1_alt. unfold Rsqr. lra. }
  assert (EC : C = 12 * sqrt 12).
  { unfold C, iso_c1. replace (5 / 2 * 2) with 5 by lra. replace (3 / 2 * 2) with 3 by lra. rewrite G3, G5.
    rewrite Rpower_32, Rpower_52 by lra. replace 24 with (2 * 12) at 2 by lra. rewrite sqrt_mult by lra.
    pose proof (sqrt_lt_R0 2 ltac:(lra)). field. lra. }
  assert (HC : 0 < C) by (rewrite EC; pose proof (sqrt_lt_R0 12 ltac:(lra)); lra).
  assert (E2 : iso_c2 gamma 2 = 288).
  { unfold iso_c2. replace (5 / 2 * 2) with 5 by lra. replace (3 / 2 * 2) with 3 by lra. rewrite G3, G5.
    rewrite Rpower_sq by lra. lra. }
  set (r := sqrt em). assert (Hr : 0 < r) by (now apply sqrt_lt_R0).
  assert (Er : r * r = em) by (apply sqrt_sqrt; lra).
  set (h := fun e => sqrt e * (C / (em * r) * exp (- 288 * (e / em) ^ 2))).
  assert (Eh : forall e, 0 < e -> sqrt e * iso_value gamma 2 em e = h e).
  { intros e He. unfold iso_value, h. fold C. rewrite E2, Rpower_32 by exact Hem. fold r.
    assert (0 < e / em) by (apply Rmult_lt_0_compat; [exact He|now apply Rinv_0_lt_compat]).
    unfold pw. rewrite (proj2 (reqb_false _ 0)) by lra.
    rewrite Rpower_sq by assumption. reflexivity. }
  assert (X : ex_RInt h 0 b).
  { apply (ex_RInt_continuous (V := R_CompleteNormedModule)). intros z Hz. rewrite Rmin_left, Rmax_right in Hz by lra.
    unfold h. apply (continuous_mult sqrt (fun e => C / (em * r) * exp (- 288 * (e / em) ^ 2))).
    - apply continuity_pt_filterlim, continuity_pt_sqrt. lra.
    - apply (ex_derive_continuous (V := R_NormedModule)). auto_derive. exact I. }
  destruct X as [J HJ]. exists J. split.
  { apply (is_RInt_ext h); [|exact HJ]. intros e He. rewrite Rmin_left, Rmax_right in He by lra. symmetry. apply Eh. lra. }
  set (A := fun e => C * (5 / 1152 * (1 - exp (- 288 * (e / em) ^ 2)) + atan (16 * e / em) / 160)).
  set (g := fun e => C * (5 / 2 * e / (em * em) * exp (- 288 * (e / em) ^ 2) + / (10 * em) / (1 + (16 * e / em) ^ 2))).
  assert (HI : is_RInt g 0 b (minus (A b) (A 0))).
  { apply (is_RInt_derive (V := R_CompleteNormedModule) A g).
    - intros t _. unfold A, g.
      assert (0 < 1 + (16 * t / em) ^ 2) by (pose proof (pow2_ge_0 (16 * t / em)); lra).
      auto_derive; [exact I|].
      replace (-288 * (t * / em * (t * / em * 1))) with (- 288 * (t / em) ^ 2) by (unfold Rdiv; ring).
      field_simplify_eq; [ring|].
      repeat split; try lra; intros Z; try (assert (0 < em * em) by nra); nra.
    - intros t _. unfold g.
      assert (0 < 1 + (16 * t / em) ^ 2) by (pose proof (pow2_ge_0 (16 * t / em)); lra).
      apply (ex_derive_continuous (V := R_NormedModule)). auto_derive.
      replace (16 * t * / em * (16 * t * / em * 1)) with ((16 * t / em) ^ 2) by (unfold Rdiv; ring). lra. }
  assert (LE : J <= minus (A b) (A 0)).
  { apply (is_RInt_le h g 0 b); [lra|exact HJ|exact HI|]. intros e He. unfold h, g.
    set (u := (e / em) ^ 2). assert (Hu : 0 <= u) by apply pow2_ge_0.
    replace ((16 * e / em) ^ 2) with (256 * u) by (unfold u, Rdiv; ring).
    assert (X1 : exp (- 288 * u) <= / (1 + 256 * u)).
    { replace (- 288 * u) with (- (288 * u)) by ring. rewrite exp_Ropp. apply Rinv_le_contravar; [lra|].
      pose proof (exp_ineq1_le (288 * u)). lra. }
    assert (X2 : sqrt e <= 5 / 2 * e / r + r / 10).
    { pose proof (sqrt_pos e). assert (Es : sqrt e * sqrt e = e) by (apply sqrt_sqrt; lra).
      assert (0 <= (5 * sqrt e - r) ^ 2 / (10 * r)).
      { apply Rmult_le_pos; [apply pow2_ge_0|left; apply Rinv_0_lt_compat; lra]. }
      replace (5 / 2 * e / r + r / 10) with (sqrt e + (5 * sqrt e - r) ^ 2 / (10 * r)); [lra|].
      rewrite <- Es at 3. field. lra. }
    pose proof (exp_pos (- 288 * u)) as Pe. set (x := exp (- 288 * u)) in *. set (w := / (1 + 256 * u)) in *.
    assert (Pk : 0 < C / (em * r)) by (apply Rmult_lt_0_compat; [exact HC|apply Rinv_0_lt_compat; nra]).
    apply Rle_trans with ((5 / 2 * e / r + r / 10) * (C / (em * r) * x)).
    { apply Rmult_le_compat_r; [|exact X2]. left. now apply Rmult_lt_0_compat. }
    replace ((5 / 2 * e / r + r / 10) * (C / (em * r) * x)) with (C * (5 / 2 * e / (em * em) * x + / (10 * em) * x)).
    2:{ rewrite <- Er. field. lra. }
    apply Rmult_le_compat_l; [lra|]. apply Rplus_le_compat_l. unfold Rdiv. fold w.
    apply Rmult_le_compat_l; [left; apply Rinv_0_lt_compat; lra|exact X1]. }
  assert (A0 : A 0 = 0).
  { unfold A. replace (16 * 0 / em) with 0 by (field; lra). rewrite atan_0.
    replace (- 288 * (0 / em) ^ 2) with 0 by (field; lra). rewrite exp_0. field. }
  assert (AB : A b <= 3 / 4).
  { unfold A. pose proof (exp_pos (- 288 * (b / em) ^ 2)). pose proof (atan_bound (16 * b / em)) as [_ B]. pose proof PI_4 as P4.
    set (y := 5 / 1152 * (1 - exp (- 288 * (b / em) ^ 2)) + atan (16 * b / em) / 160).
    assert (Y : y <= 5 / 1152 + 2 / 160) by (unfold y; lra).
    apply Rle_trans with (C * (5 / 1152 + 2 / 160)); [apply Rmult_le_compat_l; lra|]. rewrite EC. lra. }
  unfold minus, plus, opp in LE. cbn in LE. lra.
Qed.
Print Assumptions C72_druyvesteyn_refuted.
Example C72_maxwell_ex : exists gamma : R -> R, gamma (3 / 2) = sqrt PI / 2 /\ gamma (5 / 2) = 3 * sqrt PI / 4 /\ gamma 3 = 2 /\ gamma 5 = 24.
Proof.
  exists (fun x => if reqb x (3 / 2) then sqrt PI / 2 else if reqb x (5 / 2) then 3 * sqrt PI / 4 else if reqb x 3 then 2 else 24).
  repeat split;
  repeat (first [rewrite (proj2 (reqb_true _ _)) by lra; reflexivity | rewrite (proj2 (reqb_false _ _)) by lra]); reflexivity.
Qed.

(** ** Histories *)

Definition valid (s : plasma) : Prop :=
  grid (p_levels s) /\ length (p_dist s) = length (p_levels s) /\ (forall v, In v (p_dist s) -> 0 <= v) /\
  slopes (p_levels s) (p_dist s) (p_diff s) /\
  (p_type s = "isotropic"%string \/ p_type s = "discretized"%string).

Lemma diff_slopes l f : grid l -> length f = length l ->
  slopes l f (map (diff_at l f (length l)) (seq 0 (length l))).
Proof.
  intros (G2 & _ & G) L.
  assert (N : forall i, (i < length l)%nat -> nth i (map (diff_at l f (length l)) (seq 0 (length l))) 0 = diff_at l f (length l) i).
  { intros i Hi. rewrite (nth_indep _ 0 (diff_at l f (length l) 0)) by (now rewrite map_length, seq_length).
    rewrite map_nth, seq_nth by exact Hi. reflexivity. }
  split; [now rewrite map_length, seq_length|]. split; [|split].
  - intros a b H0 H1. rewrite N by lia. cbn [diff_at]. rewrite H0, H1. specialize (G 0%nat ltac:(lia)). field. lra.
  - intros a b i Hi H0 H1. rewrite N by lia. cbn [diff_at]. rewrite (proj2 (Nat.eqb_eq _ _) Hi), H0, H1.
    specialize (G i ltac:(lia)). field. lra.
  - intros a b c i Hi H. rewrite N by lia. cbn [diff_at].
    destruct (Nat.eqb_spec (S (S i)) (length l)) as [E|E]; [lia|].
    rewrite (H i), (H (S i)), (H (S (S i))) by lia.
    pose proof (G i ltac:(lia)) as K1. pose proof (G (S i) ltac:(lia)) as K2. field. lra.
Qed.

Lemma update_dist_done gamma s s' : update_dist gamma s = (s', Done) -> p_type s = "isotropic"%string \/ p_type s = "discretized"%string ->
  0 <= nth 0 (p_levels s) 0 -> increasing (p_levels s) -> valid s'.
Proof.
  intros H [T|T] H0 I; unfold update_dist in H; rewrite T in H; cbn [String.eqb Ascii.eqb Bool.eqb] in H; [|discriminate].
  destruct (set_isotropic gamma s) as [s1 e1] eqn:E1. destruct e1; try discriminate. cbn [andthen fst snd] in H.
  unfold set_isotropic in E1. destruct (rltb 0 (p_Te s) && rltb 0 (p_shape s)); [|discriminate].
  apply check_dist_inv in E1. destruct E1 as [E1 P].
  unfold update_diff in H. assert (EL : p_levels s1 = p_levels s) by (now subst s1).
  destruct (Nat.ltb_spec (length (p_levels s1)) 2) as [B|B]; [discriminate|]. cbn [andthen fst snd] in H.
  injection H as H. subst s'. rewrite EL in B.
  assert (G : grid (p_levels s)) by (repeat split; assumption).
  assert (LD : length (p_dist s1) = length (p_levels s)) by (subst s1; cbn [p_dist put_dist]; apply map_length).
  unfold valid. cbn [p_levels p_dist p_diff p_type dist_changed put_diff]. rewrite EL.
  split; [exact G|]. split; [exact LD|]. split; [subst s1; exact P|]. split; [now apply diff_slopes|left; now subst s1].
Qed.

Lemma set_dist_done gamma l f s s' : length f = length l -> setDiscretizedElectronEnergyDist gamma l f s = (s', Done) ->
  valid s' /\ p_type s' = "discretized"%string /\ p_levels s' = l /\
  exists c, 0 < c /\ p_dist s' = map (Rmult c) f /\ (p_norm s = false -> c = 1) /\
    (p_norm s = true -> numericalQuadrature (p_quad s) (p_dist s') (map (fun e => pw e (3 / 2)) l) = Ok (3 / 2)).
Proof.
  intros L H. unfold setDiscretizedElectronEnergyDist, set_levels in H.
  destruct (check_levels (put_levels l (set_type "discretized" s))) as [s1 e1] eqn:E1. destruct e1; try discriminate.
  apply check_levels_inv in E1. destruct E1 as (E1 & _ & H0 & I). cbn [andthen fst snd] in H.
  destruct (check_levels (put_dist f (level_changed s1))) as [s2 e2] eqn:E2. destruct e2; try discriminate.
  apply check_levels_inv in E2. destruct E2 as (E2 & _). cbn [andthen fst snd] in H.
  cbn [p_levels put_levels set_type] in H0, I.
  assert (L2 : p_levels s2 = l /\ p_dist s2 = f /\ p_type s2 = "discretized"%string /\ p_norm s2 = p_norm s /\ p_quad s2 = p_quad s)
    by (subst s2 s1; repeat split).
  destruct L2 as (L2 & D2 & T2 & N2 & Q2). clear E1 E2.
  destruct (if p_norm s2 then normalize s2 else (s2, Done)) as [s3 e3] eqn:E3. destruct e3; try discriminate.
  cbn [andthen fst snd] in H.
  assert (K : p_levels s3 = l /\ p_type s3 = "discretized"%string /\
    exists c, 0 < c /\ p_dist s3 = map (Rmult c) f /\ (p_norm s = false -> c = 1) /\
    (p_norm s = true -> numericalQuadrature (p_quad s) (p_dist s3) (map (fun e => pw e (3 / 2)) l) = Ok (3 / 2))).
  { rewrite N2 in E3. destruct (p_norm s).
    - unfold normalize, quad in E3. rewrite D2, L2, Q2 in E3.
      destruct (numericalQuadrature (p_quad s) f _) as [q| | |] eqn:EQ; try discriminate.
      destruct (rltb (2 / 3 * q) 0) eqn:A; [discriminate|]. destruct (reqb (2 / 3 * q) 0) eqn:B; [discriminate|].
      apply rltb_false in A. apply reqb_false in B. injection E3 as E3. subst s3. cbn [p_levels p_type p_dist put_dist].
      split; [exact L2|]. split; [exact T2|]. exists (/ (2 / 3 * q)). rewrite map_div.
      split; [apply Rinv_0_lt_compat; lra|]. split; [reflexivity|]. split; [discriminate|]. intros _.
      rewrite quadrature_scal, EQ. cbn [omap obind]. f_equal. field. lra.
    - injection E3 as E3. subst s3. split; [exact L2|]. split; [exact T2|]. exists 1. split; [lra|]. split; [|split; [reflexivity|discriminate]].
      rewrite D2. rewrite (map_ext _ (fun v => v)) by (intros v; ring). now rewrite map_id. }
  destruct K as (L3 & T3 & c & Pc & D3 & K). clear E3.
  destruct (check_dist s3) as [s4 e4] eqn:E4. destruct e4; try discriminate. cbn [andthen fst snd] in H.
  apply check_dist_inv in E4. destruct E4 as (E4 & P4). subst s4.
  unfold update_diff in H. rewrite L3 in H. destruct (Nat.ltb_spec (length l) 2) as [B|B]; [discriminate|]. cbn [andthen fst snd] in H.
  destruct (temperature_from _) as [s5 e5] eqn:E5. destruct e5; try discriminate. cbn [andthen fst snd] in H. injection H as H.
  assert (E : exists T, s5 = put_Te T (put_diff (map (diff_at l (p_dist s3) (length l)) (seq 0 (length l))) s3)).
  { unfold temperature_from in E5. destruct (quad _ _ _) as [q| | |]; try discriminate.
    match type of E5 with context [match (if ?b then ?x else ?y) with Ok _ => _ | _ => _ end] =>
      destruct (if b then x else y) as [em| | |]; try discriminate end.
    destruct (rltb em 0); [discriminate|]. injection E5 as E5. eexists. symmetry. exact E5. }
  destruct E as [T E]. subst s5 s'. cbn [p_type p_levels p_dist dist_changed level_changed put_Te put_diff].
  assert (G : grid l) by (repeat split; assumption).
  split; [|split; [exact T3|split; [exact L3|exists c; repeat split; try assumption; apply K]]].
  unfold valid. cbn [p_type p_levels p_dist p_diff dist_changed level_changed put_Te put_diff]. rewrite L3.
  assert (LD : length (p_dist s3) = length l) by (now rewrite D3, map_length).
  split; [exact G|]. split; [exact LD|]. split; [exact P4|]. split; [now apply diff_slopes|now right].
Qed.

Lemma step_valid gamma o s s' : valid s -> step gamma o s = (s', Done) -> valid s'.
Proof.
  intros V H. pose proof V as ((G2 & G0 & G) & LD & P & SL & T).
  destruct o; cbn [step] in H.
  - apply (update_dist_done _ _ _ H T G0 G).
  - apply (update_dist_done _ _ _ H T G0 G).
  - apply (update_dist_done _ _ _ H T G0 G).
  - unfold setElectronEnergyLevels, set_levels in H. destruct (check_levels _) as [s1 e1] eqn:E1. destruct e1; try discriminate.
    apply check_levels_inv in E1. destruct E1 as (-> & _ & A & B). cbn [andthen fst snd] in H.
    apply (update_dist_done _ _ _ H T A B).
  - apply set_dist_done in H; [apply H|now rewrite !map_length].
  - unfold setElectronEnergyDistributionType in H.
    destruct (String.eqb_spec t "discretized") as [E|E]; [|destruct (String.eqb_spec t "isotropic") as [F|F]; [|discriminate]];
    cbn [orb] in H; injection H as H; subst s'; unfold valid; cbn; repeat split; auto; try apply SL; now (left + right).
  - injection H as H. subst s'. exact V.
  - injection H as H. subst s'. exact V.
Qed.
(* Whatever calls are made, as long as none is refused, the phase holds an increasing grid, a distribution of
   the same length that is nowhere negative, and its slopes. *)
Theorem C72_history : forall gamma os s s', valid s -> run gamma os s = (s', Done) -> valid s'.
Proof.
  intros gamma os. induction os as [|o os IH]; intros s s' V H; cbn [run] in H; [injection H as H; now subst|].
  destruct (step gamma o s) as [s1 e] eqn:E. destruct e; try discriminate. cbn [andthen fst snd] in H.
  apply (IH s1 s' (step_valid _ _ _ _ V E) H).
Qed.
Print Assumptions C72_history.

(* Any distribution that is accepted, with either rule: the grid and the values are good, the stored values are
   the given ones up to a positive factor, and with normalisation their total probability is one by that rule. *)
Theorem C72_accepted : forall gamma l f s s', length f = length l ->
  setDiscretizedElectronEnergyDist gamma l f s = (s', Done) ->
  valid s' /\ p_type s' = "discretized"%string /\ p_levels s' = l /\ (forall v, In v f -> 0 <= v) /\
  exists c, 0 < c /\ p_dist s' = map (Rmult c) f /\ (p_norm s = false -> p_dist s' = f) /\
    (p_norm s = true -> exists q, numericalQuadrature (p_quad s) (p_dist s') (map (fun e => power e (3 / 2)) l) = Ok q /\ 2 / 3 * q = 1).
Proof.
  intros gamma l f s s' L H. destruct (set_dist_done gamma l f s s' L H) as (V & T & E & c & Pc & D & C1 & Q).
  split; [exact V|]. split; [exact T|]. split; [exact E|]. split.
  - intros v Hv. destruct V as (_ & _ & P & _). specialize (P (c * v)). rewrite D in P.
    specialize (P (in_map (Rmult c) f v Hv)). destruct (Rlt_dec v 0) as [N|N]; [|lra]. nra.
  - exists c. repeat split; try assumption.
    + intros N. rewrite D, (C1 N). rewrite (map_ext _ (fun v => v)) by (intros v; ring). apply map_id.
    + intros N. exists (3 / 2). split; [|lra]. rewrite <- (Q N). f_equal. apply map_ext. intros e. symmetry. apply pw_power.
Qed.
Print Assumptions C72_accepted.

Example C72_history_ex : valid p0 /\
  exists s', run (fun _ => 1) [OTe 3; ODist [(0, 1); (1, 1 / 2); (4, 0)]; OType "isotropic"; OMean 2] p0 = (s', Done).
Proof.
  destruct C72_temperature_ex as (A & B & C). split.
  - split; [exact C|]. split; [reflexivity|]. split; [cbn; intros v H; intuition lra|]. split; [|now left].
    split; [reflexivity|]. cbn. split; [|split].
    + intros a b H1 H2. lra.
    + intros a b i H. assert (i = 0)%nat by lia. subst i. cbn. intros H1 H2. lra.
    + intros a b c i H. lia.
  - cbn [run step map fst snd].
    destruct (proj1 (C72_temperature (fun _ => 1) p0 3 A ltac:(lra) B C)) as (s1 & -> & _ & _ & _ & Sh & _ & _ & Q & N & _).
    cbn [andthen fst snd].
    destruct C72_trapezoidal_ex as (A1 & B1 & C1 & D1 & E1). rewrite A1 in N. rewrite B1 in Q.
    destruct (C72_trapezoidal (fun _ => 1) [0; 1; 4] [1; 1 / 2; 0] s1 N Q C1 eq_refl D1 E1)
      as (s2 & c & -> & _ & L2 & _ & _ & _ & _ & _ & _ & Sh2 & _).
    cbn [andthen fst snd setElectronEnergyDistributionType String.eqb Ascii.eqb Bool.eqb orb].
    destruct (proj2 (C72_temperature (fun _ => 1) (set_type "isotropic" s2) 2 eq_refl ltac:(lra)
      ltac:(cbn [p_shape set_type]; rewrite Sh2, Sh; exact B) ltac:(cbn [p_levels set_type]; rewrite L2; exact C1))) as (s3 & -> & _).
    now exists s3.
Qed.

(** ** Refused calls *)

(* A refused call changes the phase.  Setting a temperature, a mean energy or a shape factor while the
   distribution is a given one is refused, but the new value stays. *)
Theorem C72_refused_refuted : forall gamma s v, p_type s = "discretized"%string ->
  (let r := setElectronTemperature gamma v s in snd r = Throws /\ p_Te (fst r) = v /\ p_dist (fst r) = p_dist s) /\
  (let r := setMeanElectronEnergy gamma v s in snd r = Throws /\ mean_energy (fst r) = v /\ p_dist (fst r) = p_dist s) /\
  (let r := setIsotropicShapeFactor gamma v s in snd r = Throws /\ p_shape (fst r) = v).
Proof.
  intros gamma s v T. unfold setElectronTemperature, setMeanElectronEnergy, setIsotropicShapeFactor, update_dist.
  cbn [p_type put_Te put_shape]. rewrite T. cbn [String.eqb Ascii.eqb Bool.eqb fst snd]. repeat split. now apply mean_of_Te.
Qed.
Print Assumptions C72_refused_refuted.

(* A bad grid is refused, but it stays, and with a distribution the phase also changes its type while it keeps
   its old values. *)
Theorem C72_grid_refuted : forall gamma l f s, l <> [] -> (nth 0 l 0 < 0 \/ ~ increasing l) ->
  (let r := setElectronEnergyLevels gamma l s in snd r = Throws /\ p_levels (fst r) = l /\ p_dist (fst r) = p_dist s) /\
  (let r := setDiscretizedElectronEnergyDist gamma l f s in
   snd r = Throws /\ p_levels (fst r) = l /\ p_type (fst r) = "discretized"%string /\ p_dist (fst r) = p_dist s /\ p_Te (fst r) = p_Te s).
Proof.
  intros gamma l f s Hl Hb.
  assert (K : forall s1, p_levels s1 = l -> check_levels s1 = (s1, Throws)).
  { intros s1 E. unfold check_levels. rewrite E. destruct l as [|e l]; [contradiction|]. cbn [nth] in Hb.
    destruct (rltb e 0) eqn:A; [reflexivity|]. apply rltb_false in A. destruct Hb as [Hb|Hb]; [lra|].
    destruct (any_nonpos (diffs (e :: l))) eqn:B; [reflexivity|]. exfalso. apply Hb. now apply any_nonpos_false. }
  unfold setElectronEnergyLevels, setDiscretizedElectronEnergyDist, set_levels. rewrite !K by reflexivity. repeat split.
Qed.
Print Assumptions C72_grid_refuted.
Example C72_grid_ex : [2; 1] <> [] /\ ~ increasing [2; 1].
Proof. split; [discriminate|]. intros H. specialize (H 0%nat ltac:(cbn; lia)). cbn in H. lra. Qed.

(* Changing the type to isotropic is accepted but leaves the given distribution in place. *)
Theorem C72_type_refuted : forall gamma, exists s, run gamma [ODist [(0, 1); (1, 1 / 2); (4, 0)]; OType "isotropic"] p0 = (s, Done) /\
  p_type s = "isotropic"%string /\ p_dist s <> map (iso_value gamma (p_shape s) (mean_energy s)) (p_levels s).
Proof.
  intros gamma. destruct C72_trapezoidal_ex as (A & B & C & D & E).
  destruct (C72_trapezoidal gamma [0; 1; 4] [1; 1 / 2; 0] p0 A B C eq_refl D E) as (s1 & c & H & _ & L & _ & F & _ & _ & _ & _ & Sh0 & _).
  exists (set_type "isotropic" s1). cbn [run step map fst snd]. rewrite H. cbn [andthen fst snd]. split; [reflexivity|]. split; [reflexivity|].
  cbn [p_dist p_shape p_levels set_type]. rewrite F, L. cbn [map]. intros X.
  assert (Sh : 0 < p_shape s1) by (rewrite Sh0; cbn; lra).
  injection X as _ _ X. rewrite Rmult_0_r in X.
  pose proof (iso_pos gamma (p_shape s1) (mean_energy (set_type "isotropic" s1)) 4 Sh). lra.
Qed.
Print Assumptions C72_type_refuted.
