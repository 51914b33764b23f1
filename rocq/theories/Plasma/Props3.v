(** C72, continued: which distributions are accepted, the temperature by either rule, and the settings. *)
From Coq Require Import Reals String List Bool Lra Lia.
From Verif Require Import Base.Outcome Base.Fp Base.RSum Units.Model Numerics.Model Numerics.Spec Numerics.FuncsProofs Plasma.Model Plasma.Spec Plasma.Props Plasma.Props2.
Import ListNotations.
Open Scope R_scope.

Definition known (m : string) : Prop := m = "simpson"%string \/ m = "trapezoidal"%string.

Lemma basicSimpson_ok f x : (2 <= length f)%nat -> Nat.even (length f) = false -> exists q, basicSimpson f x = Ok q.
Proof.
  intros H O. unfold basicSimpson. destruct (Nat.ltb_spec (length f) 2) as [B|B]; [lia|]. rewrite O. eexists. reflexivity.
Qed.
Lemma quad_ok m l f p : known m -> grid l -> length f = length l -> 0 < p ->
  exists q, numericalQuadrature m f (map (fun e => pw e p) l) = Ok q.
Proof.
  intros [->| ->] G L Hp; [|eexists; now apply trapezoids_quad].
  unfold numericalQuadrature. cbn [String.eqb Ascii.eqb Bool.eqb]. unfold simpson.
  rewrite (proj2 (any_nonpos_false _) (grid_pw l p G Hp)). rewrite map_length, <- L, Nat.eqb_refl. cbn [negb].
  destruct G as [G2 _]. destruct (map _ l) as [|x0 xs] eqn:E; [destruct l; [cbn in G2; lia|discriminate]|].
  destruct (Nat.odd (length f)) eqn:O.
  - apply basicSimpson_ok; [lia|]. unfold Nat.odd in O. destruct (Nat.even (length f)); [discriminate|reflexivity].
  - destruct (Nat.eqb_spec (length f) 2) as [E2|E2]; [eexists; reflexivity|].
    assert (LN : length (firstn (length f - 1) f) = (length f - 1)%nat) by (apply firstn_length_le; lia).
    destruct (basicSimpson_ok (firstn (length f - 1) f) (firstn (length f - 1) (x0 :: xs))) as [q ->].
    + rewrite LN. lia.
    + rewrite LN. unfold Nat.odd in O. apply negb_false_iff in O. destruct (length f) as [|n] eqn:Lf; [lia|].
      cbn [Nat.sub]. rewrite Nat.sub_0_r. rewrite Nat.even_succ in O. unfold Nat.odd in O. now apply negb_true_iff in O.
    + cbn [obind]. eexists. reflexivity.
Qed.

(* The mean energy that is read back after a distribution was accepted is that of the stored distribution by the
   chosen rule, unless Simpson's rule makes it negative: then it is the one by the trapezoidal rule. *)
Theorem C72_mean : forall gamma l f s s', length f = length l ->
  setDiscretizedElectronEnergyDist gamma l f s = (s', Done) ->
  exists e, numericalQuadrature (p_quad s) (p_dist s') (map (fun e => power e (5 / 2)) l) = Ok e /\
    (0 <= e -> mean_energy s' = 2 / 5 * e) /\
    (e < 0 -> p_quad s = "simpson"%string /\ mean_energy s' = 2 / 5 * trapezoids (5 / 2) l (p_dist s')) /\
    0 <= mean_energy s' /\ 3 / 2 * volts (p_Te s') = mean_energy s'.
Proof.
  intros gamma l f s s' L H. pose proof (set_dist_done gamma l f s s' L H) as (V & _ & EL & _).
  destruct V as (G & LD & _). rewrite EL in G, LD.
  assert (K : exists s4, temperature_from s4 = (fst (temperature_from s4), Done) /\ p_quad s4 = p_quad s /\ p_levels s4 = p_levels s' /\
            p_dist s4 = p_dist s' /\ p_Te (fst (temperature_from s4)) = p_Te s').
  { unfold setDiscretizedElectronEnergyDist, set_levels in H.
    destruct (check_levels (put_levels l (set_type "discretized" s))) as [s1 e1] eqn:E1. destruct e1; try discriminate.
    apply check_levels_inv in E1. destruct E1 as (E1 & _). cbn [andthen fst snd] in H.
    destruct (check_levels (put_dist f (level_changed s1))) as [s2 e2] eqn:E2. destruct e2; try discriminate.
    apply check_levels_inv in E2. destruct E2 as (E2 & _). cbn [andthen fst snd] in H.
    assert (Q2 : p_quad s2 = p_quad s) by (now subst s2 s1).
    destruct (if p_norm s2 then normalize s2 else (s2, Done)) as [s3 e3] eqn:E3. destruct e3; try discriminate.
    assert (Q3 : p_quad s3 = p_quad s).
    { destruct (p_norm s2); [|injection E3 as E3; now subst s3]. unfold normalize in E3.
      destruct (quad _ _ _) as [q| | |]; try discriminate.
      destruct (rltb (2 / 3 * q) 0); [discriminate|]. destruct (reqb (2 / 3 * q) 0); [discriminate|].
      injection E3 as E3. now subst s3. }
    cbn [andthen fst snd] in H.
    destruct (check_dist s3) as [s4 e4] eqn:E4. destruct e4; try discriminate. cbn [andthen fst snd] in H.
    apply check_dist_inv in E4. destruct E4 as (E4 & _). subst s4.
    unfold update_diff in H. destruct (Nat.ltb (length (p_levels s3)) 2); [discriminate|]. cbn [andthen fst snd] in H.
    match type of H with context [temperature_from ?x] => exists x; set (y := x) in * end.
    destruct (temperature_from y) as [s5 e5] eqn:E5. destruct e5; try discriminate. cbn [andthen fst snd] in H. injection H as H.
    assert (X : exists T, s5 = put_Te T y).
    { unfold temperature_from in E5. destruct (quad _ _ _) as [q| | |]; try discriminate.
      match type of E5 with context [match (if ?b then ?x else ?z) with Ok _ => _ | _ => _ end] =>
        destruct (if b then x else z) as [em| | |]; try discriminate end.
      destruct (rltb em 0); [discriminate|]. injection E5 as E5. eexists. symmetry. exact E5. }
    destruct X as [T X]. subst s5 s'. repeat split. exact Q3. }
  destruct K as (s4 & E & Q4 & L4 & D4 & T4). unfold temperature_from in E, T4.
  unfold quad at 1 in E. unfold quad at 1 in T4. rewrite Q4, L4, D4, EL in E, T4.
  rewrite (map_ext (fun e => power e (5 / 2)) (fun e => pw e (5 / 2))) by (intros e; symmetry; apply pw_power).
  destruct (numericalQuadrature (p_quad s) _ _) as [e| | |] eqn:EQ; try discriminate. exists e. split; [reflexivity|].
  pose proof k_pos as Kp. pose proof q_pos as Qp.
  assert (VM : 3 / 2 * volts (p_Te s') = mean_energy s') by (unfold volts, mean_energy; field; lra).
  destruct (Rlt_dec e 0) as [N|N].
  - rewrite (proj2 (rltb_true _ 0)) in E, T4 by lra. cbn [andb] in E, T4.
    destruct (String.eqb_spec (p_quad s) "simpson") as [S|S].
    + unfold quad in E, T4. rewrite L4, D4, EL in E, T4. rewrite trapezoids_quad in E, T4 by (try assumption; lra).
      cbn [omap obind] in E, T4. destruct (rltb (2 / 5 * trapezoids (5 / 2) l (p_dist s')) 0) eqn:B; [discriminate|].
      apply rltb_false in B. cbn [fst p_Te put_Te] in T4. symmetry in T4. apply mean_of_Te in T4.
      split; [lra|]. split; [intros _; now split|]. split; [lra|exact VM].
    + rewrite (proj2 (rltb_true _ 0)) in E by lra. discriminate.
  - rewrite (proj2 (rltb_false (2 / 5 * e) 0)) in E, T4 by lra. cbn [andb] in E, T4.
    rewrite (proj2 (rltb_false (2 / 5 * e) 0)) in E, T4 by lra.
    cbn [fst p_Te put_Te] in T4. symmetry in T4. apply mean_of_Te in T4.
    split; [intros _; exact T4|]. split; [lra|]. split; [lra|exact VM].
Qed.
Print Assumptions C72_mean.

(* Exactly which distributions are accepted when they are normalised: a good grid, no negative value, and a
   positive norm by the chosen rule; without normalisation the norm does not matter. *)
Theorem C72_accepts : forall gamma l f s, known (p_quad s) -> length f = length l ->
  (snd (setDiscretizedElectronEnergyDist gamma l f s) = Done <->
   grid l /\ (forall v, In v f -> 0 <= v) /\
   (p_norm s = true -> exists q, numericalQuadrature (p_quad s) f (map (fun e => power e (3 / 2)) l) = Ok q /\ 0 < q)).
Proof.
  intros gamma l f s KQ L.
  rewrite (map_ext (fun e => power e (3 / 2)) (fun e => pw e (3 / 2))) by (intros e; symmetry; apply pw_power). split.
  - intros H. destruct (setDiscretizedElectronEnergyDist gamma l f s) as [s' e] eqn:E. cbn [snd] in H. subst e.
    destruct (C72_accepted gamma l f s s' L E) as ((G & _) & _ & EL & Hf & _). rewrite EL in G.
    split; [exact G|]. split; [exact Hf|]. intros N.
    destruct (set_dist_done gamma l f s s' L E) as (_ & _ & _ & c & Pc & D & _ & Q). specialize (Q N).
    destruct (quad_ok (p_quad s) l f (3 / 2) KQ G L ltac:(lra)) as [q Eq]. exists q. split; [exact Eq|].
    rewrite D, quadrature_scal, Eq in Q. cbn [omap obind] in Q. injection Q as Q.
    destruct (Rlt_dec 0 q) as [P|P]; [exact P|]. nra.
  - intros (G & Hf & HN). unfold setDiscretizedElectronEnergyDist, set_levels.
    rewrite check_levels_ok by exact G. cbn [andthen fst snd].
    rewrite check_levels_ok by exact G. cbn [andthen fst snd]. set (s1 := put_dist f _).
    assert (K : exists s2, (if p_norm s1 then normalize s1 else (s1, Done)) = (s2, Done) /\ p_levels s2 = l /\
              length (p_dist s2) = length l /\ (forall v, In v (p_dist s2) -> 0 <= v) /\ p_quad s2 = p_quad s).
    { change (p_norm s1) with (p_norm s). destruct (p_norm s).
      - destruct (HN eq_refl) as (q & Eq & Pq). unfold normalize, quad. change (p_quad s1) with (p_quad s).
        change (p_dist s1) with f. change (p_levels s1) with l. rewrite Eq.
        rewrite (proj2 (rltb_false _ 0)) by lra. rewrite (proj2 (reqb_false _ 0)) by lra.
        eexists. split; [reflexivity|]. split; [reflexivity|]. cbn [p_dist put_dist].
        split; [now rewrite map_length|]. split; [|reflexivity].
        intros v Hv. apply in_map_iff in Hv. destruct Hv as (w & <- & Hw). apply Rmult_le_pos; [now apply Hf|].
        left. apply Rinv_0_lt_compat. lra.
      - exists s1. repeat split; [exact L|exact Hf]. }
    destruct K as (s2 & -> & L2 & LD & P2 & Q2). cbn [andthen fst snd]. rewrite check_dist_ok by exact P2. cbn [andthen fst snd].
    unfold update_diff. rewrite L2. pose proof G as [G2 _]. destruct (Nat.ltb_spec (length l) 2) as [B|B]; [lia|]. cbn [andthen fst snd].
    set (s3 := put_diff _ s2). unfold temperature_from. unfold quad at 1. change (p_quad s3) with (p_quad s2).
    change (p_dist s3) with (p_dist s2). change (p_levels s3) with (p_levels s2). rewrite Q2, L2.
    destruct (quad_ok (p_quad s) l (p_dist s2) (5 / 2) KQ G LD ltac:(lra)) as [e Ee]. rewrite Ee.
    destruct (trapezoids_nonneg (5 / 2) l (p_dist s2) G LD ltac:(lra) P2) as [T0 _].
    destruct (rltb (2 / 5 * e) 0) eqn:B1.
    + destruct (String.eqb_spec (p_quad s) "simpson") as [S|S]; cbn [andb].
      * unfold quad. change (p_dist s3) with (p_dist s2). change (p_levels s3) with (p_levels s2). rewrite L2.
        rewrite trapezoids_quad by (try assumption; lra). cbn [omap obind].
        rewrite (proj2 (rltb_false _ 0)) by lra. reflexivity.
      * destruct KQ as [KQ|KQ]; [contradiction|]. rewrite KQ in Ee. rewrite trapezoids_quad in Ee by (try assumption; lra).
        injection Ee as Ee. apply rltb_true in B1. lra.
    + cbn [andb]. rewrite B1. reflexivity.
Qed.
Print Assumptions C72_accepts.
Example C72_accepts_ex : known (p_quad p0) /\ snd (setDiscretizedElectronEnergyDist (fun _ => 1) [0; 1; 4] [1; 1 / 2; 0] p0) = Done.
Proof.
  split; [now right|]. destruct C72_trapezoidal_ex as (A & B & C & D & E).
  destruct (C72_trapezoidal (fun _ => 1) [0; 1; 4] [1; 1 / 2; 0] p0 A B C eq_refl D E) as (s1 & c & -> & _). reflexivity.
Qed.

(* Settings read back and change nothing else; unknown types are refused; a new shape factor or a new grid gives
   the isotropic distribution for it at the same temperature. *)
Theorem C72_settings : forall gamma s,
  (forall m, exists s', setQuadratureMethod m s = (s', Done) /\ p_quad s' = m /\ p_norm s' = p_norm s /\
     p_dist s' = p_dist s /\ p_levels s' = p_levels s /\ p_Te s' = p_Te s /\ p_type s' = p_type s) /\
  (forall b, exists s', enableNormalize b s = (s', Done) /\ p_norm s' = b /\ p_quad s' = p_quad s /\
     p_dist s' = p_dist s /\ p_levels s' = p_levels s /\ p_Te s' = p_Te s /\ p_type s' = p_type s) /\
  (forall t, (t = "isotropic" \/ t = "discretized")%string -> exists s', setElectronEnergyDistributionType t s = (s', Done) /\
     p_type s' = t /\ p_dist s' = p_dist s /\ p_levels s' = p_levels s /\ p_Te s' = p_Te s) /\
  (forall t, t <> "isotropic"%string -> t <> "discretized"%string -> setElectronEnergyDistributionType t s = (s, Throws)) /\
  (p_type s = "isotropic"%string -> 0 < p_Te s ->
     (forall x, 0 < x -> grid (p_levels s) -> exists s', setIsotropicShapeFactor gamma x s = (s', Done) /\ p_shape s' = x /\
        p_Te s' = p_Te s /\ p_levels s' = p_levels s /\ p_dist s' = map (iso_value gamma x (3 / 2 * volts (p_Te s))) (p_levels s)) /\
     (forall l, 0 < p_shape s -> grid l -> exists s', setElectronEnergyLevels gamma l s = (s', Done) /\ p_levels s' = l /\
        p_Te s' = p_Te s /\ p_dist s' = map (iso_value gamma (p_shape s) (3 / 2 * volts (p_Te s))) l /\
        p_levelNum s' = S (p_levelNum s) /\ p_distNum s' = S (p_distNum s))).
Proof.
  intros gamma s. split; [|split; [|split; [|split]]].
  - intros m. eexists. split; [reflexivity|]. repeat split.
  - intros b. eexists. split; [reflexivity|]. repeat split.
  - intros t [->| ->]; eexists; (split; [reflexivity|]); repeat split.
  - intros t H1 H2. unfold setElectronEnergyDistributionType. destruct (String.eqb_spec t "discretized"); [contradiction|].
    destruct (String.eqb_spec t "isotropic"); [contradiction|]. reflexivity.
  - intros T HT. pose proof k_pos as Kp. pose proof q_pos as Qp.
    assert (M : mean_energy s = 3 / 2 * volts (p_Te s)) by (unfold mean_energy, volts; field; lra). split.
    + intros x Hx [G2 _]. destruct (update_iso gamma (put_shape x s) T HT Hx G2) as [d E].
      unfold setIsotropicShapeFactor. rewrite E. eexists. split; [reflexivity|].
      change (mean_energy (put_shape x s)) with (mean_energy s). rewrite M. repeat split.
    + intros l Hs G. unfold setElectronEnergyLevels, set_levels. rewrite check_levels_ok by exact G. cbn [andthen fst snd].
      destruct (update_iso gamma (level_changed (put_levels l s)) T HT Hs (proj1 G)) as [d E]. rewrite E.
      eexists. split; [reflexivity|]. change (mean_energy (level_changed (put_levels l s))) with (mean_energy s). rewrite M. repeat split.
Qed.
Print Assumptions C72_settings.
