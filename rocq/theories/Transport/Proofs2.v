(** Proofs: the computed values are those of the specification, and what follows from them. *)
From Coq Require Import Reals List Bool Arith Lia Lra.
From Verif Require Import Base.Fp Base.Outcome Base.RSum Base.Vec Transport.Model Transport.Spec Transport.Proofs.
Import ListNotations.
Open Scope R_scope.

Lemma seq_block n s : seq s n = map (fun i => (s + i)%nat) (seq 0 n).
Proof.
  induction n as [|n IH]; [reflexivity|]. rewrite !seq_S, map_app, <- IH. reflexivity.
Qed.
Lemma concat_index {A} (f : nat -> nat -> A) n m :
  flat_map (fun j => map (fun i => f i j) (seq 0 n)) (seq 0 m) = map (fun a => f (a mod n)%nat (a / n)%nat) (seq 0 (n * m)).
Proof.
  induction m as [|m IH]; [now rewrite Nat.mul_0_r|].
  rewrite seq_S, flat_map_app, IH, Nat.add_0_l. replace (n * S m)%nat with (n * m + n)%nat by lia.
  rewrite seq_app, map_app, Nat.add_0_l. f_equal. simpl. rewrite app_nil_r.
  rewrite (seq_block n (n * m)), map_map. apply map_ext_in. intros i Hi. apply in_seq in Hi.
  rewrite Nat.add_comm, (Nat.mul_comm n m), Nat.mod_add, Nat.div_add by lia.
  rewrite Nat.mod_small, Nat.div_small by lia. reflexivity.
Qed.

Section Values.
  Context (ck : bool).

  Lemma vd_spec g tb i j : vd ck g tb i j = dij ck g tb i j.
  Proof. unfold vd, dij. apply diff_spec. Qed.
  Lemma others_in k n j : In j (others k n) <-> (j < n)%nat /\ j <> k.
  Proof.
    unfold others. rewrite filter_In, in_seq. rewrite negb_true_iff, Nat.eqb_neq. lia.
  Qed.
  Lemma but_res g tb k : but k (fun j => xf g j / vd ck g tb j k) (nS g) = resistance ck g tb k.
  Proof. rewrite but_others. apply sum_of_ext. intros j _. now rewrite vd_spec. Qed.

  Lemma vmix_spec g tb k : vmix ck g tb k = mix_diff ck g tb k.
  Proof.
    unfold vmix, mix_diff. rewrite but_res, !vd_spec. cbv zeta. destruct (nS g =? 1)%nat; [reflexivity|].
    now destruct (rltb 0 (resistance ck g tb k)).
  Qed.
  Lemma vmole_spec g tb k : vmole ck g tb k = mix_diff_mole ck g tb k.
  Proof.
    unfold vmole, mix_diff_mole. rewrite but_res, !vd_spec. cbv zeta. destruct (nS g =? 1)%nat; [reflexivity|].
    now destruct (rltb 0 (resistance ck g tb k)).
  Qed.
  Lemma vmass_spec g tb k : (forall i j, (i < nS g)%nat -> (j < nS g)%nat -> tb_d tb i j = tb_d tb j i) ->
    (k < nS g)%nat -> vmass ck g tb k = mix_diff_mass ck g tb k.
  Proof.
    intros Hs Hk. unfold vmass, mix_diff_mass. cbv zeta. destruct (nS g =? 1)%nat; [now rewrite vd_spec|].
    rewrite !but_others. unfold resistance, w_resistance.
    rewrite (sum_of_ext (fun i => xf g i / vd ck g tb k i) (fun j => xf g j / dij ck g tb j k)).
    2: { intros j Hj. apply others_in in Hj. rewrite vd_spec. unfold dij. now rewrite Hs by lia. }
    rewrite (sum_of_ext (fun i => xf g i * wt g i / vd ck g tb k i) (fun j => xf g j * wt g j / dij ck g tb j k)).
    2: { intros j Hj. apply others_in in Hj. rewrite vd_spec. unfold dij. now rewrite Hs by lia. }
    reflexivity.
  Qed.
  Lemma vflux_spec g tb gradX k : vflux0 ck g tb gradX k = raw_flux ck g tb gradX k.
  Proof. unfold vflux0, raw_flux. now rewrite vmix_spec. Qed.

  Lemma value_formula q g tb : (q = QViscosity -> physical ck g tb) ->
    (forall i j, (i < nS g)%nat -> (j < nS g)%nat -> tb_d tb i j = tb_d tb j i) ->
    value ck q g tb = formula ck q g tb.
  Proof.
    intros Hp Hs. destruct q; unfold value, formula.
    - specialize (Hp eq_refl). do 2 f_equal. apply sum_n_ext. intros k Hk.
      rewrite visc_spec. change (species_viscosity ck (g_T g) (tb_v tb k)) with (eta ck g tb k).
      unfold Rdiv. do 2 f_equal. apply sum_n_ext. intros j Hj. now rewrite phi_wilke.
    - unfold reals. apply map_ext_in. intros k _. now rewrite visc_spec.
    - do 2 f_equal. unfold mix_conductivity, lam.
      rewrite (sum_n_ext (fun k => xf g k * cond_of ck (g_T g) (tb_c tb k)) (fun k => xf g k * species_conductivity ck (g_T g) (tb_c tb k))) by (intros; now rewrite cond_spec).
      rewrite (sum_n_ext (fun k => xf g k / cond_of ck (g_T g) (tb_c tb k)) (fun k => xf g k / species_conductivity ck (g_T g) (tb_c tb k))) by (intros; now rewrite cond_spec).
      unfold Rdiv. ring.
    - rewrite (concat_index (fun i j => Fin (dij ck g tb i j / g_P g))). unfold reals. apply map_ext. intros a.
      f_equal. rewrite vd_spec. unfold Rdiv. ring.
    - apply map_ext. intros k. now rewrite vmix_spec.
    - apply map_ext. intros k. now rewrite vmole_spec.
    - apply map_ext_in. intros k Hk. apply in_seq in Hk. apply vmass_spec; [assumption|lia].
    - apply map_ext. intros k. unfold net_flux. rewrite vflux_spec. do 3 f_equal. 
      apply sum_n_ext. intros j _. apply vflux_spec.
  Qed.

  (** ** Consequences *)
  Lemma mass_fractions_sum g : mmw g <> 0 -> sum_n (yk g) (nS g) = 1.
  Proof.
    intros H. unfold yk, Rdiv. unfold sum_n. rewrite sum_of_scal_r. fold (sum_n (fun k => g_x g k * wt g k) (nS g)).
    fold (mmw g). now apply Rinv_r.
  Qed.
  Lemma net_flux_zero g tb gradX : mmw g <> 0 -> sum_n (net_flux ck g tb gradX) (nS g) = 0.
  Proof.
    intros H. unfold net_flux. unfold sum_n at 1.
    rewrite (sum_of_minus (raw_flux ck g tb gradX) (fun k => yk g k * sum_n (raw_flux ck g tb gradX) (nS g))).
    rewrite sum_of_scal_r. fold (sum_n (yk g) (nS g)). rewrite mass_fractions_sum by assumption.
    unfold sum_n. ring.
  Qed.

  Lemma sum_n_le f f' n : (forall k, (k < n)%nat -> f k <= f' k) -> sum_n f n <= sum_n f' n.
  Proof. intros H. apply sum_of_le. intros k Hk. apply in_seq in Hk. apply H. lia. Qed.
  Lemma sum_n_scal c f n : sum_n (fun k => c * f k) n = c * sum_n f n.
  Proof. apply sum_of_scal. Qed.

  Lemma weighted_bounds (x v : nat -> R) n lo hi : (forall k, (k < n)%nat -> 0 <= x k) -> sum_n x n = 1 ->
    (forall k, (k < n)%nat -> lo <= v k <= hi) -> lo <= sum_n (fun k => x k * v k) n <= hi.
  Proof.
    intros Hx H1 Hv. split.
    - rewrite <- (Rmult_1_r lo), <- H1, <- sum_n_scal. apply sum_n_le. intros k Hk.
      specialize (Hx k Hk). specialize (Hv k Hk). nra.
    - rewrite <- (Rmult_1_r hi), <- H1, <- sum_n_scal. apply sum_n_le. intros k Hk.
      specialize (Hx k Hk). specialize (Hv k Hk). nra.
  Qed.

  Lemma conductivity_bounds g tb lo hi :
    (forall k, (k < nS g)%nat -> Tiny <= g_x g k) -> sum_n (g_x g) (nS g) = 1 -> 0 < lo ->
    (forall k, (k < nS g)%nat -> lo <= lam ck g tb k <= hi) -> lo <= mix_conductivity ck g tb <= hi.
  Proof.
    intros Hx H1 Hlo Hl. unfold mix_conductivity.
    assert (HT : 0 < Tiny) by (unfold Tiny; apply Rinv_0_lt_compat, pow_lt; lra).
    assert (E : forall k, (k < nS g)%nat -> xf g k = g_x g k).
    { intros k Hk. unfold xf. apply Rmax_right. auto. }
    rewrite (sum_n_ext (fun k => xf g k * lam ck g tb k) (fun k => g_x g k * lam ck g tb k)) by (intros; now rewrite E).
    rewrite (sum_n_ext (fun k => xf g k / lam ck g tb k) (fun k => g_x g k * / lam ck g tb k)) by (intros; unfold Rdiv; now rewrite E).
    assert (Hx0 : forall k, (k < nS g)%nat -> 0 <= g_x g k) by (intros k Hk; specialize (Hx k Hk); lra).
    assert (Hhi : 0 < hi).
    { destruct (nS g) as [|n] eqn:En; [rewrite sum_n_0 in H1; lra|].
      destruct (Hl 0%nat ltac:(lia)). lra. }
    pose proof (weighted_bounds (g_x g) (lam ck g tb) (nS g) lo hi Hx0 H1 Hl) as B1.
    pose proof (weighted_bounds (g_x g) (fun k => / lam ck g tb k) (nS g) (/ hi) (/ lo) Hx0 H1) as B2.
    assert (B3 : forall k, (k < nS g)%nat -> / hi <= / lam ck g tb k <= / lo).
    { intros k Hk. destruct (Hl k Hk). split; apply Rinv_le_contravar; lra. }
    specialize (B2 B3). clear B3. cbv beta in B2.
    set (S2 := sum_n (fun k => g_x g k * / lam ck g tb k) (nS g)) in *.
    assert (Hh : 0 < / hi) by now apply Rinv_0_lt_compat.
    assert (B4 : lo <= / S2 <= hi).
    { split.
      - rewrite <- (Rinv_inv lo). apply Rinv_le_contravar; lra.
      - rewrite <- (Rinv_inv hi). apply Rinv_le_contravar; lra. }
    lra.
  Qed.

  Lemma wilke_same e w : 0 < e -> 0 < w -> wilke e e w w = 1.
  Proof.
    intros He Hw. unfold wilke. replace (e / e) with 1 by (field; lra). replace (w / w) with 1 by (field; lra).
    rewrite !sqrt_1. replace (8 * (1 + 1)) with (4 * 4) by ring. rewrite sqrt_square by lra. field.
  Qed.
  Lemma viscosity_same g tb e w : physical ck g tb -> (0 < nS g)%nat ->
    (forall k, (k < nS g)%nat -> eta ck g tb k = e /\ wt g k = w) -> mix_viscosity ck g tb = e.
  Proof.
    intros Hp Hn H. unfold mix_viscosity.
    destruct (H 0%nat Hn) as (He0 & Hw0).
    assert (0 < e) by (rewrite <- He0; now apply eta_pos).
    assert (0 < w) by (rewrite <- Hw0; now apply Hp).
    assert (HT : 0 < Tiny) by (unfold Tiny; apply Rinv_0_lt_compat, pow_lt; lra).
    set (S := sum_n (xf g) (nS g)).
    assert (HS : 0 < S).
    { apply (sum_of_pos (xf g) (seq 0 (nS g)) 0%nat).
      - intros y _. unfold xf. pose proof (Rmax_l Tiny (g_x g y)). lra.
      - apply in_seq. lia.
      - unfold xf. pose proof (Rmax_l Tiny (g_x g 0%nat)). lra. }
    rewrite (sum_n_ext _ (fun k => (e / S) * xf g k)).
    - rewrite sum_n_scal. fold S. field. lra.
    - intros k Hk. destruct (H k Hk) as (-> & ->).
      rewrite (sum_n_ext _ (xf g)); [fold S; field; lra|].
      intros j Hj. destruct (H j Hj) as (-> & ->). rewrite wilke_same by assumption. ring.
  Qed.

  Lemma wilke_pos ek ej wk wj : 0 < ek -> 0 < ej -> 0 < wk -> 0 < wj -> 0 < wilke ek ej wk wj.
  Proof.
    intros. unfold wilke. apply Rdiv_lt_0_compat.
    - apply pow_lt. assert (0 <= sqrt (ek / ej) * sqrt (sqrt (wj / wk))) by (apply Rmult_le_pos; apply sqrt_pos). lra.
    - apply sqrt_lt_R0. assert (0 < wk / wj) by (now apply Rdiv_lt_0_compat). lra.
  Qed.
  (** The mixture viscosity is positive and below the sum of those of the species. *)
  Lemma viscosity_bounds g tb : physical ck g tb -> (0 < nS g)%nat ->
    0 < mix_viscosity ck g tb <= sum_n (eta ck g tb) (nS g).
  Proof.
    intros Hp Hn. unfold mix_viscosity.
    assert (HT : 0 < Tiny) by (unfold Tiny; apply Rinv_0_lt_compat, pow_lt; lra).
    assert (HX : forall k, 0 < xf g k) by (intros k; unfold xf; pose proof (Rmax_l Tiny (g_x g k)); lra).
    assert (HE : forall k, (k < nS g)%nat -> 0 < eta ck g tb k) by (intros; now apply eta_pos).
    assert (HW : forall k, (k < nS g)%nat -> 0 < wt g k) by apply Hp.
    assert (HD : forall k, (k < nS g)%nat ->
      xf g k <= sum_n (fun j => wilke (eta ck g tb k) (eta ck g tb j) (wt g k) (wt g j) * xf g j) (nS g)).
    { intros k Hk.
      assert (X : sum_n (fun j => if (j =? k)%nat then xf g k else 0) (nS g) = xf g k).
      { rewrite (sum_n_single _ (nS g) k Hk); [now rewrite Nat.eqb_refl|].
        intros j _ Hj. now rewrite (proj2 (Nat.eqb_neq j k)). }
      rewrite <- X at 1. apply sum_n_le. intros j Hj. destruct (Nat.eqb_spec j k) as [->|Hne].
      - rewrite wilke_same by auto. lra.
      - apply Rlt_le, Rmult_lt_0_compat; [apply wilke_pos; auto|apply HX]. }
    split.
    - apply (sum_of_pos _ (seq 0 (nS g)) 0%nat).
      + intros k Hk. apply in_seq in Hk. apply Rlt_le, Rdiv_lt_0_compat.
        * apply Rmult_lt_0_compat; [apply HX|apply HE; lia].
        * eapply Rlt_le_trans; [apply (HX k)|]. apply HD. lia.
      + apply in_seq. lia.
      + apply Rdiv_lt_0_compat.
        * apply Rmult_lt_0_compat; [apply HX|apply HE; lia].
        * eapply Rlt_le_trans; [apply (HX 0%nat)|]. now apply HD.
    - apply sum_n_le. intros k Hk. specialize (HD k Hk). specialize (HX k). specialize (HE k Hk).
      apply (Rmult_le_reg_r (sum_n (fun j => wilke (eta ck g tb k) (eta ck g tb j) (wt g k) (wt g j) * xf g j) (nS g))); [lra|].
      unfold Rdiv. rewrite Rmult_assoc, Rinv_l by lra. nra.
  Qed.

  Lemma two_res g tb k : nS g = 2%nat -> (k < 2)%nat ->
    resistance ck g tb k = xf g (1 - k) / dij ck g tb (1 - k) k /\
    w_resistance ck g tb k = xf g (1 - k) * wt g (1 - k) / dij ck g tb (1 - k) k.
  Proof.
    intros Hn Hk. unfold resistance, w_resistance, others. rewrite Hn.
    destruct k as [|[|k]]; [| |lia]; cbn -[xf wt dij Rdiv]; unfold sum_of; cbn -[xf wt dij Rdiv]; split; ring.
  Qed.
  Lemma mmw_two g : nS g = 2%nat -> mmw g = g_x g 0%nat * wt g 0%nat + g_x g 1%nat * wt g 1%nat.
  Proof. intros Hn. unfold mmw. rewrite Hn, !sum_n_S, sum_n_0. ring. Qed.

  Lemma two_species g tb k : nS g = 2%nat -> (k < 2)%nat -> 0 < g_P g ->
    (forall j, (j < 2)%nat -> Tiny <= g_x g j /\ 0 < wt g j) -> g_x g 0%nat + g_x g 1%nat = 1 ->
    0 < dij ck g tb (1 - k) k ->
    mix_diff ck g tb k = dij ck g tb (1 - k) k * wt g (1 - k) / (g_P g * mmw g) /\
    mix_diff_mole ck g tb k = dij ck g tb (1 - k) k / g_P g /\
    mix_diff_mass ck g tb k = Fin (dij ck g tb (1 - k) k / g_P g).
  Proof.
    intros Hn Hk HP Hx H1 HD.
    assert (HT : 0 < Tiny) by (unfold Tiny; apply Rinv_0_lt_compat, pow_lt; lra).
    assert (E : forall j, (j < 2)%nat -> xf g j = g_x g j) by (intros j Hj; apply Rmax_right; now apply Hx).
    pose proof (mmw_two g Hn) as HM.
    destruct (two_res g tb k Hn Hk) as (R1 & R2).
    unfold mix_diff, mix_diff_mole, mix_diff_mass. rewrite Hn. cbn [Nat.eqb]. rewrite R1, R2.
    rewrite !E by lia. set (D := dij ck g tb (1 - k) k) in *.
    assert (X : exists x0 x1 w0 w1, g_x g k = x0 /\ g_x g (1 - k)%nat = x1 /\ wt g k = w0 /\ wt g (1 - k)%nat = w1 /\
       0 < x0 /\ 0 < x1 /\ 0 < w0 /\ 0 < w1 /\ x0 + x1 = 1 /\ mmw g = x0 * w0 + x1 * w1).
    { destruct (Hx 0%nat ltac:(lia)), (Hx 1%nat ltac:(lia)).
      destruct k as [|[|k]]; [| |lia]; simpl; do 4 eexists; repeat split; try reflexivity; try lra. }
    destruct X as (x0 & x1 & w0 & w1 & -> & -> & -> & -> & P0 & P1 & W0 & W1 & Hs & ->).
    assert (Hr : 0 < x1 / D) by (now apply Rdiv_lt_0_compat).
    rewrite (proj2 (rltb_true 0 (x1 / D)) Hr).
    assert (0 < x0 * w0) by now apply Rmult_lt_0_compat.
    assert (0 < x1 * w1) by now apply Rmult_lt_0_compat.
    split; [|split].
    - field. repeat split; lra.
    - replace (1 - x0) with x1 by lra. field. repeat split; lra.
    - replace (x0 * w0 + x1 * w1 - w0 * x0) with (x1 * w1) by ring.
      rewrite fdiv_fin by lra. cbn [fmul fadd].
      replace (x1 / D * g_P g + x1 * w1 / D * (g_P g * x0 / (x1 * w1))) with (g_P g / D).
      + rewrite fdiv_fin.
        * f_equal. field. split; lra.
        * apply Rgt_not_eq. now apply Rdiv_lt_0_compat.
      + replace x1 with (1 - x0) by lra. field. split; [lra|]. split; nra || lra.
  Qed.

  (** A pure species. *)
  Lemma pure_species g tb k : (2 <= nS g)%nat -> (k < nS g)%nat -> 0 < g_P g -> 0 < wt g k ->
    (forall j, (j < nS g)%nat -> j <> k -> 0 < dij ck g tb j k /\ 0 < wt g j) ->
    (forall j, (j < nS g)%nat -> g_x g j = if (j =? k)%nat then 1 else 0) ->
    mix_diff ck g tb k = 0 /\ mix_diff_mole ck g tb k = 0 /\ mix_diff_mass ck g tb k = Fin 0.
  Proof.
    intros Hn Hk HP Hwk HD Hx.
    assert (HT : 0 < Tiny) by (unfold Tiny; apply Rinv_0_lt_compat, pow_lt; lra).
    assert (HT1 : Tiny <= 1).
    { unfold Tiny. rewrite <- Rinv_1. apply Rinv_le_contravar; [lra|]. apply pow_R1_Rle. lra. }
    assert (Exk : xf g k = 1) by (unfold xf; rewrite (Hx k Hk), Nat.eqb_refl; now apply Rmax_right).
    assert (Hxf : forall j, 0 < xf g j) by (intros j; unfold xf; pose proof (Rmax_l Tiny (g_x g j)); lra).
    assert (Hm : mmw g = wt g k).
    { unfold mmw. rewrite (sum_n_single _ (nS g) k Hk).
      - rewrite (Hx k Hk), Nat.eqb_refl. ring.
      - intros j Hj Hne. rewrite (Hx j Hj), (proj2 (Nat.eqb_neq j k)) by assumption. ring. }
    set (j0 := if (k =? 0)%nat then 1%nat else 0%nat).
    assert (Hj0 : In j0 (others k (nS g))).
    { apply others_in. unfold j0. destruct (Nat.eqb_spec k 0); lia. }
    assert (Hr : 0 < resistance ck g tb k).
    { apply (sum_of_pos _ _ j0).
      - intros j Hj. apply others_in in Hj. destruct (HD j) as (D1 & _); [tauto|tauto|].
        apply Rlt_le, Rdiv_lt_0_compat; [apply Hxf|assumption].
      - assumption.
      - apply others_in in Hj0. destruct (HD j0) as (D1 & _); [tauto|tauto|].
        apply Rdiv_lt_0_compat; [apply Hxf|assumption]. }
    assert (Hwr : 0 < w_resistance ck g tb k).
    { apply (sum_of_pos _ _ j0).
      - intros j Hj. apply others_in in Hj. destruct (HD j) as (D1 & W1); [tauto|tauto|].
        apply Rlt_le, Rdiv_lt_0_compat; [apply Rmult_lt_0_compat; [apply Hxf|assumption]|assumption].
      - assumption.
      - apply others_in in Hj0. destruct (HD j0) as (D1 & W1); [tauto|tauto|].
        apply Rdiv_lt_0_compat; [apply Rmult_lt_0_compat; [apply Hxf|assumption]|assumption]. }
    unfold mix_diff, mix_diff_mole, mix_diff_mass.
    rewrite (proj2 (Nat.eqb_neq (nS g) 1)) by lia. rewrite (proj2 (rltb_true _ _) Hr), Exk, Hm.
    split; [|split].
    - unfold Rdiv. replace (wt g k - 1 * wt g k) with 0 by ring. apply Rmult_0_l.
    - unfold Rdiv. replace (1 - 1) with 0 by ring. apply Rmult_0_l.
    - replace (wt g k - wt g k * 1) with 0 by ring. rewrite Rmult_1_r.
      unfold fdiv at 2. rewrite (proj2 (reqb_true 0 0)) by reflexivity. unfold sinf at 1.
      rewrite (proj2 (rltb_true 0 (g_P g))) by lra.
      cbn [fmul]. unfold sinf.
      rewrite (proj2 (rltb_true 0 (w_resistance ck g tb k))) by lra. reflexivity.
  Qed.
End Values.
