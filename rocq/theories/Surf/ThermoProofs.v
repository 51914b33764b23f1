From Coquelicot Require Import Coquelicot.
From Coq Require Import Reals String List Bool Arith Lia Lra.
From Verif Require Import Base.Fp Base.Outcome Base.RSum Base.Map2 Units.Model Units.Proofs Surf.Model Surf.Spec Surf.Proofs.
From Verif Require IdealGas.Spec IdealGas.DerivProofs IdealGas.AmountProofs.
From Verif Require Import IdealGas.Proofs.
Import ListNotations.
Local Open Scope list_scope.
Local Open Scope R_scope.
Notation sum_n := RSum.sum_n.
Notation total := IdealGas.Spec.total.
Notation with_amount := IdealGas.Spec.with_amount.
Notation moles := IdealGas.Spec.moles.
Notation species_ok := IdealGas.DerivProofs.species_ok.

Definition value (o : outcome R) : R := match o with Ok v => v | _ => 0 end.
Definition values (o : outcome (list R)) : list R := match o with Ok v => v | _ => [] end.

Section Thermo.
Context (mw sz : list R) (HM : positive mw) (HS : positive sz) (L : length sz = length mw) (cpR hRT sR : nat -> R -> R).
Notation K := (length mw).

(* Absent, or not a trace: neither the concentration nor the activity is below SmallNumber. *)
Definition no_trace (s : sst) (k : nat) : Prop := X s k = 0 \/ (SmallNumber <= C s k /\ SmallNumber <= X s k * nth k sz 0).
Record ready (s : sst) : Prop := READY {
  r_surf : surface K s; r_T : 0 < vT s; r_log : vLogN0 s = Some (ln (vN0 s)); r_sum : sum_n (X s) K = 1;
  r_pure : forall k, (k < K)%nat -> no_trace s k }.

Lemma mean_sum s (f : nat -> R) : surface K s -> mean_X s (map f (seq 0 (kk s))) = sum_n (fun k => X s k * f k) K.
Proof.
  intros S. unfold mean_X. rewrite rsum_map2_sum by (rewrite map_length, seq_length; reflexivity). unfold kk. rewrite (f_len K s S).
  rewrite <- sum_n_scal. apply sum_n_ext. intros k HK. rewrite nth_map_seq by auto. unfold X, getMoleFractions.
  rewrite nth_map0 by (rewrite (f_len K s S); auto). ring.
Qed.
Lemma mu0_list s : mu0 hRT sR s = map (fun k => hRT k (vT s) * (GasConstant * vT s) - vT s * (sR k (vT s) * GasConstant)) (seq 0 (kk s)).
Proof. unfold mu0, h0, s0. rewrite map2_map_l, map2_map_r. generalize (seq 0 (kk s)). induction l; cbn; auto. f_equal; auto. Qed.
Lemma chem_eq s : ready s -> getChemPotentials sz hRT sR s =
  Ok (map (fun k => hRT k (vT s) * (GasConstant * vT s) - vT s * (sR k (vT s) * GasConstant) + RT s * (ln (Rmax (C s k) SmallNumber) - (ln (vN0 s) - ln (nth k sz 0)))) (seq 0 (kk s))).
Proof.
  intros R. unfold getChemPotentials. rewrite (r_log s R). f_equal. apply map_ext_in. intros k IK. apply in_seq in IK.
  rewrite mu0_list, nth_map_seq by lia. reflexivity.
Qed.
Lemma kkK s : surface K s -> kk s = K.
Proof. intros S. apply S. Qed.
(* The two logarithms agree. *)
Lemma log_activity s k : ready s -> (k < K)%nat ->
  X s k * (ln (Rmax (C s k) SmallNumber) - (ln (vN0 s) - ln (nth k sz 0))) = X s k * ln (Rmax (C s k * nth k sz 0 / vN0 s) SmallNumber) /\
  (X s k <> 0 -> 0 < X s k /\ ln (Rmax (C s k) SmallNumber) - (ln (vN0 s) - ln (nth k sz 0)) = ln (X s k * nth k sz 0)).
Proof.
  intros R HK. pose proof (f_n0 K s (r_surf s R)) as N0. pose proof (HS k ltac:(lia)) as Z. pose proof Small_pos as SP.
  destruct (r_pure s R k HK) as [E|[A B]]; [rewrite E; split; [ring|congruence]|].
  rewrite (C_X mw s k (r_surf s R) HK) in *.
  assert (XP : 0 < X s k) by nra.
  replace (vN0 s * X s k * nth k sz 0 / vN0 s) with (X s k * nth k sz 0) by (field; lra).
  rewrite !Rmax_left by auto. rewrite !ln_mult by auto. split; [ring|intros _; split; [auto|ring]].
Qed.
Lemma gibbs_hTs s : ready s -> gibbs_mole sz hRT sR s = Ok (enthalpy_mole hRT s - vT s * entropy_mole sz sR s).
Proof.
  intros R. pose proof (r_surf s R) as S. unfold gibbs_mole. rewrite chem_eq by auto. cbn [omap obind]. f_equal.
  rewrite mean_sum by auto.
  unfold enthalpy_mole. rewrite (proj2 (rltb_true _ _) (f_n0 K s S)). unfold h0. rewrite mean_sum by auto.
  unfold entropy_mole. rewrite (kkK s S), rsum_map_seq. rewrite <- sum_n_scal, <- sum_n_minus. apply sum_n_ext. intros k HK.
  unfold s0. rewrite nth_map_seq by (rewrite (kkK s S); auto). fold (X s k). fold (C s k). unfold size.
  destruct (log_activity s k R HK) as [E _].
  replace (X s k * (sR k (vT s) * GasConstant - GasConstant * ln (Rmax (C s k * nth k sz 0 / vN0 s) SmallNumber)))
    with (X s k * (sR k (vT s) * GasConstant) - GasConstant * (X s k * ln (Rmax (C s k * nth k sz 0 / vN0 s) SmallNumber))) by ring.
  rewrite <- E. unfold RT. ring.
Qed.
Lemma entropy_sum s : ready s -> entropy_mole sz sR s = sum_n (fun k => X s k * nth k (values (getPartialMolarEntropies sz sR s)) 0) K.
Proof.
  intros R. pose proof (r_surf s R) as S. unfold entropy_mole, getPartialMolarEntropies. rewrite (r_log s R). cbn [values]. rewrite (kkK s S), rsum_map_seq.
  apply sum_n_ext. intros k HK. rewrite nth_map_seq by auto. unfold getEntropy_R. rewrite nth_map0 by (unfold s0; rewrite map_length, seq_length, (kkK s S); auto).
  fold (X s k). fold (C s k). unfold size. destruct (log_activity s k R HK) as [E _]. pose proof GasConstant_pos as G.
  transitivity (X s k * nth k (s0 sR s) 0 - GasConstant * (X s k * ln (Rmax (C s k * nth k sz 0 / vN0 s) SmallNumber))); [ring|]. rewrite <- E. field. lra.
Qed.
Lemma enthalpy_sum s : surface K s -> 0 < vT s -> enthalpy_mole hRT s = sum_n (fun k => X s k * nth k (getPartialMolarEnthalpies hRT s) 0) K.
Proof.
  intros S T. unfold enthalpy_mole. rewrite (proj2 (rltb_true _ _) (f_n0 K s S)). unfold h0. rewrite mean_sum by auto. apply sum_n_ext. intros k HK.
  unfold getPartialMolarEnthalpies, getEnthalpy_RT, h0. rewrite !map_map. rewrite nth_map_seq by (rewrite (kkK s S); auto).
  pose proof GasConstant_pos as G. unfold RT. field. lra.
Qed.
Lemma cp_sum s : surface K s -> cp_mole cpR s = sum_n (fun k => X s k * nth k (getPartialMolarCp cpR s) 0) K.
Proof.
  intros S. unfold cp_mole, cp0. rewrite mean_sum by auto. apply sum_n_ext. intros k HK.
  unfold getPartialMolarCp, getCp_R, cp0. rewrite !map_map. rewrite nth_map_seq by (rewrite (kkK s S); auto).
  pose proof GasConstant_pos as G. field. lra.
Qed.
Lemma chem_nth s k : ready s -> (k < K)%nat -> X s k <> 0 ->
  nth k (values (getChemPotentials sz hRT sR s)) 0 = nth k (mu0 hRT sR s) 0 + GasConstant * vT s * ln (X s k * nth k sz 0).
Proof.
  intros R HK NX. rewrite chem_eq by auto. cbn [values]. rewrite (kkK s (r_surf s R)), nth_map_seq by auto.
  rewrite mu0_list, (kkK s (r_surf s R)), nth_map_seq by auto. destruct (log_activity s k R HK) as [_ E]. destruct (E NX) as [_ ->]. unfold RT. ring.
Qed.

(* Temperature. *)
Definition at_T (s : sst) (t : R) : sst := SST t (vN0 s) (vLogN0 s) (vYM s) (vW s) (vD s) (vP s) (vNaN s).
Lemma at_T_ready s t : ready s -> 0 < t -> ready (at_T s t).
Proof. intros [A B D E F] H. split; auto. destruct A; split; auto. Qed.
Lemma deriv_h s T : ready s -> species_ok cpR hRT sR T -> is_derive (fun t => enthalpy_mole hRT (at_T s t)) T (cp_mole cpR (at_T s T)).
Proof.
  intros R H. pose proof (r_surf s R) as S. assert (SA : forall t, surface K (at_T s t)) by (intros; destruct S; split; auto).
  apply IdealGas.DerivProofs.is_derive_exta with (f := fun t => sum_n (fun k => X s k * GasConstant * (t * hRT k t)) K).
  { intros t. unfold enthalpy_mole. rewrite (proj2 (rltb_true _ _) (f_n0 K _ (SA t))). unfold h0. rewrite mean_sum by auto. apply sum_n_ext. intros.
    change (X (at_T s t) k) with (X s k). cbn. ring. }
  unfold cp_mole, cp0. rewrite mean_sum by auto.
  apply IdealGas.DerivProofs.is_derive_eq with (a := sum_n (fun k => X s k * GasConstant * cpR k T) K).
  - apply IdealGas.DerivProofs.is_derive_sum_n. intros k _. apply IdealGas.DerivProofs.is_derive_cmul, H.
  - apply sum_n_ext. intros. change (X (at_T s T) k) with (X s k). cbn. ring.
Qed.
Lemma deriv_s s T : ready s -> 0 < T -> species_ok cpR hRT sR T -> is_derive (fun t => entropy_mole sz sR (at_T s t)) T (cp_mole cpR (at_T s T) / T).
Proof.
  intros R HT H. pose proof (r_surf s R) as S. assert (SA : forall t, surface K (at_T s t)) by (intros; destruct S; split; auto).
  set (Z := sum_n (fun k => X s k * (- GasConstant * ln (Rmax (C s k * nth k sz 0 / vN0 s) SmallNumber))) K).
  apply IdealGas.DerivProofs.is_derive_exta with (f := fun t => sum_n (fun k => X s k * GasConstant * sR k t) K + Z).
  { intros t. unfold entropy_mole. rewrite (kkK _ (SA t)), rsum_map_seq. unfold Z. rewrite <- sum_n_plus. apply sum_n_ext. intros k HK.
    unfold s0. rewrite nth_map_seq by (rewrite (kkK _ (SA t)); auto). fold (X (at_T s t) k). fold (C (at_T s t) k).
    change (X (at_T s t) k) with (X s k). change (C (at_T s t) k) with (C s k). unfold size. cbn [vT vN0 at_T]. ring. }
  unfold cp_mole, cp0. rewrite mean_sum by auto.
  apply IdealGas.DerivProofs.is_derive_eq with (a := sum_n (fun k => X s k * GasConstant * (cpR k T / T)) K + 0).
  - apply (is_derive_plus (fun t => sum_n (fun k => X s k * GasConstant * sR k t) K) _ T).
    + apply IdealGas.DerivProofs.is_derive_sum_n. intros k _. apply IdealGas.DerivProofs.is_derive_cmul, H.
    + apply IdealGas.DerivProofs.is_derive_c.
  - rewrite Rplus_0_r. unfold Rdiv. rewrite <- sum_n_scal_r. apply sum_n_ext. intros. change (X (at_T s T) k) with (X s k). cbn. ring.
Qed.
Lemma deriv_g s T : ready s -> 0 < T -> species_ok cpR hRT sR T -> is_derive (fun t => value (gibbs_mole sz hRT sR (at_T s t))) T (- entropy_mole sz sR (at_T s T)).
Proof.
  intros R HT H.
  apply IdealGas.DerivProofs.is_derive_extl with (f := fun t => enthalpy_mole hRT (at_T s t) - t * entropy_mole sz sR (at_T s t)).
  { eapply filter_imp; [|apply (IdealGas.DerivProofs.locally_pos T HT)]. intros t Ht. rewrite gibbs_hTs by (apply at_T_ready; auto). reflexivity. }
  pose proof (deriv_h s T R H) as A. pose proof (deriv_s s T R HT H) as B.
  pose proof (is_derive_mult (fun t => t) _ T 1 _ (is_derive_id T) B (fun a b => Rmult_comm a b)) as D.
  eapply IdealGas.DerivProofs.is_derive_eq.
  - apply (is_derive_minus (fun t => enthalpy_mole hRT (at_T s t)) _ T _ _ A D).
  - unfold minus, plus, opp, mult; cbn. field. lra.
Qed.

(* Amounts on the surface. *)
Context (s : sst) (HSu : surface K s) (HT : 0 < vT s) (HL : vLogN0 s = Some (ln (vN0 s))).
Definition with_moles (n : nat -> R) : sst := snd (setMoleFractions mw s (moles mw n)).
Definition surf_amounts_ok (n : nat -> R) : Prop :=
  forall j, (j < K)%nat -> 0 < n j /\ SmallNumber < vN0 s * (n j / total mw n) /\ SmallNumber < n j / total mw n * nth j sz 0.
Lemma with_moles_ready n : (0 < K)%nat -> surf_amounts_ok n ->
  ready (with_moles n) /\ vT (with_moles n) = vT s /\ vN0 (with_moles n) = vN0 s /\ forall j, (j < K)%nat -> X (with_moles n) j = n j / total mw n.
Proof.
  intros KP A. assert (NP : forall j, (j < K)%nat -> 0 < n j) by (intros; apply A; auto).
  assert (LX : length (moles mw n) = K) by (unfold moles; rewrite map_length, seq_length; auto).
  assert (NX : forall j, (j < K)%nat -> nth j (moles mw n) 0 = n j) by (intros; unfold moles; apply nth_map_seq; auto).
  destruct (setX_ok mw sz HM L s (moles mw n) LX (f_n0 K s HSu)) as (E & W & N). { exists 0%nat. split; auto. rewrite NX; auto. }
  assert (PN : forall j, (j < K)%nat -> pos (moles mw n) j = n j) by (intros; unfold pos; rewrite NX by auto; apply Rmax_left, Rlt_le; auto).
  assert (NT : npos mw (moles mw n) = total mw n) by (apply sum_n_ext; auto).
  assert (XX : forall j, (j < K)%nat -> X (with_moles n) j = n j / total mw n).
  { intros j J. unfold with_moles. rewrite E. cbn [snd]. rewrite (X_after mw sz L) by auto. rewrite PN, NT; auto. }
  assert (SF : surface K (with_moles n)) by (unfold with_moles; rewrite E; apply surface_after; auto).
  assert (V : vT (with_moles n) = vT s /\ vN0 (with_moles n) = vN0 s /\ vLogN0 (with_moles n) = vLogN0 s) by (unfold with_moles; rewrite E; auto).
  destruct V as (V1 & V2 & V3).
  split; [|auto]. split; auto; [rewrite V1; auto|rewrite V2, V3; auto| |].
  - rewrite (sum_n_ext _ (fun j => n j * / total mw n)) by (intros; rewrite XX; auto). rewrite sum_n_scal_r. apply Rinv_r. rewrite NT in N. apply Rgt_not_eq. exact N.
  - intros k HK. right. rewrite (C_X mw _ k SF HK), XX, V2 by auto. split; apply Rlt_le, A; auto.
Qed.
Lemma surf_locally n k : (k < K)%nat -> surf_amounts_ok n -> locally (n k) (fun x => surf_amounts_ok (with_amount n k x)).
Proof.
  intros HK A. assert (NP : forall j, (j < K)%nat -> 0 < n j) by (intros; apply A; auto).
  assert (TP : 0 < total mw n) by (apply sum_n_pos; auto; lia). pose proof (f_n0 K s HSu) as N0.
  unfold surf_amounts_ok. apply IdealGas.AmountProofs.locally_all. intros j J. destruct (A j J) as (A1 & A2 & A3). pose proof (HS j ltac:(lia)) as Z.
  apply filter_and; [|apply filter_and].
  - apply (IdealGas.AmountProofs.locally_gt (fun x => with_amount n k x j)).
    + unfold IdealGas.Spec.with_amount. destruct (Nat.eqb j k); auto_derive; auto.
    + unfold IdealGas.Spec.with_amount. destruct (Nat.eqb_spec j k); subst; auto.
  - eapply filter_imp; [|apply (IdealGas.AmountProofs.frac_locally mw n k j (SmallNumber / vN0 s) HK TP)].
    + intros x Hx. apply (Rmult_lt_compat_l (vN0 s)) in Hx; auto. replace (vN0 s * (SmallNumber / vN0 s)) with SmallNumber in Hx by (field; lra). exact Hx.
    + apply (Rmult_lt_reg_l (vN0 s)); auto. replace (vN0 s * (SmallNumber / vN0 s)) with SmallNumber by (field; lra). exact A2.
  - eapply filter_imp; [|apply (IdealGas.AmountProofs.frac_locally mw n k j (SmallNumber / nth j sz 0) HK TP)].
    + intros x Hx. apply (Rmult_lt_compat_r (nth j sz 0)) in Hx; auto. replace (SmallNumber / nth j sz 0 * nth j sz 0) with SmallNumber in Hx by (field; lra). exact Hx.
    + apply (Rmult_lt_reg_r (nth j sz 0)); auto. replace (SmallNumber / nth j sz 0 * nth j sz 0) with SmallNumber by (field; lra). exact A3.
Qed.
Section One.
Context (n : nat -> R) (k : nat) (HK : (k < K)%nat) (A : surf_amounts_ok n).
Let KP : (0 < K)%nat. Proof. lia. Qed.
Lemma mult_total m (q : R) f : surf_amounts_ok m -> q = sum_n (fun j => X (with_moles m) j * f j) K -> total mw m * q = sum_n (fun j => m j * f j) K.
Proof.
  intros G ->. destruct (with_moles_ready m KP G) as (_ & _ & _ & XX). assert (TP : 0 < total mw m) by (apply sum_n_pos; auto; intros; apply (G k0 H)).
  rewrite <- sum_n_scal. apply sum_n_ext. intros j J. rewrite XX by auto. field. lra.
Qed.
Lemma pos_amounts m : surf_amounts_ok m -> forall j, (j < K)%nat -> 0 < m j.
Proof. intros G j J. apply (G j J). Qed.
Lemma X_ne m j : surf_amounts_ok m -> (j < K)%nat -> X (with_moles m) j <> 0.
Proof.
  intros G J. destruct (with_moles_ready m KP G) as (_ & _ & _ & XX). rewrite XX by auto.
  assert (TP : 0 < total mw m) by (apply sum_n_pos; auto; apply pos_amounts; auto). apply Rgt_not_eq, Rdiv_lt_0_compat; auto. apply (G j J).
Qed.
Lemma amount_g : is_derive (fun x => total mw (with_amount n k x) * value (gibbs_mole sz hRT sR (with_moles (with_amount n k x)))) (n k)
  (nth k (values (getChemPotentials sz hRT sR (with_moles n))) 0).
Proof.
  set (m0 := fun j => hRT j (vT s) * (GasConstant * vT s) - vT s * (sR j (vT s) * GasConstant)).
  assert (CH : forall m j, surf_amounts_ok m -> (j < K)%nat -> nth j (values (getChemPotentials sz hRT sR (with_moles m))) 0 = m0 j + GasConstant * vT s * ln (nth j sz 0) + GasConstant * vT s * ln (m j / total mw m)).
  { intros m j G J. destruct (with_moles_ready m KP G) as (R & V1 & V2 & XX). rewrite chem_nth by (auto; apply X_ne; auto).
    rewrite mu0_list, (kkK _ (r_surf _ R)), nth_map_seq by auto. rewrite V1, XX by auto.
    assert (TP : 0 < total mw m) by (apply sum_n_pos; auto; apply pos_amounts; auto).
    rewrite ln_mult; [unfold m0; ring|apply Rdiv_lt_0_compat; auto; apply (G j J)|apply HS; lia]. }
  rewrite CH by auto. eapply IdealGas.DerivProofs.is_derive_eq.
  - apply (IdealGas.AmountProofs.deriv_amount_gen mw surf_amounts_ok (fun m => total mw m * value (gibbs_mole sz hRT sR (with_moles m)))
      (fun j => m0 j + GasConstant * vT s * ln (nth j sz 0)) (GasConstant * vT s) n k HK); auto; [intros; apply (pos_amounts m); auto|apply surf_locally; auto|].
    intros m G. destruct (with_moles_ready m KP G) as (R & V1 & V2 & XX).
    rewrite (mult_total m _ (fun j => nth j (values (getChemPotentials sz hRT sR (with_moles m))) 0) G).
    + rewrite <- sum_n_scal, <- sum_n_plus. apply sum_n_ext. intros j J. rewrite CH by auto. ring.
    + unfold gibbs_mole. rewrite chem_eq by auto. cbn [omap obind value values]. rewrite mean_sum by apply R. apply sum_n_ext. intros j J.
      rewrite nth_map_seq by (rewrite (kkK _ (r_surf _ R)); auto). reflexivity.
  - reflexivity.
Qed.
Lemma amount_s : is_derive (fun x => total mw (with_amount n k x) * entropy_mole sz sR (with_moles (with_amount n k x))) (n k)
  (nth k (values (getPartialMolarEntropies sz sR (with_moles n))) 0).
Proof.
  assert (CH : forall m j, surf_amounts_ok m -> (j < K)%nat -> nth j (values (getPartialMolarEntropies sz sR (with_moles m))) 0 = sR j (vT s) * GasConstant - GasConstant * ln (nth j sz 0) - GasConstant * ln (m j / total mw m)).
  { intros m j G J. destruct (with_moles_ready m KP G) as (R & V1 & V2 & XX). unfold getPartialMolarEntropies. rewrite (r_log _ R). cbn [values].
    rewrite (kkK _ (r_surf _ R)), nth_map_seq by auto. unfold getEntropy_R. rewrite nth_map0 by (unfold s0; rewrite map_length, seq_length, (kkK _ (r_surf _ R)); auto).
    unfold s0. rewrite (kkK _ (r_surf _ R)), nth_map_seq by auto. fold (C (with_moles m) j). unfold size.
    destruct (log_activity _ j R J) as [_ E]. destruct (E (X_ne m j G J)) as [_ ->].
    assert (TP : 0 < total mw m) by (apply sum_n_pos; auto; apply pos_amounts; auto).
    rewrite XX, V1 by auto. rewrite ln_mult; [|apply Rdiv_lt_0_compat; auto; apply (G j J)|apply HS; lia]. pose proof GasConstant_pos. field. lra. }
  rewrite CH by auto. eapply IdealGas.DerivProofs.is_derive_eq.
  - apply (IdealGas.AmountProofs.deriv_amount_gen mw surf_amounts_ok (fun m => total mw m * entropy_mole sz sR (with_moles m))
      (fun j => sR j (vT s) * GasConstant - GasConstant * ln (nth j sz 0)) (- GasConstant) n k HK); auto; [intros; apply (pos_amounts m); auto|apply surf_locally; auto|].
    intros m G. destruct (with_moles_ready m KP G) as (R & V1 & V2 & XX).
    rewrite (mult_total m _ _ G (entropy_sum _ R)). rewrite <- sum_n_scal, <- sum_n_plus. apply sum_n_ext. intros j J. rewrite CH by auto. ring.
  - ring.
Qed.
Lemma amount_h : is_derive (fun x => total mw (with_amount n k x) * enthalpy_mole hRT (with_moles (with_amount n k x))) (n k)
  (nth k (getPartialMolarEnthalpies hRT (with_moles n)) 0).
Proof.
  pose proof GasConstant_pos as GP.
  assert (CH : forall m j, surf_amounts_ok m -> (j < K)%nat -> nth j (getPartialMolarEnthalpies hRT (with_moles m)) 0 = hRT j (vT s) * (GasConstant * vT s)).
  { intros m j G J. destruct (with_moles_ready m KP G) as (R & V1 & V2 & XX). unfold getPartialMolarEnthalpies, getEnthalpy_RT, h0. rewrite !map_map, (kkK _ (r_surf _ R)), nth_map_seq by auto.
    unfold RT. rewrite V1. field. lra. }
  rewrite CH by auto. eapply IdealGas.DerivProofs.is_derive_eq.
  - apply (IdealGas.AmountProofs.deriv_amount_gen mw surf_amounts_ok (fun m => total mw m * enthalpy_mole hRT (with_moles m))
      (fun j => hRT j (vT s) * (GasConstant * vT s)) 0 n k HK); auto; [intros; apply (pos_amounts m); auto|apply surf_locally; auto|].
    intros m G. destruct (with_moles_ready m KP G) as (R & V1 & V2 & XX). rewrite Rmult_0_l, Rplus_0_r.
    rewrite (mult_total m _ _ G (enthalpy_sum _ (r_surf _ R) (r_T _ R))). apply sum_n_ext. intros j J. rewrite CH by auto. ring.
  - ring.
Qed.
End One.
End Thermo.
