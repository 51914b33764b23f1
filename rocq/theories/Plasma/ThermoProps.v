(** C73: thermodynamic functions of a plasma with two temperatures. *)
From Coq Require Import Reals List Bool Lra Lia.
From Verif Require Import Base.Fp Base.RSum Units.Model Excess.Proofs Plasma.Thermo.
Import ListNotations.
Open Scope R_scope.

(** ** Stored reference properties *)

Definition fresh_ok (e : nat) (s : store) : Prop :=
  (forall t, c_gas s = Some t -> forall k, k <> e -> at_T s k = t) /\
  (forall t te, c_el s = Some (t, te) -> c_gas s = Some t /\ at_T s e = te).

Lemma update_ok e T Te s : fresh_ok e s ->
  fresh_ok e (plasma_update e T Te s) /\ at_T (plasma_update e T Te s) e = Te /\
  (forall k, k <> e -> at_T (plasma_update e T Te s) k = T).
Proof.
  intros [A B]. unfold plasma_update.
  assert (G : c_gas (gas_update T s) = Some T /\ (forall k, k <> e -> at_T (gas_update T s) k = T) /\
              (forall te, c_el (gas_update T s) = Some (T, te) -> at_T (gas_update T s) e = te)).
  { unfold gas_update. destruct (oeqb (c_gas s) T) eqn:E.
    - unfold oeqb in E. destruct (c_gas s) as [u|] eqn:C; [|discriminate]. apply reqb_true in E. subst u.
      split; [reflexivity|]. split; [apply A; reflexivity|]. intros te H. now apply (B T te).
    - cbn [c_gas c_el at_T]. split; [reflexivity|]. split; [reflexivity|]. intros te H. exfalso.
      destruct (B T te H) as [B1 _]. rewrite B1 in E. cbn in E. apply reqb_false in E. now apply E. }
  destruct G as (G1 & G2 & G3). set (s1 := gas_update T s) in *. destruct (oeqb2 (c_el s1) T Te) eqn:E.
  - unfold oeqb2 in E. destruct (c_el s1) as [[a b]|] eqn:C; [|discriminate]. apply andb_prop in E. destruct E as [E1 E2].
    apply reqb_true in E1. apply reqb_true in E2. subst a b. split; [|split; [now apply G3|exact G2]]. split.
    + intros t H. rewrite G1 in H. injection H as H. subst t. exact G2.
    + intros t te H. rewrite C in H. injection H as H1 H2. subst t te. split; [exact G1|now apply G3].
  - cbn [at_T]. rewrite Nat.eqb_refl.
    assert (K : forall k, k <> e -> (if Nat.eqb k e then Te else at_T s1 k) = T).
    { intros k Hk. destruct (Nat.eqb_spec k e); [contradiction|now apply G2]. }
    split; [|split; [reflexivity|exact K]]. split; cbn [c_gas c_el at_T].
    + intros t H. rewrite G1 in H. injection H as H. subst t. exact K.
    + intros t te H. injection H as H1 H2. subst t te. rewrite Nat.eqb_refl. now split.
Qed.
Lemma trun_ok e os : forall T Te s T' Te' s', fresh_ok e s -> trun e os (T, Te, s) = (T', Te', s') -> fresh_ok e s'.
Proof.
  induction os as [|o os IH]; intros T Te s T' Te' s' H E; cbn in E; [injection E as _ _ E; now subst|].
  unfold trun in IH. destruct o; cbn [tstep] in E; apply (IH _ _ _ _ _ _) in E; try assumption.
  - now apply update_ok.
  - split; cbn; discriminate.
Qed.
(* However the two temperatures were set, properties read and cached values dropped before: a read uses the
   electrons' reference properties at the electron temperature and everything else at the gas temperature. *)
Theorem C73_current : forall e os T0 Te0 f T Te s,
  trun e (os ++ [TRead]) (T0, Te0, Store None None f) = (T, Te, s) ->
  at_T s e = Te /\ forall k, k <> e -> at_T s k = T.
Proof.
  intros e os T0 Te0 f T Te s H. unfold trun in H. rewrite fold_left_app in H.
  destruct (fold_left _ os _) as [[T1 Te1] s1] eqn:E. cbn [fold_left tstep] in H. injection H as H1 H2 H3. subst T1 Te1 s.
  apply update_ok. apply (trun_ok e os T0 Te0 (Store None None f) T Te s1); [split; cbn; discriminate|exact E].
Qed.
Print Assumptions C73_current.
(* ... at the temperatures that were set last. *)
Theorem C73_last : forall e os1 os2 T0 Te0 s0 T,
  (forall o, In o os2 -> match o with TSet _ => False | _ => True end) ->
  fst (fst (trun e (os1 ++ TSet T :: os2) (T0, Te0, s0))) = T.
Proof.
  intros e os1 os2 T0 Te0 s0 T H. unfold trun. rewrite fold_left_app. cbn [fold_left].
  destruct (fold_left _ os1 _) as [[T1 Te1] s1]. cbn [tstep]. revert Te1 s1.
  induction os2 as [|o os IH]; intros Te1 s1; [reflexivity|]. cbn [fold_left].
  pose proof (H o (or_introl eq_refl)) as Ho. destruct o; [contradiction|..]; cbn [tstep]; apply IH; intros o Hi; apply H; now right.
Qed.
Print Assumptions C73_last.
Theorem C73_last_electron : forall e os1 os2 T0 Te0 s0 T,
  (forall o, In o os2 -> match o with TeSet _ => False | _ => True end) ->
  snd (fst (trun e (os1 ++ TeSet T :: os2) (T0, Te0, s0))) = T.
Proof.
  intros e os1 os2 T0 Te0 s0 T H. unfold trun. rewrite fold_left_app. cbn [fold_left].
  destruct (fold_left _ os1 _) as [[T1 Te1] s1]. cbn [tstep]. revert T1 s1.
  induction os2 as [|o os IH]; intros T1 s1; [reflexivity|]. cbn [fold_left].
  pose proof (H o (or_introl eq_refl)) as Ho. destruct o; try contradiction; cbn [tstep]; apply IH; intros o Hi; apply H; now right.
Qed.
Print Assumptions C73_last_electron.
Example C73_last_ex : fst (trun 1 ([TSet 300; TRead] ++ TeSet 9000 :: [TRead; TSet 400]) (1, 1, Store None None (fun _ => 0))) = (400, 9000).
Proof. reflexivity. Qed.

(** ** Relations *)

(* The ideal gas at one temperature. *)
Definition ideal_mu (hRT sR : nat -> R -> R) (p0 t p xk : R) (k : nat) : R :=
  GasConstant * t * (hRT k t - sR k t) + GasConstant * t * ln (p / p0) + GasConstant * t * ln xk.

(* The molar enthalpy is the documented sum, and the sum of the partial molar enthalpies; every species has
   enthalpy less R times its own temperature as energy. *)
Theorem C73_enthalpy : forall hRT e n T Te x, (e < n)%nat -> 0 < T ->
  enthalpy_mole hRT e n T Te x = sum_n (fun k => x k * (GasConstant * own e T Te k * hRT k (own e T Te k))) n /\
  enthalpy_mole hRT e n T Te x = sum_n (fun k => x k * hbar hRT e T Te k) n /\
  (forall k, hbar hRT e T Te k = GasConstant * own e T Te k * hRT k (own e T Te k)) /\
  (forall k, hbar hRT e T Te k - ubar hRT e T Te k = GasConstant * own e T Te k).
Proof.
  intros hRT e n T Te x He HT.
  assert (HB : forall k, hbar hRT e T Te k = GasConstant * own e T Te k * hRT k (own e T Te k)).
  { intros k. unfold hbar, at_e, h0, own, RT. destruct (Nat.eqb k e); field; lra. }
  assert (D : enthalpy_mole hRT e n T Te x = sum_n (fun k => x k * (GasConstant * own e T Te k * hRT k (own e T Te k))) n).
  { unfold enthalpy_mole, RT, h0.
    replace (GasConstant * (Te - T) * x e * hRT e (own e T Te e))
      with (sum_n (fun k => if Nat.eqb k e then GasConstant * (Te - T) * x e * hRT e (own e T Te e) else 0) n).
    2:{ rewrite (sum_n_single _ n e He); [now rewrite Nat.eqb_refl|].
        intros k _ Hk. destruct (Nat.eqb_spec k e); [contradiction|reflexivity]. }
    unfold sum_n. rewrite <- sum_of_scal, <- sum_of_plus. apply sum_of_ext. intros k _. unfold own.
    destruct (Nat.eqb_spec k e) as [->|Hk]; [rewrite Nat.eqb_refl|]; ring. }
  split; [exact D|]. split; [|split; [exact HB|]].
  - rewrite D. apply sum_n_ext. intros k _. now rewrite HB.
  - intros k. rewrite HB. unfold ubar, h0, own, RT, RTe. destruct (Nat.eqb k e); ring.
Qed.
Print Assumptions C73_enthalpy.

(* Chemical potential, partial molar enthalpy and entropy fit together at each species' own temperature, and so
   do the standard state properties. *)
Theorem C73_gibbs : forall hRT sR p0 e T Te c x k, 0 < T -> 0 < Te -> 0 < p0 -> 0 < c -> 0 < x e ->
  mu hRT sR p0 e T Te c x k = hbar hRT e T Te k - own e T Te k * sbar sR p0 e T Te c x k /\
  mu_star hRT sR p0 e T Te c x k = GasConstant * own e T Te k * gibbs_RT hRT sR p0 e T Te c x k /\
  gibbs_RT hRT sR p0 e T Te c x k = hRT k (own e T Te k) - entropy_R sR p0 e T Te c x k /\
  gibbs_ref hRT sR e T Te k = GasConstant * own e T Te k * (hRT k (own e T Te k) - sR k (own e T Te k)) /\
  volume_ref p0 e T Te k = GasConstant * own e T Te k / p0.
Proof.
  intros hRT sR p0 e T Te c x k HT HTe Hp Hc Hx. pose proof R_pos as HR.
  assert (P1 : 0 < pressure T c) by (unfold pressure; repeat (first [assumption | apply Rmult_lt_0_compat])).
  assert (P2 : 0 < electronPressure e Te c x) by (unfold electronPressure; repeat (first [assumption | apply Rmult_lt_0_compat])).
  assert (L : forall a, 0 < a -> ln (a / p0) = ln a - ln p0).
  { intros a Ha. unfold Rdiv. rewrite ln_mult, ln_Rinv by (try assumption; now apply Rinv_0_lt_compat). ring. }
  unfold mu, mu_star, gibbs_ref, hbar, sbar, gibbs_RT, entropy_R, volume_ref, at_e, g0, h0, s0, own, RT, RTe.
  rewrite !L by assumption. destruct (Nat.eqb k e); repeat split; field; lra.
Qed.
Print Assumptions C73_gibbs.
Example C73_ex : exists (T Te p0 c : R) (x : nat -> R), 0 < T /\ 0 < Te /\ 0 < p0 /\ 0 < c /\ 0 < x 1%nat /\ T <> Te.
Proof. exists 300, 10000, 101325, 1, (fun _ => 1 / 2). repeat split; lra. Qed.

(* Heavy species are those of the ideal gas at T. *)
Theorem C73_heavy : forall hRT sR p0 e T Te c x k, k <> e -> Small <= x k ->
  mu hRT sR p0 e T Te c x k = ideal_mu hRT sR p0 T (pressure T c) (x k) k.
Proof.
  intros hRT sR p0 e T Te c x k Hk Hx. unfold mu, mu_star, gibbs_ref, at_e, g0, h0, s0, own, RT, ideal_mu.
  destruct (Nat.eqb_spec k e); [contradiction|]. rewrite Rmax_right by exact Hx. ring.
Qed.
Print Assumptions C73_heavy.

(* Electrons are not, even at one temperature: the electron pressure already has their mole fraction, which is
   then counted once more, in the chemical potential and in the entropy. *)
Theorem C73_electron_refuted : forall hRT sR p0 e T c x, 0 < T -> 0 < p0 -> 0 < c -> Small <= x e ->
  mu hRT sR p0 e T T c x e = ideal_mu hRT sR p0 T (pressure T c) (x e) e + GasConstant * T * ln (x e) /\
  (x e < 1 -> mu hRT sR p0 e T T c x e < ideal_mu hRT sR p0 T (pressure T c) (x e) e) /\
  sbar sR p0 e T T c x e
  = GasConstant * sR e T - GasConstant * ln (pressure T c / p0) - GasConstant * ln (x e) - GasConstant * ln (x e).
Proof.
  intros hRT sR p0 e T c x HT Hp Hc Hx. pose proof R_pos as HR.
  assert (HS : 0 < Small) by (unfold Small; apply Rinv_0_lt_compat, pow_lt; lra).
  assert (P1 : 0 < pressure T c) by (unfold pressure; repeat (first [assumption | apply Rmult_lt_0_compat])).
  assert (EP : electronPressure e T c x = x e * pressure T c) by (unfold electronPressure, pressure; ring).
  assert (L : ln (electronPressure e T c x / p0) = ln (x e) + ln (pressure T c / p0)).
  { rewrite EP. unfold Rdiv. rewrite Rmult_assoc. rewrite ln_mult; [reflexivity|lra|].
    apply Rmult_lt_0_compat; [exact P1|now apply Rinv_0_lt_compat]. }
  assert (M : mu hRT sR p0 e T T c x e = ideal_mu hRT sR p0 T (pressure T c) (x e) e + GasConstant * T * ln (x e)).
  { unfold mu, mu_star, gibbs_ref, at_e, g0, h0, s0, own, RT, RTe, ideal_mu. rewrite Nat.eqb_refl, L.
    rewrite Rmax_right by exact Hx. field. lra. }
  split; [exact M|]. split.
  - intros X. rewrite M. assert (ln (x e) < 0) by (rewrite <- ln_1; apply ln_increasing; lra).
    assert (0 < GasConstant * T) by (now apply Rmult_lt_0_compat). nra.
  - unfold sbar, at_e, s0, own. rewrite Nat.eqb_refl, EP, ln_mult by lra. rewrite Rmax_right by exact Hx. ring.
Qed.
Print Assumptions C73_electron_refuted.

(* The pressure takes the electrons at the gas temperature: it is the sum of the partial pressures only when the
   two temperatures agree. *)
Theorem C73_pressure_refuted : forall e n T Te c x, (e < n)%nat -> 0 < c -> 0 < x e -> sum_n x n = 1 ->
  pressure T c = sum_n (fun k => GasConstant * (x k * c) * own e T Te k) n <-> T = Te.
Proof.
  intros e n T Te c x He Hc Hx S. pose proof R_pos as HR.
  assert (K : sum_n (fun k => GasConstant * (x k * c) * own e T Te k) n = pressure T c + GasConstant * (x e * c) * (Te - T)).
  { replace (GasConstant * (x e * c) * (Te - T))
      with (sum_n (fun k => if Nat.eqb k e then GasConstant * (x e * c) * (Te - T) else 0) n).
    2:{ rewrite (sum_n_single _ n e He); [now rewrite Nat.eqb_refl|].
        intros k _ Hk. destruct (Nat.eqb_spec k e); [contradiction|reflexivity]. }
    replace (pressure T c) with (GasConstant * c * T * sum_n x n) by (rewrite S; unfold pressure; ring).
    unfold sum_n. rewrite <- sum_of_scal, <- sum_of_plus. apply sum_of_ext. intros k _. unfold own.
    destruct (Nat.eqb_spec k e) as [->|Hk]; ring. }
  rewrite K. assert (P : 0 < GasConstant * (x e * c)) by (repeat (first [assumption | apply Rmult_lt_0_compat])). split; [intros H|intros ->; ring].
  assert (GasConstant * (x e * c) * (Te - T) = 0) by lra. apply Rmult_integral in H0. destruct H0; lra.
Qed.
Print Assumptions C73_pressure_refuted.
