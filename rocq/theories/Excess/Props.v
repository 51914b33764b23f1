(** C66: solution models with an excess Gibbs energy (Margules, Redlich-Kister). *)
From Coquelicot Require Import Coquelicot.
From Coq Require Import Reals List Arith Lra Lia.
From Verif Require Import Base.Outcome Base.RSum Base.Vec Units.Model Excess.Model Excess.Spec Excess.Proofs Excess.Proofs2.
Import ListNotations.
Open Scope R_scope.

Local Ltac req := match goal with |- ?a = ?b => change (@eq R a b) end.

(** The activity coefficients of the Margules model are those of its excess Gibbs energy: R T ln gamma
    of a species is the derivative by its mole number, and weighted with the mole fractions they add up
    to the excess Gibbs energy. *)
Theorem C66_margules : forall L n T x, 0 < T -> proper L n -> mixture x n ->
  (forall k, (k < n)%nat -> partial_at (margules_G L n T) x k (GasConstant * T * lnac L T x k))
  /\ sum_n (fun k => x k * (GasConstant * T * lnac L T x k)) n = margules_G L n T x.
Proof.
  intros L n T x HT HL Hx. split.
  - intros k Hk. now apply margules_potential.
  - now apply margules_euler.
Qed.
Print Assumptions C66_margules.

(** The same for the Redlich-Kister model, for any number of terms. *)
Theorem C66_redlich_kister : forall L n T x, 0 < T -> rk_proper L n -> mixture x n ->
  (forall k, (k < n)%nat -> partial_at (rk_G L n T) x k (GasConstant * T * rk_lnac L T x k))
  /\ sum_n (fun k => x k * (GasConstant * T * rk_lnac L T x k)) n = rk_G L n T x.
Proof.
  intros L n T x HT HL Hx. split.
  - intros k Hk. now apply rk_potential.
  - now apply rk_euler.
Qed.
Print Assumptions C66_redlich_kister.

(** The partial molar volumes of the Margules model are the derivatives of the total volume. *)
Theorem C66_volumes : forall st L n T x, proper L n -> mixture x n ->
  (forall k, (k < n)%nat ->
     partial_at (fun m => sum_n (fun j => m j * st_v st T j) n + margules_V L n T m) x k (partial_volume st L T x k))
  /\ sum_n (fun k => x k * partial_volume st L T x k) n
     = sum_n (fun k => x k * st_v st T k) n + margules_V L n T x.
Proof.
  intros st L n T x HL Hx. split.
  - intros k Hk. unfold partial_at, partial_volume.
    apply (is_derive_plus (fun t => sum_n (fun j => upd x k t j * st_v st T j) n) (fun t => margules_V L n T (upd x k t)) (x k)).
    + apply (is_derive_ext (fun t => sum_n (fun j => x j * st_v st T j) n + st_v st T k * (t - x k))).
      { intros t. rewrite (sum_n_ext (fun j => upd x k t j * st_v st T j)
          (fun j => x j * st_v st T j + st_v st T j * (t - x k) * dl k j)).
        - rewrite sum_n_plus, (sum_n_dl k n (fun j => st_v st T j * (t - x k)) Hk). reflexivity.
        - intros j _. rewrite upd_dl. unfold dl. rewrite (Nat.eqb_sym k j). ring. }
      auto_derive; [exact I|ring].
    + now apply margules_volume.
  - rewrite margules_V_mixture by assumption.
    rewrite <- (margules_euler_gen L n (fun i => vh0 i - T * vs0 i) (fun i => vh1 i - T * vs1 i) x HL Hx).
    rewrite <- sum_n_plus. apply sum_n_ext. intros k _. unfold partial_volume. ring.
Qed.
Print Assumptions C66_volumes.

(** The derivatives by the logarithms of the mole numbers, as the caller finds them in the array:
    position n * M + K holds d ln gamma_K / d ln n_M; the diagonal function agrees with it. *)
Theorem C66_margules_moles : forall L n T x K M, proper L n -> mixture x n -> (K < n)%nat -> (M < n)%nat ->
  (exists v, partial_at (fun m => lnac L T (fractions m n) K) x M v
             /\ get_dlnac_dlnN L n T x (n * M + K) = x M * v)
  /\ dlnac_dlnN_diag L T x K = get_dlnac_dlnN L n T x (n * K + K).
Proof.
  intros L n T x K M HL Hx HK HM.
  assert (E : forall a, (a < n)%nat -> get_dlnac_dlnN L n T x (n * a + K) = dlnac_dlnN L T x K a).
  { intros a Ha. unfold get_dlnac_dlnN.
    replace ((n * a + K) mod n)%nat with K
      by (rewrite Nat.mul_comm, Nat.add_comm, Nat.mod_add by lia; symmetry; apply Nat.mod_small; assumption).
    replace ((n * a + K) / n)%nat with a
      by (rewrite Nat.mul_comm, Nat.div_add_l by lia; rewrite (Nat.div_small K n) by assumption; lia).
    reflexivity. }
  split.
  - destruct (margules_dlnN_ex L n T x K M HL HM Hx) as (v & Hv).
    exists v. split; [exact Hv|]. rewrite E by assumption. now apply (margules_dlnN L n).
  - rewrite E by assumption. apply margules_diag.
Qed.
Print Assumptions C66_margules_moles.

(** Gibbs-Duhem: at constant temperature and pressure the changes of ln gamma, weighted with the mole
    fractions, cancel; and scaling all mole numbers changes nothing. *)
Theorem C66_gibbs_duhem : forall L n T x, proper L n -> mixture x n ->
  (forall M, (M < n)%nat -> sum_n (fun K => x K * get_dlnac_dlnN L n T x (n * M + K)) n = 0)
  /\ (forall K, (K < n)%nat -> sum_n (fun M => get_dlnac_dlnN L n T x (n * M + K)) n = 0).
Proof.
  intros L n T x HL Hx.
  assert (E : forall a K, (K < n)%nat -> get_dlnac_dlnN L n T x (n * a + K) = dlnac_dlnN L T x K a).
  { intros a K HK. unfold get_dlnac_dlnN.
    replace ((n * a + K) mod n)%nat with K
      by (rewrite Nat.mul_comm, Nat.add_comm, Nat.mod_add by lia; symmetry; apply Nat.mod_small; assumption).
    replace ((n * a + K) / n)%nat with a
      by (rewrite Nat.mul_comm, Nat.div_add_l by lia; rewrite (Nat.div_small K n) by assumption; lia).
    reflexivity. }
  split.
  - intros M HM. rewrite (sum_n_ext _ (fun K => x K * dlnac_dlnN L T x K M)) by (intros K HK; now rewrite E).
    now apply margules_gd_rows.
  - intros K HK. rewrite (sum_n_ext _ (fun M => dlnac_dlnN L T x K M)) by (intros M HM; now rewrite E).
    now apply margules_gd_cols.
Qed.
Print Assumptions C66_gibbs_duhem.

(** The reported temperature derivatives are the derivatives of the reported values. *)
Theorem C66_temperature : forall L T x k, 0 < T ->
  is_derive (fun t => lnac L t x k) T (dlnac_dT L T x k)
  /\ is_derive (fun t => dlnac_dT L t x k) T (d2lnac_dT2 L T x k).
Proof. intros L T x k HT. split; [now apply margules_dT|now apply margules_d2T]. Qed.
Print Assumptions C66_temperature.

Theorem C66_temperature_rk : forall L n T x k, 0 < T -> rk_proper L n ->
  is_derive (fun t => rk_lnac L t x k) T (rk_dlnac_dT L T x k)
  /\ is_derive (fun t => rk_dlnac_dT L t x k) T (rk_d2lnac_dT2 L T x k).
Proof. intros L n T x k HT HL. split; [now apply (rk_dT L n)|now apply (rk_d2T L n)]. Qed.
Print Assumptions C66_temperature_rk.

(** Partial molar properties: mu = h - T s, d mu / dT = - s, d h / dT = cp, in both models. *)
Theorem C66_relations : forall st L T x k, 0 < T -> consistent st T k ->
  let mu t := chem_potential st (lnac L) t x k in
  let h t := partial_enthalpy st (dlnac_dT L) t x k in
  let s := partial_entropy st (lnac L) (dlnac_dT L) T x k in
  mu T = h T - T * s
  /\ is_derive mu T (- s)
  /\ is_derive h T (partial_cp st (dlnac_dT L) (d2lnac_dT2 L) T x k).
Proof.
  intros st L T x k HT Hst. cbv zeta. split; [now apply potentials_fit|split].
  - apply potential_slope; [assumption|assumption|now apply margules_dT].
  - apply enthalpy_slope; [assumption|assumption|now apply margules_d2T].
Qed.
Print Assumptions C66_relations.

Theorem C66_relations_rk : forall st L n T x k, 0 < T -> rk_proper L n -> consistent st T k ->
  let mu t := chem_potential st (rk_lnac L) t x k in
  let h t := partial_enthalpy st (rk_dlnac_dT L) t x k in
  let s := partial_entropy st (rk_lnac L) (rk_dlnac_dT L) T x k in
  mu T = h T - T * s
  /\ is_derive mu T (- s)
  /\ is_derive h T (partial_cp_RK st T x k).
Proof.
  intros st L n T x k HT HL Hst. cbv zeta. split; [now apply potentials_fit|split].
  - apply potential_slope; [assumption|assumption|now apply (rk_dT L n)].
  - rewrite <- (rk_cp_plain L n) by assumption.
    apply enthalpy_slope; [assumption|assumption|now apply (rk_d2T L n)].
Qed.
Print Assumptions C66_relations_rk.

(** A known chemical potential: with mole fraction above the cut-off the ideal part is R T ln x. *)
Theorem C66_potential_value : forall st L T x k, SmallNumber <= x k ->
  chem_potential st (lnac L) T x k = st_mu st T k + GasConstant * T * ln (x k) + GasConstant * T * lnac L T x k.
Proof. intros. unfold chem_potential, RT. rewrite Rmax_left by assumption. ring. Qed.
Print Assumptions C66_potential_value.

(** Derivatives along a path, Margules: right when the temperature does not change or there is exactly
    one interaction. *)
Theorem C66_margules_path : forall L T x dT dX k, 0 < T -> (dT = 0 \/ length L = 1%nat) ->
  is_derive (fun s => lnac L (T + s * dT) (fun j => x j + s * dX j) k) 0 (dlnac_ds L T x dT dX k).
Proof.
  intros L T x dT dX k HT H.
  eapply is_derive_val; [now apply margules_path|]. destruct H as [-> | ->]; cbn; ring.
Qed.
Print Assumptions C66_margules_path.

(** With two interactions the temperature term is counted twice: for every temperature and every
    composition, the error is exactly the missing factor. *)
Theorem C66_margules_path_refuted : exists L T x dT dX k v, 0 < T /\ mixture x 2 /\ proper L 2 /\
  is_derive (fun s => lnac L (T + s * dT) (fun j => x j + s * dX j) k) 0 v /\ dlnac_ds L T x dT dX k = 2 * v /\ v <> 0.
Proof.
  pose proof R_pos as HR.
  set (i := Int 0 1 GasConstant 0 0 0 0 0 0 0).
  set (x := fun _ : nat => 1 / 2).
  pose proof (margules_path [i; i] 1 x 1 (fun _ => 0) 0 ltac:(lra)) as P.
  assert (C : contrib i (- h0 i * invRTT 1) (- h1 i * invRTT 1) x 0 = - (1 / 4)).
  { unfold contrib, invRTT, x, i. cbn [iA iB h0 h1]. cbv zeta. cbn [Nat.eqb]. field. lra. }
  assert (D : dlnac_dT [i; i] 1 x 0 = - (1 / 2)).
  { unfold dlnac_dT. rewrite !sum_of_cons, sum_of_nil, C. lra. }
  assert (S : dlnac_ds [i; i] 1 x 1 (fun _ => 0) 0 = - 1).
  { unfold dlnac_ds. rewrite !sum_of_cons, sum_of_nil, D. unfold i, x. cbn [iA iB Nat.eqb]. cbv zeta. lra. }
  exists [i; i], 1, x, 1, (fun _ => 0), 0%nat, (- (1 / 2)).
  split; [lra|]. split; [unfold mixture, x; rewrite !sum_n_S, sum_n_0; lra|].
  split. { intros j Hj. assert (j = i) as -> by (destruct Hj as [ <- | [ <- | [] ] ]; reflexivity). unfold i; cbn [iA iB]. lia. }
  split; [eapply is_derive_val; [exact P|]; rewrite S, D; cbn; lra|].
  split; [rewrite S; lra|lra].
Qed.
Print Assumptions C66_margules_path_refuted.

(** d ln gamma / d ln X of the Margules model: for a regular solution (h1 = s1 = 0) the reported value
    is zero for every composition; the derivative of ln gamma of a binary mixture is not. *)
Theorem C66_margules_dlnX_refuted : forall T x h, 0 < T -> mixture x 2 -> 0 < x 0%nat -> 0 < x 1%nat -> h <> 0 ->
  let L := [Int 0 1 h 0 0 0 0 0 0 0] in
  dlnac_dlnX_diag L T x 0 = 0
  /\ exists v, is_derive (fun t => lnac L T (fun j => if (j =? 0)%nat then x j + t else x j - t) 0) 0 v /\ x 0%nat * v <> 0.
Proof.
  intros T x h HT Hx H0 H1 Hh L. pose proof R_pos as HR.
  assert (E : x 1%nat = 1 - x 0%nat).
  { unfold mixture in Hx. rewrite !sum_n_S, sum_n_0 in Hx. lra. }
  split.
  - unfold dlnac_dlnX_diag, L. rewrite sum_of_cons, sum_of_nil. unfold g1_RT. cbn [iA iB h0 h1 s1 Nat.eqb]. cbv zeta.
    unfold Rdiv. ring.
  - exists (- (2 * x 1%nat * (h / (GasConstant * T)))). split.
    + unfold lnac, L.
      apply (is_derive_ext (fun t => (1 - (x 0%nat + t)) * (x 1%nat - t) * (h / (GasConstant * T)))).
      { intros t. rewrite sum_of_cons, sum_of_nil. unfold contrib, g0_RT, g1_RT, RT.
        cbn [iA iB h0 h1 s0 s1 Nat.eqb]. cbv zeta. req. field. lra. }
      auto_derive; [exact I|]. rewrite E. field. lra.
    + assert (h / (GasConstant * T) <> 0).
      { unfold Rdiv. apply Rmult_integral_contrapositive_currified; [assumption|]. apply Rinv_neq_0_compat.
        apply Rmult_integral_contrapositive_currified; lra. }
      intros Z. apply Rmult_integral in Z. destruct Z as [Z|Z]; [lra|].
      apply Ropp_eq_0_compat in Z. rewrite Ropp_involutive in Z.
      apply Rmult_integral in Z. destruct Z as [Z|Z]; lra.
Qed.
Print Assumptions C66_margules_dlnX_refuted.

(** The density ignores the excess volume: the volume per mole that follows from density and molecular
    weight differs from the sum of the partial molar volumes by exactly the excess volume. *)
Theorem C66_density_refuted : forall st L n T W x, proper L n -> mixture x n -> 0 < W ->
  sum_n (fun k => x k * st_v st T k) n <> 0 ->
  W / density st n T W x = sum_n (fun k => x k * partial_volume st L T x k) n - margules_V L n T x.
Proof.
  intros st L n T W x HL Hx HW HV.
  rewrite (proj2 (C66_volumes st L n T x HL Hx)). unfold density.
  rewrite (sum_n_ext (fun k => st_v st T k * x k) (fun k => x k * st_v st T k)) by (intros; ring).
  field. split; lra.
Qed.
Print Assumptions C66_density_refuted.

(** d ln gamma / d ln X of the Redlich-Kister model in a binary mixture: X_k times the derivative when
    the other mole fraction makes room. *)
Theorem C66_rk_dlnX : forall L T x k, rk_proper L 2 -> (k < 2)%nat ->
  exists v, is_derive (fun t => rk_lnac L T (fun j => if (j =? k)%nat then x j + t else x j - t) k) 0 v
            /\ rk_dlnX_diag L T x k = x k * v.
Proof.
  intros L T x k HL Hk.
  exists (sum_of (fun i => let l := map (rk_A T) (rhs i) in let xa := x (rA i) in let xb := x (rB i) in
    if (rA i =? k)%nat then
      (- (1 - xa + xb) * pv l (xa - xb) + 2 * (1 - xa) * xb * pd l (xa - xb)
       + pd l (xa - xb) * (xb * (1 - 2 * xa + xb) - xa * (1 - xa + 2 * xb))
       + 2 * xa * xb * pdd l (xa - xb) * (1 - xa + xb))
    else (- (1 - xb + xa) * pv l (xa - xb) - 2 * (1 - xb) * xa * pd l (xa - xb)
       + pd l (xa - xb) * (xa * (2 * xb - xa - 1) - xb * (- 2 * xa + xb - 1))
       - 2 * xa * xb * pdd l (xa - xb) * (- xa - 1 + xb))) L).
  split.
  - unfold rk_lnac. apply is_derive_sum_of. intros i Hi. destruct (HL i Hi) as (Ha & Hb & Hne).
    cbv zeta. destruct (Nat.eqb_spec (rA i) k) as [Ea|Ea].
    + eapply is_derive_ext; [|apply rk_exchange_A]. intros t. cbv zeta. unfold rk_contrib. cbv zeta beta.
      rewrite rk_loop_0. rewrite Ea, Nat.eqb_refl.
      destruct (Nat.eqb_spec (rB i) k); [congruence|]. cbv iota. reflexivity.
    + assert (Eb : rB i = k) by lia.
      eapply is_derive_ext; [|apply rk_exchange_B]. intros t. cbv zeta. unfold rk_contrib. cbv zeta beta.
      rewrite rk_loop_0. rewrite Eb, Nat.eqb_refl.
      destruct (Nat.eqb_spec (rA i) k); [congruence|]. cbv iota. reflexivity.
  - unfold rk_dlnX_diag. rewrite <- sum_of_scal. apply sum_of_ext. intros i Hi.
    destruct (HL i Hi) as (Ha & Hb & Hne). unfold rk_dlnX_contrib. cbv zeta. rewrite rk_loop2_0.
    destruct (Nat.eqb_spec (rA i) k) as [Ea|Ea]; [rewrite Ea; ring|].
    destruct (Nat.eqb_spec (rB i) k) as [Eb|Eb]; [rewrite Eb; ring|lia].
Qed.
Print Assumptions C66_rk_dlnX.

(** The matrix behind the Redlich-Kister path derivatives is R T times the matrix of derivatives, in the
    rows of species that are not the second species of an interaction. *)
Theorem C66_rk_matrix : forall L n T x k j, 0 < T -> rk_proper L n -> (forall i, In i L -> rB i <> k) ->
  exists v, partial_at (fun y => rk_lnac L T y k) x j v /\ rk_dX L T x k j = GasConstant * T * v.
Proof.
  intros L n T x k j HT HL HB. pose proof R_pos as HR.
  exists (/ RT T * rk_dX L T x k j). split.
  - unfold rk_dX. rewrite <- sum_of_scal. unfold partial_at, rk_lnac. apply is_derive_sum_of. intros i Hi.
    destruct (HL i Hi) as (_ & _ & Hne).
    apply (is_derive_ext (fun t => / RT T * rk_contrib i (map (rk_B T) (rhs i)) (upd x j t) k)).
    { intros t. rewrite rk_A_B by assumption. now rewrite rk_contrib_scal. }
    apply (is_derive_scal (fun t => rk_contrib i (map (rk_B T) (rhs i)) (upd x j t) k)).
    apply rk_entry; [assumption|now apply HB].
  - unfold RT. field. lra.
Qed.
Print Assumptions C66_rk_matrix.

(** Path derivatives of the Redlich-Kister model: R T times too large even for the simplest mixture, *)
Theorem C66_rk_path_refuted : forall T h, 0 < T -> h <> 0 -> GasConstant * T <> 1 ->
  let L := [Rki 0 1 [(h, 0); (0, 0)]] in
  let x := fun _ : nat => 1 / 2 in
  let dX := fun j => if (j =? 0)%nat then 1 else - 1 in
  exists l v, rk_dlnac_ds L 2 T x 0 dX = Ok l
    /\ is_derive (fun s => rk_lnac L T (fun j => x j + s * dX j) 0) 0 v
    /\ nth 0 l 0 = GasConstant * T * v /\ nth 0 l 0 <> v.
Proof.
  intros T h HT Hh H1 L x dX. pose proof R_pos as HR.
  assert (E : rk_dlnac_ds L 2 T x 0 dX = Ok (map (fun k => rk_dlnac_dT L T x k * 0 + sum_n (fun j => rk_dX L T x k j * dX j) 2) [0; 1]%nat)) by reflexivity.
  rewrite E. eexists _, (- (h / (GasConstant * T))). split; [reflexivity|].
  assert (V : nth 0 (map (fun k => rk_dlnac_dT L T x k * 0 + sum_n (fun j => rk_dX L T x k j * dX j) 2) [0; 1]%nat) 0 = - h).
  { cbn [map nth]. rewrite !sum_n_S, sum_n_0. unfold rk_dX, L. rewrite !sum_of_cons, !sum_of_nil.
    unfold rk_dX_contrib, dX, x. cbn [rA rB rhs map Nat.eqb rk_loop2 Nat.leb]. unfold rk_B. cbn [fst snd].
    cbv beta iota zeta. cbn [INR]. lra. }
  split; [|split].
  - unfold rk_lnac, L. apply (is_derive_ext (fun s => (1 / 2 - s) * (1 / 2 - s) * (h / (GasConstant * T)))).
    { intros s. rewrite sum_of_cons, sum_of_nil. unfold rk_contrib. cbv zeta. cbn [rA rB rhs map Nat.eqb].
      rewrite rk_loop_0. unfold x, dX, rk_A. cbn [pv pd fst snd Nat.eqb]. req. field. lra. }
    auto_derive; [exact I|]. field. lra.
  - rewrite V. field. lra.
  - rewrite V. intros Z. apply H1.
    assert (h = h / (GasConstant * T)) by lra.
    apply (Rmult_eq_reg_l h); [|assumption]. rewrite Rmult_1_r.
    transitivity (h / (GasConstant * T) * (GasConstant * T)); [now rewrite <- H|field; lra].
Qed.
Print Assumptions C66_rk_path_refuted.

(** and wrong beyond any factor for the second species: the reported value is not zero where ln gamma
    does not change at all. *)
Theorem C66_rk_path_row_refuted : forall T h, 0 < T -> h <> 0 ->
  let L := [Rki 0 1 [(0, 0); (h, 0)]] in
  let x := fun _ : nat => 1 / 2 in
  let dX := fun j => if (j =? 0)%nat then 1 else - 1 in
  exists l, rk_dlnac_ds L 2 T x 0 dX = Ok l
    /\ is_derive (fun s => rk_lnac L T (fun j => x j + s * dX j) 1) 0 0 /\ nth 1 l 0 = h.
Proof.
  intros T h HT Hh L x dX. pose proof R_pos as HR.
  assert (E : rk_dlnac_ds L 2 T x 0 dX = Ok (map (fun k => rk_dlnac_dT L T x k * 0 + sum_n (fun j => rk_dX L T x k j * dX j) 2) [0; 1]%nat)) by reflexivity.
  rewrite E. eexists. split; [reflexivity|]. split.
  - unfold rk_lnac, L.
    apply (is_derive_ext (fun s => (h / (GasConstant * T)) * ((1 / 2 + s) * (1 / 2 + s) * (2 * s) - (1 / 2 + s) * (1 / 2 - s) * (1 + 2 * s)))).
    { intros s. rewrite sum_of_cons, sum_of_nil. unfold rk_contrib. cbv zeta. cbn [rA rB rhs map Nat.eqb].
      rewrite rk_loop_0. unfold x, dX, rk_A. cbn [pv pd fst snd Nat.eqb]. req. field. lra. }
    auto_derive; [exact I|]. field. lra.
  - cbn [map nth]. rewrite !sum_n_S, sum_n_0. unfold rk_dX, L. rewrite !sum_of_cons, !sum_of_nil.
    unfold rk_dX_contrib, dX, x. cbn [rA rB rhs map Nat.eqb rk_loop2 Nat.leb]. unfold rk_B. cbn [fst snd].
    cbv beta iota zeta. cbn [INR]. lra.
Qed.
Print Assumptions C66_rk_path_row_refuted.

(** An interaction with fewer terms than the phase has species: memory outside the matrix is used. *)
Theorem C66_rk_memory_refuted : forall L i n T x dT dX, (length (rhs i) < n)%nat ->
  rk_dlnac_ds (L ++ [i]) n T x dT dX = UB.
Proof.
  intros L i n T x dT dX H. unfold rk_dlnac_ds, rk_dX_dim. rewrite map_app. cbn [map].
  rewrite last_last. destruct (Nat.leb_spec n (length (rhs i))); [lia|reflexivity].
Qed.
Print Assumptions C66_rk_memory_refuted.

(** The mole number derivatives of the Redlich-Kister model are never computed: the caller gets zeros
    for a mixture in which they are not zero. *)
Theorem C66_rk_moles_refuted : forall T h, 0 < T -> h <> 0 ->
  let L := [Rki 0 1 [(h, 0)]] in
  let x := fun _ : nat => 1 / 2 in
  exists v, partial_at (fun m => rk_lnac L T (fractions m 2) 0) x 0 v /\ x 0%nat * v <> 0
            /\ rk_get_dlnac_dlnN L 2 T x (2 * 0 + 0) = 0.
Proof.
  intros T h HT Hh L x. pose proof R_pos as HR.
  assert (Hx : mixture x 2) by (unfold mixture, x; rewrite !sum_n_S, sum_n_0; lra).
  exists (- (1 / 2) * (h / (GasConstant * T))). split; [|split; [|reflexivity]].
  - unfold partial_at, rk_lnac, L.
    apply (is_derive_ext (fun t => (h / (GasConstant * T)) * ((1 - (1 / 2 + (t - 1 / 2)) / (1 + (t - 1 / 2))) * (1 / 2 / (1 + (t - 1 / 2)))))).
    { intros t. rewrite sum_of_cons, sum_of_nil. unfold rk_contrib. cbv zeta. cbn [rA rB rhs map Nat.eqb].
      rewrite rk_loop_0. rewrite !(frac_upd x 2 0 t) by (lia || assumption). unfold rk_A, x, dl. cbn [pv pd fst snd Nat.eqb].
      unfold Rdiv. set (z := / (1 + (t - 1 * / 2))). clearbody z. set (g := / (GasConstant * T)). clearbody g. req. ring. }
    apply (is_derive_ext_loc (fun t => h / (GasConstant * T) * (1 / 4 / ((1 / 2 + t) * (1 / 2 + t))))).
    { assert (P : locally (x 0%nat) (fun t => 0 < t)) by (apply (open_gt 0 (x 0%nat)); unfold x; lra).
      revert P. apply filter_imp. intros t Ht. req. field. lra. }
    unfold x. auto_derive; [lra|]. field. lra.
  - unfold x. assert (h / (GasConstant * T) <> 0).
    { unfold Rdiv. apply Rmult_integral_contrapositive_currified; [assumption|]. apply Rinv_neq_0_compat.
      apply Rmult_integral_contrapositive_currified; lra. }
    lra.
Qed.
Print Assumptions C66_rk_moles_refuted.

(** Non-vacuity: a ternary mixture with two interactions, ln gamma not zero. *)
Definition demo_L : list inter := [Int 0 1 GasConstant GasConstant 0 0 0 0 0 0; Int 2 0 GasConstant 0 0 0 0 0 0 0].
Definition demo_x : vec := fun k => nth k [1 / 2; 1 / 4; 1 / 4] 0.
Example C66_demo : proper demo_L 3 /\ mixture demo_x 3 /\ lnac demo_L 1 demo_x 0 = 1 / 4.
Proof.
  pose proof R_pos as HR. split; [|split].
  - intros i [ <- | [ <- | [] ] ]; cbn [iA iB]; lia.
  - unfold mixture, demo_x. rewrite !sum_n_S, sum_n_0. cbn [nth]. lra.
  - unfold lnac, demo_L. rewrite !sum_of_cons, sum_of_nil. unfold contrib, g0_RT, g1_RT, RT, demo_x.
    cbn [iA iB h0 h1 s0 s1 Nat.eqb nth]. cbv zeta. field. lra.
Qed.
Definition demo_rk : list rki := [Rki 0 1 [(GasConstant, 0); (2 * GasConstant, 0); (GasConstant, 0)]].
Example C66_demo_rk : rk_proper demo_rk 3 /\ rk_lnac demo_rk 1 demo_x 2 = - (1 / 8 * (1 + 2 * 2 / 4 + 3 / 16)).
Proof.
  pose proof R_pos as HR. split.
  - intros i [ <- | [] ]; cbn [rA rB]; lia.
  - unfold rk_lnac, demo_rk. rewrite sum_of_cons, sum_of_nil. unfold rk_contrib. cbv zeta. rewrite rk_loop_0.
    unfold demo_x, rk_A. cbn [rA rB rhs map pv pd fst snd Nat.eqb nth]. field. lra.
Qed.
