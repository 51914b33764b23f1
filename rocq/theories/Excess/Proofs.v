(** Proofs about the solution models with an excess Gibbs energy. *)
From Coquelicot Require Import Coquelicot.
From Coq Require Import Reals List Arith Lra Lia.
From Verif Require Import Base.Outcome Base.RSum Base.Vec Units.Model Excess.Model Excess.Spec.
Import ListNotations.
Open Scope R_scope.

Lemma is_derive_sum_of {A} (f : A -> R -> R) (d : A -> R) L t :
  (forall i, In i L -> is_derive (f i) t (d i)) ->
  is_derive (fun t => sum_of (fun i => f i t) L) t (sum_of d L).
Proof.
  induction L as [|i L IH]; intros H.
  - rewrite sum_of_nil. apply (is_derive_ext (fun _ => 0)); [reflexivity|]. auto_derive; [exact I|reflexivity].
  - rewrite sum_of_cons.
    apply (is_derive_ext (fun t => f i t + sum_of (fun i => f i t) L));
      [intros u; rewrite sum_of_cons; reflexivity|].
    apply (is_derive_plus (f i) (fun t => sum_of (fun i => f i t) L));
      [apply H; left; reflexivity|apply IH; intros; apply H; right; assumption].
Qed.

Lemma is_derive_val (f : R -> R) (t a b : R) : is_derive f t a -> a = b :> R -> is_derive f t b.
Proof. intros H <-. exact H. Qed.

Definition dl (a k : nat) : R := if (a =? k)%nat then 1 else 0.

Lemma upd_dl x k t a : upd x k t a = x a + dl a k * (t - x k).
Proof. unfold upd, dl. destruct (Nat.eqb_spec a k); [subst; ring|ring]. Qed.

Lemma sum_n_plus f g n : sum_n (fun k => f k + g k) n = sum_n f n + sum_n g n.
Proof. induction n; rewrite ?sum_n_0, ?sum_n_S; [ring|rewrite IHn; ring]. Qed.
Lemma sum_n_scal_r f c n : sum_n (fun k => f k * c) n = sum_n f n * c.
Proof. induction n; rewrite ?sum_n_0, ?sum_n_S; [ring|rewrite IHn; ring]. Qed.
Lemma sum_n_scal f c n : sum_n (fun k => c * f k) n = c * sum_n f n.
Proof. induction n; rewrite ?sum_n_0, ?sum_n_S; [ring|rewrite IHn; ring]. Qed.
Lemma sum_n_sum_of {A} (f : A -> nat -> R) L n :
  sum_n (fun k => sum_of (fun i => f i k) L) n = sum_of (fun i => sum_n (f i) n) L.
Proof.
  induction n.
  - rewrite sum_n_0. symmetry. apply sum_of_0. intros. apply sum_n_0.
  - rewrite sum_n_S, IHn, <- sum_of_plus. apply sum_of_ext. intros. now rewrite sum_n_S.
Qed.

Lemma sum_n_dl a n (f : nat -> R) : (a < n)%nat -> sum_n (fun k => f k * dl a k) n = f a.
Proof.
  intros H. rewrite (sum_n_single _ n a H).
  - unfold dl. rewrite Nat.eqb_refl. ring.
  - intros k _ Hk. unfold dl. destruct (Nat.eqb_spec a k); [congruence|ring].
Qed.

Lemma sum_n_dl1 a n : (a < n)%nat -> sum_n (dl a) n = 1.
Proof.
  intros H. rewrite <- (sum_n_dl a n (fun _ => 1) H). apply sum_n_ext. intros; ring.
Qed.

Lemma total_upd x n k t : (k < n)%nat -> mixture x n -> total (upd x k t) n = 1 + (t - x k).
Proof.
  intros Hk Hx. unfold total.
  rewrite (sum_n_ext _ (fun a => x a + dl k a * (t - x k)))
    by (intros a _; rewrite upd_dl; unfold dl; rewrite Nat.eqb_sym; reflexivity).
  rewrite sum_n_plus, sum_n_scal_r, sum_n_dl1 by assumption. rewrite Hx. ring.
Qed.

Lemma frac_upd x n k t a : (k < n)%nat -> mixture x n ->
  fractions (upd x k t) n a = (x a + dl a k * (t - x k)) / (1 + (t - x k)).
Proof. intros. unfold fractions. now rewrite total_upd, upd_dl. Qed.

(** ** Margules *)
Lemma contrib_dl i g0 g1 x k :
  contrib i g0 g1 x k =
  - (x (iA i) * x (iB i) * (g0 + g1 * x (iB i))) - x (iA i) * x (iB i) * x (iB i) * g1
  + dl (iA i) k * (x (iB i) * (g0 + g1 * x (iB i)))
  + dl (iB i) k * (x (iA i) * (g0 + g1 * x (iB i)) + x (iA i) * x (iB i) * g1).
Proof.
  unfold contrib, dl. cbv zeta. rewrite (Nat.eqb_sym k (iA i)), (Nat.eqb_sym k (iB i)).
  destruct (iA i =? k)%nat, (iB i =? k)%nat; ring.
Qed.

Lemma delA_dl i k : delA i k = dl (iA i) k.
Proof. reflexivity. Qed.
Lemma delB_dl i k : (iA i <> iB i)%nat -> delB i k = dl (iB i) k.
Proof.
  intros H. unfold delB, dl. destruct (Nat.eqb_spec (iA i) k); [|reflexivity].
  destruct (Nat.eqb_spec (iB i) k); [congruence|reflexivity].
Qed.

(** The derivative of N X_A X_B (p + q X_B) by a mole number, at N = 1. *)
Lemma margules_term xa xb da db p q xk :
  is_derive (fun t => (1 + (t - xk)) *
     ((xa + da * (t - xk)) / (1 + (t - xk)) * ((xb + db * (t - xk)) / (1 + (t - xk))) *
      (p + q * ((xb + db * (t - xk)) / (1 + (t - xk)))))) xk
   (- (xa * xb * (p + q * xb)) - xa * xb * xb * q + da * (xb * (p + q * xb)) + db * (xa * (p + q * xb) + xa * xb * q)).
Proof.
  auto_derive.
  - repeat split; lra.
  - replace (xk + - xk) with 0 by ring. field.
Qed.

Lemma margules_general (L : list inter) (p q : inter -> R) n x k :
  (k < n)%nat -> mixture x n ->
  partial_at (fun m => total m n * sum_of (fun i => let X := fractions m n in
     X (iA i) * X (iB i) * (p i + q i * X (iB i))) L) x k
    (sum_of (fun i => contrib i (p i) (q i) x k) L).
Proof.
  intros Hk Hx. unfold partial_at. cbv zeta.
  apply (is_derive_ext (fun t => sum_of (fun i => (1 + (t - x k)) *
     ((x (iA i) + dl (iA i) k * (t - x k)) / (1 + (t - x k)) * ((x (iB i) + dl (iB i) k * (t - x k)) / (1 + (t - x k))) *
      (p i + q i * ((x (iB i) + dl (iB i) k * (t - x k)) / (1 + (t - x k)))))) L)).
  { intros t. rewrite sum_of_scal, total_upd by assumption. f_equal. apply sum_of_ext. intros i _.
    now rewrite !frac_upd by assumption. }
  rewrite (sum_of_ext _ _ L (fun i _ => contrib_dl i (p i) (q i) x k)).
  apply is_derive_sum_of. intros i _. apply margules_term.
Qed.

Lemma R_pos : 0 < GasConstant.
Proof.
  unfold GasConstant, Avogadro, Boltzmann.
  apply Rmult_lt_0_compat; (apply Rmult_lt_0_compat; [lra|apply powerRZ_lt; lra]).
Qed.

Lemma RT_pos T : 0 < T -> 0 < RT T.
Proof. intros. unfold RT. apply Rmult_lt_0_compat; [apply R_pos|assumption]. Qed.

Lemma contrib_scal i g0 g1 x k c : contrib i (c * g0) (c * g1) x k = c * contrib i g0 g1 x k.
Proof. rewrite !contrib_dl. ring. Qed.

Lemma lnac_RT L T x k : 0 < T ->
  RT T * lnac L T x k = sum_of (fun i => contrib i (h0 i - T * s0 i) (h1 i - T * s1 i) x k) L.
Proof.
  intros HT. unfold lnac. rewrite <- sum_of_scal. apply sum_of_ext. intros i _.
  rewrite <- contrib_scal. unfold g0_RT, g1_RT. pose proof (RT_pos T HT).
  f_equal; field; lra.
Qed.

Lemma margules_potential L n T x k : 0 < T -> (k < n)%nat -> mixture x n ->
  partial_at (margules_G L n T) x k (RT T * lnac L T x k).
Proof.
  intros HT Hk Hx. rewrite lnac_RT by assumption. unfold margules_G.
  now apply (margules_general L (fun i => h0 i - T * s0 i) (fun i => h1 i - T * s1 i)).
Qed.

Lemma margules_volume L n T x k : (k < n)%nat -> mixture x n ->
  partial_at (margules_V L n T) x k (sum_of (fun i => contrib i (vh0 i - T * vs0 i) (vh1 i - T * vs1 i) x k) L).
Proof.
  intros Hk Hx. unfold margules_V.
  now apply (margules_general L (fun i => vh0 i - T * vs0 i) (fun i => vh1 i - T * vs1 i)).
Qed.

Lemma sum_contrib i g0 g1 x n : (iA i < n)%nat -> (iB i < n)%nat -> mixture x n ->
  sum_n (fun k => x k * contrib i g0 g1 x k) n = x (iA i) * x (iB i) * (g0 + g1 * x (iB i)).
Proof.
  intros Ha Hb Hx.
  rewrite (sum_n_ext _ (fun k =>
    (x k * (- (x (iA i) * x (iB i) * (g0 + g1 * x (iB i))) - x (iA i) * x (iB i) * x (iB i) * g1)
     + (x k * dl (iA i) k) * (x (iB i) * (g0 + g1 * x (iB i))))
    + (x k * dl (iB i) k) * (x (iA i) * (g0 + g1 * x (iB i)) + x (iA i) * x (iB i) * g1)))
    by (intros k _; rewrite contrib_dl; ring).
  rewrite !sum_n_plus, !sum_n_scal_r, !sum_n_dl by assumption. rewrite Hx. ring.
Qed.

Lemma margules_euler_gen L n (p q : inter -> R) x : proper L n -> mixture x n ->
  sum_n (fun k => x k * sum_of (fun i => contrib i (p i) (q i) x k) L) n
  = sum_of (fun i => x (iA i) * x (iB i) * (p i + q i * x (iB i))) L.
Proof.
  intros HL Hx.
  rewrite (sum_n_ext _ (fun k => sum_of (fun i => x k * contrib i (p i) (q i) x k) L))
    by (intros; now rewrite sum_of_scal).
  rewrite (sum_n_sum_of (fun i k => x k * contrib i (p i) (q i) x k)). apply sum_of_ext. intros i Hi.
  destruct (HL i Hi) as (Ha & Hb & _). now apply sum_contrib.
Qed.

Lemma fractions_mixture x n k : mixture x n -> fractions x n k = x k.
Proof. intros H. unfold fractions, total. rewrite H. field. Qed.

Lemma margules_G_mixture L n T x : mixture x n ->
  margules_G L n T x = sum_of (fun i => x (iA i) * x (iB i) * ((h0 i - T * s0 i) + (h1 i - T * s1 i) * x (iB i))) L.
Proof.
  intros H. unfold margules_G, total. cbv zeta. rewrite H, Rmult_1_l. apply sum_of_ext. intros.
  now rewrite !fractions_mixture by assumption.
Qed.
Lemma margules_V_mixture L n T x : mixture x n ->
  margules_V L n T x = sum_of (fun i => x (iA i) * x (iB i) * ((vh0 i - T * vs0 i) + (vh1 i - T * vs1 i) * x (iB i))) L.
Proof.
  intros H. unfold margules_V, total. cbv zeta. rewrite H, Rmult_1_l. apply sum_of_ext. intros.
  now rewrite !fractions_mixture by assumption.
Qed.

Lemma margules_euler L n T x : 0 < T -> proper L n -> mixture x n ->
  sum_n (fun k => x k * (RT T * lnac L T x k)) n = margules_G L n T x.
Proof.
  intros HT HL Hx. rewrite margules_G_mixture by assumption.
  rewrite <- (margules_euler_gen L n (fun i => h0 i - T * s0 i) (fun i => h1 i - T * s1 i) x HL Hx).
  apply sum_n_ext. intros. now rewrite lnac_RT.
Qed.

(** Derivative by the mole number of species M of what an interaction adds for species K. *)
Lemma margules_dlnN_term xa xb aK bK aM bM g0 g1 xk :
  is_derive (fun t =>
     let XA := (xa + aM * (t - xk)) / (1 + (t - xk)) in
     let XB := (xb + bM * (t - xk)) / (1 + (t - xk)) in
     - (XA * XB * (g0 + g1 * XB)) - XA * XB * XB * g1
     + aK * (XB * (g0 + g1 * XB)) + bK * (XA * (g0 + g1 * XB) + XA * XB * g1)) xk
   (g0 * ((aM - xa) * (bK - xb) + (aK - xa) * (bM - xb))
    + 2 * g1 * ((aM - xa) * (bK - xb) * xb + (aK - xa) * (bM - xb) * xb + (bM - xb) * (bK - xb) * xa)).
Proof.
  cbv zeta. auto_derive.
  - repeat split; lra.
  - replace (xk + - xk) with 0 by ring. field.
Qed.

Lemma margules_dlnN L n T x K M v : proper L n -> (M < n)%nat -> mixture x n ->
  partial_at (fun m => lnac L T (fractions m n) K) x M v ->
  dlnac_dlnN L T x K M = x M * v.
Proof.
  intros HL HM Hx Hv. unfold dlnac_dlnN. f_equal. symmetry.
  apply is_derive_unique in Hv. rewrite <- Hv. apply is_derive_unique.
  apply (is_derive_ext (fun t => sum_of (fun i => contrib i (g0_RT T i) (g1_RT T i)
     (fun a => (x a + dl a M * (t - x M)) / (1 + (t - x M))) K) L)).
  { intros t. unfold lnac. apply sum_of_ext. intros i _. rewrite !contrib_dl.
    now rewrite !frac_upd by assumption. }
  apply is_derive_sum_of. intros i Hi. destruct (HL i Hi) as (_ & _ & Hne).
  rewrite !delA_dl, !delB_dl by assumption.
  eapply is_derive_ext; [intros t; symmetry; apply contrib_dl|].
  apply (margules_dlnN_term (x (iA i)) (x (iB i)) (dl (iA i) K) (dl (iB i) K) (dl (iA i) M) (dl (iB i) M)).
Qed.

Lemma margules_dlnN_ex L n T x K M : proper L n -> (M < n)%nat -> mixture x n ->
  exists v, partial_at (fun m => lnac L T (fractions m n) K) x M v.
Proof.
  intros HL HM Hx.
  exists (sum_of (fun i =>
    let XA := x (iA i) in
    let XB := x (iB i) in
    g0_RT T i * ((dl (iA i) M - XA) * (dl (iB i) K - XB) + (dl (iA i) K - XA) * (dl (iB i) M - XB))
    + 2 * g1_RT T i * ((dl (iA i) M - XA) * (dl (iB i) K - XB) * XB + (dl (iA i) K - XA) * (dl (iB i) M - XB) * XB
                       + (dl (iB i) M - XB) * (dl (iB i) K - XB) * XA)) L).
  unfold partial_at. cbv zeta.
  apply (is_derive_ext (fun t => sum_of (fun i => contrib i (g0_RT T i) (g1_RT T i)
     (fun a => (x a + dl a M * (t - x M)) / (1 + (t - x M))) K) L)).
  { intros t. unfold lnac. apply sum_of_ext. intros i _. rewrite !contrib_dl.
    now rewrite !frac_upd by assumption. }
  apply is_derive_sum_of. intros i Hi.
  eapply is_derive_ext; [intros t; symmetry; apply contrib_dl|].
  apply (margules_dlnN_term (x (iA i)) (x (iB i)) (dl (iA i) K) (dl (iB i) K) (dl (iA i) M) (dl (iB i) M)).
Qed.

Lemma margules_diag L T x k : dlnac_dlnN_diag L T x k = dlnac_dlnN L T x k k.
Proof.
  unfold dlnac_dlnN_diag, dlnac_dlnN. f_equal. apply sum_of_ext. intros i _. cbv zeta. ring.
Qed.

Lemma sum_dev a n x : (a < n)%nat -> mixture x n ->
  sum_n (fun k => x k * (dl a k - x a)) n = 0.
Proof.
  intros Ha Hx.
  rewrite (sum_n_ext _ (fun k => x k * dl a k + x k * (- x a))) by (intros; ring).
  rewrite sum_n_plus, sum_n_scal_r, sum_n_dl by assumption. rewrite Hx. ring.
Qed.

(** Gibbs-Duhem: both weighted sums vanish. *)
Lemma margules_gd_rows L n T x M : proper L n -> mixture x n ->
  sum_n (fun K => x K * dlnac_dlnN L T x K M) n = 0.
Proof.
  intros HL Hx. unfold dlnac_dlnN.
  match goal with |- sum_n (fun K => x K * (x M * sum_of (@?f K) L)) n = 0 =>
    rewrite (sum_n_ext _ (fun K => x M * sum_of (fun i => x K * f K i) L))
      by (intros K _; rewrite sum_of_scal; ring);
    rewrite sum_n_scal, (sum_n_sum_of (fun i K => x K * f K i)) end.
  rewrite sum_of_0; [ring|]. intros i Hi. destruct (HL i Hi) as (Ha & Hb & Hne). cbv zeta.
  rewrite (sum_n_ext _ (fun K =>
     x K * (dl (iB i) K - x (iB i)) * (g0_RT T i * (delA i M - x (iA i))
        + 2 * g1_RT T i * ((delA i M - x (iA i)) * x (iB i) + (delB i M - x (iB i)) * x (iA i)))
     + x K * (dl (iA i) K - x (iA i)) * ((g0_RT T i + 2 * g1_RT T i * x (iB i)) * (delB i M - x (iB i)))))
    by (intros K _; rewrite (delA_dl i K), (delB_dl i K Hne); ring).
  rewrite sum_n_plus, !sum_n_scal_r, !sum_dev by assumption. ring.
Qed.

Lemma margules_gd_cols L n T x K : proper L n -> mixture x n ->
  sum_n (fun M => dlnac_dlnN L T x K M) n = 0.
Proof.
  intros HL Hx. unfold dlnac_dlnN.
  match goal with |- sum_n (fun M => x M * sum_of (@?f M) L) n = 0 =>
    rewrite (sum_n_ext _ (fun M => sum_of (fun i => x M * f M i) L))
      by (intros M _; rewrite sum_of_scal; ring);
    rewrite (sum_n_sum_of (fun i M => x M * f M i)) end.
  apply sum_of_0. intros i Hi. destruct (HL i Hi) as (Ha & Hb & Hne). cbv zeta.
  rewrite (sum_n_ext _ (fun M =>
     x M * (dl (iB i) M - x (iB i)) * ((g0_RT T i + 2 * g1_RT T i * x (iB i)) * (delA i K - x (iA i))
        + 2 * g1_RT T i * (delB i K - x (iB i)) * x (iA i))
     + x M * (dl (iA i) M - x (iA i)) * ((g0_RT T i + 2 * g1_RT T i * x (iB i)) * (delB i K - x (iB i)))))
    by (intros M _; rewrite (delA_dl i M), (delB_dl i M Hne); ring).
  rewrite sum_n_plus, !sum_n_scal_r, !sum_dev by assumption. ring.
Qed.

(** Temperature derivatives. *)
Lemma contrib_lin i a b c d u v x k :
  contrib i (u * a + v * b) (u * c + v * d) x k = u * contrib i a c x k + v * contrib i b d x k.
Proof. rewrite !contrib_dl. ring. Qed.

Lemma margules_dT L T x k : 0 < T -> is_derive (fun t => lnac L t x k) T (dlnac_dT L T x k).
Proof.
  intros HT. pose proof R_pos as HR. unfold lnac, dlnac_dT. apply is_derive_sum_of. intros i _.
  apply (is_derive_val _ _ (contrib i (- h0 i / (GasConstant * T * T)) (- h1 i / (GasConstant * T * T)) x k)).
  2:{ f_equal; unfold invRTT; field; lra. }
  eapply is_derive_ext; [intros t; symmetry; apply contrib_dl|].
  rewrite contrib_dl. unfold g0_RT, g1_RT, RT. auto_derive.
  - assert (GasConstant * T <> 0) by (apply Rmult_integral_contrapositive_currified; lra).
    repeat split; assumption.
  - field. lra.
Qed.

Lemma margules_d2T L T x k : 0 < T -> is_derive (fun t => dlnac_dT L t x k) T (d2lnac_dT2 L T x k).
Proof.
  intros HT. pose proof R_pos as HR. unfold d2lnac_dT2, dlnac_dT. apply is_derive_sum_of. intros i _.
  eapply is_derive_ext; [intros t; symmetry; apply contrib_dl|].
  rewrite contrib_dl. unfold invRTT. auto_derive.
  - repeat split; lra.
  - field. lra.
Qed.

(** Chemical potential, enthalpy, entropy, heat capacity, for any model of the activity coefficients. *)
Lemma potentials_fit st lac dlac T x k : 0 < T -> consistent st T k ->
  chem_potential st lac T x k = partial_enthalpy st dlac T x k - T * partial_entropy st lac dlac T x k.
Proof.
  intros HT (H & _ & _). pose proof R_pos. unfold chem_potential, partial_enthalpy, partial_entropy, RT.
  rewrite H. field. lra.
Qed.

Lemma potential_slope st lac dlac T x k : 0 < T -> consistent st T k ->
  is_derive (fun t => lac t x k) T (dlac T x k) ->
  is_derive (fun t => chem_potential st lac t x k) T (- partial_entropy st lac dlac T x k).
Proof.
  intros HT (_ & H & _) Hl. pose proof R_pos. unfold chem_potential, RT.
  eapply is_derive_val.
  { apply (is_derive_plus (fun t => st_mu st t k)
             (fun t => GasConstant * t * (ln (Rmax (x k) SmallNumber) + lac t x k))); [exact H|].
    apply (is_derive_mult (fun t => GasConstant * t) (fun t => ln (Rmax (x k) SmallNumber) + lac t x k));
      [|apply (is_derive_plus (fun _ => ln (Rmax (x k) SmallNumber)) (fun t => lac t x k));
        [apply is_derive_const|exact Hl]|intros a b; apply Rmult_comm].
    apply (is_derive_val _ _ GasConstant); [auto_derive; [exact I|ring]|reflexivity]. }
  unfold partial_entropy, plus, mult, zero; cbn. field. lra.
Qed.

Lemma enthalpy_slope st dlac d2lac T x k : 0 < T -> consistent st T k ->
  is_derive (fun t => dlac t x k) T (d2lac T x k) ->
  is_derive (fun t => partial_enthalpy st dlac t x k) T (partial_cp st dlac d2lac T x k).
Proof.
  intros HT (_ & _ & H) Hl. pose proof R_pos. unfold partial_enthalpy, RT.
  eapply is_derive_val.
  { apply (is_derive_minus (fun t => st_h st t k) (fun t => GasConstant * t * t * dlac t x k)); [exact H|].
    apply (is_derive_mult (fun t => GasConstant * t * t) (fun t => dlac t x k));
      [|exact Hl|intros a b; apply Rmult_comm].
    apply (is_derive_val _ _ (2 * GasConstant * T)); [auto_derive; [exact I|ring]|reflexivity]. }
  unfold partial_cp, minus, plus, opp, mult; cbn. field. lra.
Qed.

(** Along a path. *)
Lemma margules_path L T x dT dX k : 0 < T ->
  is_derive (fun s => lnac L (T + s * dT) (fun j => x j + s * dX j) k) 0
    (dlnac_ds L T x dT dX k + (1 - INR (length L)) * (dlnac_dT L T x k * dT)).
Proof.
  intros HT. pose proof R_pos as HR.
  apply (is_derive_val _ _ (sum_of (fun i =>
    let XA := x (iA i) in
    let XB := x (iB i) in
    let dXA := dX (iA i) in
    let dXB := dX (iB i) in
    let g02g1XB := g0_RT T i + 2 * g1_RT T i * XB in
    let g2XAdXB := 2 * g1_RT T i * XA * dXB in
    contrib i (- h0 i * invRTT T) (- h1 i * invRTT T) x k * dT
    + ((- XB * dXA - XA * dXB) * g02g1XB - XB * g2XAdXB
    + (if (k =? iA i)%nat then dXB * g02g1XB else 0)
    + (if (k =? iB i)%nat then dXA * g02g1XB + g2XAdXB else 0))) L)).
  - unfold lnac. apply is_derive_sum_of. intros i _.
    eapply is_derive_ext; [intros t; symmetry; apply contrib_dl|].
    cbv zeta. rewrite contrib_dl. rewrite (Nat.eqb_sym k (iA i)), (Nat.eqb_sym k (iB i)).
    unfold g0_RT, g1_RT, RT, invRTT. auto_derive.
    + assert (GasConstant * (T + 0 * dT) <> 0).
      { replace (T + 0 * dT) with T by ring. apply Rmult_integral_contrapositive_currified; lra. }
      repeat split; assumption.
    + unfold dl. replace (T + 0 * dT) with T by ring. rewrite !Rmult_0_l, !Rplus_0_r.
      destruct (iA i =? k)%nat, (iB i =? k)%nat; field; lra.
  - cbv zeta. rewrite (sum_of_plus (fun i => contrib i (- h0 i * invRTT T) (- h1 i * invRTT T) x k * dT)).
    rewrite sum_of_scal_r. fold (dlnac_dT L T x k).
    unfold dlnac_ds. cbv zeta. set (D := dlnac_dT L T x k * dT). clearbody D.
    match goal with |- D + sum_of ?f L = sum_of ?g L + _ =>
      assert (E : sum_of g L = sum_of f L + INR (length L) * D) end.
    { induction L as [|i L' IH]; [rewrite !sum_of_nil; cbn; ring|].
      rewrite !sum_of_cons, IH. cbn [length]. rewrite S_INR. cbv beta.
      destruct (k =? iA i)%nat, (k =? iB i)%nat; ring. }
    rewrite E. ring.
Qed.
