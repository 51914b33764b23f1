(** Proofs about the Redlich-Kister model. *)
From Coquelicot Require Import Coquelicot.
From Coq Require Import Reals List Arith Lra Lia.
From Verif Require Import Base.Outcome Base.RSum Base.Vec Units.Model Excess.Model Excess.Spec Excess.Proofs.
Import ListNotations.
Open Scope R_scope.

(** The polynomial with coefficients l, and its first two derivatives. *)
Fixpoint pv (l : list R) (d : R) : R := match l with [] => 0 | a :: l => a + d * pv l d end.
Fixpoint pd (l : list R) (d : R) : R := match l with [] => 0 | a :: l => pv l d + d * pd l d end.
Fixpoint pdd (l : list R) (d : R) : R := match l with [] => 0 | a :: l => 2 * pd l d + d * pdd l d end.

Lemma pv_derive l d : is_derive (pv l) d (pd l d).
Proof.
  induction l as [|a l IH]; cbn.
  - apply (is_derive_ext (fun _ => 0)); [reflexivity|]. auto_derive; [exact I|reflexivity].
  - apply (is_derive_ext (fun d => a + d * pv l d)); [reflexivity|].
    auto_derive; [repeat split; eexists; exact IH|]. 
    replace (Derive (fun x => pv l x) d) with (pd l d) by (symmetry; apply is_derive_unique; exact IH). ring.
Qed.
Lemma pv_D l d : Derive (fun z => pv l z) d = pd l d.
Proof. apply is_derive_unique, pv_derive. Qed.
Lemma pd_derive l d : is_derive (pd l) d (pdd l d).
Proof.
  induction l as [|a l IH]; cbn.
  - apply (is_derive_ext (fun _ => 0)); [reflexivity|]. auto_derive; [exact I|reflexivity].
  - apply (is_derive_ext (fun d => pv l d + d * pd l d)); [reflexivity|].
    pose proof (pv_derive l d) as Hv.
    auto_derive; [repeat split; eexists; eassumption|].
    rewrite pv_D.
    replace (Derive (fun x => pd l x) d) with (pdd l d) by (symmetry; apply is_derive_unique; exact IH). ring.
Qed.
Lemma pd_D l d : Derive (fun z => pd l z) d = pdd l d.
Proof. apply is_derive_unique, pd_derive. Qed.

Lemma pv_spec T l d :
  sum_n (fun j => let hs := nth j l (0, 0) in (fst hs - T * snd hs) * d ^ j) (length l) = pv (map (rk_B T) l) d.
Proof.
  cbv zeta. induction l as [|hs l IH]; [apply sum_n_0|].
  cbn [length map pv]. rewrite sum_n_shift. cbn [nth pow]. rewrite <- IH, <- sum_n_scal.
  unfold rk_B at 1. f_equal; [ring|]. apply sum_n_ext. intros. ring.
Qed.

Lemma pv_scal c l d : pv (map (Rmult c) l) d = c * pv l d.
Proof. induction l as [|a l IH]; cbn; [ring|]. rewrite IH. ring. Qed.
Lemma pd_scal c l d : pd (map (Rmult c) l) d = c * pd l d.
Proof. induction l as [|a l IH]; cbn; [ring|]. rewrite IH, pv_scal. ring. Qed.
Lemma pdd_scal c l d : pdd (map (Rmult c) l) d = c * pdd l d.
Proof. induction l as [|a l IH]; cbn; [ring|]. rewrite IH, pd_scal. ring. Qed.

(** The loops compute the polynomial and its derivatives. *)
Lemma rk_loop_S l : forall m d s s2 sM,
  rk_loop l (S m) d (d ^ S m) (d ^ m) s s2 sM =
  (s + d ^ S m * pv l d,
   s2 + d ^ S m * ((INR (S m) + 1) * pv l d + d * pd l d),
   sM + d ^ m * (INR (S m) * pv l d + d * pd l d)).
Proof.
  induction l as [|a l IH]; intros m d s s2 sM; cbn [rk_loop pv pd].
  - apply f_equal2; [apply f_equal2|]; ring.
  - change (1 <=? S m)%nat with true. cbv iota.
    replace (d ^ S m * d) with (d ^ S (S m)) by (cbn; ring).
    replace (d ^ m * d) with (d ^ S m) by (cbn; ring).
    rewrite IH. rewrite (S_INR (S m)). cbn [pow]. apply f_equal2; [apply f_equal2|]; ring.
Qed.

Lemma rk_loop_0 l d : rk_loop l 0 d 1 1 0 0 0 = (pv l d, pv l d + d * pd l d, pd l d).
Proof.
  destruct l as [|a l]; cbn [rk_loop pv pd].
  - apply f_equal2; [apply f_equal2|]; ring.
  - change (1 <=? 0)%nat with false. cbv iota.
    replace (1 * d) with (d ^ 1) by ring.
    replace 1 with (d ^ 0) at 2 by reflexivity.
    rewrite (rk_loop_S l 0). cbn. apply f_equal2; [apply f_equal2|]; ring.
Qed.

Lemma rk_loop2_SS l : forall m d s s1 s2 t t1,
  rk_loop2 l (S (S m)) d (d ^ S (S m)) (d ^ S m) (d ^ m) s s1 s2 t t1 =
  (s + d ^ S (S m) * pv l d,
   s1 + d ^ S m * (INR (S (S m)) * pv l d + d * pd l d),
   s2 + d ^ m * (INR (S (S m)) * (INR (S (S m)) - 1) * pv l d + 2 * INR (S (S m)) * d * pd l d + d * d * pdd l d),
   t + d ^ S (S m) * ((INR (S (S m)) + 1) * pv l d + d * pd l d),
   t1 + d ^ S m * (INR (S (S m)) * (INR (S (S m)) + 1) * pv l d + 2 * (INR (S (S m)) + 1) * d * pd l d + d * d * pdd l d)).
Proof.
  induction l as [|a l IH]; intros m d s s1 s2 t t1; cbn [rk_loop2 pv pd pdd].
  - do 4 (apply f_equal2; [|ring]). ring.
  - change (1 <=? S (S m))%nat with true. change (2 <=? S (S m))%nat with true. cbv iota.
    replace (d ^ S (S m) * d) with (d ^ S (S (S m))) by (cbn; ring).
    replace (d ^ S m * d) with (d ^ S (S m)) by (cbn; ring).
    replace (d ^ m * d) with (d ^ S m) by (cbn; ring).
    rewrite IH. rewrite (S_INR (S (S m))). cbn [pow].
    do 4 (apply f_equal2; [|ring]). ring.
Qed.

Lemma rk_loop2_0 l d : rk_loop2 l 0 d 1 1 1 0 0 0 0 0 =
  (pv l d, pd l d, pdd l d, pv l d + d * pd l d, 2 * pd l d + d * pdd l d).
Proof.
  destruct l as [|a [|b l]]; cbn [rk_loop2 pv pd pdd].
  - do 4 (apply f_equal2; [|ring]). ring.
  - change (1 <=? 0)%nat with false. change (2 <=? 0)%nat with false. cbv iota.
    do 4 (apply f_equal2; [|cbn; ring]). cbn; ring.
  - change (1 <=? 0)%nat with false. change (2 <=? 0)%nat with false.
    change (1 <=? 1)%nat with true. change (2 <=? 1)%nat with false. cbv iota.
    replace (1 * d * d) with (d ^ 2) by ring. replace (1 * d) with (d ^ 1) by ring.
    rewrite <- (pow_O d) at 5.
    match goal with |- rk_loop2 l 2 d (d ^ 2) (d ^ 1) ?z ?a0 ?a1 ?a2 ?a3 ?a4 = _ =>
      change (rk_loop2 l 2 d (d ^ 2) (d ^ 1) (d ^ 0) a0 a1 a2 a3 a4
        = (a + d * (b + d * pv l d), b + d * pv l d + d * (pv l d + d * pd l d),
           2 * (pv l d + d * pd l d) + d * (2 * pd l d + d * pdd l d),
           a + d * (b + d * pv l d) + d * (b + d * pv l d + d * (pv l d + d * pd l d)),
           2 * (b + d * pv l d + d * (pv l d + d * pd l d))
           + d * (2 * (pv l d + d * pd l d) + d * (2 * pd l d + d * pdd l d)))) end.
    rewrite (rk_loop2_SS l 0). cbn.
    do 4 (apply f_equal2; [|ring]). ring.
Qed.

(** What an interaction adds, with indicator functions. *)
Lemma rk_contrib_dl i l x k : (rA i <> rB i)%nat ->
  rk_contrib i l x k =
  let XA := x (rA i) in
  let XB := x (rB i) in
  dl (rA i) k * (XB * pv l (XA - XB)) + dl (rB i) k * (XA * pv l (XA - XB)) - XA * XB * pv l (XA - XB)
  + XA * XB * pd l (XA - XB) * (dl (rA i) k - dl (rB i) k - (XA - XB)).
Proof.
  intros H. unfold rk_contrib, dl. cbv zeta. rewrite rk_loop_0.
  destruct (Nat.eqb_spec (rA i) k), (Nat.eqb_spec (rB i) k); try congruence; ring.
Qed.

Lemma rk_term l xa xb da db xk :
  is_derive (fun t => (1 + (t - xk)) *
     ((xa + da * (t - xk)) / (1 + (t - xk)) * ((xb + db * (t - xk)) / (1 + (t - xk))) *
      pv l ((xa + da * (t - xk)) / (1 + (t - xk)) - (xb + db * (t - xk)) / (1 + (t - xk))))) xk
   (da * (xb * pv l (xa - xb)) + db * (xa * pv l (xa - xb)) - xa * xb * pv l (xa - xb)
    + xa * xb * pd l (xa - xb) * (da - db - (xa - xb))).
Proof.
  auto_derive.
  - repeat split; try lra. eexists. apply pv_derive.
  - rewrite !pv_D.
    replace (xk + - xk) with 0 by ring.
    replace ((xa + da * 0) * / (1 + 0) + - ((xb + db * 0) * / (1 + 0))) with (xa - xb) by (field).
    field.
Qed.

Lemma rk_contrib_scal i c l x k : (rA i <> rB i)%nat -> rk_contrib i (map (Rmult c) l) x k = c * rk_contrib i l x k.
Proof.
  intros H. rewrite !rk_contrib_dl by assumption. cbv zeta. rewrite pv_scal, pd_scal. ring.
Qed.

Lemma rk_A_B T l : 0 < T -> map (rk_A T) l = map (Rmult (/ RT T)) (map (rk_B T) l).
Proof.
  intros HT. rewrite map_map. apply map_ext. intros hs. unfold rk_A, rk_B, RT.
  pose proof R_pos. field. lra.
Qed.

Lemma rk_lnac_RT L n T x k : 0 < T -> rk_proper L n ->
  RT T * rk_lnac L T x k = sum_of (fun i => rk_contrib i (map (rk_B T) (rhs i)) x k) L.
Proof.
  intros HT HL. unfold rk_lnac. rewrite <- sum_of_scal. apply sum_of_ext. intros i Hi.
  destruct (HL i Hi) as (_ & _ & Hne). rewrite rk_A_B, rk_contrib_scal by assumption.
  pose proof (RT_pos T HT). field. lra.
Qed.

Lemma rk_G_pv L n T m :
  rk_G L n T m = sum_of (fun i => total m n * (fractions m n (rA i) * fractions m n (rB i)
     * pv (map (rk_B T) (rhs i)) (fractions m n (rA i) - fractions m n (rB i)))) L.
Proof.
  unfold rk_G. cbv zeta. rewrite sum_of_scal. f_equal. apply sum_of_ext. intros i _.
  rewrite <- pv_spec. reflexivity.
Qed.

Lemma rk_potential L n T x k : 0 < T -> rk_proper L n -> (k < n)%nat -> mixture x n ->
  partial_at (rk_G L n T) x k (RT T * rk_lnac L T x k).
Proof.
  intros HT HL Hk Hx. rewrite (rk_lnac_RT L n) by assumption. unfold partial_at.
  eapply is_derive_ext; [intros t; symmetry; apply rk_G_pv|]. cbv beta.
  apply is_derive_sum_of. intros i Hi. destruct (HL i Hi) as (_ & _ & Hne).
  rewrite rk_contrib_dl by assumption. cbv zeta.
  apply (is_derive_ext (fun t => (1 + (t - x k)) *
     ((x (rA i) + dl (rA i) k * (t - x k)) / (1 + (t - x k)) * ((x (rB i) + dl (rB i) k * (t - x k)) / (1 + (t - x k))) *
      pv (map (rk_B T) (rhs i)) ((x (rA i) + dl (rA i) k * (t - x k)) / (1 + (t - x k))
        - (x (rB i) + dl (rB i) k * (t - x k)) / (1 + (t - x k)))))).
  { intros t. now rewrite total_upd, !(frac_upd x n k t) by assumption. }
  apply rk_term.
Qed.

Lemma rk_euler L n T x : 0 < T -> rk_proper L n -> mixture x n ->
  sum_n (fun k => x k * (RT T * rk_lnac L T x k)) n = rk_G L n T x.
Proof.
  intros HT HL Hx. rewrite rk_G_pv.
  rewrite (sum_n_ext _ (fun k => sum_of (fun i => x k * rk_contrib i (map (rk_B T) (rhs i)) x k) L))
    by (intros; rewrite (rk_lnac_RT L n), sum_of_scal by assumption; reflexivity).
  rewrite (sum_n_sum_of (fun i k => x k * rk_contrib i (map (rk_B T) (rhs i)) x k)).
  apply sum_of_ext. intros i Hi. destruct (HL i Hi) as (Ha & Hb & Hne).
  rewrite !fractions_mixture by assumption. unfold total. rewrite Hx.
  set (l := map (rk_B T) (rhs i)).
  rewrite (sum_n_ext _ (fun k =>
    (x k * dl (rA i) k * (x (rB i) * pv l (x (rA i) - x (rB i)) + x (rA i) * x (rB i) * pd l (x (rA i) - x (rB i)))
     + x k * dl (rB i) k * (x (rA i) * pv l (x (rA i) - x (rB i)) - x (rA i) * x (rB i) * pd l (x (rA i) - x (rB i))))
    + x k * (- (x (rA i) * x (rB i) * pv l (x (rA i) - x (rB i)))
             - x (rA i) * x (rB i) * pd l (x (rA i) - x (rB i)) * (x (rA i) - x (rB i)))))
    by (intros k _; rewrite rk_contrib_dl by assumption; cbv zeta; ring).
  rewrite !sum_n_plus, !sum_n_scal_r, !sum_n_dl by assumption. rewrite Hx. ring.
Qed.

(** Temperature. *)
Lemma pv_dT l d T : 0 < T ->
  is_derive (fun t => pv (map (rk_A t) l) d) T (pv (map (rk_dA T) l) d)
  /\ is_derive (fun t => pd (map (rk_A t) l) d) T (pd (map (rk_dA T) l) d)
  /\ is_derive (fun t => pv (map (rk_dA t) l) d) T (- 2 / T * pv (map (rk_dA T) l) d)
  /\ is_derive (fun t => pd (map (rk_dA t) l) d) T (- 2 / T * pd (map (rk_dA T) l) d).
Proof.
  intros HT. pose proof R_pos as HR.
  assert (HRT : GasConstant * T <> 0) by (apply Rmult_integral_contrapositive_currified; lra).
  assert (HRTT : GasConstant * T * T <> 0) by (apply Rmult_integral_contrapositive_currified; lra).
  induction l as [|hs l (I1 & I2 & I3 & I4)]; cbn [map pv pd].
  - assert (Z : is_derive (fun _ : R => 0) T 0) by (auto_derive; [exact I|reflexivity]).
    split; [exact Z|split; [exact Z|split; (eapply (is_derive_val _ T); [exact Z|ring])]].
  - split; [|split; [|split]].
    + eapply (is_derive_val _ T).
      { apply (is_derive_plus (fun t => rk_A t hs) (fun t => d * pv (map (rk_A t) l) d) T).
        - apply (is_derive_val _ T (rk_dA T hs)); [|reflexivity]. unfold rk_A, rk_dA.
          auto_derive; [repeat split; (assumption || lra)|field; lra].
        - apply (is_derive_scal (fun t => pv (map (rk_A t) l) d) T d). exact I1. }
      reflexivity.
    + eapply (is_derive_val _ T).
      { apply (is_derive_plus (fun t => pv (map (rk_A t) l) d) (fun t => d * pd (map (rk_A t) l) d) T); [exact I1|].
        apply (is_derive_scal (fun t => pd (map (rk_A t) l) d) T d). exact I2. }
      reflexivity.
    + eapply (is_derive_val _ T).
      { apply (is_derive_plus (fun t => rk_dA t hs) (fun t => d * pv (map (rk_dA t) l) d) T).
        - apply (is_derive_val _ T (- 2 / T * rk_dA T hs)); [|reflexivity]. unfold rk_dA.
          auto_derive; [repeat split; (assumption || lra)|field; lra].
        - apply (is_derive_scal (fun t => pv (map (rk_dA t) l) d) T d). exact I3. }
      unfold plus; cbn. ring.
    + eapply (is_derive_val _ T).
      { apply (is_derive_plus (fun t => pv (map (rk_dA t) l) d) (fun t => d * pd (map (rk_dA t) l) d) T); [exact I3|].
        apply (is_derive_scal (fun t => pd (map (rk_dA t) l) d) T d). exact I4. }
      unfold plus; cbn. ring.
Qed.

Lemma rk_contrib_slope i (c : R -> list R) (d : list R) x k T : (rA i <> rB i)%nat ->
  is_derive (fun t => pv (c t) (x (rA i) - x (rB i))) T (pv d (x (rA i) - x (rB i))) ->
  is_derive (fun t => pd (c t) (x (rA i) - x (rB i))) T (pd d (x (rA i) - x (rB i))) ->
  is_derive (fun t => rk_contrib i (c t) x k) T (rk_contrib i d x k).
Proof.
  intros Hne H1 H2. eapply is_derive_ext; [intros t; symmetry; apply rk_contrib_dl; assumption|].
  rewrite rk_contrib_dl by assumption. cbv zeta.
  set (D := x (rA i) - x (rB i)) in *.
  set (p := fun t => pv (c t) D) in *. set (q := fun t => pd (c t) D) in *.
  apply (is_derive_ext (fun t => dl (rA i) k * (x (rB i) * p t) + dl (rB i) k * (x (rA i) * p t) - x (rA i) * x (rB i) * p t
     + x (rA i) * x (rB i) * q t * (dl (rA i) k - dl (rB i) k - D))); [reflexivity|].
  change (is_derive p T (pv d D)) in H1. change (is_derive q T (pd d D)) in H2. clearbody p q.
  auto_derive.
  { repeat match goal with |- _ /\ _ => split | |- True => exact I end;
      first [exists (pv d D); exact H1 | exists (pd d D); exact H2]. }
  replace (Derive (fun x0 => p x0) T) with (pv d D) by (symmetry; apply is_derive_unique; exact H1).
  replace (Derive (fun x0 => q x0) T) with (pd d D) by (symmetry; apply is_derive_unique; exact H2). ring.
Qed.

Lemma rk_dT L n T x k : 0 < T -> rk_proper L n -> is_derive (fun t => rk_lnac L t x k) T (rk_dlnac_dT L T x k).
Proof.
  intros HT HL. unfold rk_lnac, rk_dlnac_dT. apply is_derive_sum_of. intros i Hi.
  destruct (HL i Hi) as (_ & _ & Hne).
  destruct (pv_dT (rhs i) (x (rA i) - x (rB i)) T HT) as (H1 & H2 & _ & _).
  now apply (rk_contrib_slope i (fun t => map (rk_A t) (rhs i))).
Qed.

Lemma rk_d2T L n T x k : 0 < T -> rk_proper L n ->
  is_derive (fun t => rk_dlnac_dT L t x k) T (rk_d2lnac_dT2 L T x k).
Proof.
  intros HT HL. unfold rk_d2lnac_dT2. unfold rk_dlnac_dT at 2. rewrite <- sum_of_scal.
  unfold rk_dlnac_dT. apply is_derive_sum_of. intros i Hi.
  destruct (HL i Hi) as (_ & _ & Hne).
  destruct (pv_dT (rhs i) (x (rA i) - x (rB i)) T HT) as (_ & _ & H3 & H4).
  rewrite <- rk_contrib_scal by assumption.
  apply (rk_contrib_slope i (fun t => map (rk_dA t) (rhs i))); [assumption| |];
    (eapply is_derive_val; [eassumption|rewrite ?pv_scal, ?pd_scal; reflexivity]).
Qed.

Lemma rk_cp_plain L n st T x k : 0 < T -> rk_proper L n ->
  partial_cp st (rk_dlnac_dT L) (rk_d2lnac_dT2 L) T x k = partial_cp_RK st T x k.
Proof.
  intros HT HL. pose proof R_pos. unfold partial_cp, partial_cp_RK, rk_d2lnac_dT2. field. lra.
Qed.

(** Exchanging the two species of a binary phase. *)
Lemma rk_exchange_A l xa xb :
  is_derive (fun t => let XA := xa + t in let XB := xb - t in
     (1 - XA) * XB * pv l (XA - XB) + XA * XB * pd l (XA - XB) * (1 - XA + XB)) 0
   (- (1 - xa + xb) * pv l (xa - xb) + 2 * (1 - xa) * xb * pd l (xa - xb)
    + pd l (xa - xb) * (xb * (1 - 2 * xa + xb) - xa * (1 - xa + 2 * xb))
    + 2 * xa * xb * pdd l (xa - xb) * (1 - xa + xb)).
Proof.
  cbv zeta. auto_derive.
  - repeat match goal with
      | |- _ /\ _ => split
      | |- True => exact I
      | |- ex_derive (fun z => pv ?l z) ?d => exists (pd l d); exact (pv_derive l d)
      | |- ex_derive (fun z => pd ?l z) ?d => exists (pdd l d); exact (pd_derive l d)
      end.
  - rewrite !pv_D, !pd_D.
    replace (xa + 0 + - (xb + - 0)) with (xa - xb) by ring. ring.
Qed.
Lemma rk_exchange_B l xa xb :
  is_derive (fun t => let XA := xa - t in let XB := xb + t in
     (1 - XB) * XA * pv l (XA - XB) + XA * XB * pd l (XA - XB) * (- (1 - XB) - XA)) 0
   (- (1 - xb + xa) * pv l (xa - xb) - 2 * (1 - xb) * xa * pd l (xa - xb)
    + pd l (xa - xb) * (xa * (2 * xb - xa - 1) - xb * (- 2 * xa + xb - 1))
    - 2 * xa * xb * pdd l (xa - xb) * (- xa - 1 + xb)).
Proof.
  cbv zeta. auto_derive.
  - repeat match goal with
      | |- _ /\ _ => split
      | |- True => exact I
      | |- ex_derive (fun z => pv ?l z) ?d => exists (pd l d); exact (pv_derive l d)
      | |- ex_derive (fun z => pd ?l z) ?d => exists (pdd l d); exact (pd_derive l d)
      end.
  - rewrite !pv_D, !pd_D.
    replace (xa + - 0 + - (xb + 0)) with (xa - xb) by ring. ring.
Qed.

(** The matrix of derivatives: correct up to the factor RT in the rows of species that are not the
    second species of an interaction. *)
Lemma rk_entry i l x k j : (rA i <> rB i)%nat -> rB i <> k ->
  is_derive (fun t => rk_contrib i l (upd x j t) k) (x j) (rk_dX_contrib i l x k j).
Proof.
  intros Hne Hk.
  apply (is_derive_ext (fun t =>
    let XA := x (rA i) + dl (rA i) j * (t - x j) in
    let XB := x (rB i) + dl (rB i) j * (t - x j) in
    dl (rA i) k * (XB * pv l (XA - XB)) + dl (rB i) k * (XA * pv l (XA - XB)) - XA * XB * pv l (XA - XB)
    + XA * XB * pd l (XA - XB) * (dl (rA i) k - dl (rB i) k - (XA - XB)))).
  { intros t. rewrite rk_contrib_dl by assumption. cbv zeta. now rewrite !upd_dl. }
  cbv zeta.
  auto_derive.
  - repeat match goal with
      | |- _ /\ _ => split
      | |- True => exact I
      | |- ex_derive (fun z => pv ?l z) ?d => exists (pd l d); exact (pv_derive l d)
      | |- ex_derive (fun z => pd ?l z) ?d => exists (pdd l d); exact (pd_derive l d)
      end.
  - rewrite !pv_D, !pd_D.
    replace (x (rA i) + dl (rA i) j * (x j + - x j) + - (x (rB i) + dl (rB i) j * (x j + - x j)))
      with (x (rA i) - x (rB i)) by ring.
    unfold rk_dX_contrib. cbv zeta. rewrite rk_loop2_0. unfold dl.
    rewrite (Nat.eqb_sym j (rA i)), (Nat.eqb_sym j (rB i)).
    destruct (Nat.eqb_spec (rB i) k); [contradiction|].
    destruct (Nat.eqb_spec (rA i) k), (Nat.eqb_spec (rA i) j), (Nat.eqb_spec (rB i) j); try congruence; ring.
Qed.
