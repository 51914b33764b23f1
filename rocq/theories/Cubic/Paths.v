(** From the functions of Mix.v to the values that a phase reports along a path of states. *)
From Coquelicot Require Import Coquelicot.
From Coq Require Import Reals List Arith Lra Lia.
From Verif Require Import Base.RSum Base.Vec Base.Fp Units.Model Excess.Spec Excess.Proofs
  Cubic.Model Cubic.Spec Cubic.Proofs Cubic.Mix.
Open Scope R_scope.

Lemma locally_pos (f : R -> R) (t d : R) : is_derive f t d -> 0 < f t -> locally t (fun u => 0 < f u).
Proof.
  intros H Hp. assert (C : continuous f t) by (apply (@ex_derive_continuous R_AbsRing R_NormedModule f t); exists d; exact H).
  apply (C (fun y => 0 < y)). apply (open_gt 0). exact Hp.
Qed.

Section Paths.
Context (phi phi1 phi2 : R -> R).
Context (Hphi : forall r, 0 < r < 1 -> is_derive phi r (phi1 r)).
Context (Hphi1 : forall r, 0 < r < 1 -> is_derive phi1 r (phi2 r)).
Context (r : refdata) (b : vec) (q q1f : R -> nat -> nat -> R) (q2 : nat -> nat -> R).
Context (Pf Hf : R -> R -> vec -> R).
Context (HPf : forall t v x, weak_ok r b t v x -> Pf t v x = gP phi1 r b q t v x).
Context (HHf : forall t v x, weak_ok r b t v x ->
   Hf t v x = gU phi r b q (q1f t) t v x + gP phi1 r b q t v x * v).
Context (T v : R) (x : vec) (Hok : state_ok r b T v x).
Local Notation n := (rn r).
Context (Hsym : symm n (q T)) (Hsym1 : symm n (q1f T)).
Context (Hq1 : forall i j, (i < n)%nat -> (j < n)%nat -> is_derive (fun t => q t i j) T (q1f T i j)).
Context (Hq2 : forall i j, (i < n)%nat -> (j < n)%nat -> is_derive (fun t => q1f t i j) T (q2 i j)).
Context (Href : ref_ok r T).
Local Notation PV := (gPV phi1 phi2 r b q T v x).
Local Notation PT := (gPT phi1 r b (q1f T) v x).
Local Notation Pk := (gPk phi1 phi2 r b q T v x).
Local Notation Uk := (gUk phi phi1 r b q (q1f T) T v x).
Local Notation B := (covolume n b x).
Definition cv_gen : R :=
  GasConstant * mean_X n x (rcp r T) - GasConstant + T * attraction n q2 x * phi (B / v) / B.

Lemma loc_V (fV : R -> R) (t0 V' : R) (Hd : is_derive fV t0 V') : fV t0 = v ->
  locally t0 (fun t => 0 < B < fV t).
Proof.
  intros E. destruct (dom _ _ _ _ _ Hok) as (HT & Hp & Hx & Hk & Hb & Hv).
  assert (H : is_derive (fun t => fV t - B) t0 V').
  { auto_derive; [eexists; exact Hd|].
    replace (Derive (fun x => fV x) t0) with V' by (symmetry; apply is_derive_unique; exact Hd). ring. }
  apply (filter_imp (fun t => 0 < fV t - B)); [intros t Ht; lra|].
  apply (locally_pos _ _ _ H). rewrite E. lra.
Qed.
Lemma loc_T : locally T (fun t => 0 < t).
Proof.
  destruct (dom _ _ _ _ _ Hok) as (HT & _).
  apply (locally_pos (fun t => t) T 1); [apply d_id|assumption].
Qed.

Lemma path_P_V : is_derive (fun V => Pf T V x) v PV.
Proof.
  destruct (dom _ _ _ _ _ Hok) as (HT & Hp & Hx & Hk & Hb & Hv).
  apply (is_derive_ext_loc (fun V => gP phi1 r b q T V x)).
  - apply (filter_imp (fun V => 0 < B < V)).
    + intros V HV. symmetry. apply HPf. repeat split; try assumption; lra.
    + apply (loc_V (fun V => V) v 1 (d_id v)). reflexivity.
  - apply (gP_V phi1 phi2 Hphi1 r b q T v x Hok).
Qed.

Lemma weak_path (fV : R -> R) V' : is_derive fV T V' -> fV T = v ->
  locally T (fun t => weak_ok r b t (fV t) x).
Proof.
  intros HV EV. destruct (dom _ _ _ _ _ Hok) as (HT & Hp & Hx & Hk & Hb & Hv).
  apply (filter_imp (fun t => 0 < t /\ 0 < B < fV t)).
  - intros t (H1 & H2 & H3). repeat split; assumption.
  - apply filter_and; [apply loc_T|exact (loc_V fV T V' HV EV)].
Qed.

Lemma path_P (fV : R -> R) V' : is_derive fV T V' -> fV T = v ->
  is_derive (fun t => Pf t (fV t) x) T (PT + PV * V').
Proof.
  intros HV EV.
  apply (is_derive_ext_loc (fun t => gP phi1 r b q t (fV t) x)).
  - apply (filter_imp (fun t => weak_ok r b t (fV t) x)); [|exact (weak_path fV V' HV EV)].
    intros t Ht. symmetry. now apply HPf.
  - exact (gP_T phi1 phi2 Hphi1 r b q (q1f T) T Hq1 v x Hok fV V' HV EV).
Qed.

Lemma path_P_T : is_derive (fun t => Pf t v x) T PT.
Proof.
  assert (H := path_P (fun _ => v) 0 (d_const v T) eq_refl).
  eapply is_derive_val; [exact H|]. ring.
Qed.

Lemma path_H (fV : R -> R) V' : is_derive fV T V' -> fV T = v ->
  is_derive (fun t => Hf t (fV t) x) T
    (cv_gen + gUV phi1 r b q (q1f T) T v x * V' + (PT + PV * V') * v + gP phi1 r b q T v x * V').
Proof.
  intros HV EV.
  assert (HU := gU_T phi phi1 Hphi r b q q1f q2 T v x fV V' Hok Href Hq1 Hq2 HV EV).
  assert (HPd := gP_T phi1 phi2 Hphi1 r b q (q1f T) T Hq1 v x Hok fV V' HV EV).
  fold cv_gen in HU.
  apply (is_derive_ext_loc (fun t => gU phi r b q (q1f t) t (fV t) x + gP phi1 r b q t (fV t) x * fV t)).
  - apply (filter_imp (fun t => weak_ok r b t (fV t) x)); [|exact (weak_path fV V' HV EV)].
    intros t Ht. symmetry. now apply HHf.
  - set (f1 := fun t => gU phi r b q (q1f t) t (fV t) x) in *.
    set (f2 := fun t => gP phi1 r b q t (fV t) x) in *.
    change (is_derive (fun t => f1 t + f2 t * fV t) T
      (cv_gen + gUV phi1 r b q (q1f T) T v x * V' + (PT + PV * V') * v + gP phi1 r b q T v x * V')).
    auto_derive.
    + split; [eexists; exact HU|]. split; [eexists; exact HPd|]. split; [eexists; exact HV|exact I].
    + replace (Derive (fun x => f1 x) T) with (cv_gen + gUV phi1 r b q (q1f T) T v x * V') by (symmetry; apply is_derive_unique; exact HU).
      replace (Derive (fun x => f2 x) T) with (PT + PV * V') by (symmetry; apply is_derive_unique; exact HPd).
      replace (Derive (fun x => fV x) T) with V' by (symmetry; apply is_derive_unique; exact HV).
      unfold f2. rewrite EV. ring.
Qed.

(** Heat capacity at constant volume. *)
Lemma path_cv : is_derive (fun t => Hf t v x - Pf t v x * v) T cv_gen.
Proof.
  assert (H := path_H (fun _ => v) 0 (d_const v T) eq_refl).
  assert (H2 := path_P_T).
  set (f1 := fun t => Hf t v x) in *. set (f2 := fun t => Pf t v x) in *.
  change (is_derive (fun t => f1 t - f2 t * v) T cv_gen).
  auto_derive.
  - split; [eexists; exact H|]. split; [eexists; exact H2|exact I].
  - replace (Derive (fun x => f1 x) T) with
     (cv_gen + gUV phi1 r b q (q1f T) T v x * 0 + (PT + PV * 0) * v + gP phi1 r b q T v x * 0)
      by (symmetry; apply is_derive_unique; exact H).
    replace (Derive (fun x => f2 x) T) with PT by (symmetry; apply is_derive_unique; exact H2). ring.
Qed.

(** Heat capacity and expansion at constant pressure. *)
Lemma path_cp (fV : R -> R) V' : PV <> 0 -> is_derive fV T V' -> fV T = v ->
  is_derive (fun t => Pf t (fV t) x) T 0 ->
  V' = - PT / PV /\ is_derive (fun t => Hf t (fV t) x) T (cv_gen - T * PT * PT / PV).
Proof.
  intros HPV HV EV H0.
  assert (E : PT + PV * V' = 0).
  { assert (A := is_derive_unique _ _ _ (path_P fV V' HV EV)).
    assert (A0 := is_derive_unique _ _ _ H0). rewrite A0 in A. symmetry. exact A. }
  assert (EV' : V' = - PT / PV).
  { apply Rmult_eq_reg_l with PV; [|assumption]. replace (PV * (- PT / PV)) with (- PT) by (field; assumption). lra. }
  split; [exact EV'|].
  eapply is_derive_val; [exact (path_H fV V' HV EV)|].
  assert (M := maxwell phi1 r b q (q1f T) T v x Hok).
  rewrite E.
  replace (cv_gen + gUV phi1 r b q (q1f T) T v x * V' + 0 * v + gP phi1 r b q T v x * V')
    with (cv_gen + (gUV phi1 r b q (q1f T) T v x + gP phi1 r b q T v x) * V') by ring.
  rewrite M, EV'. field. assumption.
Qed.
Lemma path_cp_exists : PV <> 0 ->
  is_derive (fun t => Pf t (v + (- PT / PV) * (t - T)) x) T 0.
Proof.
  intros HPV.
  eapply is_derive_val; [apply (path_P (fun t => v + (- PT / PV) * (t - T)) (- PT / PV))|].
  - apply derive_line.
  - ring.
  - field. assumption.
Qed.

(** Mole numbers. *)
Lemma weak_holding k (fV : R -> R) V' : (k < n)%nat -> is_derive fV (x k) V' -> fV (x k) = v ->
  locally (x k) (fun t => total (upd x k t) n <> 0
    /\ weak_ok r b T (fV t / total (upd x k t) n) (fractions (upd x k t) n)).
Proof.
  intros Hk HV EV. destruct (dom _ _ _ _ _ Hok) as (HT & Hp & Hx & Hkx & Hb & Hv).
  assert (D1 := d_total r b T v x Hok k Hk). assert (D2 := d_cov r b x k Hk).
  set (f1 := fun t => total (upd x k t) n) in *. set (f2 := fun t => covolume n b (upd x k t)) in *.
  assert (D3 : is_derive (fun t => fV t - f2 t) (x k) (V' - b k)).
  { auto_derive.
    - split; [eexists; exact HV|]. split; [eexists; exact D2|exact I].
    - replace (Derive (fun x => fV x) (x k)) with V' by (symmetry; apply is_derive_unique; exact HV).
      replace (Derive (fun x => f2 x) (x k)) with (b k) by (symmetry; apply is_derive_unique; exact D2). ring. }
  apply (filter_imp (fun t => 0 < f1 t /\ (0 < f2 t /\ 0 < fV t - f2 t))).
  - intros t (H1 & H2 & H3). fold (f1 t). split; [lra|]. unfold weak_ok. split; [assumption|].
    split; [unfold mixture; apply (total_frac_one (upd x k t) n); fold (f1 t); lra|].
    rewrite covolume_frac. fold (f1 t). fold (f2 t). split.
    + apply Rdiv_lt_0_compat; assumption.
    + unfold Rdiv. apply Rmult_lt_compat_r; [apply Rinv_0_lt_compat; assumption|lra].
  - apply filter_and; [|apply filter_and].
    + apply (locally_pos f1 _ _ D1). unfold f1. rewrite (total_id r b T v x Hok). lra.
    + apply (locally_pos f2 _ _ D2). unfold f2. rewrite cov_id. lra.
    + apply (locally_pos _ _ _ D3). unfold f2. rewrite cov_id, EV. lra.
Qed.

Lemma path_Pk k (fV : R -> R) V' : (k < n)%nat -> is_derive fV (x k) V' -> fV (x k) = v ->
  is_derive (fun t => Pf T (fV t / total (upd x k t) n) (fractions (upd x k t) n)) (x k) (Pk k + PV * V').
Proof.
  intros Hk HV EV.
  apply (is_derive_ext_loc (fun t => gP phi1 r b q T (fV t) (upd x k t))).
  - refine (filter_imp _ _ _ (weak_holding k fV V' Hk HV EV)).
    intros t (HN & Hw). symmetry. rewrite (HPf _ _ _ Hw). apply gP_scale. exact HN.
  - exact (gP_path phi1 phi2 Hphi1 r b q T Hsym v x Hok k fV V' Hk HV EV).
Qed.

Lemma path_partial k (fV : R -> R) V' : (k < n)%nat -> PV <> 0 -> is_derive fV (x k) V' -> fV (x k) = v ->
  is_derive (fun t => Pf T (fV t / total (upd x k t) n) (fractions (upd x k t) n)) (x k) 0 ->
  V' = - Pk k / PV
  /\ is_derive (fun t => total (upd x k t) n
        * Hf T (fV t / total (upd x k t) n) (fractions (upd x k t) n)) (x k) (Uk k + T * PT * (- Pk k / PV)).
Proof.
  intros Hk HPV HV EV H0.
  assert (E : Pk k + PV * V' = 0).
  { assert (A := is_derive_unique _ _ _ (path_Pk k fV V' Hk HV EV)).
    assert (A0 := is_derive_unique _ _ _ H0). rewrite A0 in A. symmetry. exact A. }
  assert (EV' : V' = - Pk k / PV).
  { apply Rmult_eq_reg_l with PV; [|assumption]. replace (PV * (- Pk k / PV)) with (- Pk k) by (field; assumption). lra. }
  split; [exact EV'|]. rewrite <- EV'.
  assert (HPd := gP_path phi1 phi2 Hphi1 r b q T Hsym v x Hok k fV V' Hk HV EV).
  assert (HU := gU_path phi phi1 Hphi r b q (q1f T) T Hsym Hsym1 v x Hok k fV V' Hk HV EV).
  apply (is_derive_ext_loc (fun t => gU phi r b q (q1f T) T (fV t) (upd x k t)
     + gP phi1 r b q T (fV t) (upd x k t) * fV t)).
  - refine (filter_imp _ _ _ (weak_holding k fV V' Hk HV EV)).
    intros t (HN & Hw). symmetry. rewrite (HHf _ _ _ Hw).
    rewrite gP_scale by exact HN. rewrite <- (gU_scale phi r b q (q1f T) T (fV t) (upd x k t) HN).
    match goal with |- ?a = ?b => change (@eq R a b) end.
    field. exact HN.
  - set (f1 := fun t => gU phi r b q (q1f T) T (fV t) (upd x k t)) in *.
    set (f2 := fun t => gP phi1 r b q T (fV t) (upd x k t)) in *.
    change (is_derive (fun t => f1 t + f2 t * fV t) (x k) (Uk k + T * PT * V')).
    auto_derive.
    + split; [eexists; exact HU|]. split; [eexists; exact HPd|]. split; [eexists; exact HV|exact I].
    + replace (Derive (fun x => f1 x) (x k)) with (Uk k + gUV phi1 r b q (q1f T) T v x * V') by (symmetry; apply is_derive_unique; exact HU).
      replace (Derive (fun x => f2 x) (x k)) with (Pk k + PV * V') by (symmetry; apply is_derive_unique; exact HPd).
      replace (Derive (fun x => fV x) (x k)) with V' by (symmetry; apply is_derive_unique; exact HV).
      rewrite E. rewrite <- (maxwell phi1 r b q (q1f T) T v x Hok).
      assert (Ef : f2 (x k) = gP phi1 r b q T v x).
      { unfold f2, gP. rewrite EV, cov_id, att_id, (total_id r b T v x Hok).
        destruct (dom _ _ _ _ _ Hok) as (_ & _ & Hx & _). now rewrite (total1 x _ Hx). }
      rewrite Ef. ring.
Qed.
Lemma path_partial_exists k : (k < n)%nat -> PV <> 0 ->
  is_derive (fun t => Pf T ((v + (- Pk k / PV) * (t - x k)) / total (upd x k t) n) (fractions (upd x k t) n)) (x k) 0.
Proof.
  intros Hk HPV.
  eapply is_derive_val; [apply (path_Pk k (fun t => v + (- Pk k / PV) * (t - x k)) (- Pk k / PV) Hk)|].
  - apply derive_line.
  - ring.
  - field. assumption.
Qed.
End Paths.
