(** The cubic equations of state: Peng-Robinson (src/thermo/PengRobinson.cpp) and Redlich-Kwong
    (src/thermo/RedlichKwongMFTP.cpp), with the molar properties of their base class
    (src/thermo/MixtureFugacityTP.cpp).  Numbers are reals.  The state of a phase is its
    temperature, molar volume and mole fractions together with the mixture parameters that the code
    stores; setting the state refreshes the stored parameters, changing a coefficient need not. *)
From Coq Require Import Reals List Arith Bool.
From Verif Require Import Base.RSum Base.Vec Base.Fp Units.Model.
Open Scope R_scope.

(** The ideal gas reference state: dimensionless enthalpy h/RT, entropy s/R and heat capacity cp/R of
    every species, the reference pressure and the molecular weights (MixtureFugacityTP.h: m_h0_RT,
    m_s0_R, m_cp0_R; _updateReferenceStateThermo). *)
Record refdata := Refdata {
  rn : nat; rh : R -> nat -> R; rs : R -> nat -> R; rcp : R -> nat -> R; rp0 : R; rw : vec }.

(** Phase.h: mean_X. *)
Definition mean_X (n : nat) (x f : vec) : R := sum_n (fun k => x k * f k) n.
(** Phase.cpp:626-633, with ym = x / mmw. *)
Definition sum_xlogx (n : nat) (w x : vec) : R :=
  let mmw := sum_n (fun k => x k * w k) n in
  mmw * sum_n (fun k => x k / mmw * ln (Rmax (x k / mmw) SmallNumber)) n + ln mmw.
(** MixtureFugacityTP.cpp getGibbs_ref: RT (h0_RT - s0_R). *)
Definition gibbs_ref (r : refdata) (T : R) (k : nat) : R :=
  GasConstant * T * (rh r T k - rs r T k).

(** ** Peng-Robinson *)

(** PengRobinson.cpp:20-22. *)
Definition omega_a : R := 45723552892138218 / 100000000000000000.
Definition omega_b : R := 777960739038885 / 10000000000000000.

(** PengRobinson.h: m_a_coeffs, m_b_coeffs, m_kappa; then temperature, molarVolume(),
    moleFractions_; then the stored m_alpha, m_aAlpha_binary, m_aAlpha_mix, m_b. *)
Record pr := Pr {
  p_ref : refdata;
  p_a : nat -> nat -> R; p_b : vec; p_kappa : vec;
  p_T : R; p_v : R; p_x : vec;
  p_alpha : vec; p_aA : nat -> nat -> R; p_am : R; p_bm : R }.

(** PengRobinson.cpp:307-316. *)
Definition pr_crit (a b : R) : R :=
  if rltb 0 b then
    if rltb 0 a then a * omega_b / (b * omega_a * GasConstant) else 0
  else 1000000.
(** PengRobinson.cpp:39-43. *)
Definition pr_kappa (w : R) : R :=
  if rltb (491/1000) w then
    374642/1000000 + 1487503/1000000*w - 164423/1000000*w*w + 16666/1000000*w*w*w
  else 37464/100000 + 154226/100000*w - 26992/100000*w*w.
(** The square bracket of PengRobinson.cpp:49-51 and 663-664. *)
Definition pr_sqt_alpha (a b kappa T : R) : R := 1 + kappa * (1 - sqrt (T / pr_crit a b)).

(** PengRobinson.cpp:656-688 (updateMixingExpressions, calculateAB; m_a is not used below). *)
Definition pr_update (s : pr) : pr :=
  let n := rn (p_ref s) in
  let alpha := fun j => pr_sqt_alpha (p_a s j j) (p_b s j) (p_kappa s j) (p_T s)
                        * pr_sqt_alpha (p_a s j j) (p_b s j) (p_kappa s j) (p_T s) in
  let aA := fun i j => sqrt (alpha i * alpha j) * p_a s i j in
  Pr (p_ref s) (p_a s) (p_b s) (p_kappa s) (p_T s) (p_v s) (p_x s)
     alpha aA
     (sum_n (fun i => sum_n (fun j => aA i j * p_x s i * p_x s j) n) n)
     (sum_n (fun i => p_x s i * p_b s i) n).

(** setTemperature (MixtureFugacityTP.cpp:178-185), setDensity and setMoleFractions
    (compositionChanged, MixtureFugacityTP.cpp:251-256): each ends in updateMixingExpressions or
    leaves the stored parameters valid.  Simplified: one call that sets all three. *)
Definition pr_set (s : pr) (T v : R) (x : vec) : pr :=
  pr_update (Pr (p_ref s) (p_a s) (p_b s) (p_kappa s) T v x
                (p_alpha s) (p_aA s) (p_am s) (p_bm s)).

Definition upd2 (m : nat -> nat -> R) (i j : nat) (v : R) : nat -> nat -> R :=
  fun a b => if ((a =? i) && (b =? j))%nat then v else m a b.

(** PengRobinson.cpp:29-72 (known species). *)
Definition pr_setSpeciesCoeffs (s : pr) (k : nat) (a b w : R) : pr :=
  let n := rn (p_ref s) in
  let kap := pr_kappa w in
  let sa := pr_sqt_alpha a b kap (p_T s) in
  let alpha := upd (p_alpha s) k (sa * sa) in
  let a1 := upd2 (p_a s) k k a in
  let aAk := a * alpha k in
  let aA1 := upd2 (p_aA s) k k aAk in
  let '(a2, aA2) :=
    List.fold_left (fun '(m, q) j =>
      if (k =? j)%nat then (m, q)
      else
        let a0kj := sqrt (m j j * a) in
        let a_Alpha := sqrt (a * alpha j * aAk) in
        if reqb (m j k) 0 then
          (upd2 (upd2 m j k a0kj) k j a0kj, upd2 (upd2 q j k a_Alpha) k j a_Alpha)
        else (m, q)) (List.seq 0 n) (a1, aA1) in
  Pr (p_ref s) a2 (upd (p_b s) k b) (upd (p_kappa s) k kap) (p_T s) (p_v s) (p_x s)
     alpha aA2 (p_am s) (p_bm s).

(** PengRobinson.cpp:74-94 (known species). *)
Definition pr_setBinaryCoeffs (s : pr) (i j : nat) (a0 : R) : pr :=
  let aij := p_alpha s i * p_alpha s j in
  Pr (p_ref s) (upd2 (upd2 (p_a s) j i a0) i j a0) (p_b s) (p_kappa s) (p_T s) (p_v s) (p_x s)
     (p_alpha s) (upd2 (upd2 (p_aA s) j i (a0 * aij)) i j (a0 * aij)) (p_am s) (p_bm s).

Section PR.
Context (s : pr).
Local Notation n := (rn (p_ref s)).
Local Notation T := (p_T s).
Local Notation mv := (p_v s).
Local Notation x := (p_x s).
Local Notation b := (p_bm s).
Local Notation am := (p_am s).
Local Notation Rg := GasConstant.

(** PengRobinson.cpp:120-128. *)
Definition pr_pressure : R :=
  let denom := mv * mv + 2 * mv * b - b * b in
  Rg * T / (mv - b) - am / denom.
(** MixtureFugacityTP.cpp:267-270: P W / (rho RT), with W / rho the molar volume. *)
Definition pr_z : R := pr_pressure * mv / (Rg * T).

(** PengRobinson.cpp:690-700 and 715-726: first and second derivative of alpha. *)
Definition pr_dalpha (i : nat) : R :=
  let Tc := pr_crit (p_a s i i) (p_b s i) in
  let sq := sqrt (T / Tc) in
  let coeff1 := 1 / (Tc * sq) in
  let coeff2 := sq - 1 in
  let k := p_kappa s i in
  coeff1 * (k * k * coeff2 - k).
Definition pr_d2alpha (i : nat) : R :=
  let Tc := pr_crit (p_a s i i) (p_b s i) in
  let sq := sqrt (T / Tc) in
  let coeff1 := 1 / (Tc * sq) in
  let k := p_kappa s i in
  (k * k + k) * coeff1 / (2 * sq * sq * Tc).
(** PengRobinson.cpp:701-711. *)
Definition pr_daAlpha : R :=
  sum_n (fun i => sum_n (fun j =>
    x i * x j * (1/2) * p_aA s i j * (pr_dalpha i / p_alpha s i + pr_dalpha j / p_alpha s j)) n) n.
(** PengRobinson.cpp:727-742. *)
Definition pr_d2aAlpha : R :=
  sum_n (fun i => sum_n (fun j =>
    let ai := p_alpha s i in
    let aj := p_alpha s j in
    let term1 := pr_d2alpha i / ai + pr_d2alpha j / aj in
    let term2 := 2 * pr_dalpha i * pr_dalpha j / (ai * aj) in
    let term3 := pr_dalpha i / ai + pr_dalpha j / aj in
    (1/2) * x i * x j * p_aA s i j * (term1 + term2 - (1/2) * term3 * term3)) n) n.

(** PengRobinson.cpp:618-624. *)
Definition pr_dpdV : R :=
  let denom := mv * mv + 2 * mv * b - b * b in
  let vpb := mv + b in
  let vmb := mv - b in
  - Rg * T / (vmb * vmb) + 2 * am * vpb / (denom * denom).
(** PengRobinson.cpp:644-654. *)
Definition pr_dpdT : R :=
  let vmb := mv - b in
  let denom := mv * mv + 2 * mv * b - b * b in
  Rg / vmb - pr_daAlpha / denom.
(** PengRobinson.cpp:626-636. *)
Definition pr_compressibility : R := -1 / (mv * pr_dpdV).
Definition pr_expansion : R := - pr_dpdT / (mv * pr_dpdV).

(** log(vpb2 / vmb2). *)
Definition pr_log : R := ln ((mv + (1 + sqrt 2) * b) / (mv + (1 - sqrt 2) * b)).

(** PengRobinson.cpp:98-110. *)
Definition pr_cp : R :=
  let cpref := Rg * mean_X n x (rcp (p_ref s) T) in
  let dHdT_V := cpref + mv * pr_dpdT - Rg
                + 1 / (2 * sqrt 2 * b) * pr_log * T * pr_d2aAlpha in
  dHdT_V - (mv + T * pr_dpdT / pr_dpdV) * pr_dpdT.
(** PengRobinson.cpp:112-118. *)
Definition pr_cv : R := pr_cp + T * pr_dpdT * pr_dpdT / pr_dpdV.

(** m_pp[k]. *)
Definition pr_pp (k : nat) : R := sum_n (fun i => x i * p_aA s k i) n.

(** PengRobinson.cpp:136-165. *)
Definition pr_ac (k : nat) : R :=
  let vmb := mv - b in
  let denom := 2 * sqrt 2 * b * b in
  let denom2 := b * (mv * mv + 2 * mv * b - b * b) in
  let RT := Rg * T in
  let num := 2 * b * pr_pp k - am * p_b s k in
  exp ((- RT * ln (pr_pressure * mv / RT) + RT * ln (mv / vmb) + RT * p_b s k / vmb
        - (num / denom) * pr_log - am * p_b s k * mv / denom2) / RT).

(** PengRobinson.cpp:169-202. *)
Definition pr_mu (k : nat) : R :=
  let RT := Rg * T in
  let vmb := mv - b in
  let denom := 2 * sqrt 2 * b * b in
  let denom2 := b * (mv * mv + 2 * mv * b - b * b) in
  let num := 2 * b * pr_pp k - am * p_b s k in
  gibbs_ref (p_ref s) T k + RT * ln (Rmax SmallNumber (x k))
  + (RT * ln (pr_pressure / rp0 (p_ref s)) - RT * ln (pr_pressure * mv / RT)
     + RT * ln (mv / vmb) + RT * p_b s k / vmb
     - (num / denom) * pr_log - am * p_b s k * mv / denom2).

(** PengRobinson.cpp:233-236. *)
Definition pr_dpdni (k : nat) : R :=
  let vmb := mv - b in
  let denom := mv * mv + 2 * mv * b - b * b in
  let denom2 := denom * denom in
  let RT := Rg * T in
  RT / vmb + RT * p_b s k / (vmb * vmb) - 2 * pr_pp k / denom
  + 2 * vmb * am * p_b s k / denom2.
(** PengRobinson.cpp:204-252. *)
Definition pr_hbar (k : nat) : R :=
  let RT := Rg * T in
  let tmp := sum_n (fun i =>
    x i * p_aA s k i * (pr_dalpha i / p_alpha s i + pr_dalpha k / p_alpha s k)) n in
  let denom := mv * mv + 2 * mv * b - b * b in
  let fac := T * pr_daAlpha - am in
  let fac2 := mv + T * pr_dpdT / pr_dpdV in
  let fac3 := 2 * sqrt 2 * b * b in
  let fac4 := T * tmp - 2 * pr_pp k in
  let hE_v := mv * pr_dpdni k - RT - p_b s k / fac3 * pr_log * fac
              + (mv * p_b s k) / (b * denom) * fac
              + 1 / (2 * sqrt 2 * b) * pr_log * fac4 in
  RT * rh (p_ref s) T k + hE_v - fac2 * pr_dpdni k.
(** PengRobinson.cpp:254-263. *)
Definition pr_sbar (k : nat) : R := (pr_hbar k - pr_mu k) / T.
(** PengRobinson.cpp:281-305. *)
Definition pr_vbar (k : nat) : R :=
  let vmb := mv - b in
  let vpb := mv + b in
  let fac := mv * mv + 2 * mv * b - b * b in
  let fac2 := fac * fac in
  let RT := Rg * T in
  let num := RT + RT * b / vmb + RT * p_b s k / vmb
             + RT * b * p_b s k / (vmb * vmb) - 2 * mv * pr_pp k / fac
             + 2 * mv * vmb * am * p_b s k / fac2 in
  let denom := pr_pressure + RT * b / (vmb * vmb) + am / fac - 2 * mv * vpb * am / fac2 in
  num / denom.
(** PengRobinson.cpp:265-274. *)
Definition pr_ubar (k : nat) : R := pr_hbar k - pr_pressure * pr_vbar k.

(** PengRobinson.cpp:459-470. *)
Definition pr_sresid : R :=
  let hh := b / mv in
  let fac := pr_daAlpha / (2 * sqrt 2 * b) in
  Rg * (ln (pr_z * (1 - hh)) + fac * pr_log / Rg).
(** PengRobinson.cpp:472-483. *)
Definition pr_hresid : R :=
  let fac := 1 / (2 * sqrt 2 * b) in
  Rg * T * (pr_z - 1) + fac * pr_log * (T * pr_daAlpha - am).

(** MixtureFugacityTP.cpp:42-57. *)
Definition pr_enthalpy : R := Rg * T * mean_X n x (rh (p_ref s) T) + pr_hresid.
Definition pr_entropy : R :=
  Rg * (mean_X n x (rs (p_ref s) T) - sum_xlogx n (rw (p_ref s)) x
        - ln (pr_pressure / rp0 (p_ref s))) + pr_sresid.

End PR.

(** PengRobinson.cpp:763-775: the polynomial passed to the root finder. *)
Definition pr_cubic (T pres b aAlpha : R) : R * R * R * R :=
  let RT_p := GasConstant * T / pres in
  let aAlpha_p := aAlpha / pres in
  (1, b - RT_p, - (2 * RT_p * b - aAlpha_p + 3 * (b * b)),
   b * b * RT_p + b * b * b - aAlpha_p * b).

(** ** Redlich-Kwong *)

(** RedlichKwongMFTP.h: m_formTempParam, a_coeff_vec (rows 0 and 1), b_vec_Curr_; temperature, molar
    volume, mole fractions; then the stored a_vec_Curr_, m_a_current, m_b_current.  The index
    i * m_kk + j of the code is the pair (i, j). *)
Record rk := Rk {
  k_ref : refdata;
  k_form : bool; k_a0 : nat -> nat -> R; k_a1 : nat -> nat -> R; k_b : vec;
  k_T : R; k_v : R; k_x : vec;
  k_a : nat -> nat -> R; k_am : R; k_bm : R }.

(** RedlichKwongMFTP.cpp:728-747 (all coefficients given, so that nothing is NaN). *)
Definition rk_update (s : rk) : rk :=
  let n := rn (k_ref s) in
  let a := if k_form s then (fun i j => k_a0 s i j + k_a1 s i j * k_T s) else k_a s in
  Rk (k_ref s) (k_form s) (k_a0 s) (k_a1 s) (k_b s) (k_T s) (k_v s) (k_x s) a
     (sum_n (fun i => sum_n (fun j => a i j * k_x s i * k_x s j) n) n)
     (sum_n (fun i => k_x s i * k_b s i) n).
(** As pr_set. *)
Definition rk_set (s : rk) (T v : R) (x : vec) : rk :=
  rk_update (Rk (k_ref s) (k_form s) (k_a0 s) (k_a1 s) (k_b s) T v x (k_a s) (k_am s) (k_bm s)).

(** RedlichKwongMFTP.cpp:71-97 (known species). *)
Definition rk_setBinaryCoeffs (s : rk) (i j : nat) (a0 a1 : R) : rk :=
  Rk (k_ref s) (if reqb a1 0 then k_form s else true)
     (upd2 (upd2 (k_a0 s) j i a0) i j a0) (upd2 (upd2 (k_a1 s) j i a1) i j a1) (k_b s)
     (k_T s) (k_v s) (k_x s)
     (upd2 (upd2 (k_a s) j i a0) i j a0) (k_am s) (k_bm s).

(** RedlichKwongMFTP.cpp:55-61: the cross coefficients that setSpeciesCoeffs gives two species whose
    own coefficients are (a0, a1) and (a0', a1'), when none has been given by the user. *)
Definition rk_cross (a0 a1 a0' a1' : R) : R * R := (sqrt (a0' * a0), sqrt (a1' * a1)).

Section RK.
Context (s : rk).
Local Notation n := (rn (k_ref s)).
Local Notation T := (k_T s).
Local Notation mv := (k_v s).
Local Notation x := (k_x s).
Local Notation b := (k_bm s).
Local Notation am := (k_am s).
Local Notation Rg := GasConstant.

(** RedlichKwongMFTP.cpp:130-139. *)
Definition rk_pressure : R :=
  Rg * T / (mv - b) - am / (sqrt T * mv * (mv + b)).
Definition rk_z : R := rk_pressure * mv / (Rg * T).
(** RedlichKwongMFTP.cpp:790-802. *)
Definition rk_dadT : R :=
  if k_form s then sum_n (fun i => sum_n (fun j => k_a1 s i j * x i * x j) n) n else 0.
(** RedlichKwongMFTP.cpp:682-693. *)
Definition rk_dpdV : R :=
  let sqt := sqrt T in
  let vpb := mv + b in
  let vmb := mv - b in
  - Rg * T / (vmb * vmb) + am * (2 * mv + b) / (sqt * mv * mv * vpb * vpb).
(** RedlichKwongMFTP.cpp:713-726. *)
Definition rk_dpdT : R :=
  let sqt := sqrt T in
  let vpb := mv + b in
  let vmb := mv - b in
  let fac := rk_dadT - am / (2 * T) in
  Rg / vmb - fac / (sqt * mv * vpb).
(** RedlichKwongMFTP.cpp:695-705. *)
Definition rk_compressibility : R := -1 / (mv * rk_dpdV).
Definition rk_expansion : R := - rk_dpdT / (mv * rk_dpdV).

(** log(vpb / mv). *)
Definition rk_log : R := ln ((mv + b) / mv).

(** RedlichKwongMFTP.cpp:100-114. *)
Definition rk_cp : R :=
  let sqt := sqrt T in
  let cpref := Rg * mean_X n x (rcp (k_ref s) T) in
  let fac := T * rk_dadT - 3 * am / 2 in
  let dHdT_V := cpref + mv * rk_dpdT - Rg - 1 / (2 * b * T * sqt) * rk_log * fac
                + 1 / (b * sqt) * rk_log * (- (1/2) * rk_dadT) in
  dHdT_V - (mv + T * rk_dpdT / rk_dpdV) * rk_dpdT.
(** RedlichKwongMFTP.cpp:116-128. *)
Definition rk_cv : R :=
  let sqt := sqrt T in
  let cvref := Rg * (mean_X n x (rcp (k_ref s) T) - 1) in
  let fac := T * rk_dadT - 3 * am / 2 in
  cvref - 1 / (2 * b * T * sqt) * rk_log * fac + 1 / (b * sqt) * rk_log * (- (1/2) * rk_dadT).

Definition rk_pp (k : nat) : R := sum_n (fun i => x i * k_a s k i) n.

(** RedlichKwongMFTP.cpp:147-175. *)
Definition rk_ac (k : nat) : R :=
  let sqt := sqrt T in
  let vpb := mv + b in
  let vmb := mv - b in
  let RT := Rg * T in
  exp ((- RT * ln (rk_pressure * mv / RT) + RT * ln (mv / vmb) + RT * k_b s k / vmb
        - 2 * rk_pp k / (b * sqt) * rk_log + am * k_b s k / (b * b * sqt) * rk_log
        - am / (b * sqt) * (k_b s k / vpb)) / RT).
(** RedlichKwongMFTP.cpp:179-211. *)
Definition rk_mu (k : nat) : R :=
  let sqt := sqrt T in
  let vpb := mv + b in
  let vmb := mv - b in
  let RT := Rg * T in
  gibbs_ref (k_ref s) T k + RT * ln (Rmax SmallNumber (x k))
  + (RT * ln (rk_pressure / rp0 (k_ref s)) - RT * ln (rk_pressure * mv / RT)
     + RT * ln (mv / vmb) + RT * k_b s k / vmb
     - 2 * rk_pp k / (b * sqt) * rk_log + am * k_b s k / (b * b * sqt) * rk_log
     - am / (b * sqt) * (k_b s k / vpb)).
(** RedlichKwongMFTP.cpp:233-235. *)
Definition rk_dpdni (k : nat) : R :=
  let sqt := sqrt T in
  let vpb := mv + b in
  let vmb := mv - b in
  let RT := Rg * T in
  RT / vmb + RT * k_b s k / (vmb * vmb) - 2 * rk_pp k / (sqt * mv * vpb)
  + am * k_b s k / (sqt * mv * vpb * vpb).
(** RedlichKwongMFTP.cpp:213-256. *)
Definition rk_hbar (k : nat) : R :=
  let sqt := sqrt T in
  let vpb := mv + b in
  let RT := Rg * T in
  let fac := T * rk_dadT - 3 * am / 2 in
  let workS := sum_n (fun i => 2 * x i * T * k_a1 s k i - 3 * x i * k_a s k i) n in
  let fac2 := mv + T * rk_dpdT / rk_dpdV in
  let hE_v := mv * rk_dpdni k - RT - k_b s k / (b * b * sqt) * rk_log * fac
              + 1 / (b * sqt) * rk_log * workS + k_b s k / vpb / (b * sqt) * fac in
  RT * rh (k_ref s) T k + hE_v - fac2 * rk_dpdni k.
(** RedlichKwongMFTP.cpp:320-351. *)
Definition rk_vbar (k : nat) : R :=
  let sqt := sqrt T in
  let vpb := mv + b in
  let vmb := mv - b in
  let RT := Rg * T in
  let num := RT + RT * b / vmb + RT * k_b s k / vmb + RT * b * k_b s k / (vmb * vmb)
             - 2 * rk_pp k / (sqt * vpb) + am * k_b s k / (sqt * vpb * vpb) in
  let denom := rk_pressure + RT * b / (vmb * vmb) - am / (sqt * vpb * vpb) in
  num / denom.
(** RedlichKwongMFTP.cpp:258-307. *)
Definition rk_sbar (k : nat) : R :=
  let sqt := sqrt T in
  let vpb := mv + b in
  let vmb := mv - b in
  let workS := sum_n (fun i => x i * k_a1 s k i) n in
  let fac := rk_dadT - am / (2 * T) in
  Rg * rs (k_ref s) T k + Rg * (- ln (Rmax SmallNumber (x k)))
  - (Rg * ln (Rg * T / (rp0 (k_ref s) * mv)) + Rg + Rg * ln (mv / vmb) + Rg * k_b s k / vmb
     + rk_pp k / (b * T * sqt) * rk_log - 2 * workS / (b * sqt) * rk_log
     + k_b s k / (b * b * sqt) * rk_log * fac - 1 / (b * sqt) * k_b s k / vpb * fac)
  - - (rk_vbar k) * rk_dpdT.
(** RedlichKwongMFTP.cpp:309-318. *)
Definition rk_ubar (k : nat) : R := rk_hbar k - rk_pressure * rk_vbar k.

(** RedlichKwongMFTP.cpp:520-534. *)
Definition rk_sresid : R :=
  let hh := b / mv in
  let fac := rk_dadT - am / (2 * T) in
  Rg * (ln (rk_z * (1 - hh)) + ln (1 + hh) * fac / (sqrt T * Rg * b)).
(** RedlichKwongMFTP.cpp:536-549. *)
Definition rk_hresid : R :=
  let hh := b / mv in
  let fac := T * rk_dadT - 3 * am / 2 in
  Rg * T * (rk_z - 1) + fac * ln (1 + hh) / (sqrt T * b).
(** MixtureFugacityTP.cpp:42-57. *)
Definition rk_enthalpy : R := Rg * T * mean_X n x (rh (k_ref s) T) + rk_hresid.
Definition rk_entropy : R :=
  Rg * (mean_X n x (rs (k_ref s) T) - sum_xlogx n (rw (k_ref s)) x
        - ln (rk_pressure / rp0 (k_ref s))) + rk_sresid.

End RK.

(** RedlichKwongMFTP.cpp:857-865. *)
Definition rk_cubic (T pres a b : R) : R * R * R * R :=
  let sqt := sqrt T in
  (1, - GasConstant * T / pres,
   - (GasConstant * T * b / pres - a / (pres * sqt) + b * b),
   - (a * b / (pres * sqt))).
