(** From temperature and pressure to density in a real gas: MixtureFugacityTP::solveCubic, the
    densityCalc and liquidVolEst of PengRobinson and RedlichKwongMFTP, MixtureFugacityTP::setPressure.
    Numbers are reals, so rounding is not modelled; a value that would be NaN or infinite in C++ is a
    separate case wherever the code can produce one. *)
From Coq Require Import Reals ZArith Bool.
From Verif Require Import Base.Fp Units.Model Cubic.Model.
Open Scope R_scope.

Definition tol14 : R := / 10 ^ 14.

(** MixtureFugacityTP.cpp:890, 937 and 941: the residual and its derivative.  Both callers pass
    an = 1 (PengRobinson.cpp:770, RedlichKwongMFTP.cpp:861); factors an are left out throughout. *)
Definition c_res (bn cn dn v : R) : R := v * v * v + bn * v * v + cn * v + dn.
Definition c_dres (bn cn v : R) : R := 3 * v * v + 2 * bn * v + cn.

(** MixtureFugacityTP.cpp:810-817. *)
Fixpoint near_iter (fuel : nat) (r1 r2 r3 zz : R) : R :=
  match fuel with
  | O => zz
  | S f =>
      let znew := zz / (zz - r2) - r3 / (zz + r1) in
      let deltaz := znew - zz in
      if rltb (Rabs deltaz) tol14 then znew else near_iter f r1 r2 r3 znew
  end.

(** MixtureFugacityTP.cpp:936-954, for one root: the final value, and res and dresdV as they stand
    after the loop.  None: the derivative was 0, the step is infinite and the value is NaN ever after. *)
Fixpoint polish (fuel : nat) (bn cn dn v : R) : option (R * R * R) :=
  let res := c_res bn cn dn v in
  if rltb (Rabs res) tol14 then Some (v, res, 0)
  else
    let d := c_dres bn cn v in
    if reqb d 0 then None
    else
      let del := - res / d in
      let v1 := v + del in
      if rltb (Rabs del / (Rabs v1 + Rabs del)) tol14 then Some (v1, res, d)
      else
        let v2 := if rltb (Rabs (c_res bn cn dn v1)) (Rabs res) then v1
                  else v1 - del + (1/10) * del in
        match fuel with
        | O => Some (v2, res, d)
        | S f => polish f bn cn dn v2
        end.
(** MixtureFugacityTP.cpp:955-959.  The outer None is the exception, the inner one NaN (every
    comparison with NaN is false, so it is not detected). *)
Definition accept (r : option (R * R * R)) : option (option R) :=
  match r with
  | None => Some None
  | Some (v, res, d) =>
      if rltb tol14 (Rabs res) && rltb (tol14 * Rabs d * Rabs v) (Rabs res) then None
      else Some (Some v)
  end.
(** n = 0..19. *)
Definition polished (bn cn dn v : R) : option (option R) := accept (polish 19 bn cn dn v).

(** pow(x, 1./3.): NaN for negative arguments. *)
Definition cbrt (x : R) : option R :=
  if rltb 0 x then Some (Rpower x (1/3)) else if reqb x 0 then Some 0 else None.
(** MixtureFugacityTP.cpp:859-872. *)
Definition signed_cbrt (x : R) : R :=
  if rltb x 0 then - Rpower (- x) (1/3) else if reqb x 0 then 0 else Rpower x (1/3).

(** The number of solutions and Vroot (None: NaN), or an exception. *)
Inductive sres := SThrow | SRoots (n : Z) (v0 v1 v2 : option R).

(** Comparison with a value that may be NaN. *)
Definition oltb (a : option R) (b : R) : bool := match a with Some x => rltb x b | None => false end.

Section Solve.
Context (T pres b aAlpha bn cn dn tc vc : R).

(** MixtureFugacityTP.cpp:795-798, 825-832. *)
Definition s_xN : R := - bn / 3.
Definition s_delta2 : R := (bn * bn - 3 * cn) / 9.
Definition s_h2 : R := 4 * s_delta2 * s_delta2 * s_delta2.
Definition s_delta : R := if rltb 0 s_delta2 then sqrt s_delta2 else 0.
Definition s_h : R := 2 * s_delta * s_delta2.
Definition s_yN : R := 2 * bn * bn * bn / 27 - bn * cn / 3 + dn.
Definition s_disc : R := s_yN * s_yN - s_h2.

(** MixtureFugacityTP.cpp:803-807: the state is close to an ideal gas.  For bn = 0 the ratio is
    infinite or NaN and the comparison false. *)
Definition s_ratio1 : R := 3 * cn / (bn * bn).
Definition s_ratio2 : R := pres * b / (GasConstant * T).
Definition s_ratio3 : R := aAlpha / (GasConstant * T) * pres / (GasConstant * T).
Definition s_near : bool :=
  (if reqb bn 0 then false else rltb (Rabs s_ratio1) (/ 10 ^ 7))
  && (rltb (Rabs s_ratio2) (/ 10 ^ 5) && rltb (Rabs s_ratio3) (/ 10 ^ 5)).

(** MixtureFugacityTP.cpp:843-853. *)
Definition s_count (disc : R) : Z :=
  if rltb disc (- tol14) then 3
  else if rltb (Rabs disc) tol14 then 2
  else if rltb tol14 disc then 1 else (-1).

(** MixtureFugacityTP.cpp:857-931: Vroot before polishing, and delta; None: exception. *)
Definition s_start (disc : R) : option (R * R * R * R) :=
  let xN := s_xN in let delta := s_delta in let yN := s_yN in let h := s_h in
  if rltb 0 disc then
    let tmpD := sqrt disc in
    let alpha := xN + signed_cbrt ((- yN + tmpD) / 2) + signed_cbrt ((- yN - tmpD) / 2) in
    Some (alpha, 0, 0, delta)
  else if rltb disc 0 then
    let theta := acos (- yN / h) / 3 in
    let twoThirdPi := 2 * PI / 3 in
    Some (xN + 2 * delta * cos (theta + twoThirdPi),
          xN + 2 * delta * cos (theta + 2 * twoThirdPi),
          xN + 2 * delta * cos theta, delta)
  else if rltb yN (/ 10 ^ 18) && rltb h (/ 10 ^ 18) then Some (xN, xN, xN, delta)
  else
    let bad := match cbrt (yN / 2) with
               | Some tmp => rltb (/ 10 ^ 9) (Rabs (tmp - delta)) | None => false end in
    if bad then None
    else if rltb 0 yN then Some (xN - 2 * delta, xN + delta, 0, delta)
    else Some (xN - delta, xN + 2 * delta, 0, - delta).

(** MixtureFugacityTP.cpp:935-960: the first n values are polished. *)
Definition s_polish (n : Z) (v0 v1 v2 : R) : option (option R * option R * option R) :=
  let p := fun k v => if Z.ltb k n then polished bn cn dn v else Some (Some v) in
  match p 0%Z v0 with
  | None => None
  | Some w0 => match p 1%Z v1 with
    | None => None
    | Some w1 => match p 2%Z v2 with
      | None => None
      | Some w2 => Some (w0, w1, w2) end end end.

(** MixtureFugacityTP.cpp:962-983. *)
Definition s_final (n : Z) (v0 : option R) (delta : R) : Z :=
  if Z.eqb n 1 then
    if rltb tc T then (if oltb v0 vc then (-1)%Z else n)
    else (if oltb v0 s_xN then (-1)%Z else n)
  else if Z.eqb n 2 && rltb tol14 delta then (-2)%Z else n.

(** MixtureFugacityTP.cpp:784-985 (the warning about merged roots is left out). *)
Definition solve_cubic : sres :=
  if negb (rltb 0 T) then SThrow
  else if s_near then
    SRoots 1 (Some (near_iter 10 s_ratio1 s_ratio2 s_ratio3 1 * GasConstant * T / pres))
           (Some 0) (Some 0)
  else
    let snapped := rltb (Rabs (Rabs s_h - Rabs s_yN)) (/ 10 ^ 10) in
    if snapped && rltb (/ 10 ^ 10) s_disc then SThrow
    else
      let disc := if snapped then 0 else s_disc in
      let n := s_count disc in
      match s_start disc with
      | None => SThrow
      | Some (v0, v1, v2, delta) =>
          match s_polish n v0 v1 v2 with
          | None => SThrow
          | Some (w0, w1, w2) => SRoots (s_final n w0 delta) w0 w1 w2
          end
      end.
End Solve.

(** PengRobinson.cpp:763-781 and RedlichKwongMFTP.cpp:857-876, with the critical values they use. *)
Definition pr_omega_vc : R := 307401308698703833 / 1000000000000000000.
Definition pr_solve (T pres a b aAlpha : R) : sres :=
  let '(_, bn, cn, dn) := pr_cubic T pres b aAlpha in
  let tc := a * omega_b / (b * omega_a * GasConstant) in
  let pc := omega_b * GasConstant * tc / b in
  let vc := pr_omega_vc * GasConstant * tc / pc in
  solve_cubic T pres b aAlpha bn cn dn tc vc.
Definition rk_omega_a : R := 42748023354 / 100000000000.
Definition rk_omega_b : R := 8664034996500 / 100000000000000.
Definition rk_omega_vc : R := 333333333333333 / 1000000000000000.
Definition rk_solve (T pres a b : R) : sres :=
  let '(_, bn, cn, dn) := rk_cubic T pres a b in
  let tc := Rpower (a * rk_omega_b / (b * rk_omega_a * GasConstant)) (2/3) in
  let pc := rk_omega_b * GasConstant * tc / b in
  let vc := rk_omega_vc * GasConstant * tc / pc in
  solve_cubic T pres b a bn cn dn tc vc.

(** ** Density from pressure *)

(** MixtureFugacityTP.h:21-25. *)
Definition FLUID_UNSTABLE : Z := -4.
Definition FLUID_UNDEFINED : Z := -3.
Definition FLUID_SUPERCRIT : Z := -2.
Definition FLUID_GAS : Z := -1.
Definition FLUID_LIQUID_0 : Z := 0.

(** A density: a number, infinity (division by a volume of 0) or NaN. *)
Inductive dval := DNum (r : R) | DInf | DNaN.
Inductive dres := DThrow | DRet (d : dval).
Definition over (mmw : R) (v : option R) : dval :=
  match v with None => DNaN | Some v => if reqb v 0 then DInf else DNum (mmw / v) end.

(** PengRobinson.cpp:485-514, RedlichKwongMFTP.cpp:551-579: raise the pressure by 4 per cent until a
    liquid root appears.  m is never incremented, so that only the pressure bounds the loop; the
    fuel stands for that loop (None: still running).  Result: volume and the new presGuess. *)
Fixpoint liquid_loop (fuel : nat) (solve : R -> sres) (pc pres : R) : option (option (option R * R)) :=
  match fuel with
  | O => None
  | S f =>
      match solve pres with
      | SThrow => Some None
      | SRoots n v0 _ _ =>
          if (Z.eqb n 1 || Z.eqb n 2) then
            if rltb pc pres then Some (Some (v0, pres * (104/100)))
            else liquid_loop f solve pc (pres * (104/100))
          else Some (Some (v0, pres))
      end
  end.
Definition liquid_vol (fuel : nat) (solve : R -> sres) (pc psat presGuess : R) :=
  liquid_loop fuel solve pc (Rmax psat presGuess).

(** PengRobinson.cpp:516-572, RedlichKwongMFTP.cpp:581-635.  liq is liquidVolEst(T, presPa), which
    takes presPa by reference and so may change it. *)
Definition density_calc (solve : R -> sres) (liq : R -> option (option R * R))
    (T tcrit mmw presPa : R) (phase : Z) (rhoGuess : R) : dres :=
  let start :=
    if reqb rhoGuess (-1) then
      if Z.leb FLUID_LIQUID_0 phase then
        match liq presPa with
        | None => None
        | Some (v, p) => Some (match v with Some v => Some (mmw / (mmw / v)) | None => None end, p)
        end
      else Some (Some (mmw / rhoGuess), presPa)
    else Some (Some (mmw / (presPa * mmw / (GasConstant * T))), presPa) in
  match start with
  | None => DThrow
  | Some (volGuess, pres) =>
      match solve pres with
      | SThrow => DThrow
      | SRoots n v0 v1 v2 =>
          if Z.leb 2 n then
            if Z.leb FLUID_LIQUID_0 phase then DRet (over mmw v0)
            else if Z.eqb phase FLUID_GAS || Z.eqb phase FLUID_SUPERCRIT then DRet (over mmw v2)
            else match v1, volGuess with
                 | Some w1, Some vg =>
                     if rltb w1 vg then DRet (over mmw v2) else DRet (over mmw v0)
                 | _, _ => DRet (over mmw v0)
                 end
          else if Z.eqb n 1 then
            if Z.eqb phase FLUID_GAS || Z.eqb phase FLUID_SUPERCRIT || Z.eqb phase FLUID_UNDEFINED
            then DRet (over mmw v0) else DRet (DNum (-2))
          else if Z.eqb n (-1) then
            if Z.leb FLUID_LIQUID_0 phase || Z.eqb phase FLUID_UNDEFINED || Z.eqb phase FLUID_SUPERCRIT
            then DRet (over mmw v0)
            else if rltb tcrit T then DRet (over mmw v0) else DRet (DNum (-2))
          else DRet (DNum (-1))
      end
  end.

(** The density and phase label of a phase, and the branch forced by the user. *)
Record rstate := Rstate { r_rho : dval; r_state : Z }.
Inductive pres_res := PThrow | POk (s : rstate).
Definition dpos (d : dval) : bool := match d with DNum r => rltb 0 r | DInf => true | DNaN => false end.
Definition dlow (d : dval) : bool := match d with DNum r => rltb r (- (3/2)) | _ => false end.

(** MixtureFugacityTP.cpp:187-249.  calc phase p rho is densityCalc at the current temperature,
    ps is phaseState(true) at a density.  setDensity of a positive number succeeds
    (Phase.cpp:597-605). *)
Definition set_pressure (calc : Z -> R -> dval -> dres) (ps : dval -> Z)
    (forced : Z) (s : rstate) (p : R) : pres_res :=
  let take := fun rho => POk (Rstate rho (ps rho)) in
  if Z.eqb forced FLUID_UNDEFINED then
    match calc (r_state s) p (r_rho s) with
    | DThrow => PThrow
    | DRet rho =>
        if dpos rho then take rho
        else if dlow rho then
          match calc FLUID_UNDEFINED p (r_rho s) with
          | DThrow => PThrow
          | DRet rho2 => if dpos rho2 then take rho2 else PThrow
          end
        else PThrow
    end
  else if Z.eqb forced FLUID_GAS then
    if Z.ltb (r_state s) FLUID_LIQUID_0 then
      match calc (r_state s) p (r_rho s) with
      | DThrow => PThrow
      | DRet rho => if dpos rho then
                      if Z.leb FLUID_LIQUID_0 (ps rho) then PThrow else take rho
                    else PThrow
      end
    else POk s
  else if Z.ltb FLUID_LIQUID_0 forced then
    if Z.leb FLUID_LIQUID_0 (r_state s) then
      match calc (r_state s) p (r_rho s) with
      | DThrow => PThrow
      | DRet rho => if dpos rho then
                      if Z.eqb (ps rho) FLUID_GAS then PThrow else take rho
                    else PThrow
      end
    else POk s
  else POk s.

(** The two phases: densityCalc of the phase at temperature T with its stored parameters
    (m_a, m_b, m_aAlpha_mix; m_a_current, m_b_current), from a density rho that is a number.  The
    guess is -1 only if the caller says so, since a density is positive. *)
Definition pr_density (liq : R -> option (option R * R)) (a b aAlpha tcrit mmw T : R)
    (phase : Z) (p : R) (rho : dval) : dres :=
  match rho with
  | DNum r => density_calc (fun q => pr_solve T q a b aAlpha) liq T tcrit mmw p phase r
  | _ => density_calc (fun q => pr_solve T q a b aAlpha) liq T tcrit mmw p phase 1
  end.
Definition rk_density (liq : R -> option (option R * R)) (a b tcrit mmw T : R)
    (phase : Z) (p : R) (rho : dval) : dres :=
  match rho with
  | DNum r => density_calc (fun q => rk_solve T q a b) liq T tcrit mmw p phase r
  | _ => density_calc (fun q => rk_solve T q a b) liq T tcrit mmw p phase 1
  end.
