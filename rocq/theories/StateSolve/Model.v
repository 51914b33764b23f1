(** Model of the functions of class ThermoPhase that find the temperature belonging to a given
    enthalpy, internal energy or entropy: setState_TP, setState_conditional_TP, setState_HPorUV and
    setState_SPorSV (src/thermo/ThermoPhase.cpp:121-143, 254-635), for an arbitrary phase.

    The two solvers are the same text with five differences, marked below; they are one definition
    here, with [ent] telling whether it is setState_SPorSV and [vol] the argument doUV/doSV.
    Temperatures, pressures and property values are real numbers; the quotient that gives the Newton
    step is taken in [fp], because its divisor can be zero.  Properties are assumed to be finite at
    positive temperature. *)
From Coq Require Import Reals List Bool.
From Verif Require Import Base.Fp Base.Outcome.
Import ListNotations.
Open Scope R_scope.

(** What the solvers use of a phase.  The composition is fixed; the state is temperature and density.
    [ph_setP T D p] is the density setPressure(p) leaves at temperature [T] and density [D], or an
    exception (which leaves the density alone). *)
Record phase := mk_phase {
  ph_minT : R; ph_maxT : R;
  ph_setP : R -> R -> R -> outcome R;
  ph_h : R -> R -> R; ph_u : R -> R -> R; ph_s : R -> R -> R;
  ph_cp : R -> R -> R; ph_cv : R -> R -> R }.

Record state := mk_state { st_T : R; st_D : R }.

(** How a call ends.  [NoConv v p] is the exception of ThermoPhase.cpp:417-450 (602-634), with the
    values printed after "Current Specific Volume" (doUV) or "Current Pressure". *)
Inductive ending := Done | Thrown | NoConv (v p : R).

(** Phase::setTemperature, Phase.h:624-631. *)
Definition setTemperature (s : state) (t : R) : ending * state :=
  if rltb 0 t then (Done, mk_state t (st_D s)) else (Thrown, s).
(** Phase::setDensity of a compressible phase, Phase.cpp:586-595. *)
Definition setDensity (s : state) (d : R) : ending * state :=
  if rltb 0 d then (Done, mk_state (st_T s) d) else (Thrown, s).

Section Solve.
  Context (ph : phase).

  (** setPressure. *)
  Definition setPressure (s : state) (p : R) : ending * state :=
    match ph_setP ph (st_T s) (st_D s) p with
    | Ok d => (Done, mk_state (st_T s) d)
    | _ => (Thrown, s)
    end.

  Definition andthen (r : ending * state) (f : state -> ending * state) : ending * state :=
    match r with (Done, s) => f s | _ => r end.

  (** ThermoPhase::setState_TP, ThermoPhase.cpp:121-132, for a compressible phase; the handler calls
      Phase::setState_TD (Phase.cpp:377-381). *)
  Definition setState_TP (s : state) (t p : R) : ending * state :=
    let tsave := st_T s in
    let dsave := st_D s in
    match andthen (setTemperature s t) (fun s => setPressure s p) with
    | (Done, s') => (Done, s')
    | (_, s') => (Thrown, snd (andthen (setTemperature s' tsave) (fun s => setDensity s dsave)))
    end.

  Context (ent vol : bool).

  (** intEnergy_mass, enthalpy_mass or entropy_mass; cv_mass or cp_mass. *)
  Definition value (s : state) : R :=
    if ent then ph_s ph (st_T s) (st_D s)
    else if vol then ph_u ph (st_T s) (st_D s) else ph_h ph (st_T s) (st_D s).
  Definition heat (s : state) : R :=
    if vol then ph_cv ph (st_T s) (st_D s) else ph_cp ph (st_T s) (st_D s).

  (** ThermoPhase::setState_conditional_TP, ThermoPhase.cpp:254-260, called with set_p = !doUV. *)
  Definition setState_cond (s : state) (t p : R) : ending * state :=
    andthen (setTemperature s t) (fun s => if vol then (Done, s) else setPressure s p).

  (** clip(value, lower, upper) = std::max(lower, std::min(upper, value)), base/global.h:324-328, with
      bounds -100 and 100.  The result is a number even if [v] is not. *)
  Definition clip100 (v : fp) : R :=
    match fmax (Fin (-100)) (fmin (Fin 100) v) with Fin x => x | _ => 0 end.

  (** The variables of the loop: Tnew, Hnew, Cpnew, Htop, Ttop, Hbot, Tbot, ignoreBounds,
      unstablePhase (Tunstable and unstablePhaseNew only matter for messages and within the inner
      loop). *)
  Record vars := mk_vars {
    v_T : R; v_H : R; v_C : R;
    v_Htop : R; v_Ttop : R; v_Hbot : R; v_Tbot : R;
    v_ign : bool; v_uns : bool }.

  Context (target p rtol : R).

  (** The Newton step, ThermoPhase.cpp:324-325 and 522-523 (difference 1: the factor Told). *)
  Definition newton_step (v : vars) : R :=
    if ent then clip100 (fdiv (Fin ((target - v_H v) * v_T v)) (Fin (v_C v)))
    else clip100 (fdiv (Fin (target - v_H v)) (Fin (v_C v))).

  (** "Limit the step size so that we are convergent", ThermoPhase.cpp:330-340 and 526-535
      (difference 2: where the limit starts). *)
  Definition limited_step (v : vars) (uns : bool) (dt : R) : R :=
    let Told := v_T v in
    let Tnew := Told + dt in
    if (rltb 0 dt && uns) || (negb (rltb 0 dt) && negb uns) then
      if rltb (v_Hbot v) target &&
         rltb Tnew (if ent then v_Tbot v else 3 / 4 * v_Tbot v + 1 / 4 * Told)
      then 3 / 4 * (v_Tbot v - Told) else dt
    else
      if rltb target (v_Htop v) &&
         rltb (if ent then v_Ttop v else 3 / 4 * v_Ttop v + 1 / 4 * Told) Tnew
      then 3 / 4 * (v_Ttop v - Told) else dt.

  Definition Tmax : R := ph_maxT ph + 1 / 10.
  Definition Tmin : R := ph_minT ph - 1 / 10.

  (** "Check Max and Min values", ThermoPhase.cpp:342-368 and 537-562.  The value Tnew gets here is
      overwritten below; [tn] is kept for the second test (difference 3: "if" against "else if"). *)
  Definition check_max (v : vars) (tn : R) (s : state) : (ending * state) * (vars * R) :=
    if rltb Tmax tn && negb (v_ign v) then
      let r := setState_cond s Tmax p in
      let Hmax := value (snd r) in
      (r,
       if negb (rltb Hmax target) then
         (if rltb (v_Htop v) target
          then mk_vars (v_T v) (v_H v) (v_C v) Hmax Tmax (v_Hbot v) (v_Tbot v) (v_ign v) (v_uns v)
          else v, tn)
       else (mk_vars (v_T v) (v_H v) (v_C v) (v_Htop v) (v_Ttop v) (v_Hbot v) (v_Tbot v) true (v_uns v),
             Tmax + 1))
    else ((Done, s), (v, tn)).
  Definition check_min (v : vars) (tn : R) (s : state) : (ending * state) * vars :=
    if rltb tn Tmin && negb (v_ign v) then
      let r := setState_cond s Tmin p in
      let Hmin := value (snd r) in
      (r,
       if negb (rltb target Hmin) then
         (if rltb target (v_Hbot v)
          then mk_vars (v_T v) (v_H v) (v_C v) (v_Htop v) (v_Ttop v) Hmin Tmin (v_ign v) (v_uns v)
          else v)
       else mk_vars (v_T v) (v_H v) (v_C v) (v_Htop v) (v_Ttop v) (v_Hbot v) (v_Tbot v) true (v_uns v))
    else ((Done, s), v).
  Definition check_bounds (v : vars) (tn : R) (s : state) : (ending * state) * vars :=
    let '(r1, (v1, tn1)) := check_max v tn s in
    match r1 with
    | (Done, s1) =>
        if ent && (rltb Tmax tn && negb (v_ign v)) then ((Done, s1), v1)
        else check_min v1 tn1 s1
    | _ => (r1, v1)
    end.

  (** "Try to keep phase within its region of stability", ThermoPhase.cpp:370-397 and 564-582
      (difference 4: the temperature is kept above Told/3 only for H and U).  Result: Tnew and the
      step, with the state the phase is in. *)
  Fixpoint stable_loop (its : nat) (Told dt : R) (uns : bool) (last : R) (s : state)
    : (ending * state) * (R * R) :=
    match its with
    | O => ((Done, s), (last, dt))
    | S its' =>
        let low := negb ent && rltb (Told + dt) (Told / 3) in
        let Tnew := if low then Told / 3 else Told + dt in
        let dt1 := if low then -2 * Told / 3 else dt in
        match setState_cond s Tnew p with
        | (Done, s1) =>
            if rltb (heat s1) 0
            then stable_loop its' Told (if uns then dt1 else dt1 * (1 / 4)) uns Tnew s1
            else ((Done, s1), (Tnew, dt1))
        | r => (r, (Tnew, dt1))
        end
    end.

  (** The new bracket, ThermoPhase.cpp:399-407 and 584-592; [v] holds the new T, H, C. *)
  Definition rebracket (v : vars) : vars :=
    if rltb target (v_H v) && (rltb (v_Htop v) target || rltb (v_H v) (v_Htop v)) then
      mk_vars (v_T v) (v_H v) (v_C v) (v_H v) (v_T v) (v_Hbot v) (v_Tbot v) (v_ign v) (v_uns v)
    else if rltb (v_H v) target && (rltb target (v_Hbot v) || rltb (v_Hbot v) (v_H v)) then
      mk_vars (v_T v) (v_H v) (v_C v) (v_Htop v) (v_Ttop v) (v_H v) (v_T v) (v_ign v) (v_uns v)
    else v.

  (** The convergence test, ThermoPhase.cpp:408-415 and 593-600 (difference 5: the entropy error is
      multiplied by T). *)
  Definition converged (Hnew Tnew cpd dt : R) : bool :=
    let Herr := target - Hnew in
    let acpd := Rmax (Rabs cpd) (/ 100000) in
    let denom := Rmax (Rabs target) (acpd * Tnew) in
    let HConvErr := if ent then Rabs (Herr * Tnew / denom) else Rabs (Herr / denom) in
    rltb HConvErr rtol || rltb (Rabs (dt / Tnew)) rtol.

  (** One pass of the Newton loop: [inl] ends the call. *)
  Definition iterate (v : vars) (s : state) : (ending * state) + (vars * state) :=
    let uns := rltb (v_C v) 0 || v_uns v in
    let Told := v_T v in
    let cpd := v_C v in
    let dt := limited_step v uns (newton_step v) in
    let v0 := mk_vars Told (v_H v) cpd (v_Htop v) (v_Ttop v) (v_Hbot v) (v_Tbot v) (v_ign v) uns in
    match check_bounds v0 (Told + dt) s with
    | ((Done, s1), v1) =>
        match stable_loop 10 Told dt uns (Told + dt) s1 with
        | ((Done, s2), (Tnew, dt2)) =>
            let Hnew := value s2 in
            let v2 := mk_vars Tnew Hnew (heat s2) (v_Htop v1) (v_Ttop v1) (v_Hbot v1) (v_Tbot v1)
                        (v_ign v1) uns in
            if reqb Hnew target then inl (Done, s2)
            else if converged Hnew Tnew cpd dt2 then inl (Done, s2)
            else inr (rebracket v2, s2)
        | (r, _) => inl r
        end
    | (r, _) => inl r
    end.

  (** The value printed as specific volume: in setState_HPorUV the variable that is printed is not
      the one that was assigned, because "double v = p" (line 270) declares another one. *)
  Definition printed_v : R := if ent then (if vol then p else 0) else 0.

  Fixpoint loop (n : nat) (v : vars) (s : state) : ending * state :=
    match n with
    | O => (NoConv printed_v p, s)
    | S n' => match iterate v s with
              | inl r => r
              | inr (v', s') => loop n' v' s'
              end
    end.

  (** The temperature the iteration starts from, ThermoPhase.cpp:286-297 and 486-497. *)
  Definition start_T (t : R) : R :=
    if rltb Tmax t then Tmax - 1 else if rltb t Tmin then Tmin + 1 else t.

  Definition start_vars (s : state) : vars :=
    mk_vars (st_T s) (value s) (heat s) (value s) (st_T s) (value s) (st_T s) false false.

  (** ThermoPhase::setState_HPorUV (262-451) and setState_SPorSV (464-635), for a compressible phase
      if [vol] (assertCompressible, lines 141 and 460). *)
  Definition setState (s : state) : ending * state :=
    if rltb p (/ 10 ^ 300) then (Thrown, s) else
    andthen (if vol then setDensity s (1 / p) else setPressure s p) (fun s =>
    let t := start_T (st_T s) in
    andthen (if reqb t (st_T s) then (Done, s) else setState_cond s t p) (fun s =>
    loop 500 (start_vars s) s)).
End Solve.

Definition setState_HP ph target p rtol := setState ph false false target p rtol.
Definition setState_UV ph target v rtol := setState ph false true target v rtol.
Definition setState_SP ph target p rtol := setState ph true false target p rtol.
Definition setState_SV ph target v rtol := setState ph true true target v rtol.
