(* The damped Newton solver and the time stepping of one-dimensional simulations. The
   evaluation of Newton steps (residual, Jacobian, linear solve) is given from outside. *)
From Coq Require Import Reals ZArith String List Bool Arith.
From Verif Require Import Base.Outcome Base.Fp OneD.LayoutModel.
Import ListNotations.
Local Open Scope list_scope.
Local Open Scope R_scope.

(* A domain with bounds and tolerances by component: Domain1D::upperBound, lowerBound,
   rtol, atol (Domain1D.h). *)
Record ndom := ND { nd : dom; nd_up : nat -> R; nd_lo : nat -> R; nd_rtol : nat -> R; nd_atol : nat -> R }.
Definition elem (x : list R) (d : dom) (m j : nat) : R := nth (start d + (j * d_nv d + m)) x 0.

(* The loop of bound_step, MultiNewton.cpp:35-97: components outside, points inside. *)
Definition pairs (nv np : nat) : list (nat * nat) :=
  flat_map (fun m => map (fun j => (m, j)) (seq 0 np)) (seq 0 nv).
Definition bound_one (x step : list R) (q : ndom) (fbound : R) (p : nat * nat) : R :=
  let above := nd_up q (fst p) in
  let below := nd_lo q (fst p) in
  let val := elem x (nd q) (fst p) (snd p) in
  let newval := val + elem step (nd q) (fst p) (snd p) in
  if rltb above newval then Rmax 0 (Rmin fbound ((above - val) / (newval - val)))
  else if rltb newval below then Rmin fbound ((val - below) / (val - newval))
  else fbound.
Definition bound_step (x step : list R) (q : ndom) : R :=
  fold_left (bound_one x step q) (pairs (d_nv (nd q)) (d_np (nd q))) 1.
(* MultiNewton::boundStep, MultiNewton.cpp:218-228. *)
Definition boundStep (ds : list ndom) (x step : list R) : R :=
  fold_left (fun fb q => Rmin fb (bound_step x step q)) ds 1.

(* norm_square and norm2, MultiNewton.cpp:131-151 and 171-182. A division by zero (no
   unknowns) is a division by zero of R here. *)
Definition sumR (l : list R) : R := fold_left Rplus l 0.
Definition weight (x : list R) (q : ndom) (n : nat) : R :=
  nd_rtol q n * sumR (map (fun j => Rabs (elem x (nd q) n j)) (seq 0 (d_np (nd q)))) / INR (d_np (nd q)) + nd_atol q n.
Definition norm_square (x step : list R) (q : ndom) : R :=
  sumR (map (fun p => let f := elem step (nd q) (fst p) (snd p) / weight x q (fst p) in f * f)
            (pairs (d_nv (nd q)) (d_np (nd q)))).
Definition norm2 (ds : list ndom) (size : nat) (x step : list R) : R :=
  sqrt (sumR (map (norm_square x step) ds) / INR size).

(* x0 + alpha*step0, MultiNewton.cpp:265-267. *)
Fixpoint damped (alpha : R) (x step : list R) : list R :=
  match x, step with
  | a :: x, s :: step => (a + alpha * s) :: damped alpha x step
  | _, _ => []
  end.

Section Solver.
  (* Jacobians; the Newton step with a Jacobian at a solution (MultiNewton::step, which may
     throw); the residual (ssnorm, called only when logging); evaluation of a Jacobian. *)
  Context {J : Type} (stp : J -> list R -> outcome (list R)) (res : list R -> list R) (newJ : list R -> J).
  Context (ds : list ndom) (size : nat).
  (* m_maxDampIter and m_dampFactor; the defaults are 7 and sqrt(2), MultiNewton.h. *)
  Context (maxDamp : nat) (dampFactor : R).

  (* What dampStep leaves: status, x1, step1, s1. *)
  Record damped_result := DR { dr_status : Z; dr_x1 : list R; dr_step1 : list R; dr_s1 : R }.
  (* The loop, MultiNewton.cpp:262-297; n iterations are left. With logging, ssnorm(x1,step1)
     overwrites step1 with the residual. *)
  Fixpoint damp_loop (log : bool) (jac : J) (x0 step0 : list R) (s0 alpha : R) (n : nat)
      (x1 step1 : list R) (s1 : R) : outcome damped_result :=
    match n with
    | O => Ok (DR (-2) x1 step1 s1)
    | S n =>
        let x1 := damped alpha x0 step0 in
        obind (stp jac x1) (fun step1 =>
        let s1 := norm2 ds size x1 step1 in
        let step1 := if log then res x1 else step1 in
        if rltb s1 1 || rltb s1 s0 then Ok (DR (if rltb 1 s1 then 0 else 1) x1 step1 s1)
        else damp_loop log jac x0 step0 s0 (alpha / dampFactor) n x1 step1 s1)
    end.
  (* MultiNewton::dampStep, MultiNewton.cpp:230-314. *)
  Definition dampStep (log : bool) (jac : J) (x0 step0 x1 step1 : list R) (s1 : R) : outcome damped_result :=
    let s0 := norm2 ds size x0 step0 in
    let fbound := boundStep ds x0 step0 in
    if rltb fbound (/ 10 ^ 10) then Ok (DR (-3) x1 step1 s1)
    else damp_loop log jac x0 step0 s0 (fbound * 1) maxDamp x1 step1 s1.

  (* MultiNewton::solve, MultiNewton.cpp:316-398. The state of the loop: m_x, x1, step1, s1,
     the Jacobian and its age, forceNewJac, nJacReeval. None: still running after the
     given number of iterations (the loop itself has no limit). *)
  Record nstate := NS { ns_x : list R; ns_x1 : list R; ns_step1 : list R; ns_s1 : R;
                        ns_jac : J; ns_age : Z; ns_force : bool; ns_reeval : nat }.
  (* Result: status, x1, Jacobian and its age. *)
  Definition nresult := (Z * list R * J * Z)%type.
  Fixpoint solve_loop (fuel : nat) (log steady : bool) (maxAge : Z) (s : nstate) : option (outcome nresult) :=
    match fuel with
    | O => None
    | S fuel =>
        let force := ns_force s || (maxAge <? ns_age s)%Z in
        let jac := if force then newJ (ns_x s) else ns_jac s in
        let age := if force then 0%Z else ns_age s in
        match stp jac (ns_x s) with
        | Ok step0 =>
            let age := (age + 1)%Z in
            match dampStep log jac (ns_x s) step0 (ns_x1 s) (ns_step1 s) (ns_s1 s) with
            | Ok d =>
                if (dr_status d =? 0)%Z then
                  solve_loop fuel log steady maxAge (NS (dr_x1 d) (dr_x1 d) (dr_step1 d) (dr_s1 d) jac age false (ns_reeval s))
                else if (dr_status d =? 1)%Z then
                  Some (Ok (1%Z, dr_x1 d, jac, if steady then 0%Z else age))
                else if (1 <? age)%Z then
                  if (3 <? ns_reeval s)%nat then Some (Ok (dr_status d, ns_x s, jac, age))
                  else solve_loop fuel log steady maxAge
                         (NS (ns_x s) (dr_x1 d) (dr_step1 d) (dr_s1 d) jac age true (S (ns_reeval s)))
                else Some (Ok (dr_status d, ns_x s, jac, age))
            | Err => Some Err | Exn => Some Exn | UB => Some UB
            end
        | Err => Some Err | Exn => Some Exn | UB => Some UB
        end
    end.
  Definition solve (fuel : nat) (log steady : bool) (maxAge : Z) (jac : J) (age : Z) (x0 x1 step1 : list R) : option (outcome nresult) :=
    solve_loop fuel log steady maxAge (NS x0 x1 step1 (10 ^ 30) jac age false 0).
End Solver.

(* ---------------------------------------------------------------- *)
(** * Time stepping *)
Section TimeStep.
  (* What the solver does on its i-th call with a step size and a solution: whether it
     succeeds, the new solution, and whether a Jacobian was evaluated. *)
  Record attempt := At { a_ok : bool; a_x : list R; a_newjac : bool }.
  Context (try : nat -> R -> list R -> attempt) (resetBad : list R -> list R).
  Context (tmin tmax tfactor : R) (nmax : Z).
  (* OneDim::timeStep, OneDim.cpp:394-489, without logging and callback: n, calls made,
     failures in a row, dt, x, m_nsteps. *)
  Record tstate := TS { ts_n : Z; ts_calls : nat; ts_fail : nat; ts_dt : R; ts_x : list R; ts_total : Z }.
  Definition rmin (a b : R) : R := if rltb b a then b else a.
  Inductive tres := TMore (s : tstate) | TDone (s : tstate) | TThrow (s : tstate).
  Definition tstep (nsteps : Z) (s : tstate) : tres :=
    if (ts_n s <? nsteps)%Z then
      let a := try (ts_calls s) (ts_dt s) (ts_x s) in
      if a_ok a then
        let dt := rmin (if a_newjac a then ts_dt s else ts_dt s * (3 / 2)) tmax in
        let s' := TS (ts_n s + 1) (S (ts_calls s)) 0 dt (a_x a) (ts_total s + 1) in
        if (nmax <=? ts_total s + 1)%Z then TThrow s' else TMore s'
      else if (2 <? S (ts_fail s))%nat then
        TMore (TS (ts_n s) (S (ts_calls s)) 0 (ts_dt s) (resetBad (ts_x s)) (ts_total s))
      else
        let dt := ts_dt s * tfactor in
        let s' := TS (ts_n s) (S (ts_calls s)) (S (ts_fail s)) dt (ts_x s) (ts_total s) in
        if rltb dt tmin then TThrow s' else TMore s'
    else TDone s.
  (* None: still running. The boolean: returned (true) or thrown (false). *)
  Fixpoint trun (fuel : nat) (nsteps : Z) (s : tstate) : option (bool * tstate) :=
    match fuel with
    | O => None
    | S fuel => match tstep nsteps s with
                | TMore s' => trun fuel nsteps s'
                | TDone s' => Some (true, s')
                | TThrow s' => Some (false, s')
                end
    end.
  Definition timeStep (fuel : nat) (nsteps : Z) (dt : R) (x : list R) (total : Z) : option (bool * tstate) :=
    trun fuel nsteps (TS 0 0 0 dt x total).
End TimeStep.
