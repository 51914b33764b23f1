(* Advancing a reactor network in time, with limits on the change of components.
   ReactorNet.cpp:175-274 and CVodesIntegrator.cpp:482-556. *)
From Coq Require Import Reals List Bool Arith.
From Verif Require Import Base.Outcome Base.Fp.
Import ListNotations.
Local Open Scope R_scope.
Local Open Scope list_scope.

Section Adv.
(* CVODE itself: its memory, one internal step (CVode with CV_ONE_STEP; the target time is only
   used to choose the first step), the time reached, the solution there (written to m_y), the order
   of the last step (0 before the first) and CVodeGetDky. *)
Context {C : Type} (cstep : R -> C -> outcome C) (ctime : C -> R) (cy : C -> list R) (corder : C -> nat)
        (cdky : C -> R -> nat -> outcome (list R)).

(* m_cvode_mem with m_tInteg = ctime, m_time, m_y. *)
Record integ := IN { i_c : C; i_t : R; i_y : list R }.
(* The loop of CVodesIntegrator::integrate, CVodesIntegrator.cpp:492-517: budget steps may be taken. *)
Fixpoint int_loop (budget : nat) (tout : R) (c : C) (y : list R) : outcome (C * list R) :=
  if rltb (ctime c) tout then
    match budget with
    | O => Err
    | S budget => obind (cstep tout c) (fun c' => int_loop budget tout c' (cy c'))
    end
  else Ok (c, y).
(* CVodesIntegrator::integrate, CVodesIntegrator.cpp:482-522. *)
Definition integrate (maxsteps : nat) (tout : R) (i : integ) : outcome integ :=
  if reqb tout (i_t i) then Ok i
  else if rltb tout (i_t i) then Err
  else obind (int_loop maxsteps tout (i_c i) (i_y i)) (fun cy' =>
       obind (cdky (fst cy') tout 0) (fun y => Ok (IN (fst cy') tout y))).
(* CVodesIntegrator::step, CVodesIntegrator.cpp:524-542. *)
Definition istep (tout : R) (i : integ) : outcome integ :=
  obind (cstep tout (i_c i)) (fun c => Ok (IN c (ctime c) (cy c))).

(* An initialised ReactorNet: integrator, m_time, and the vector that the reactors' state was last
   set from. ReactorNet::updateState is taken to succeed here (see NetModel.v). *)
Record rnet := RN { r_i : integ; r_t : R; r_y : list R }.
(* ReactorNet::advance(time), ReactorNet.cpp:174-184. *)
Definition advance (maxsteps : nat) (time : R) (r : rnet) : outcome rnet :=
  obind (integrate maxsteps time (r_i r)) (fun i => Ok (RN i time (i_y i))).
(* ReactorNet::step, ReactorNet.cpp:241-251. *)
Definition rstep (r : rnet) : outcome rnet :=
  obind (istep (r_t r + 1) (r_i r)) (fun i => Ok (RN i (i_t i) (i_y i))).
(* ReactorNet::getEstimate, ReactorNet.cpp:253-274. *)
Definition addv (f : R) (a b : list R) : list R := map (fun p => fst p + f * snd p) (combine a b).
Fixpoint est_loop (r : rnet) (deltat factor : R) (ns : list nat) (yest : list R) : outcome (list R) :=
  match ns with
  | [] => Ok yest
  | n :: ns =>
      let factor' := factor * (deltat / INR n) in
      obind (cdky (i_c (r_i r)) (r_t r) n) (fun d => est_loop r deltat factor' ns (addv factor' yest d))
  end.
Definition getEstimate (r : rnet) (time : R) (k : nat) : outcome (list R) :=
  est_loop r (time - r_t r) 1 (seq 1 k) (i_y (r_i r)).
(* ReactorNet.cpp:221-231. *)
Definition exceeded (lim yest y : list R) : bool :=
  existsb (fun p => rltb 0 (fst p) && rltb (fst p) (Rabs (fst (snd p) - snd (snd p)))) (combine lim (combine yest y)).
(* ReactorNet.cpp:217-236; None: still running after the given number of halvings. *)
Fixpoint lim_loop (fuel : nat) (r : rnet) (lim : list R) (k : nat) (t : R) : option (outcome R) :=
  match fuel with
  | O => None
  | S fuel =>
      match getEstimate r t k with
      | Ok yest => if exceeded lim yest (i_y (r_i r)) then lim_loop fuel r lim k (/ 2 * (r_t r + t)) else Some (Ok t)
      | Err => Some Err | Exn => Some Exn | UB => Some UB
      end
  end.
(* ReactorNet.cpp:209-211. *)
Fixpoint first_loop (fuel : nat) (r : rnet) : option (outcome rnet) :=
  if (corder (i_c (r_i r)) <? 1)%nat then
    match fuel with
    | O => None
    | S fuel => match rstep r with Ok r' => first_loop fuel r' | Err => Some Err | Exn => Some Exn | UB => Some UB end
    end
  else Some (Ok r).
(* ReactorNet::advance(time, applylimit), ReactorNet.cpp:186-239: the time reached and the network
   after it. has and lim are the results of hasAdvanceLimits and getAdvanceLimits. *)
Definition advance_limit (fuel maxsteps : nat) (has : bool) (lim : list R) (time : R) (applylimit : bool) (r : rnet)
  : option (outcome (R * rnet)) :=
  if negb applylimit || negb has then Some (omap (fun r' => (time, r')) (advance maxsteps time r))
  else
    match first_loop fuel r with
    | Some (Ok r1) =>
        match lim_loop fuel r1 lim (corder (i_c (r_i r1))) time with
        | Some (Ok t) => Some (omap (fun r' => (t, r')) (advance maxsteps t r1))
        | Some o => Some (omap (fun t => (t, r1)) o)
        | None => None
        end
    | Some o => Some (omap (fun r' => (time, r')) o)
    | None => None
    end.
End Adv.
