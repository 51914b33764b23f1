(* Sensitivity parameters of reactors: registration, and the perturbation of reaction rate
   multipliers and heats of formation around each evaluation of a reactor. *)
From Coq Require Import Reals List Bool Arith.
From Verif Require Import Base.Outcome.
Import ListNotations.
Local Open Scope R_scope.

(* ---------------------------------------------------------------- *)
(** * Heats of formation *)

(* The part of a species' thermo data that sensitivities touch. In ConstCpPoly, NasaPoly1
   and ShomatePoly one coefficient enters the enthalpy linearly (m_h0_R, m_coeff[5]):
   p_c is its value, p_c0 the original (m_h0_R_orig, m_coeff5_orig), the enthalpy at
   298.15 K is p_b + p_g * p_c, where p_g is GasConstant (ConstCpPoly.cpp:87-102,
   NasaPoly1.h:147-171) or 1000 GasConstant (ShomatePoly.h:169-179). *)
Record poly := Poly { p_c : R; p_c0 : R; p_b : R; p_g : R }.
(* reportHf298, modifyOneHf298, resetHf298: ConstCpPoly.cpp:87-106, NasaPoly1.h:147-175,
   ShomatePoly.h:169-183. *)
Definition report1 (p : poly) : R := p_b p + p_g p * p_c p.
Definition modify1 (p : poly) (h : R) : poly :=
  Poly (p_c p + (h - report1 p) / p_g p) (p_c0 p) (p_b p) (p_g p).
Definition reset1 (p : poly) : poly := Poly (p_c0 p) (p_c0 p) (p_b p) (p_g p).

(* One range; two ranges (NasaPoly2.h:134-163, ShomatePoly.h:332-359), the flag says
   298.15 <= m_midT; or a type without these methods (SpeciesThermoInterpType.cpp:65-73,
   SpeciesThermoInterpType.h:269-271: NotImplementedError, a CanteraError). *)
Inductive sth := One (p : poly) | Two (low298 : bool) (lo hi : poly) | Other.
Definition reportHf298 (t : sth) : outcome R :=
  match t with
  | One p => Ok (report1 p)
  | Two b lo hi => Ok (if b then report1 lo else report1 hi)
  | Other => Err
  end.
Definition modifyHf298 (t : sth) (h : R) : outcome sth :=
  match t with
  | One p => Ok (One (modify1 p h))
  | Two b lo hi =>
      let delH := h - (if b then report1 lo else report1 hi) in
      Ok (Two b (modify1 lo (report1 lo + delH)) (modify1 hi (report1 hi + delH)))
  | Other => Err
  end.
Definition resetHf298 (t : sth) : outcome sth :=
  match t with
  | One p => Ok (One (reset1 p))
  | Two b lo hi => Ok (Two b (reset1 lo) (reset1 hi))
  | Other => Err
  end.

(* ---------------------------------------------------------------- *)
(** * The objects reactors refer to *)

(* Kinetics objects by number: how many reactions, the multipliers (m_perturb,
   Kinetics.h:1366-1377); ThermoPhase objects by number: the species. *)
Record world := World { w_nr : nat -> nat; w_mult : nat -> nat -> R; w_th : nat -> list sth }.
Definition set_mult (w : world) (kin i : nat) (v : R) : world :=
  World (w_nr w) (fun k j => if Nat.eqb k kin && Nat.eqb j i then v else w_mult w k j) (w_th w).
Fixpoint lset {A} (l : list A) (i : nat) (v : A) : list A :=
  match l, i with
  | [], _ => []
  | _ :: l, O => v :: l
  | a :: l, S i => a :: lset l i v
  end.
Definition set_sp (w : world) (th k : nat) (t : sth) : world :=
  World (w_nr w) (w_mult w) (fun x => if Nat.eqb x th then lset (w_th w x) k t else w_th w x).
(* ThermoPhase::Hf298SS, modifyOneHf298SS, resetHf298 (ThermoPhase.h:469-494,
   ThermoPhase.cpp:28-37, MultiSpeciesThermo.cpp:177-202): nothing happens for a species
   without data; invalidateCache is not modelled. LatticeSolidPhase overrides these. *)
Definition Hf298SS (w : world) (th k : nat) : outcome R :=
  match nth_error (w_th w th) k with Some t => reportHf298 t | None => Ok (-1) end.
Definition modifySS (w : world) (th k : nat) (h : R) : outcome unit * world :=
  match nth_error (w_th w th) k with
  | None => (Ok tt, w)
  | Some t => match modifyHf298 t h with Ok t' => (Ok tt, set_sp w th k t') | _ => (Err, w) end
  end.
Definition resetSS (w : world) (th k : nat) : outcome unit * world :=
  match nth_error (w_th w th) k with
  | None => (Ok tt, w)
  | Some t => match resetHf298 t with Ok t' => (Ok tt, set_sp w th k t') | _ => (Err, w) end
  end.

(* ---------------------------------------------------------------- *)
(** * Reactors and surfaces *)

(* SensitivityParameter, ReactorBase.h:28-40. *)
Inductive pkind := PReaction | PEnthalpy.
Record sparam := SP { sp_local : nat; sp_global : nat; sp_value : R; sp_kind : pkind }.
(* m_chem, m_kin, m_thermo, m_sensParams; for each surface its Kinetics and m_params
   (ReactorSurface.h). *)
Record srx := SRx { x_chem : bool; x_kin : nat; x_th : nat; x_params : list sparam; x_surf : list (nat * list sparam) }.

(* One parameter in Reactor::applySensitivity, Reactor.cpp:496-503, and in
   ReactorSurface::setSensitivityParameters, ReactorSurface.cpp:100-106. *)
Definition apply_reaction (kin : nat) (ps : list R) (w : world) (p : sparam) : outcome unit * (world * sparam) :=
  match nth_error ps (sp_global p) with
  | None => (UB, (w, p))
  | Some x =>
      let v := w_mult w kin (sp_local p) in
      (Ok tt, (set_mult w kin (sp_local p) (v * x), SP (sp_local p) (sp_global p) v (sp_kind p)))
  end.
Definition apply_param (kin th : nat) (ps : list R) (w : world) (p : sparam) : outcome unit * (world * sparam) :=
  match sp_kind p with
  | PReaction => apply_reaction kin ps w p
  | PEnthalpy =>
      match nth_error ps (sp_global p) with
      | None => (UB, (w, p))
      | Some x => let r := modifySS w th (sp_local p) (sp_value p + x) in (fst r, (snd r, p))
      end
  end.
(* A loop over parameters; an exception leaves the rest as they are. *)
Fixpoint loop (f : world -> sparam -> outcome unit * (world * sparam)) (w : world) (l : list sparam)
  : outcome unit * (world * list sparam) :=
  match l with
  | [] => (Ok tt, (w, []))
  | p :: l =>
      match f w p with
      | (Ok _, (w1, p1)) => let r := loop f w1 l in (fst r, (fst (snd r), p1 :: snd (snd r)))
      | (e, (w1, p1)) => (e, (w1, p1 :: l))
      end
  end.
Definition apply_surface (ps : list R) (w : world) (x : nat * list sparam) : outcome unit * (world * (nat * list sparam)) :=
  let r := loop (apply_reaction (fst x) ps) w (snd x) in (fst r, (fst (snd r), (fst x, snd (snd r)))).
Fixpoint surfaces (f : world -> nat * list sparam -> outcome unit * (world * (nat * list sparam))) (w : world)
  (l : list (nat * list sparam)) : outcome unit * (world * list (nat * list sparam)) :=
  match l with
  | [] => (Ok tt, (w, []))
  | x :: l =>
      match f w x with
      | (Ok _, (w1, x1)) => let r := surfaces f w1 l in (fst r, (fst (snd r), x1 :: snd (snd r)))
      | (e, (w1, x1)) => (e, (w1, x1 :: l))
      end
  end.
Definition with_params (x : srx) (ps : list sparam) (ss : list (nat * list sparam)) : srx :=
  SRx (x_chem x) (x_kin x) (x_th x) ps ss.
(* Reactor::applySensitivity, Reactor.cpp:491-511; None is a null pointer. *)
Definition applySensitivity (params : option (list R)) (w : world) (x : srx) : outcome unit * (world * srx) :=
  match params with
  | None => (Ok tt, (w, x))
  | Some ps =>
      match loop (apply_param (x_kin x) (x_th x) ps) w (x_params x) with
      | (Ok _, (w1, l1)) =>
          let r := surfaces (apply_surface ps) w1 (x_surf x) in
          (fst r, (fst (snd r), with_params x l1 (snd (snd r))))
      | (e, (w1, l1)) => (e, (w1, with_params x l1 (x_surf x)))
      end
  end.

(* Reactor::resetSensitivity, Reactor.cpp:513-533,
   ReactorSurface::resetSensitivityParameters, ReactorSurface.cpp:108-113. *)
Definition reset_reaction (kin : nat) (w : world) (p : sparam) : outcome unit * (world * sparam) :=
  (Ok tt, (set_mult w kin (sp_local p) (sp_value p), p)).
Definition reset_param (kin th : nat) (w : world) (p : sparam) : outcome unit * (world * sparam) :=
  match sp_kind p with
  | PReaction => reset_reaction kin w p
  | PEnthalpy => let r := resetSS w th (sp_local p) in (fst r, (snd r, p))
  end.
Definition reset_surface (w : world) (x : nat * list sparam) : outcome unit * (world * (nat * list sparam)) :=
  let r := loop (reset_reaction (fst x)) w (snd x) in (fst r, (fst (snd r), (fst x, snd (snd r)))).
Definition resetSensitivity (params : option (list R)) (w : world) (x : srx) : outcome unit * (world * srx) :=
  match params with
  | None => (Ok tt, (w, x))
  | Some ps =>
      match loop (reset_param (x_kin x) (x_th x)) w (x_params x) with
      | (Ok _, (w1, l1)) =>
          let r := surfaces reset_surface w1 (x_surf x) in
          (fst r, (fst (snd r), with_params x l1 (snd (snd r))))
      | (e, (w1, l1)) => (e, (w1, with_params x l1 (x_surf x)))
      end
  end.

(* ---------------------------------------------------------------- *)
(** * Networks *)

(* m_reactors, m_sens_params (with names and scales: only the number matters here),
   m_integrator_init. *)
Record snet := SNet { s_world : world; s_rx : list srx; s_sens : list R; s_ready : bool }.
Definition set_world (s : snet) (w : world) : snet := SNet w (s_rx s) (s_sens s) (s_ready s).
Definition set_rx (s : snet) (r : nat) (x : srx) : snet := SNet (s_world s) (lset (s_rx s) r x) (s_sens s) (s_ready s).

(* ReactorNet::registerSensitivityParameter, ReactorNet.cpp:518-530. *)
Definition register (s : snet) (value : R) : outcome nat * snet :=
  if s_ready s then (Err, s)
  else (Ok (length (s_sens s)), SNet (s_world s) (s_rx s) (s_sens s ++ [value]) (s_ready s)).

(* Reactor::addSensitivityReaction, Reactor.cpp:399-410. *)
Definition addReaction (s : snet) (r i : nat) : outcome unit * snet :=
  match nth_error (s_rx s) r with
  | None => (UB, s)
  | Some x =>
      if negb (x_chem x) || (w_nr (s_world s) (x_kin x) <=? i)%nat then (Err, s)
      else match register s 1 with
           | (Ok p, s1) => (Ok tt, set_rx s1 r (with_params x (x_params x ++ [SP i p 1 PReaction]) (x_surf x)))
           | (_, s1) => (Err, s1)
           end
  end.
(* Reactor::addSensitivitySpeciesEnthalpy, Reactor.cpp:412-425. *)
Definition addEnthalpy (s : snet) (r k : nat) : outcome unit * snet :=
  match nth_error (s_rx s) r with
  | None => (UB, s)
  | Some x =>
      if (length (w_th (s_world s) (x_th x)) <=? k)%nat then (Err, s)
      else match register s 0 with
           | (Ok p, s1) =>
               match Hf298SS (s_world s1) (x_th x) k with
               | Ok h => (Ok tt, set_rx s1 r (with_params x (x_params x ++ [SP k p h PEnthalpy]) (x_surf x)))
               | _ => (Err, s1)
               end
           | (_, s1) => (Err, s1)
           end
  end.
(* ReactorSurface::addSensitivityReaction, ReactorSurface.cpp:88-98, for surface j of reactor r. *)
Definition addSurfReaction (s : snet) (r j i : nat) : outcome unit * snet :=
  match nth_error (s_rx s) r with
  | None => (UB, s)
  | Some x =>
      match nth_error (x_surf x) j with
      | None => (UB, s)
      | Some (kin, l) =>
          if (w_nr (s_world s) kin <=? i)%nat then (Err, s)
          else match register s 1 with
               | (Ok p, s1) =>
                   (Ok tt, set_rx s1 r (with_params x (x_params x) (lset (x_surf x) j (kin, l ++ [SP i p 1 PReaction]))))
               | (_, s1) => (Err, s1)
               end
      end
  end.

Section Eval.
  (* What Reactor::eval of reactor r returns: any function of the multipliers and heats of
     formation (and of r, for everything else); it may throw. *)
  Context {obs : Type} (E : nat -> world -> outcome obs).

  (* The loop of ReactorNet::eval, ReactorNet.cpp:363-376 (evalDae, 384-388, is the same). *)
  Fixpoint eval_from (params : option (list R)) (w : world) (r : nat) (l : list srx)
    : outcome (list obs) * (world * list srx) :=
    match l with
    | [] => (Ok [], (w, []))
    | x :: l =>
        match applySensitivity params w x with
        | (Ok _, (w1, x1)) =>
            match E r w1 with
            | Ok o =>
                match resetSensitivity params w1 x1 with
                | (Ok _, (w2, x2)) =>
                    let q := eval_from params w2 (S r) l in
                    (omap (cons o) (fst q), (fst (snd q), x2 :: snd (snd q)))
                | (_, (w2, x2)) => (Err, (w2, x2 :: l))
                end
            | Err => (Err, (w1, x1 :: l))
            | Exn => (Exn, (w1, x1 :: l))
            | UB => (UB, (w1, x1 :: l))
            end
        | (UB, (w1, x1)) => (UB, (w1, x1 :: l))
        | (_, (w1, x1)) => (Err, (w1, x1 :: l))
        end
    end.
  Definition netEval (s : snet) (params : option (list R)) : outcome (list obs) * snet :=
    let q := eval_from params (s_world s) 0 (s_rx s) in
    (fst q, SNet (fst (snd q)) (snd (snd q)) (s_sens s) (s_ready s)).

  (* Calls; a user may set multipliers and heats of formation at any time. *)
  Inductive sop :=
  | SAdd (chem : bool) (kin th : nat) (surf : list nat)
  | SRxn (r i : nat) | SEnth (r k : nat) | SSurf (r j i : nat)
  | SMult (kin i : nat) (v : R) | SHf (th k : nat) (h : R) | SReset (th k : nat)
  | SReady (b : bool)
  | SEval (params : option (list R)).
  Definition sstep (s : snet) (o : sop) : snet :=
    match o with
    | SAdd chem kin th surf =>
        SNet (s_world s) (s_rx s ++ [SRx chem kin th [] (map (fun k => (k, [])) surf)]) (s_sens s) (s_ready s)
    | SRxn r i => snd (addReaction s r i)
    | SEnth r k => snd (addEnthalpy s r k)
    | SSurf r j i => snd (addSurfReaction s r j i)
    | SMult kin i v => set_world s (set_mult (s_world s) kin i v)
    | SHf th k h => set_world s (snd (modifySS (s_world s) th k h))
    | SReset th k => set_world s (snd (resetSS (s_world s) th k))
    | SReady b => SNet (s_world s) (s_rx s) (s_sens s) b
    | SEval params => snd (netEval s params)
    end.
  (* w0: the Kinetics and ThermoPhase objects as the user made them. *)
  Definition srun (w0 : world) (ops : list sop) : snet := fold_left sstep ops (SNet w0 [] [] false).
End Eval.
