(* What is asked of reactors and phases for their state vector to be meaningful. *)
From Coq Require Import List Bool Reals Arith.
From Verif Require Import Base.Outcome Base.RSum ZeroD.NetModel.
Import ListNotations.
Local Open Scope R_scope.
Local Open Scope list_scope.

Definition surf_ok (sf : surf) : Prop :=
  length (sf_cov sf) = length (sf_sizes sf) /\ sf_area sf <> 0 /\ sf_dens sf <> 0 /\ Forall (fun z => z <> 0) (sf_sizes sf).
Definition sized (n : node) : Prop :=
  n_kind n <> KReservoir /\ length (n_Y n) = n_nsp n /\ length (th_mw (n_th n)) = n_nsp n /\
  Forall (fun w => w <> 0) (th_mw (n_th n)) /\ Forall surf_ok (n_surf n).
(* Setting a phase from energy and volume, or from enthalpy and pressure, gives a state with that
   energy or enthalpy. *)
Definition faithful (th : thermo) : Prop :=
  (forall U m V Y T, m <> 0 -> V <> 0 -> th_solveUV th U m V Y = Ok T -> th_u th T (m / V) Y * m = U) /\
  (forall h p Y T rho, th_solveHP th h p Y = Ok (T, rho) -> th_h th T rho Y = h).
(* The component that holds energy or enthalpy. *)
Definition energy_slot (k : rkind) : option nat :=
  match k with KReactor => Some 2%nat | KConstP => Some 1%nat | KMole | KConstPMole => Some 0%nat | _ => None end.
(* There is something in it. *)
Definition alive (n : node) : Prop := n_vol n <> 0 /\ n_rho n <> 0.
(* The saved pressure and enthalpy belong to the saved state; that state is what the phase finds
   again from its own energy, enthalpy or pressure; phT is the temperature in the phase object. *)
Definition coherent (phT : R) (n : node) : Prop :=
  let th := n_th n in let T := n_T n in let rho := n_rho n in let Y := n_Y n in
  n_press n = th_p th T rho Y /\ n_enth n = th_h th T rho Y /\
  match n_kind n with
  | KReactor | KMole =>
      if n_energy n then th_solveUV th (th_u th T rho Y * (rho * n_vol n)) (rho * n_vol n) (n_vol n) Y = Ok T else phT = T
  | KConstP | KConstPMole =>
      if n_energy n then th_solveHP th (th_h th T rho Y) (n_press n) Y = Ok (T, rho)
      else phT = T /\ th_rho th T (n_press n) Y = rho
  | KIGConstP | KIGConstPMole => th_rho th T (n_press n) Y = rho
  | _ => True
  end.
Definition with_mass (n : node) (m : R) : node := n_state n m (n_vol n) (n_T n) (n_rho n) (n_Y n) (n_press n) (n_enth n).
