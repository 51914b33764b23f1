(* Reading the state vector of reactors: getState. Reactor.cpp:50-83, IdealGasReactor.cpp:27-51,
   ConstPressureReactor.cpp:17-37, IdealGasConstPressureReactor.cpp:27-47, MoleReactor.cpp:21-36 and
   141-178, IdealGasMoleReactor.cpp:29-51, ConstPressureMoleReactor.cpp:18-33,
   IdealGasConstPressureMoleReactor.cpp:29-44, ReactorNet.cpp:485-490. *)
From Coq Require Import List Bool Reals Arith.
From Verif Require Import Base.Outcome Base.RSum Base.Fp ZeroD.NetModel.
Import ListNotations.
Local Open Scope R_scope.
Local Open Scope list_scope.

(* getSurfaceInitialConditions: Reactor.cpp:76-83, MoleReactor.cpp:21-36. *)
Definition get_surf (mol : bool) (sf : surf) : list R :=
  if mol then map (fun p => fst p * sf_area sf * sf_dens sf / snd p) (combine (sf_cov sf) (sf_sizes sf)) else sf_cov sf.
Definition get_surfs (mol : bool) (ss : list surf) : list R := flat_map (get_surf mol) ss.
(* MoleReactor::getMoles, MoleReactor.cpp:141-149. *)
Definition getMoles (n : node) (mass : R) : list R :=
  map (fun p => mass * (1 / fst p) * snd p) (combine (th_mw (n_th n)) (n_Y n)).
(* The vector. restoreState(m_state) puts the saved temperature, density and mass fractions back
   into the phase, so that its properties are functions of them. *)
Definition getState (n : node) : list R :=
  let th := n_th n in
  let T := n_T n in let rho := n_rho n in let Y := n_Y n in let V := n_vol n in
  let mass := rho * V in
  (match n_kind n with
   | KReservoir => []
   | KReactor => [mass; V; th_u th T rho Y * mass] ++ Y
   | KIdealGas => [mass; V; T] ++ Y
   | KConstP => [rho * V; th_h th T rho Y * rho * V] ++ Y
   | KIGConstP => [rho * V; T] ++ Y
   | KMole => [th_u th T rho Y * mass; V] ++ getMoles n mass
   | KIGMole => [T; V] ++ getMoles n mass
   | KConstPMole => [th_h th T rho Y * rho * V] ++ getMoles n mass
   | KIGConstPMole => [T] ++ getMoles n mass
   end) ++ get_surfs (molar (n_kind n)) (n_surf n).
(* It also sets m_mass, except in the two constant-pressure reactors with mass fractions. *)
Definition after_getState (n : node) : node :=
  match n_kind n with
  | KReservoir | KConstP | KIGConstP => n
  | _ => n_state n (n_rho n * n_vol n) (n_vol n) (n_T n) (n_rho n) (n_Y n) (n_press n) (n_enth n)
  end.
(* ReactorNet::getState. *)
Fixpoint getAll (s : net) (order : list nat) : list R :=
  match order with [] => [] | i :: order => getState (w_nodes s i) ++ getAll s order end.
