(* Reactor networks: flow devices, walls, reactors, and ReactorNet::eval.
   All numbers are real numbers (no rounding, no NaN: checkFinite is not modelled). *)
From Coq Require Import String List Bool Reals Lra Lia Arith.
From Verif Require Import Base.Outcome Base.RSum Base.Fp.
Import ListNotations.
Local Open Scope R_scope.
Local Open Scope list_scope.

Definition updf {A} (f : nat -> A) (i : nat) (a : A) : nat -> A :=
  fun j => if Nat.eqb j i then a else f j.

(* ---------------------------------------------------------------- *)
(** * Flow devices: FlowDevice.h/.cpp, flowControllers.h/.cpp *)

(* A Func1* member: null, alive, or pointing to a deleted object. *)
Inductive fptr := FNull | FLive (f : R -> R) | FDead.

(* MassFlowController, PressureController (with m_primary) and Valve. *)
Inductive devkind := MFC | PCtrl (primary : option nat) | Valv.

(* FlowDevice.h:113-139. Objects are identified by numbers. m_in and m_out are set
   together; m_mdot = Undef is None; dv_map is m_out2in with npos as None.
   m_time (only read by evalTimeFunction) and m_in2out (never read) are left out. *)
Record dev := Dev {
  dv_kind : devkind;
  dv_ends : option (nat * nat);
  dv_coeff : R;
  dv_pf : option (R -> R);
  dv_tf : fptr;
  dv_mdot : option R;
  dv_map : list (option nat)
}.
Definition set_mdot (d : dev) (m : R) : dev :=
  Dev (dv_kind d) (dv_ends d) (dv_coeff d) (dv_pf d) (dv_tf d) (Some m) (dv_map d).
Definition set_tf (d : dev) (f : fptr) : dev :=
  Dev (dv_kind d) (dv_ends d) (dv_coeff d) (dv_pf d) f (dv_mdot d) (dv_map d).
Definition set_pf (d : dev) (f : option (R -> R)) : dev :=
  Dev (dv_kind d) (dv_ends d) (dv_coeff d) f (dv_tf d) (dv_mdot d) (dv_map d).
Definition set_coeff (d : dev) (c : R) : dev :=
  Dev (dv_kind d) (dv_ends d) c (dv_pf d) (dv_tf d) (dv_mdot d) (dv_map d).
Definition set_kind (d : dev) (k : devkind) : dev :=
  Dev k (dv_ends d) (dv_coeff d) (dv_pf d) (dv_tf d) (dv_mdot d) (dv_map d).
Definition set_ends (d : dev) (e : nat * nat) (m : list (option nat)) : dev :=
  Dev (dv_kind d) (Some e) (dv_coeff d) (dv_pf d) (dv_tf d) (dv_mdot d) m.
(* A device created without reactors, FlowDevice.h:113-127. *)
Definition newDev (k : devkind) : dev := Dev k None 1 None FNull None [].

(* setTimeFunction, FlowDevice.cpp:96-99, flowControllers.h:81-83. *)
Definition setTimeFunction (d : dev) (f : fptr) : outcome dev :=
  match dv_kind d with PCtrl _ => Err | _ => Ok (set_tf d f) end.
(* setPressureFunction, FlowDevice.cpp:82-85, flowControllers.h:49-51. *)
Definition setPressureFunction (d : dev) (f : option (R -> R)) : outcome dev :=
  match dv_kind d with MFC => Err | _ => Ok (set_pf d f) end.
(* setMassFlowCoeff, setPressureCoeff, setValveCoeff, flowControllers.h:38-40,95-97,131-133. *)
Definition setCoeff (d : dev) (c : R) : dev := set_coeff d c.
(* MassFlowController::setMassFlowRate, flowControllers.cpp:13-19: the functor is
   deleted but m_tfunc is kept. *)
Definition setMassFlowRate (d : dev) (mdot : R) : outcome dev :=
  match dv_kind d, dv_tf d with
  | MFC, FNull => Ok (set_coeff d mdot)
  | MFC, FLive _ => Ok (set_coeff (set_tf d FDead) mdot)
  | MFC, FDead => UB
  | _, _ => Err
  end.
(* PressureController::setPrimary, flowControllers.h:77-79. *)
Definition setPrimary (d : dev) (p : nat) : outcome dev :=
  match dv_kind d with PCtrl _ => Ok (set_kind d (PCtrl (Some p))) | _ => Err end.

Definition tval (f : fptr) (t : R) : outcome R :=
  match f with FNull => Ok 1 | FLive f => Ok (f t) | FDead => UB end.
Definition pval (f : option (R -> R)) (dp : R) : R :=
  match f with Some f => f dp | None => dp end.

(* updateMassFlowRate of the three classes, flowControllers.cpp:21-69; press gives
   ReactorBase::pressure of each reactor. A PressureController calls its primary first;
   a chain of primaries longer than the fuel is a cycle, that is endless recursion (UB). *)
Fixpoint upd_dev (fuel : nat) (press : nat -> R) (t : R) (d : nat) (devs : nat -> dev)
  : outcome unit * (nat -> dev) :=
  match fuel with
  | O => (UB, devs)
  | S fuel =>
      match dv_ends (devs d) with
      | None => (Err, devs)
      | Some (i, o) =>
          match dv_kind (devs d) with
          | MFC =>
              match tval (dv_tf (devs d)) t with
              | Ok g => (Ok tt, updf devs d (set_mdot (devs d) (Rmax (dv_coeff (devs d) * g) 0)))
              | _ => (UB, devs)
              end
          | Valv =>
              match tval (dv_tf (devs d)) t with
              | Ok g => (Ok tt, updf devs d (set_mdot (devs d)
                           (Rmax (dv_coeff (devs d) * g * pval (dv_pf (devs d)) (press i - press o)) 0)))
              | _ => (UB, devs)
              end
          | PCtrl None => (Err, devs)
          | PCtrl (Some p) =>
              match upd_dev fuel press t p devs with
              | (Ok _, devs') =>
                  match dv_mdot (devs' p) with
                  | None => (Err, devs')
                  | Some m => (Ok tt, updf devs' d (set_mdot (devs' d)
                      (Rmax (dv_coeff (devs d) * pval (dv_pf (devs d)) (press i - press o) + m) 0)))
                  end
              | r => r
              end
          end
      end
  end.

(* ---------------------------------------------------------------- *)
(** * Walls: Wall.h/.cpp *)

(* Wall.h:91-102, 215-229; StefanBoltz is ct_defs.h:128, here to ten digits. *)
Record wall := Wall {
  wl_ends : option (nat * nat);
  wl_time : R; wl_area : R; wl_k : R; wl_rrth : R; wl_emiss : R;
  wl_vf : option (R -> R); wl_qf : option (R -> R)
}.
Definition newWall : wall := Wall None 0 1 0 0 0 None None.
Definition StefanBoltz : R := 5670374419 / IZR (10 ^ 17).
Definition w_set_ends (w : wall) (e : nat * nat) : wall :=
  Wall (Some e) (wl_time w) (wl_area w) (wl_k w) (wl_rrth w) (wl_emiss w) (wl_vf w) (wl_qf w).
Definition w_set_time (w : wall) (t : R) : wall :=
  Wall (wl_ends w) t (wl_area w) (wl_k w) (wl_rrth w) (wl_emiss w) (wl_vf w) (wl_qf w).
(* setArea, setExpansionRateCoeff, setHeatTransferCoeff, setEmissivity (range checked),
   setVelocity (null is ignored), setHeatFlux: Wall.cpp:45-47, Wall.h:115-207. *)
Inductive wset := WArea (a : R) | WK (k : R) | WU (u : R) | WEmiss (e : R)
                | WVel (f : option (R -> R)) | WFlux (f : option (R -> R)).
Definition set_wall (w : wall) (o : wset) : outcome wall :=
  let mk a k u e v q := Wall (wl_ends w) (wl_time w) a k u e v q in
  match o with
  | WArea a => Ok (mk a (wl_k w) (wl_rrth w) (wl_emiss w) (wl_vf w) (wl_qf w))
  | WK k => Ok (mk (wl_area w) k (wl_rrth w) (wl_emiss w) (wl_vf w) (wl_qf w))
  | WU u => Ok (mk (wl_area w) (wl_k w) u (wl_emiss w) (wl_vf w) (wl_qf w))
  | WEmiss e => if rltb 1 e || rltb e 0 then Err
                else Ok (mk (wl_area w) (wl_k w) (wl_rrth w) e (wl_vf w) (wl_qf w))
  | WVel (Some f) => Ok (mk (wl_area w) (wl_k w) (wl_rrth w) (wl_emiss w) (Some f) (wl_qf w))
  | WVel None => Ok w
  | WFlux f => Ok (mk (wl_area w) (wl_k w) (wl_rrth w) (wl_emiss w) (wl_vf w) f)
  end.

(* Wall::expansionRate, Wall.cpp:55-67. *)
Definition expansionRate (press : nat -> R) (w : wall) : outcome R :=
  match wl_ends w with
  | None => Err
  | Some (l, r) =>
      Ok (wl_k w * wl_area w * (press l - press r)
          + match wl_vf w with Some f => wl_area w * f (wl_time w) | None => 0 end)
  end.
(* Wall::heatRate, Wall.cpp:76-94. *)
Definition heatRate (temp : nat -> R) (w : wall) : outcome R :=
  match wl_ends w with
  | None => Err
  | Some (l, r) =>
      let q1 := wl_area w * wl_rrth w * (temp l - temp r) in
      let q2 := if rltb 0 (wl_emiss w)
                then q1 + wl_emiss w * wl_area w * StefanBoltz * (temp l ^ 4 - temp r ^ 4) else q1 in
      Ok (match wl_qf w with Some f => q2 + wl_area w * f (wl_time w) | None => q2 end)
  end.

(* ---------------------------------------------------------------- *)
(** * Reactors *)

(* What a reactor uses of its Solution. The functions take temperature, density and mass
   fractions; they stand for ThermoPhase::pressure, enthalpy_mass, intEnergy_mass,
   cv_mass, cp_mass, getPartialMolarIntEnergies, getPartialMolarEnthalpies and
   Kinetics::getNetProductionRates. th_rho is the density at T, p (setState_TP,
   setPressure); th_solveUV and th_solveHP are the root finders of Reactor::updateState
   (given U, mass, volume) and setState_HP, which may fail; their dependence on the
   initial guess is not modelled. Species are looked up by their exact name here
   (Phase::speciesIndex with its fallback is in Phase/Model.v). *)
Record thermo := Thermo {
  th_names : list string;
  th_mw : list R;
  th_p : R -> R -> list R -> R;
  th_h : R -> R -> list R -> R;
  th_u : R -> R -> list R -> R;
  th_cv : R -> R -> list R -> R;
  th_cp : R -> R -> list R -> R;
  th_uk : R -> R -> list R -> list R;
  th_hk : R -> R -> list R -> list R;
  th_wdot : R -> R -> list R -> list R;
  th_rho : R -> R -> list R -> R;
  th_solveUV : R -> R -> R -> list R -> outcome R;
  th_solveHP : R -> R -> list R -> outcome (R * R)
}.
Definition th_nsp (th : thermo) : nat := length (th_names th).

(* A ReactorSurface with its SurfPhase and Kinetics: area, site density, sizes of the
   surface species, coverages, index of the first gas species among the kinetics
   species, and getNetProductionRates at the gas state and coverages. *)
Record surf := Surf {
  sf_area : R; sf_dens : R; sf_sizes : list R; sf_cov : list R; sf_bulk : nat;
  sf_rates : R -> R -> list R -> list R -> list R
}.
Definition sf_nk (sf : surf) : nat := length (sf_sizes sf).
Definition sf_set (sf : surf) (cov : list R) : surf :=
  Surf (sf_area sf) (sf_dens sf) (sf_sizes sf) cov (sf_bulk sf) (sf_rates sf).

Inductive rkind := KReservoir | KReactor | KIdealGas | KConstP | KIGConstP
                 | KMole | KIGMole | KConstPMole | KIGConstPMole.

(* ReactorBase.h:268-300, Reactor.h:266-286. m_state is n_T, n_rho, n_Y. n_phase is the
   ThermoPhase object (reactors may share it). m_sdot is always refilled before use. *)
Record node := Node {
  n_kind : rkind; n_th : thermo; n_phase : nat;
  n_energy : bool; n_chem : bool;
  n_inlet : list nat; n_outlet : list nat; n_wall : list (nat * bool); n_surf : list surf;
  n_mass : R; n_vol : R; n_T : R; n_rho : R; n_Y : list R;
  n_press : R; n_enth : R; n_wdot : list R
}.
Definition n_nsp (n : node) : nat := th_nsp (n_th n).

(* Replacing parts of a reactor. *)
Definition n_links (n : node) inl outl wal : node :=
  Node (n_kind n) (n_th n) (n_phase n) (n_energy n) (n_chem n) inl outl wal (n_surf n)
       (n_mass n) (n_vol n) (n_T n) (n_rho n) (n_Y n) (n_press n) (n_enth n) (n_wdot n).
Definition n_flags (n : node) e c vol : node :=
  Node (n_kind n) (n_th n) (n_phase n) e c (n_inlet n) (n_outlet n) (n_wall n) (n_surf n)
       (n_mass n) vol (n_T n) (n_rho n) (n_Y n) (n_press n) (n_enth n) (n_wdot n).
Definition n_state (n : node) mass vol T rho Y p h : node :=
  Node (n_kind n) (n_th n) (n_phase n) (n_energy n) (n_chem n) (n_inlet n) (n_outlet n) (n_wall n)
       (n_surf n) mass vol T rho Y p h (n_wdot n).
Definition n_setsurf (n : node) s : node :=
  Node (n_kind n) (n_th n) (n_phase n) (n_energy n) (n_chem n) (n_inlet n) (n_outlet n) (n_wall n)
       s (n_mass n) (n_vol n) (n_T n) (n_rho n) (n_Y n) (n_press n) (n_enth n) (n_wdot n).
Definition n_setwdot (n : node) w : node :=
  Node (n_kind n) (n_th n) (n_phase n) (n_energy n) (n_chem n) (n_inlet n) (n_outlet n) (n_wall n)
       (n_surf n) (n_mass n) (n_vol n) (n_T n) (n_rho n) (n_Y n) (n_press n) (n_enth n) w.

(* ReactorBase::setThermo, ReactorBase.cpp:79-87, Reactor::setKinetics, Reactor.cpp:40-48
   (chem: there are reactions), m_vol = 1; m_wdot as resized by Reactor::initialize. *)
Definition newNode (k : rkind) (th : thermo) (ph : nat) (chem : bool) (sf : list surf)
  (T rho : R) (Y : list R) : node :=
  Node k th ph true chem [] [] [] sf 0 1 T rho Y (th_p th T rho Y) (th_h th T rho Y)
       (repeat 0 (th_nsp th)).

(* The network together with everything connected to it: reactors and reservoirs, flow
   devices and walls ever created; w_order is m_reactors; w_phT is the temperature
   currently set in each ThermoPhase object. *)
Record net := Net {
  w_nodes : nat -> node; w_nn : nat;
  w_devs : nat -> dev; w_nd : nat;
  w_walls : nat -> wall; w_nw : nat;
  w_order : list nat; w_time : R; w_phT : nat -> R
}.
Definition s_nodes (s : net) f : net :=
  Net f (w_nn s) (w_devs s) (w_nd s) (w_walls s) (w_nw s) (w_order s) (w_time s) (w_phT s).
Definition s_devs (s : net) f : net :=
  Net (w_nodes s) (w_nn s) f (w_nd s) (w_walls s) (w_nw s) (w_order s) (w_time s) (w_phT s).
Definition s_walls (s : net) f : net :=
  Net (w_nodes s) (w_nn s) (w_devs s) (w_nd s) f (w_nw s) (w_order s) (w_time s) (w_phT s).
Definition s_time (s : net) t : net :=
  Net (w_nodes s) (w_nn s) (w_devs s) (w_nd s) (w_walls s) (w_nw s) (w_order s) t (w_phT s).
Definition s_phT (s : net) f : net :=
  Net (w_nodes s) (w_nn s) (w_devs s) (w_nd s) (w_walls s) (w_nw s) (w_order s) (w_time s) f.
Definition press (s : net) (i : nat) : R := n_press (w_nodes s i).
Definition temp (s : net) (i : nat) : R := n_T (w_nodes s i).

(* ---------------------------------------------------------------- *)
(** * updateState *)

Definition sub (y : list R) (a n : nat) : list R := firstn n (skipn a y).
Definition at_ (y : list R) (k : nat) : R := nth k y 0.

(* MoleReactor::setMassFromMoles, MoleReactor.cpp:151-159. *)
Definition mass_of_moles (mw n : list R) : R := rsum (map (fun p => fst p * snd p) (combine n mw)).
(* Phase::setMolesNoTruncate, Phase.cpp:528-544 (mass fractions). *)
Definition Y_of_moles (mw n : list R) : list R :=
  map (fun p => (fst p * snd p) * (1 / mass_of_moles mw n)) (combine n mw).

Record tstate := TS { ts_mass : R; ts_vol : R; ts_T : R; ts_rho : R; ts_Y : list R }.

(* Where the surface unknowns start in a reactor's part of the state vector. *)
Definition surf_at (n : node) : nat :=
  match n_kind n with
  | KReservoir => 0
  | KReactor | KIdealGas => n_nsp n + 3
  | KConstP | KIGConstP | KMole | KIGMole => n_nsp n + 2
  | KConstPMole | KIGConstPMole => n_nsp n + 1
  end.
Definition nsurf (n : node) : nat := list_sum (map sf_nk (n_surf n)).
(* neq: Reactor::initialize, Reactor.cpp:102-112, ConstPressureReactor.cpp:39-43,
   MoleReactor.cpp:38-42, ConstPressureMoleReactor.cpp:35-39. *)
Definition neq (n : node) : nat := surf_at n + nsurf n.

(* The thermodynamic part of updateState: Reactor.cpp:128-170, IdealGasReactor.cpp:59-67,
   ConstPressureReactor.cpp:45-57, IdealGasConstPressureReactor.cpp:55-63,
   MoleReactor.cpp:180-220, IdealGasMoleReactor.cpp:82-92,
   ConstPressureMoleReactor.cpp:41-53, IdealGasConstPressureMoleReactor.cpp:52-60.
   phT is the temperature found in the ThermoPhase object. *)
Definition new_state (n : node) (phT : R) (y : list R) : outcome tstate :=
  let th := n_th n in
  let mw := th_mw th in
  let nsp := n_nsp n in
  match n_kind n with
  | KReservoir => UB
  | KReactor =>
      let Y := sub y 3 nsp in
      obind (if n_energy n then th_solveUV th (at_ y 2) (at_ y 0) (at_ y 1) Y else Ok phT) (fun T =>
      Ok (TS (at_ y 0) (at_ y 1) T (at_ y 0 / at_ y 1) Y))
  | KIdealGas => Ok (TS (at_ y 0) (at_ y 1) (at_ y 2) (at_ y 0 / at_ y 1) (sub y 3 nsp))
  | KConstP =>
      let Y := sub y 2 nsp in
      obind (if n_energy n then th_solveHP th (at_ y 1 / at_ y 0) (n_press n) Y
             else Ok (phT, th_rho th phT (n_press n) Y)) (fun Tr =>
      Ok (TS (at_ y 0) (at_ y 0 / snd Tr) (fst Tr) (snd Tr) Y))
  | KIGConstP =>
      let Y := sub y 2 nsp in
      let rho := th_rho th (at_ y 1) (n_press n) Y in
      Ok (TS (at_ y 0) (at_ y 0 / rho) (at_ y 1) rho Y)
  | KMole =>
      let m := mass_of_moles mw (sub y 2 nsp) in
      let Y := Y_of_moles mw (sub y 2 nsp) in
      obind (if n_energy n then th_solveUV th (at_ y 0) m (at_ y 1) Y else Ok phT) (fun T =>
      Ok (TS m (at_ y 1) T (m / at_ y 1) Y))
  | KIGMole =>
      let m := mass_of_moles mw (sub y 2 nsp) in
      Ok (TS m (at_ y 1) (at_ y 0) (m / at_ y 1) (Y_of_moles mw (sub y 2 nsp)))
  | KConstPMole =>
      let m := mass_of_moles mw (sub y 1 nsp) in
      let Y := Y_of_moles mw (sub y 1 nsp) in
      obind (if n_energy n then th_solveHP th (at_ y 0 / m) (n_press n) Y
             else Ok (phT, th_rho th phT (n_press n) Y)) (fun Tr =>
      Ok (TS m (m / snd Tr) (fst Tr) (snd Tr) Y))
  | KIGConstPMole =>
      let m := mass_of_moles mw (sub y 1 nsp) in
      let Y := Y_of_moles mw (sub y 1 nsp) in
      let rho := th_rho th (at_ y 0) (n_press n) Y in
      Ok (TS m (m / rho) (at_ y 0) rho Y)
  end.

(* updateConnected is called with false by the constant-pressure reactors. *)
Definition constP (k : rkind) : bool :=
  match k with KConstP | KIGConstP | KConstPMole | KIGConstPMole => true | _ => false end.
Definition molar (k : rkind) : bool :=
  match k with KMole | KIGMole | KConstPMole | KIGConstPMole => true | _ => false end.

(* updateSurfaceState: Reactor.cpp:176-183 (coverages) and MoleReactor.cpp:44-59 (moles). *)
Fixpoint upd_surfs (mol : bool) (y : list R) (ss : list surf) : list surf :=
  match ss with
  | [] => []
  | sf :: ss =>
      let v := firstn (sf_nk sf) y in
      let cov := if mol then map (fun p => fst p * (1 / sf_area sf) * snd p * (1 / sf_dens sf))
                                 (combine v (sf_sizes sf)) else v in
      sf_set sf cov :: upd_surfs mol (skipn (sf_nk sf) y) ss
  end.

(* Updating several devices in a row; an exception stops the loop. *)
Fixpoint upd_devs (fuel : nat) (p : nat -> R) (t : R) (ds : list nat) (devs : nat -> dev)
  : outcome unit * (nat -> dev) :=
  match ds with
  | [] => (Ok tt, devs)
  | d :: ds =>
      match upd_dev fuel p t d devs with
      | (Ok _, devs') => upd_devs fuel p t ds devs'
      | r => r
      end
  end.

(* Reactor::updateConnected, Reactor.cpp:185-210, for a reactor of the network. *)
Definition upd_connected (s : net) (i : nat) (ts : tstate) : outcome unit * net :=
  let n := w_nodes s i in
  let th := n_th n in
  let n' := n_state n (ts_mass ts) (ts_vol ts) (ts_T ts) (ts_rho ts) (ts_Y ts)
              (if constP (n_kind n) then n_press n else th_p th (ts_T ts) (ts_rho ts) (ts_Y ts))
              (th_h th (ts_T ts) (ts_rho ts) (ts_Y ts)) in
  let s1 := s_phT (s_nodes s (updf (w_nodes s) i n')) (updf (w_phT s) (n_phase n) (ts_T ts)) in
  match upd_devs (S (w_nd s)) (press s1) (w_time s) (n_outlet n ++ n_inlet n) (w_devs s) with
  | (Ok _, devs) =>
      (Ok tt, s_walls (s_devs s1 devs)
         (fold_left (fun f w => updf f (fst w) (w_set_time (f (fst w)) (w_time s))) (n_wall n) (w_walls s)))
  | (r, devs) => (r, s_devs s1 devs)
  end.

(* updateState of one reactor. If the root finder throws, m_mass and m_vol have been
   overwritten but the saved state has not (the temperature left in the ThermoPhase by a
   failing setState_HP is not modelled). *)
Definition updateState (s : net) (i : nat) (y : list R) : outcome unit * net :=
  let n := w_nodes s i in
  match new_state n (w_phT s (n_phase n)) y with
  | Ok ts =>
      match upd_connected s i ts with
      | (Ok _, s1) =>
          let n1 := w_nodes s1 i in
          (Ok tt, s_nodes s1 (updf (w_nodes s1) i
             (n_setsurf n1 (upd_surfs (molar (n_kind n)) (skipn (surf_at n) y) (n_surf n1)))))
      | r => r
      end
  | Err => (Err, s)
  | Exn => (Exn, s)
  | UB => (UB, s)
  end.

(* ReactorNet::updateState, ReactorNet.cpp:437-443; the parts of y are consecutive
   (m_start, ReactorNet.cpp:95-101). *)
Fixpoint updateAll (s : net) (order : list nat) (y : list R) : outcome unit * net :=
  match order with
  | [] => (Ok tt, s)
  | i :: order =>
      let k := neq (w_nodes s i) in
      match updateState s i (firstn k y) with
      | (Ok _, s1) => updateAll s1 order (skipn k y)
      | r => r
      end
  end.

(* ---------------------------------------------------------------- *)
(** * eval *)

(* What a reactor sees of a flow device: massFlowRate, outletSpeciesMassFlowRate and
   enthalpy_mass, FlowDevice.h:33-40, FlowDevice.cpp:109-124. *)
Record flow := Flow { fl_mdot : R; fl_spec : nat -> R; fl_h : R }.
Definition flow_of (s : net) (d : nat) : outcome flow :=
  match dv_mdot (w_devs s d), dv_ends (w_devs s d) with
  | Some m, Some (i, _) =>
      Ok (Flow m (fun k => match nth_error (dv_map (w_devs s d)) k with
                           | Some (Some ki) => m * at_ (n_Y (w_nodes s i)) ki
                           | _ => 0 end)
               (n_enth (w_nodes s i)))
  | _, _ => Err
  end.
Fixpoint oseq {A B} (f : A -> outcome B) (l : list A) : outcome (list B) :=
  match l with
  | [] => Ok []
  | a :: l => obind (f a) (fun b => obind (oseq f l) (fun bs => Ok (b :: bs)))
  end.

(* Reactor::evalWalls, Reactor.cpp:276-286: (m_vdot, m_Qdot); f = 2 lr - 1. *)
Definition wall_terms (s : net) (n : node) : outcome (list (R * R * R)) :=
  oseq (fun w : nat * bool => obind (expansionRate (press s) (w_walls s (fst w))) (fun v =>
                 obind (heatRate (temp s) (w_walls s (fst w))) (fun q =>
                 Ok ((if snd w then 1 else -1) : R, v, q)))) (n_wall n).
Definition evalWalls (s : net) (n : node) : outcome (R * R) :=
  omap (fun l => fold_left (fun acc x => match acc, x with
                    | (vd, qd), (f, v, q) => (vd - f * v, qd + f * q) end) l (0, 0))
       (wall_terms s n).

(* Reactor::evalSurfaces, Reactor.cpp:288-315: rates of the coverages, the first one from
   the others, and production of gas species (added to sdot). A surface phase without
   species is not modelled. *)
Definition surf_cov_rates (sf : surf) (work : list R) : list R :=
  let r := map (fun k => at_ work k * (1 / sf_dens sf) * at_ (sf_sizes sf) k) (seq 1 (sf_nk sf - 1)) in
  match sf_nk sf with O => [] | _ => fold_left (fun acc x => acc - x) r 0 :: r end.
(* MoleReactor::evalSurfaces, MoleReactor.cpp:61-85: rates of the surface moles. *)
Definition surf_mole_rates (sf : surf) (work : list R) : list R :=
  map (fun k => at_ work k * sf_area sf / at_ (sf_sizes sf) k) (seq 0 (sf_nk sf)).
Fixpoint evalSurfaces (mol : bool) (n : node) (ss : list surf) (sdot : list R) : list R * list R :=
  match ss with
  | [] => ([], sdot)
  | sf :: ss =>
      let work := sf_rates sf (n_T n) (n_rho n) (n_Y n) (sf_cov sf) in
      let sdot' := map (fun k => at_ sdot k + at_ work (sf_bulk sf + k) * sf_area sf) (seq 0 (n_nsp n)) in
      let r := evalSurfaces mol n ss sdot' in
      ((if mol then surf_mole_rates sf work else surf_cov_rates sf work) ++ fst r, snd r)
  end.

(* The quantities the eval methods combine. *)
Record env := Env {
  en_vdot : R; en_Qdot : R; en_out : list flow; en_in : list flow;
  en_wdot : list R; en_sdot : list R; en_surf : list R
}.
Definition dot (a b : list R) : R := rsum (map (fun p => fst p * snd p) (combine a b)).

(* mass * dY/dt of species k, the same loops in Reactor.cpp:233-269,
   IdealGasReactor.cpp:98-127, ConstPressureReactor.cpp:84-111,
   IdealGasConstPressureReactor.cpp:95-124. *)
Definition mdYdt (n : node) (e : env) (k : nat) : R :=
  let mw := th_mw (n_th n) in
  let prod := (at_ (en_wdot e) k * n_vol n + at_ (en_sdot e) k) * at_ mw k
              - at_ (n_Y n) k * dot (en_sdot e) mw in
  fold_left (fun acc f => acc + (fl_spec f k - fl_mdot f * at_ (n_Y n) k)) (en_in e) prod.
(* dm/dt, the same files. *)
Definition dmdt (n : node) (e : env) : R :=
  fold_left (fun acc f => acc + fl_mdot f) (en_in e)
    (fold_left (fun acc f => acc - fl_mdot f) (en_out e) (dot (en_sdot e) (th_mw (n_th n)))).
(* dn/dt of species k: MoleReactor.cpp:248-277, IdealGasMoleReactor.cpp:118-147,
   ConstPressureMoleReactor.cpp:78-101, IdealGasConstPressureMoleReactor.cpp:89-117.
   The inverse molecular weights are 1/mw, Phase.cpp:779,916. *)
Definition dndt (n : node) (e : env) (k : nat) : R :=
  let imw := 1 / at_ (th_mw (n_th n)) k in
  fold_left (fun acc f => acc + fl_spec f k * imw) (en_in e)
    (fold_left (fun acc f => acc - fl_spec f k * imw) (en_out e)
      (at_ (en_wdot e) k * n_vol n + at_ (en_sdot e) k)).
Definition species (n : node) (f : nat -> R) : list R := map f (seq 0 (n_nsp n)).
Definition ones (k : nat) : list R := repeat 1 k.

(* Energy equation of Reactor and MoleReactor, Reactor.cpp:246-273, MoleReactor.cpp:239-281. *)
Definition dUdt (n : node) (e : env) : R :=
  if n_energy n then
    fold_left (fun acc f => acc + fl_mdot f * fl_h f) (en_in e)
      (fold_left (fun acc f => acc - fl_mdot f * n_enth n) (en_out e)
        (- th_p (n_th n) (n_T n) (n_rho n) (n_Y n) * en_vdot e + en_Qdot e))
  else 0.
(* ConstPressureReactor.cpp:93-118, ConstPressureMoleReactor.cpp:75-107. *)
Definition dHdt (n : node) (e : env) : R :=
  if n_energy n then
    fold_left (fun acc f => acc + fl_mdot f * fl_h f) (en_in e)
      (fold_left (fun acc f => acc - fl_mdot f * n_enth n) (en_out e) (en_Qdot e))
  else 0.
(* m cv dT/dt: IdealGasReactor.cpp:93-134 and IdealGasMoleReactor.cpp:113-155 (the latter
   multiplies by imw where the former divides by mw). *)
Definition mcvdTdt (n : node) (e : env) : R :=
  let uk := th_uk (n_th n) (n_T n) (n_rho n) (n_Y n) in
  let mw := th_mw (n_th n) in
  if n_energy n then
    let a := - n_press n * en_vdot e + en_Qdot e in
    let b := fold_left (fun acc k => acc - at_ (en_wdot e) k * at_ uk k * n_vol n
                                     - at_ (en_sdot e) k * at_ uk k) (seq 0 (n_nsp n)) a in
    let c := fold_left (fun acc f => acc - fl_mdot f * n_press n * n_vol n / n_mass n) (en_out e) b in
    fold_left (fun acc f =>
        fold_left (fun acc k => acc - at_ uk k / at_ mw k * fl_spec f k) (seq 0 (n_nsp n))
          (acc + fl_h f * fl_mdot f)) (en_in e) c
  else 0.
(* m cp dT/dt: IdealGasConstPressureReactor.cpp:92-130 and
   IdealGasConstPressureMoleReactor.cpp:86-124. *)
Definition mcpdTdt (n : node) (e : env) : R :=
  let hk := th_hk (n_th n) (n_T n) (n_rho n) (n_Y n) in
  let mw := th_mw (n_th n) in
  if n_energy n then
    let b := fold_left (fun acc k => acc - at_ (en_wdot e) k * at_ hk k * n_vol n
                                     - at_ (en_sdot e) k * at_ hk k) (seq 0 (n_nsp n)) (en_Qdot e) in
    fold_left (fun acc f =>
        fold_left (fun acc k => acc - at_ hk k / at_ mw k * fl_spec f k) (seq 0 (n_nsp n))
          (acc + fl_h f * fl_mdot f)) (en_in e) b
  else 0.
Definition cv (n : node) : R := th_cv (n_th n) (n_T n) (n_rho n) (n_Y n).
Definition cp (n : node) : R := th_cp (n_th n) (n_T n) (n_rho n) (n_Y n).

(* LHS and RHS of the eval methods (LHS starts as ones, RHS as zeros). *)
Definition evalNode (n : node) (e : env) : list R * list R :=
  let nsp := n_nsp n in
  let ls := ones (length (en_surf e)) in
  let lT c := if n_energy n then n_mass n * c else 1 in
  match n_kind n with
  | KReservoir => ([], [])
  | KReactor =>
      ([1; 1; 1] ++ repeat (n_mass n) nsp ++ ls,
       [dmdt n e; en_vdot e; dUdt n e] ++ species n (mdYdt n e) ++ en_surf e)
  | KIdealGas =>
      ([1; 1; lT (cv n)] ++ repeat (n_mass n) nsp ++ ls,
       [dmdt n e; en_vdot e; mcvdTdt n e] ++ species n (mdYdt n e) ++ en_surf e)
  | KConstP =>
      ([1; 1] ++ repeat (n_mass n) nsp ++ ls,
       [dmdt n e; dHdt n e] ++ species n (mdYdt n e) ++ en_surf e)
  | KIGConstP =>
      ([1; lT (cp n)] ++ repeat (n_mass n) nsp ++ ls,
       [dmdt n e; mcpdTdt n e] ++ species n (mdYdt n e) ++ en_surf e)
  | KMole =>
      ([1; 1] ++ ones nsp ++ ls,
       [dUdt n e; en_vdot e] ++ species n (dndt n e) ++ en_surf e)
  | KIGMole =>
      ([lT (cv n); 1] ++ ones nsp ++ ls,
       [mcvdTdt n e; en_vdot e] ++ species n (dndt n e) ++ en_surf e)
  | KConstPMole =>
      ([1] ++ ones nsp ++ ls,
       [dHdt n e] ++ species n (dndt n e) ++ en_surf e)
  | KIGConstPMole =>
      ([lT (cp n)] ++ ones nsp ++ ls,
       [mcpdTdt n e] ++ species n (dndt n e) ++ en_surf e)
  end.

(* Collecting them: evalWalls, evalSurfaces, getNetProductionRates if chemistry is on
   (otherwise m_wdot is left as it is), and the flow devices. *)
Definition envOf (s : net) (i : nat) : outcome env :=
  let n := w_nodes s i in
  obind (evalWalls s n) (fun vq =>
  obind (oseq (flow_of s) (n_outlet n)) (fun outs =>
  obind (oseq (flow_of s) (n_inlet n)) (fun ins =>
  let wdot : list R := if n_chem n then th_wdot (n_th n) (n_T n) (n_rho n) (n_Y n) else n_wdot n in
  let rs := evalSurfaces (molar (n_kind n)) n (n_surf n) (repeat 0 (n_nsp n)) in
  Ok (Env (fst vq) (snd vq) outs ins wdot (snd rs) (fst rs))))).

(* One reactor in ReactorNet::eval: m_wdot is kept, the ThermoPhase is left in the
   reactor's state (restoreState). If an exception is thrown m_wdot may or may not have
   been overwritten; here it is kept. *)
Definition evalOne (s : net) (i : nat) : outcome (list R) * net :=
  let n := w_nodes s i in
  let s1 := s_phT s (updf (w_phT s) (n_phase n) (n_T n)) in
  match envOf s i with
  | Ok e =>
      let (l, r) := evalNode n e in
      (Ok (map (fun p => fst p / snd p) (combine r l)),
       s_nodes s1 (updf (w_nodes s) i (n_setwdot n (en_wdot e))))
  | Err => (Err, s1)
  | Exn => (Exn, s1)
  | UB => (UB, s1)
  end.
Fixpoint evalAll (s : net) (order : list nat) : outcome (list (list R)) * net :=
  match order with
  | [] => (Ok [], s)
  | i :: order =>
      match evalOne s i with
      | (Ok v, s1) =>
          match evalAll s1 order with
          | (Ok vs, s2) => (Ok (v :: vs), s2)
          | r => r
          end
      | (Err, s1) => (Err, s1)
      | (Exn, s1) => (Exn, s1)
      | (UB, s1) => (UB, s1)
      end
  end.
(* ReactorNet::eval, ReactorNet.cpp:357-379, without sensitivity parameters (see
   SensModel.v): the parts of ydot for the reactors in order. *)
Definition evalNet (s : net) (t : R) (y : list R) : outcome (list (list R)) * net :=
  let s0 := s_time s t in
  match updateAll s0 (w_order s0) y with
  | (Ok _, s1) => evalAll s1 (w_order s1)
  | (Err, s1) => (Err, s1)
  | (Exn, s1) => (Exn, s1)
  | (UB, s1) => (UB, s1)
  end.

(* ---------------------------------------------------------------- *)
(** * Building and using a network *)

Fixpoint find_name (l : list string) (s : string) : option nat :=
  match l with
  | [] => None
  | x :: l => if String.eqb x s then Some O else option_map S (find_name l s)
  end.

Inductive op :=
| ONode (k : rkind) (th : thermo) (ph : nat) (chem : bool) (sf : list surf) (T rho : R) (Y : list R)
| ODev (k : devkind)
| OInstall (d i j : nat)
| OWall
| OInstallWall (w i j : nat)
| OAdd (i : nat)
| OChemistry (i : nat) (b : bool)
| OEnergy (i : nat) (b : bool)
| OVolume (i : nat) (v : R)
| OTime (d : nat) (f : option (R -> R))
| OPressF (d : nat) (f : option (R -> R))
| OCoeff (d : nat) (c : R)
| ORate (d : nat) (m : R)
| OPrimary (d p : nat)
| OWallSet (w : nat) (o : wset)
| OEval (t : R) (y : list R).

(* FlowDevice::FlowDevice and install, FlowDevice.cpp:14-80: a second install throws. *)
Definition install (s : net) (d i j : nat) : outcome net :=
  match dv_ends (w_devs s d) with
  | Some _ => Err
  | None =>
      let names k := th_names (n_th (w_nodes s k)) in
      let m := map (fun nm => find_name (names i) nm) (names j) in
      let ni := w_nodes s i in
      let f1 := updf (w_nodes s) i (n_links ni (n_inlet ni) (n_outlet ni ++ [d]) (n_wall ni)) in
      let nj := f1 j in
      let f2 := updf f1 j (n_links nj (n_inlet nj ++ [d]) (n_outlet nj) (n_wall nj)) in
      Ok (s_devs (s_nodes s f2) (updf (w_devs s) d (set_ends (w_devs s d) (i, j) m)))
  end.
(* WallBase::WallBase and install, Wall.cpp:13-43: a second install returns false. *)
Definition installWall (s : net) (w i j : nat) : net :=
  match wl_ends (w_walls s w) with
  | Some _ => s
  | None =>
      let ni := w_nodes s i in
      let f1 := updf (w_nodes s) i (n_links ni (n_inlet ni) (n_outlet ni) (n_wall ni ++ [(w, false)])) in
      let nj := f1 j in
      let f2 := updf f1 j (n_links nj (n_inlet nj) (n_outlet nj) (n_wall nj ++ [(w, true)])) in
      s_walls (s_nodes s f2) (updf (w_walls s) w (w_set_ends (w_walls s w) (i, j)))
  end.

Definition keep (s : net) (o : outcome net) : net := match o with Ok s' => s' | _ => s end.
Definition dev_op (s : net) (d : nat) (o : outcome dev) : net :=
  match o with Ok x => s_devs s (updf (w_devs s) d x) | _ => s end.

(* One call; calls naming objects that do not exist have no meaning and are skipped, and
   so are calls that throw. Reservoirs cannot be added to a network (addReactor takes a
   Reactor). An energy or chemistry switch on a Reservoir throws, ReactorBase.h:104-112. *)
Definition step (s : net) (o : op) : net :=
  let node_ok i := Nat.ltb i (w_nn s) in
  let dev_ok d := Nat.ltb d (w_nd s) in
  match o with
  | ONode k th ph chem sf T rho Y =>
      Net (updf (w_nodes s) (w_nn s) (newNode k th ph chem sf T rho Y)) (S (w_nn s))
          (w_devs s) (w_nd s) (w_walls s) (w_nw s) (w_order s) (w_time s) (updf (w_phT s) ph T)
  | ODev k => Net (w_nodes s) (w_nn s) (updf (w_devs s) (w_nd s) (newDev k)) (S (w_nd s))
                  (w_walls s) (w_nw s) (w_order s) (w_time s) (w_phT s)
  | OInstall d i j => if dev_ok d && node_ok i && node_ok j then keep s (install s d i j) else s
  | OWall => Net (w_nodes s) (w_nn s) (w_devs s) (w_nd s) (updf (w_walls s) (w_nw s) newWall)
                 (S (w_nw s)) (w_order s) (w_time s) (w_phT s)
  | OInstallWall w i j => if Nat.ltb w (w_nw s) && node_ok i && node_ok j then installWall s w i j else s
  | OAdd i => match n_kind (w_nodes s i) with
              | KReservoir => s
              | _ => if node_ok i then
                       Net (w_nodes s) (w_nn s) (w_devs s) (w_nd s) (w_walls s) (w_nw s)
                           (w_order s ++ [i]) (w_time s) (w_phT s)
                     else s
              end
  | OChemistry i b => match n_kind (w_nodes s i) with KReservoir => s | _ =>
      let n := w_nodes s i in s_nodes s (updf (w_nodes s) i (n_flags n (n_energy n) b (n_vol n))) end
  | OEnergy i b => match n_kind (w_nodes s i) with KReservoir => s | _ =>
      let n := w_nodes s i in s_nodes s (updf (w_nodes s) i (n_flags n b (n_chem n) (n_vol n))) end
  | OVolume i v =>
      let n := w_nodes s i in s_nodes s (updf (w_nodes s) i (n_flags n (n_energy n) (n_chem n) v))
  | OTime d f => dev_op s d (setTimeFunction (w_devs s d) (match f with Some f => FLive f | None => FNull end))
  | OPressF d f => dev_op s d (setPressureFunction (w_devs s d) f)
  | OCoeff d c => dev_op s d (Ok (setCoeff (w_devs s d) c))
  | ORate d m => dev_op s d (setMassFlowRate (w_devs s d) m)
  | OPrimary d p => dev_op s d (setPrimary (w_devs s d) p)
  | OWallSet w o => match set_wall (w_walls s w) o with
                    | Ok x => s_walls s (updf (w_walls s) w x) | _ => s end
  | OEval t y => snd (evalNet s t y)
  end.

Definition thermo0 : thermo :=
  Thermo [] [] (fun _ _ _ => 0) (fun _ _ _ => 0) (fun _ _ _ => 0) (fun _ _ _ => 0) (fun _ _ _ => 0)
    (fun _ _ _ => []) (fun _ _ _ => []) (fun _ _ _ => []) (fun _ _ _ => 0)
    (fun _ _ _ _ => Err) (fun _ _ _ => Err).
Definition net0 : net :=
  Net (fun _ => newNode KReservoir thermo0 0 false [] 0 0 []) 0 (fun _ => newDev MFC) 0
      (fun _ => newWall) 0 [] 0 (fun _ => 0).
Definition run (ops : list op) : net := fold_left step ops net0.
