(* Reference definitions for reactor networks: balances of mass, species, volume and
   energy, and the flow law of each device. *)
From Coq Require Import String List Bool Reals.
From Verif Require Import Base.RSum ZeroD.NetModel.
Import ListNotations.
Local Open Scope R_scope.

(* Is this reactor integrated by the network? *)
Definition inside (s : net) (i : nat) : bool := existsb (Nat.eqb i) (w_order s).
Definition ind (b : bool) : R := if b then 1 else 0.

(* The flow through device d, its upstream and downstream reactor. *)
Definition mflow (s : net) (d : nat) : R :=
  match dv_mdot (w_devs s d) with Some m => m | None => 0 end.
Definition up (s : net) (d : nat) : option nat := option_map fst (dv_ends (w_devs s d)).
Definition down (s : net) (d : nat) : option nat := option_map snd (dv_ends (w_devs s d)).
Definition inside_o (s : net) (o : option nat) : bool :=
  match o with Some i => inside s i | None => false end.

(* Sums over the devices that deliver to reactor i and that draw from it. *)
Definition is_at (o : option nat) (i : nat) : bool :=
  match o with Some j => Nat.eqb j i | None => false end.
Definition arriving (s : net) (i : nat) (f : nat -> R) : R :=
  sum_n (fun d => if is_at (down s d) i then f d else 0) (w_nd s).
Definition leaving (s : net) (i : nat) (f : nat -> R) : R :=
  sum_n (fun d => if is_at (up s d) i then f d else 0) (w_nd s).

(* The part of the state derivative of each integrated reactor. *)
Definition parts (s : net) (yd : list (list R)) : list (node * list R) :=
  combine (map (w_nodes s) (w_order s)) yd.

(* Position of the first species in a reactor's part of the state vector. *)
Definition species_at (n : node) : nat :=
  match n_kind n with
  | KReservoir => 0 | KReactor | KIdealGas => 3
  | KConstP | KIGConstP | KMole | KIGMole => 2
  | KConstPMole | KIGConstPMole => 1
  end.

(* Rate of change of the mass in a reactor: the first unknown, or, when the unknowns are
   moles n_k, the sum of W_k dn_k/dt. *)
Definition mass_rate (n : node) (yd : list R) : R :=
  if molar (n_kind n)
  then sum_n (fun k => at_ (th_mw (n_th n)) k * at_ yd (species_at n + k)) (n_nsp n)
  else at_ yd 0.
(* Rate of change of the mass of species number k: d(m Y_k)/dt. *)
Definition species_mass_rate (n : node) (yd : list R) (k : nat) : R :=
  if molar (n_kind n) then at_ (th_mw (n_th n)) k * at_ yd (species_at n + k)
  else n_mass n * at_ yd (species_at n + k) + at_ (n_Y n) k * at_ yd 0.
Definition by_name (n : node) (f : nat -> R) (nm : string) : R :=
  match find_name (th_names (n_th n)) nm with Some k => f k | None => 0 end.
Definition knows (n : node) (nm : string) : bool := existsb (String.eqb nm) (th_names (n_th n)).

(* The mass flow of the species called nm through device d: the mass fraction is that of
   the upstream reactor. *)
Definition carried (s : net) (d : nat) (nm : string) : R :=
  match up s d with
  | Some a => mflow s d * by_name (w_nodes s a) (at_ (n_Y (w_nodes s a))) nm
  | None => 0
  end.
Definition name (n : node) (k : nat) : string := nth k (th_names (n_th n)) EmptyString.

(* Conditions on the phases. *)
Definition normalised (n : node) : Prop := sum_n (at_ (n_Y n)) (n_nsp n) = 1.
Definition reactions_conserve_mass (n : node) : Prop :=
  sum_n (fun k => at_ (n_wdot n) k * at_ (th_mw (n_th n)) k) (n_nsp n) = 0.
Definition weights_nonzero (n : node) : Prop :=
  forall k, (k < n_nsp n)%nat -> at_ (th_mw (n_th n)) k <> 0.
Definition names_distinct (n : node) : Prop := NoDup (th_names (n_th n)).
(* Everything flowing out of reactor i goes to a reactor with the same species list. *)
Definition same_species_downstream (s : net) (i : nat) : Prop :=
  forall d b, dv_ends (w_devs s d) = Some (i, b) ->
    th_names (n_th (w_nodes s b)) = th_names (n_th (w_nodes s i)).
(* Reactor i has all species of the reactors that flow into it. *)
Definition knows_upstream (s : net) (i : nat) : Prop :=
  forall d a, dv_ends (w_devs s d) = Some (a, i) ->
    incl (th_names (n_th (w_nodes s a))) (th_names (n_th (w_nodes s i))).
(* The amount per unit mass, in the reactor upstream of device d, of something of which
   a unit mass of the species called nm holds w nm (for an element: atoms / molecular weight). *)
Definition amount (n : node) (w : string -> R) (f : nat -> R) : R :=
  sum_n (fun k => w (name n k) * f k) (n_nsp n).
Definition content (s : net) (w : string -> R) (d : nat) : R :=
  match up s d with
  | Some a => amount (w_nodes s a) w (at_ (n_Y (w_nodes s a)))
  | None => 0
  end.

(* Rates at which surfaces and gas reactions produce species k, in kmol/s. *)
Definition from_surfaces (n : node) (k : nat) : R :=
  sum_of (fun sf => at_ (sf_rates sf (n_T n) (n_rho n) (n_Y n) (sf_cov sf)) (sf_bulk sf + k) * sf_area sf)
         (n_surf n).
Definition from_reactions (n : node) (k : nat) : R := at_ (n_wdot n) k * n_vol n.
Definition surface_mass (n : node) : R :=
  sum_n (fun k => from_surfaces n k * at_ (th_mw (n_th n)) k) (n_nsp n).

(* Rate of change of volume, for reactors with a volume equation. *)
Definition volume_rate (yd : list R) : R := at_ yd 1.

(* Rate of change of internal energy. For the ideal gas reactors the unknown is the
   temperature: U = sum of n_k u_k(T), so dU/dt = m cv dT/dt + sum of u_k dn_k/dt. *)
Definition energy_rate (n : node) (yd : list R) : R :=
  let uk := th_uk (n_th n) (n_T n) (n_rho n) (n_Y n) in
  let chemical := sum_n (fun k => at_ uk k * (species_mass_rate n yd k / at_ (th_mw (n_th n)) k)) (n_nsp n) in
  match n_kind n with
  | KReactor => at_ yd 2
  | KMole => at_ yd 0
  | KIdealGas => n_mass n * cv n * at_ yd 2 + chemical
  | KIGMole => n_mass n * cv n * at_ yd 0 + chemical
  | _ => 0
  end.
(* The same with enthalpy, for the constant pressure reactors. *)
Definition enthalpy_rate (n : node) (yd : list R) : R :=
  let hk := th_hk (n_th n) (n_T n) (n_rho n) (n_Y n) in
  let chemical := sum_n (fun k => at_ hk k * (species_mass_rate n yd k / at_ (th_mw (n_th n)) k)) (n_nsp n) in
  match n_kind n with
  | KConstP => at_ yd 1
  | KConstPMole => at_ yd 0
  | KIGConstP => n_mass n * cp n * at_ yd 1 + chemical
  | KIGConstPMole => n_mass n * cp n * at_ yd 0 + chemical
  | _ => 0
  end.

(* Heat from left to right and volume gained by the left side of a wall. *)
Definition wall_heat (s : net) (w : nat) : R :=
  match heatRate (temp s) (w_walls s w) with Outcome.Ok q => q | _ => 0 end.
Definition wall_motion (s : net) (w : nat) : R :=
  match expansionRate (press s) (w_walls s w) with Outcome.Ok v => v | _ => 0 end.
Definition wleft (s : net) (w : nat) : option nat := option_map fst (wl_ends (w_walls s w)).
Definition wright (s : net) (w : nat) : option nat := option_map snd (wl_ends (w_walls s w)).
(* Sums over the walls with reactor i on the right and on the left. *)
Definition on_right (s : net) (i : nat) (f : nat -> R) : R :=
  sum_n (fun w => if is_at (wright s w) i then f w else 0) (w_nw s).
Definition on_left (s : net) (i : nat) (f : nat -> R) : R :=
  sum_n (fun w => if is_at (wleft s w) i then f w else 0) (w_nw s).
(* Volume gained and heat received by reactor i through its walls. *)
Definition expansion (s : net) (i : nat) : R := on_left s i (wall_motion s) - on_right s i (wall_motion s).
Definition heating (s : net) (i : nat) : R := on_right s i (wall_heat s) - on_left s i (wall_heat s).
(* Enthalpy carried by device d, at the specific enthalpy of the upstream reactor. *)
Definition carried_h (s : net) (d : nat) : R :=
  match up s d with Some a => mflow s d * n_enth (w_nodes s a) | None => 0 end.
(* h = u + p V / m with u = sum of Y_k u_k / W_k, and h = sum of Y_k h_k / W_k: true of
   ideal gas mixtures. *)
Definition u_mixture (n : node) : Prop :=
  n_enth n = sum_n (fun k => at_ (n_Y n) k * at_ (th_uk (n_th n) (n_T n) (n_rho n) (n_Y n)) k
                             / at_ (th_mw (n_th n)) k) (n_nsp n) + n_press n * n_vol n / n_mass n.
Definition h_mixture (n : node) : Prop :=
  n_enth n = sum_n (fun k => at_ (n_Y n) k * at_ (th_hk (n_th n) (n_T n) (n_rho n) (n_Y n)) k
                             / at_ (th_mw (n_th n)) k) (n_nsp n).
Definition press_o (s : net) (o : option nat) : R := match o with Some i => press s i | None => 0 end.

(* The documented law of each device: coefficient times function of time, times function
   of the pressure drop (valve), plus the flow of the primary device (pressure
   controller); never negative. *)
Definition time_factor (d : dev) (t : R) : R :=
  match dv_tf d with FLive f => f t | _ => 1 end.
Definition law_mfc (d : dev) (t : R) : R := Rmax (dv_coeff d * time_factor d t) 0.
Definition law (s : net) (t : R) (d : nat) : R :=
  let x := w_devs s d in
  let drop := press_o s (up s d) - press_o s (down s d) in
  match dv_kind x with
  | MFC => law_mfc x t
  | Valv => Rmax (dv_coeff x * time_factor x t * pval (dv_pf x) drop) 0
  | PCtrl (Some p) => Rmax (dv_coeff x * pval (dv_pf x) drop + law_mfc (w_devs s p) t) 0
  | PCtrl None => 0
  end.

(* The documented laws of a wall between reactors l and r at time t (Wall.h): it moves
   with velocity K (P_l - P_r) + v(t), and conducts U (T_l - T_r) + eps sigma (T_l^4 - T_r^4)
   + q(t) per unit area. *)
Definition fun_at (f : option (R -> R)) (t : R) : R := match f with Some f => f t | None => 0 end.
Definition motion_law (s : net) (t : R) (w l r : nat) : R :=
  let x := w_walls s w in
  wl_area x * (wl_k x * (press s l - press s r) + fun_at (wl_vf x) t).
Definition heat_law (s : net) (t : R) (w l r : nat) : R :=
  let x := w_walls s w in
  wl_area x * (wl_rrth x * (temp s l - temp s r)
               + wl_emiss x * StefanBoltz * (temp s l ^ 4 - temp s r ^ 4) + fun_at (wl_qf x) t).

(* The energy equations are formulated in four ways for reactors of given volume and in
   four ways for reactors of given pressure. These are the conditions under which they
   are the same physics: nothing for U and H as unknown; for temperature as unknown a
   nonzero heat capacity and the mixture rules above. *)
Definition given_volume (n : node) : bool :=
  match n_kind n with KReactor | KIdealGas | KMole | KIGMole => true | _ => false end.
Definition given_pressure (n : node) : bool :=
  match n_kind n with KConstP | KIGConstP | KConstPMole | KIGConstPMole => true | _ => false end.
Definition energy_ok (s : net) (i : nat) : Prop :=
  let n := w_nodes s i in
  match n_kind n with
  | KReactor | KMole | KConstP | KConstPMole => True
  | KIdealGas => n_mass n * cv n <> 0 /\ n_mass n <> 0 /\ weights_nonzero n /\ u_mixture n
  | KIGMole => n_mass n * cv n <> 0 /\ weights_nonzero n /\ u_mixture n /\
               same_species_downstream s i /\ names_distinct n
  | KIGConstP => n_mass n * cp n <> 0 /\ n_mass n <> 0 /\ weights_nonzero n /\ h_mixture n
  | KIGConstPMole => n_mass n * cp n <> 0 /\ weights_nonzero n /\ h_mixture n /\
               same_species_downstream s i /\ names_distinct n
  | KReservoir => False
  end.

(* Each pressure controller has a mass flow controller as its primary device. *)
Definition plain_primaries (s : net) : Prop :=
  forall d p, dv_kind (w_devs s d) = PCtrl (Some p) -> dv_kind (w_devs s p) = MFC.

(* The reactors that, with the energy equation off, take their temperature from the
   ThermoPhase object; and the condition that nobody else in the network sets it. *)
Definition phase_temperature (n : node) : bool :=
  match n_kind n with KReactor | KConstP | KMole | KConstPMole => negb (n_energy n) | _ => false end.
Definition own_phases (s : net) : Prop :=
  forall i j, In i (w_order s) -> In j (w_order s) -> phase_temperature (w_nodes s i) = true ->
    n_phase (w_nodes s j) = n_phase (w_nodes s i) -> i = j.
