(** Thermodynamic functions of a plasma with heavy species at T and electrons at Te:
    src/thermo/PlasmaPhase.cpp:482-588 over src/thermo/IdealGasPhase.cpp:58-106, 188-192, 214-220 and 267-284. *)
From Coq Require Import Reals List Bool.
From Verif Require Import Base.Fp Base.RSum Units.Model.
Import ListNotations.
Open Scope R_scope.

(** ** The reference state is computed once per temperature *)

(** ValueCache entries of IdealGasPhase::updateThermo (one temperature) and PlasmaPhase::updateThermo (both), and
    the temperature at which the stored h0, s0, cp0 and g0 of every species were computed.  None: a fresh entry,
    whose NaN differs from everything. *)
Record store := Store { c_gas : option R; c_el : option (R * R); at_T : nat -> R }.
Definition oeqb (o : option R) (t : R) : bool := match o with Some u => reqb u t | None => false end.
Definition oeqb2 (o : option (R * R)) (t u : R) : bool :=
  match o with Some (a, b) => reqb a t && reqb b u | None => false end.
(** IdealGasPhase::updateThermo, IdealGasPhase.cpp:267-284. *)
Definition gas_update (T : R) (s : store) : store :=
  if oeqb (c_gas s) T then s else Store (Some T) (c_el s) (fun _ => T).
(** PlasmaPhase::updateThermo, PlasmaPhase.cpp:482-500. *)
Definition plasma_update (e : nat) (T Te : R) (s : store) : store :=
  let s := gas_update T s in
  if oeqb2 (c_el s) T Te then s
  else Store (c_gas s) (Some (T, Te)) (fun k => if Nat.eqb k e then Te else at_T s k).
(** Setting either temperature, reading a property, and dropping the cached values (ThermoPhase::invalidateCache). *)
Inductive top := TSet (T : R) | TeSet (Te : R) | TRead | TInvalidate.
Definition tstep (e : nat) (o : top) (x : R * R * store) : R * R * store :=
  let '(T, Te, s) := x in
  match o with
  | TSet T' => (T', Te, s)
  | TeSet Te' => (T, Te', s)
  | TRead => (T, Te, plasma_update e T Te s)
  | TInvalidate => (T, Te, Store None None (at_T s))
  end.
Definition trun (e : nat) (os : list top) (x : R * R * store) : R * R * store := fold_left (fun x o => tstep e o x) os x.

(** ** Properties *)

(** SmallNumber, ct_defs.h. *)
Definition Small : R := / 10 ^ 300.

Section Thermo.
(** Reference state functions of the species, reference pressure, electron's index, number of species, the two
    temperatures, molar density and mole fractions. *)
Context (hRT sR : nat -> R -> R) (p0 : R) (e n : nat) (T Te c : R) (x : nat -> R).
Definition own (k : nat) : R := if Nat.eqb k e then Te else T.
(** The stored values after updateThermo. *)
Definition h0 (k : nat) : R := hRT k (own k).
Definition s0 (k : nat) : R := sR k (own k).
Definition g0 (k : nat) : R := h0 k - s0 k.
Definition RT : R := T * GasConstant.
Definition RTe : R := Te * GasConstant.
(** IdealGasPhase.h:338-340; PlasmaPhase.h:213-216. *)
Definition pressure : R := GasConstant * c * T.
Definition electronPressure : R := GasConstant * (x e * c) * Te.
(** PlasmaPhase.cpp:502-508. *)
Definition enthalpy_mole : R :=
  RT * sum_n (fun k => x k * h0 k) n + GasConstant * (Te - T) * x e * h0 e.
(** The electron's entry is changed after the gas's loop. *)
Definition at_e (f g : R -> R) (k : nat) (v : R) : R := if Nat.eqb k e then g v else f v.
(** PlasmaPhase.cpp:510-514, 516-520, 522-526. *)
Definition gibbs_ref (k : nat) : R := at_e (fun v => v) (fun v => v * (Te / T)) k (g0 k * RT).
Definition volume_ref (k : nat) : R := at_e (fun v => v) (fun v => v * (Te / T)) k (RT / p0).
Definition hbar (k : nat) : R := at_e (fun v => v) (fun v => v * (Te / T)) k (h0 k * RT).
(** PlasmaPhase.cpp:528-534. *)
Definition sbar (k : nat) : R :=
  at_e (fun v => v) (fun v => v + GasConstant * (ln pressure - ln electronPressure)) k
    (s0 k * GasConstant + GasConstant * (- ln (pressure / p0) - ln (Rmax Small (x k)))).
(** PlasmaPhase.cpp:536-544. *)
Definition ubar (k : nat) : R := if Nat.eqb k e then RTe * (h0 k - 1) else RT * (h0 k - 1).
(** PlasmaPhase.cpp:554-560. *)
Definition mu_star (k : nat) : R :=
  at_e (fun v => v) (fun v => v - ln (pressure / p0) * RT + ln (electronPressure / p0) * RTe) k
    (gibbs_ref k + ln (pressure / p0) * RT).
(** PlasmaPhase.cpp:546-552. *)
Definition mu (k : nat) : R :=
  at_e (fun v => v) (fun v => v + (RTe - RT) * ln (Rmax Small (x k))) k (mu_star k + RT * ln (Rmax Small (x k))).
(** PlasmaPhase.cpp:562-574 and 576-588. *)
Definition entropy_R (k : nat) : R := if Nat.eqb k e then s0 k - ln (electronPressure / p0) else s0 k - ln (pressure / p0).
Definition gibbs_RT (k : nat) : R := if Nat.eqb k e then g0 k + ln (electronPressure / p0) else g0 k + ln (pressure / p0).
End Thermo.
