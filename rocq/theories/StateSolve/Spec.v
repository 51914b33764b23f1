(** What it means to find the temperature for a given enthalpy, energy or entropy. *)
From Coq Require Import Reals List Bool.
From Verif Require Import Base.Fp Base.Outcome StateSolve.Model.
Open Scope R_scope.

(** The state is at the pressure (or specific volume) asked for: its density is the one the phase
    gives for this pressure at its temperature, or the reciprocal of the volume. *)
Definition held (ph : phase) (vol : bool) (p : R) (s : state) : Prop :=
  if vol then st_D s = 1 / p
  else exists D, ph_setP ph (st_T s) D p = Ok (st_D s).

(** The property that is matched, and the heat capacity that belongs to it. *)
Definition property (ph : phase) (ent vol : bool) (s : state) : R :=
  match ent, vol with
  | true, _ => ph_s ph (st_T s) (st_D s)
  | false, true => ph_u ph (st_T s) (st_D s)
  | false, false => ph_h ph (st_T s) (st_D s)
  end.
Definition capacity (ph : phase) (vol : bool) (s : state) : R :=
  match vol with true => ph_cv ph (st_T s) (st_D s) | false => ph_cp ph (st_T s) (st_D s) end.

(** At this pressure (or volume) the property is the function [f] of temperature and the heat capacity
    the function [c], and no temperature is refused. *)
Definition curve (ph : phase) (ent vol : bool) (p : R) (f c : R -> R) : Prop :=
  forall T, 0 < T ->
    if vol then property ph ent vol (mk_state T (1 / p)) = f T /\ capacity ph vol (mk_state T (1 / p)) = c T
    else forall D, exists D', ph_setP ph T D p = Ok D' /\
           property ph ent vol (mk_state T D') = f T /\ capacity ph vol (mk_state T D') = c T.

(** Mean and point-wise heat capacity are between [c1] and [c2]. *)
Definition slopes (f c : R -> R) (c1 c2 : R) : Prop :=
  0 < c1 /\ (forall T, 0 < T -> c1 <= c T <= c2) /\
  (forall a b, 0 < a -> a < b -> c1 * (b - a) <= f b - f a <= c2 * (b - a)).

(** The temperature the search starts from: the present one, or one just inside the range of validity
    of the phase if the present one is outside. *)
Definition first_T (ph : phase) (T : R) : R :=
  if Rlt_dec (ph_maxT ph + 1 / 10) T then ph_maxT ph - 9 / 10
  else if Rlt_dec T (ph_minT ph - 1 / 10) then ph_minT ph + 9 / 10 else T.

(** A gas of constant specific heats: gas constant [r], specific heat [cp] at constant pressure. *)
Definition perfect (minT maxT r cp : R) : phase :=
  mk_phase minT maxT (fun T _ p => Ok (p / (r * T)))
    (fun T _ => cp * T) (fun T _ => (cp - r) * T) (fun T D => cp * ln T - r * ln (r * T * D))
    (fun _ _ => cp) (fun _ _ => cp - r).
