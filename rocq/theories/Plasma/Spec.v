(** Electron energy distributions as documented. *)
From Coq Require Import Reals List.
From Verif Require Import Base.RSum Units.Model.
Import ListNotations.
Open Scope R_scope.

(** A grid of energies: not negative, strictly increasing, at least two points. *)
Definition grid (l : list R) : Prop :=
  (2 <= length l)%nat /\ 0 <= nth 0 l 0 /\ forall i, (S i < length l)%nat -> nth i l 0 < nth (S i) l 0.
(** x to the power p > 0, for x >= 0. *)
Definition power (x p : R) : R := if Req_EM_T x 0 then 0 else Rpower x p.
(** The trapezoidal sum of F over the p-th power of the energy. *)
Definition trapezoids (p : R) (l f : list R) : R :=
  sum_n (fun i => (power (nth (S i) l 0) p - power (nth i l 0) p) * ((nth (S i) f 0 + nth i f 0) / 2)) (length l - 1).
(** Electron temperature (in K) in electron volts. *)
Definition volts (Te : R) : R := Te * Boltzmann / ElectronCharge.
(** The Maxwellian energy probability function at temperature t volts. *)
Definition maxwellian (t e : R) : R := 2 / sqrt PI * (/ t * / sqrt t) * exp (- e / t).
(** d holds the slopes of f over the grid l: one-sided at the ends, and in between the slope of the parabola
    through the neighbours. *)
Definition slopes (l f d : list R) : Prop :=
  length d = length l /\
  (forall a b, nth 0 f 0 = a * nth 0 l 0 + b -> nth 1 f 0 = a * nth 1 l 0 + b -> nth 0 d 0 = a) /\
  (forall a b i, S (S i) = length l -> nth i f 0 = a * nth i l 0 + b -> nth (S i) f 0 = a * nth (S i) l 0 + b ->
     nth (S i) d 0 = a) /\
  (forall a b c i, (S (S i) < length l)%nat ->
     (forall j, (i <= j <= S (S i))%nat -> nth j f 0 = a * nth j l 0 ^ 2 + b * nth j l 0 + c) ->
     nth (S i) d 0 = 2 * a * nth (S i) l 0 + b).
