(** Real roots of a cubic and molar volumes at a given pressure, said without the solver. *)
From Coq Require Import Reals.
From Verif Require Import Units.Model.
Open Scope R_scope.

Definition cubic (b c d v : R) : R := v ^ 3 + b * v ^ 2 + c * v + d.
Definition root (b c d v : R) : Prop := cubic b c d v = 0.
(** The discriminant of v^3 + b v^2 + c v + d: positive for three distinct real roots, negative for
    one, zero for a multiple root. *)
Definition discriminant (b c d : R) : R :=
  18 * b * c * d - 4 * b ^ 3 * d + b ^ 2 * c ^ 2 - 4 * c ^ 3 - 27 * d ^ 2.
(** The inflection point, the value there, and by how much the turning points (if any) lie above and
    below that value. *)
Definition inflection (b : R) : R := - b / 3.
Definition middle (b c d : R) : R := cubic b c d (inflection b).
Definition height (b c : R) : R :=
  if Rlt_dec 0 (b ^ 2 - 3 * c) then 2 * sqrt ((b ^ 2 - 3 * c) / 9) ^ 3 else 0.
(** Clear of the solver's absolute tolerances. *)
Definition clear (b c d : R) : Prop :=
  / 10 ^ 10 <= Rabs (height b c - Rabs (middle b c d))
  /\ / 10 ^ 14 < Rabs (discriminant b c d / 27).
(** The state is taken for a nearly ideal gas: linear correction, compressibility parameters. *)
Definition nearly_ideal (b c B A : R) : Prop :=
  b <> 0 /\ Rabs (3 * c / b ^ 2) < / 10 ^ 7 /\ Rabs B < / 10 ^ 5 /\ Rabs A < / 10 ^ 5.

(** The equations of state, as usually written. *)
Definition pr_law (T v a b : R) : R :=
  GasConstant * T / (v - b) - a / (v * v + 2 * v * b - b * b).
Definition rk_law (T v a b : R) : R :=
  GasConstant * T / (v - b) - a / (sqrt T * v * (v + b)).
