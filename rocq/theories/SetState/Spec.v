(** The documented meaning of the keys (ThermoPhase.h:1409-1431). *)
From Coq Require Import Reals String List.
From Verif Require Import SetState.Model.
Import ListNotations.
Open Scope string_scope.

(** Names of a property, the preferred one last. *)
Definition names (k : string) : list string :=
  if String.eqb k "T" then ["T"; "temperature"] else
  if String.eqb k "P" then ["P"; "pressure"] else
  if String.eqb k "H" then ["H"; "enthalpy"] else
  if String.eqb k "U" then ["U"; "int-energy"; "internal-energy"] else
  if String.eqb k "S" then ["S"; "entropy"] else
  if String.eqb k "V" then ["V"; "specific-volume"] else
  if String.eqb k "D" then ["D"; "density"] else
  if String.eqb k "Q" then ["Q"; "vapor-fraction"] else
  if String.eqb k "X" then ["X"; "mole-fractions"] else
  if String.eqb k "Y" then ["Y"; "mass-fractions"] else [k].
(** The value given for a property under any of its names. *)
Fixpoint last_of {V} (s : amap (V := V)) (l : list string) : option V :=
  match l with
  | [] => None
  | k :: rest => match last_of s rest with Some v => Some v | None => get k s end
  end.
Definition given {V} (s : amap (V := V)) (k : string) : option V := last_of s (names k).
Definition props : list string := ["T"; "P"; "H"; "U"; "S"; "V"; "D"; "Q"].
(** The composition, mole fractions first. *)
Definition comp {V} (s : amap (V := V)) : list (act (V := V)) :=
  match given s "X" with
  | Some v => [SetX v]
  | None => match given s "Y" with Some v => [SetY v] | None => [] end
  end.
(** The pairs that fix a state. *)
Definition state_pairs : list (string * string) :=
  [("T", "P"); ("T", "D"); ("T", "V"); ("H", "P"); ("U", "V"); ("S", "P"); ("S", "V"); ("S", "T"); ("P", "V");
   ("U", "P"); ("V", "H"); ("T", "H"); ("S", "H"); ("D", "P")].
Definition known (k : string) : Prop := exists p, In p ("X" :: "Y" :: props) /\ In k (names p).
(** The names of compositions. *)
Definition comp_names : list string := ["X"; "Y"; "mole-fractions"; "mass-fractions"].
