(** Setting the state of a phase from a map of properties: ThermoPhase::setState(const AnyMap&),
    src/thermo/ThermoPhase.cpp:145-252, and its overrides in SurfPhase and MolalityVPSSTP. *)
From Coq Require Import Reals String List Bool.
Import ListNotations.
Open Scope string_scope.

Section State.
Context {V : Type}.

(** AnyMap (include/cantera/base/AnyMap.h:713, an unordered map) as a list of keys and values; hidden and
    excluded entries are left out. *)
Definition amap := list (string * V).
(** AnyMap::hasKey and operator[], src/base/AnyMap.cpp:1477-1481. *)
Definition get (k : string) (s : amap) : option V :=
  option_map snd (find (fun p => String.eqb (fst p) k) s).
(** AnyMap::erase, src/base/AnyMap.cpp:1483-1486. *)
Definition erase (k : string) (s : amap) : amap := filter (fun p => negb (String.eqb (fst p) k)) s.
(** Assignment to an element. *)
Definition put (k : string) (v : V) (s : amap) : amap := (k, v) :: erase k s.

(** An argument of a setter: a value of the map (after conversion of units, not modelled) or a number. *)
Inductive arg := Given (v : V) | Num (x : R).
(** What is called, in order. *)
Inductive act := SetX (v : V) | SetY (v : V) | SetCoverages (v : V) | SetMolalities (v : V)
  | Call (setter : string) (args : list arg).
(** The calls made, and whether the end is reached without the exception of the last branch. *)
Definition result := (list act * bool)%type.

(** ThermoPhase.cpp:149-187: the long name overrides; only the composition names are erased. *)
Definition remap (long short : string) (del : bool) (s : amap) : amap :=
  match get long s with
  | None => s
  | Some v => let s' := put short v s in if del then erase long s' else s'
  end.
Definition synonyms (s : amap) : amap :=
  let s := remap "mass-fractions" "Y" true s in
  let s := remap "mole-fractions" "X" true s in
  let s := remap "temperature" "T" false s in
  let s := remap "pressure" "P" false s in
  let s := remap "enthalpy" "H" false s in
  let s := remap "int-energy" "U" false s in
  let s := remap "internal-energy" "U" false s in
  let s := remap "specific-volume" "V" false s in
  let s := remap "entropy" "S" false s in
  let s := remap "density" "D" false s in
  remap "vapor-fraction" "Q" false s.

(** ThermoPhase.cpp:190-204. *)
Definition composition (s : amap) : list act * amap :=
  match get "X" s with
  | Some v => ([SetX v], erase "X" s)
  | None => match get "Y" s with
            | Some v => ([SetY v], erase "Y" s)
            | None => ([], s)
            end
  end.

(** ThermoPhase.cpp:213-241: the pairs in the order in which they are tried, with the setter called. *)
Definition pairs : list (string * string * string) :=
  [("T", "D", "TD"); ("T", "V", "TV"); ("H", "P", "HP"); ("U", "V", "UV"); ("S", "P", "SP"); ("S", "V", "SV");
   ("S", "T", "ST"); ("P", "V", "PV"); ("U", "P", "UP"); ("V", "H", "VH"); ("T", "H", "TH"); ("S", "H", "SH");
   ("D", "P", "DP"); ("P", "Q", "Psat"); ("T", "Q", "Tsat")].
Fixpoint first_pair (l : list (string * string * string)) (s : amap) : option act :=
  match l with
  | [] => None
  | (a, b, f) :: rest => match get a s, get b s with
                         | Some va, Some vb => Some (Call f [Given va; Given vb])
                         | _, _ => first_pair rest s
                         end
  end.
(** ThermoPhase.cpp:206-251. *)
Definition T_default : R := 29815 / 100.
Definition OneAtm : R := 101325.
Definition properties (s : amap) : option act :=
  match s with
  | [] => Some (Call "TP" [Num T_default; Num OneAtm])
  | _ =>
    match get "T" s, get "P" s with
    | Some t, Some p => match get "Q" s with
                        | Some q => Some (Call "TPQ" [Given t; Given p; Given q])
                        | None => Some (Call "TP" [Given t; Given p])
                        end
    | t, p => match first_pair pairs s with
              | Some a => Some a
              | None => match t with
                        | Some v => Some (Call "TP" [Given v; Num OneAtm])
                        | None => match p with
                                  | Some v => Some (Call "TP" [Num T_default; Given v])
                                  | None => None
                                  end
                        end
              end
    end
  end.
Definition set_state (s : amap) : result :=
  let '(c, s') := composition (synonyms s) in
  match properties s' with
  | Some a => (c ++ [a], true)%list
  | None => (c, false)
  end.

(** SurfPhase.cpp:286-295. *)
Definition surf_set_state (s : amap) : result :=
  let '(c, ok) := set_state s in
  (match get "coverages" s with Some v => [SetCoverages v] | None => [] end ++ c, ok)%list.
(** MolalityVPSSTP.cpp:252-267 (molalities that are neither a string nor a map are ignored; here they are). *)
Definition molality_set_state (s : amap) : result :=
  let '(c, ok) := set_state s in
  (match get "molalities" s with
   | Some v => [SetMolalities v]
   | None => match get "M" s with Some v => [SetMolalities v] | None => [] end
   end ++ c, ok)%list.

End State.
