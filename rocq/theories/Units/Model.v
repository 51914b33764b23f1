(** Model of src/base/Units.cpp and include/cantera/base/Units.h: units, unit strings, unit stacks and unit
    systems.  Numbers are reals (no rounding). *)
From Coq Require Import Reals ZArith String Ascii List Bool Arith.
From Verif Require Import Base.Outcome Base.Fp Strings.Model.
Import ListNotations.
Open Scope R_scope.

Definition tx := list_ascii_of_string.

(** ct_defs.h:81-120. *)
Definition Avogadro : R := 6.02214076 * powerRZ 10 26.
Definition Boltzmann : R := 1.380649 * powerRZ 10 (-23).
Definition ElectronCharge : R := 1.602176634 * powerRZ 10 (-19).
Definition OneAtm : R := 101325.
Definition GasConstant : R := Avogadro * Boltzmann.
Definition SmallNumber : R := powerRZ 10 (-300).

(** std::pow.  For a base that is not positive only integer exponents are modelled; the remaining cases
    (NaN or infinite in C++) are given the placeholder 0, and no theorem relies on them. *)
Definition cpow (x y : R) : R :=
  if Rlt_dec 0 x then Rpower x y
  else if reqb y (IZR (Int_part y)) then powerRZ x (Int_part y) else 0.

(** Units, Units.h:30-90: factor, six dimensions and two pseudo-dimensions. *)
Inductive base := Mass | Length | Time | Temperature | Current | Quantity.
Definition bases : list base := [Mass; Length; Time; Temperature; Current; Quantity].
Record units := mkU { fac : R; dim : base -> R; pdim : R; edim : R }.

Definition dims6 (m l t k a q : R) : base -> R :=
  fun b => match b with Mass => m | Length => l | Time => t | Temperature => k | Current => a | Quantity => q end.

(** Units::Units(double...), Units.cpp:108-130. *)
Definition make (f : R) (d : base -> R) : units :=
  let m := d Mass in
  if negb (reqb m 0) && reqb (d Length) (- m) && reqb (d Time) (-2 * m) && reqb (d Temperature) 0 && reqb (d Current) 0 && reqb (d Quantity) 0
  then mkU f d m 0
  else if negb (reqb m 0) && reqb (d Length) (2 * m) && reqb (d Time) (-2 * m) && reqb (d Temperature) 0 && reqb (d Current) 0 && reqb (d Quantity) 0
  then mkU f d 0 m
  else mkU f d 0 0.
Definition num (f : R) : units := make f (dims6 0 0 0 0 0 0).

(** convertible, operator*=, pow, scale, operator==: Units.cpp:199-233, 287-298, Units.h:75. *)
Definition convertible (u v : units) : bool := forallb (fun b => reqb (dim u b) (dim v b)) bases.
Definition mul (u v : units) : units :=
  mkU (fac u * fac v) (fun b => dim u b + dim v b) (pdim u + pdim v) (edim u + edim v).
Definition upow (u : units) (e : R) : units := make (cpow (fac u) e) (fun b => dim u b * e).
Definition scale (k : R) (u : units) : units := mkU (fac u * k) (dim u) (pdim u) (edim u).
Definition ueqb (u v : units) : bool :=
  reqb (fac u) (fac v) && forallb (fun b => reqb (dim u b) (dim v b)) bases && reqb (pdim u) (pdim v) && reqb (edim u) (edim v).
(** dimension, Units.cpp:300-318 *)
Definition dimension (u : units) (primary : text) : outcome R :=
  if text_eqb primary (tx "mass") then Ok (dim u Mass)
  else if text_eqb primary (tx "length") then Ok (dim u Length)
  else if text_eqb primary (tx "time") then Ok (dim u Time)
  else if text_eqb primary (tx "temperature") then Ok (dim u Temperature)
  else if text_eqb primary (tx "current") then Ok (dim u Current)
  else if text_eqb primary (tx "quantity") then Ok (dim u Quantity)
  else Err.

(** knownUnits, Units.cpp:17-82. *)
Definition knownUnits : list (text * units) :=
  [(tx "", num 1); (tx "1", num 1);
   (tx "kg", make 1 (dims6 1 0 0 0 0 0)); (tx "g", make (1 / 1000) (dims6 1 0 0 0 0 0));
   (tx "m", make 1 (dims6 0 1 0 0 0 0)); (tx "micron", make (powerRZ 10 (-6)) (dims6 0 1 0 0 0 0));
   (tx "angstrom", make (powerRZ 10 (-10)) (dims6 0 1 0 0 0 0)); (tx "Å", make (powerRZ 10 (-10)) (dims6 0 1 0 0 0 0));
   (tx "s", make 1 (dims6 0 0 1 0 0 0)); (tx "min", make 60 (dims6 0 0 1 0 0 0)); (tx "hr", make 3600 (dims6 0 0 1 0 0 0));
   (tx "K", make 1 (dims6 0 0 0 1 0 0)); (tx "C", make 1 (dims6 0 0 0 1 0 0));
   (tx "A", make 1 (dims6 0 0 0 0 1 0));
   (tx "mol", make (1 / 1000) (dims6 0 0 0 0 0 1)); (tx "gmol", make (1 / 1000) (dims6 0 0 0 0 0 1));
   (tx "mole", make (1 / 1000) (dims6 0 0 0 0 0 1)); (tx "kmol", make 1 (dims6 0 0 0 0 0 1));
   (tx "kgmol", make 1 (dims6 0 0 0 0 0 1)); (tx "molec", make (1 / Avogadro) (dims6 0 0 0 0 0 1));
   (tx "J", make 1 (dims6 1 2 (-2) 0 0 0)); (tx "cal", make 4.184 (dims6 1 2 (-2) 0 0 0));
   (tx "erg", make (powerRZ 10 (-7)) (dims6 1 2 (-2) 0 0 0)); (tx "eV", make ElectronCharge (dims6 1 2 (-2) 0 0 0));
   (tx "N", make 1 (dims6 1 1 (-2) 0 0 0)); (tx "dyn", make (powerRZ 10 (-5)) (dims6 1 1 (-2) 0 0 0));
   (tx "Pa", make 1 (dims6 1 (-1) (-2) 0 0 0)); (tx "atm", make OneAtm (dims6 1 (-1) (-2) 0 0 0));
   (tx "bar", make 100000 (dims6 1 (-1) (-2) 0 0 0)); (tx "dyn/cm^2", make (1 / 10) (dims6 1 (-1) (-2) 0 0 0));
   (tx "m^3", make 1 (dims6 0 3 0 0 0 0)); (tx "liter", make (1 / 1000) (dims6 0 3 0 0 0 0));
   (tx "L", make (1 / 1000) (dims6 0 3 0 0 0 0)); (tx "l", make (1 / 1000) (dims6 0 3 0 0 0 0));
   (tx "cc", make (powerRZ 10 (-6)) (dims6 0 3 0 0 0 0));
   (tx "ohm", make 1 (dims6 1 2 (-3) 0 (-2) 0)); (tx "V", make 1 (dims6 1 2 (-3) 0 (-1) 0));
   (tx "coulomb", make 1 (dims6 0 0 1 0 1 0));
   (tx "J/kmol", make 1 (dims6 1 2 (-2) 0 0 (-1)))].
(** prefixes, Units.cpp:84-104. *)
Definition prefixes : list (ascii * Z) :=
  [("Y", 24); ("Z", 21); ("E", 18); ("P", 15); ("T", 12); ("G", 9); ("M", 6); ("k", 3); ("h", 2); ("d", -1); ("c", -2);
   ("m", -3); ("u", -6); ("n", -9); ("p", -12); ("f", -15); ("a", -18); ("z", -21); ("y", -24)]%char%Z.
Fixpoint lookup {A B} (eqb : A -> A -> bool) (k : A) (l : list (A * B)) : option B :=
  match l with [] => None | (a, b) :: l' => if eqb a k then Some b else lookup eqb k l' end.
Definition known (n : text) : option units := lookup text_eqb n knownUnits.
Definition prefix (c : ascii) : option R := option_map (powerRZ 10) (lookup Ascii.eqb c prefixes).

(** One unit name: known, or prefix and known; Units.cpp:170-186. *)
Definition unit_of (n : text) : outcome units :=
  match known n with
  | Some u => Ok u
  | None =>
      match n with
      | c :: suffix =>
          match prefix c, known suffix with
          | Some k, Some u => Ok (scale k u)
          | _, _ => Err
          end
      | [] => Exn      (* "".substr(1); not reached, "" is known *)
      end
  end.

(** The leading factor, Units.cpp:136-147: the regular expression (an
    optional sign, then digits with an optional point and optional digits after it, or a point and digits)
    is searched in the string; only a match at the beginning counts.
    (The leftmost match is at the beginning if there is one there; a later match whose text is also found at
    position 0 would itself have matched there.)  Returns the number of characters. *)
Fixpoint digits_len (s : text) : nat := match s with c :: s' => if isdigit c then S (digits_len s') else O | [] => O end.
Definition factor_len (s : text) : nat :=
  let sg := match s with c :: _ => if is_sign c then 1%nat else 0%nat | [] => 0%nat end in
  let s1 := skipn sg s in
  let n := digits_len s1 in
  if (0 <? n)%nat then
    match skipn n s1 with
    | c :: s2 => if Ascii.eqb c "." then (sg + n + 1 + digits_len s2)%nat else (sg + n)%nat
    | [] => (sg + n)%nat
    end
  else
    match s1 with
    | c :: s2 => if Ascii.eqb c "." && (0 <? digits_len s2)%nat then (sg + 1 + digits_len s2)%nat else 0%nat
    | [] => 0%nat
    end.

(** The loop over groups 'unit^exponent', Units.cpp:149-193. [None] is npos. *)
Definition is_op (c : ascii) : bool := Ascii.eqb c "*" || Ascii.eqb c "/".
Definition is_caret (c : ascii) : bool := Ascii.eqb c "^".
Definition pos_ltb (a b : option nat) : bool :=
  match a, b with Some i, Some j => (i <? j)%nat | Some _, None => true | None, _ => false end.
Definition pos_min (a b : option nat) : option nat := if pos_ltb b a then b else a.
Fixpoint unit_loop (fuel : nat) (name : text) (start : nat) (u : units) : outcome units :=
  match fuel with
  | O => UB
  | S fuel' =>
      let stop := find_from is_op name (Some start) in
      let caret0 := find_from is_caret name (Some start) in
      let caret := if pos_ltb stop caret0 then None else caret0 in
      obind (substr name (Some start) (pos_sub (pos_min caret stop) (Some start))) (fun raw =>
      let unit := trim raw in
      obind (match caret with
             | None => Ok 1
             | Some c => obind (substr name (Some (S c)) (pos_sub stop (Some (S c)))) fpValueCheck
             end) (fun e0 =>
      let e := if negb (start =? 0)%nat && match nth_error name (start - 1) with Some c => Ascii.eqb c "/" | None => false end
               then - e0 else e0 in
      obind (unit_of unit) (fun v =>
      let u' := mul u (upow v e) in
      match stop with
      | None => Ok u'
      | Some i => unit_loop fuel' name (S i) u'
      end)))
  end.
(** Units::Units(const string&, bool), Units.cpp:132-201. *)
Definition parse_units (name : text) (force_unity : bool) : outcome units :=
  let n := factor_len name in
  obind (if (0 <? n)%nat then fpValueCheck (firstn n name) else Ok 1) (fun f =>
  obind (unit_loop (S (length name)) name n (num f)) (fun u =>
  if force_unity && rltb SmallNumber (Rabs (fac u - 1)) then Err else Ok u)).
Definition Units (name : text) : outcome units := parse_units name false.

(** UnitStack, Units.cpp:320-387 and Units.h:96-160: a list of units with exponents. *)
Definition ustack := list (units * R).
Definition standardUnits (s : ustack) : units := match s with [] => num 0 | (u, _) :: _ => u end.
Definition setStandardUnits (s : ustack) (u : units) : outcome ustack :=
  match s with
  | [] => Ok [(u, 0)]
  | (_, e) :: s' => if reqb e 0 then Ok ((u, e) :: s') else Err
  end.
Definition join (s : ustack) (e : R) : outcome ustack :=
  match s with [] => Err | (u, e0) :: s' => Ok ((u, e0 + e) :: s') end.
Fixpoint update (s : ustack) (u : units) (e : R) : ustack :=
  match s with
  | [] => [(u, e)]
  | (v, e0) :: s' => if ueqb v u then (v, e0 + e) :: s' else (v, e0) :: update s' u e
  end.
Definition product (s : ustack) : units :=
  match s with
  | [] => num 0
  | _ => fold_left (fun out '(u, e) => if reqb e 1 then mul out u else mul out (upow u e)) s (num 1)
  end.

(** UnitSystem, Units.h:170-330.  The names of dimensions are an enumeration; [KOther] is any other string. *)
Inductive dimk := KMass | KLength | KTime | KQuantity | KPressure | KEnergy | KTemperature | KCurrent | KActE | KOther (s : text).
Record usys := mkS {
  fM : R; fL : R; fT : R; fP : R; fE : R; fA : R; fQ : R; expl : bool; defs : dimk -> option text }.
Definition dimk_eqb (a b : dimk) : bool :=
  match a, b with
  | KMass, KMass | KLength, KLength | KTime, KTime | KQuantity, KQuantity | KPressure, KPressure | KEnergy, KEnergy
  | KTemperature, KTemperature | KCurrent, KCurrent | KActE, KActE => true
  | KOther s, KOther t => text_eqb s t
  | _, _ => false
  end.
Definition dset (d : dimk -> option text) (k : dimk) (n : text) : dimk -> option text :=
  fun j => if dimk_eqb j k then Some n else d j.
Definition sys0 : usys := mkS 1 1 1 1 1 1 1 false (fun _ => None).

(** The known units the setters compare with. *)
Definition uKg := make 1 (dims6 1 0 0 0 0 0).
Definition uM := make 1 (dims6 0 1 0 0 0 0).
Definition uS := make 1 (dims6 0 0 1 0 0 0).
Definition uKmol := make 1 (dims6 0 0 0 0 0 1).
Definition uPa := make 1 (dims6 1 (-1) (-2) 0 0 0).
Definition uJ := make 1 (dims6 1 2 (-2) 0 0 0).
Definition uK := make 1 (dims6 0 0 0 1 0 0).
Definition uA := make 1 (dims6 0 0 0 0 1 0).
Definition uEV := make ElectronCharge (dims6 1 2 (-2) 0 0 0).
Definition uJkmol := make 1 (dims6 1 2 (-2) 0 0 (-1)).

Definition setM s f n := mkS f (fL s) (fT s) (fP s) (fE s) (fA s) (fQ s) (expl s) (dset (defs s) KMass n).
Definition setL s f n := mkS (fM s) f (fT s) (fP s) (fE s) (fA s) (fQ s) (expl s) (dset (defs s) KLength n).
Definition setT s f n := mkS (fM s) (fL s) f (fP s) (fE s) (fA s) (fQ s) (expl s) (dset (defs s) KTime n).
Definition setP s f n := mkS (fM s) (fL s) (fT s) f (fE s) (fA s) (fQ s) (expl s) (dset (defs s) KPressure n).
Definition setE s f n := mkS (fM s) (fL s) (fT s) (fP s) f (fA s) (fQ s) (expl s) (dset (defs s) KEnergy n).
Definition setQ s f n := mkS (fM s) (fL s) (fT s) (fP s) (fE s) (fA s) f (expl s) (dset (defs s) KQuantity n).
Definition setA s f := mkS (fM s) (fL s) (fT s) (fP s) (fE s) f (fQ s) (expl s) (defs s).

(** A call returns the state it leaves behind and whether it returned normally. *)
Definition derive_act (s : usys) : usys := if expl s then s else setA s (fE s / fQ s).

(** setDefaults(initializer_list), Units.cpp:428-473: one name. *)
Definition set_one (s : usys) (name : text) : usys * bool :=
  match Units name with
  | Ok u =>
      if convertible u uKg then (setM s (fac u) name, true)
      else if convertible u uM then (setL s (fac u) name, true)
      else if convertible u uS then (setT s (fac u) name, true)
      else if convertible u uKmol then (setQ s (fac u) name, true)
      else if convertible u uPa then (setP s (fac u) name, true)
      else if convertible u uJ then (setE s (fac u) name, true)
      else if convertible u uK then (s, reqb (fac u) 1)
      else if convertible u uA then (s, reqb (fac u) 1)
      else (s, false)
  | _ => (s, false)
  end.
Fixpoint set_names (s : usys) (names : list text) : usys * bool :=
  match names with
  | [] => (derive_act s, true)
  | n :: ns => let '(s', ok) := set_one s n in if ok then set_names s' ns else (s', false)
  end.

(** setDefaultActivationEnergy, Units.cpp:527-543: the default is recorded before the unit is checked. *)
Definition set_act (s : usys) (name : text) : usys * bool :=
  match Units name with
  | Ok u =>
      let s1 := mkS (fM s) (fL s) (fT s) (fP s) (fE s) (fA s) (fQ s) (expl s) (dset (defs s) KActE name) in
      let done f := mkS (fM s) (fL s) (fT s) (fP s) (fE s) f (fQ s) true (dset (defs s) KActE name) in
      if convertible u uJkmol then (done (fac u), true)
      else if convertible u uK then (done GasConstant, true)
      else if convertible u uEV then (done (fac u * Avogadro), true)
      else (s1, false)
  | _ => (s, false)
  end.

(** setDefaults(map), Units.cpp:475-525: entries in the map's order. *)
Definition set_entry (s : usys) (k : dimk) (name : text) : usys * bool :=
  match Units name with
  | Ok u =>
      match k with
      | KMass => if convertible u uKg then (setM s (fac u) name, true) else (s, false)
      | KLength => if convertible u uM then (setL s (fac u) name, true) else (s, false)
      | KTime => if convertible u uS then (setT s (fac u) name, true) else (s, false)
      | KTemperature => if convertible u uK then (s, reqb (fac u) 1) else (s, false)
      | KCurrent => if convertible u uA then (s, reqb (fac u) 1) else (s, false)
      | KQuantity => if convertible u uKmol then (setQ s (fac u) name, true) else (s, false)
      | KPressure => if convertible u uPa then (setP s (fac u) name, true) else (s, false)
      | KEnergy => if convertible u uJ then (setE s (fac u) name, true) else (s, false)
      | KActE => (s, true)
      | KOther _ => (s, false)
      end
  | _ => (s, false)
  end.
Fixpoint set_entries (s : usys) (m : list (dimk * text)) : usys * bool :=
  match m with
  | [] => (s, true)
  | (k, n) :: m' => let '(s', ok) := set_entry s k n in if ok then set_entries s' m' else (s', false)
  end.
Definition set_map (s : usys) (m : list (dimk * text)) : usys * bool :=
  let '(s', ok) := set_entries s m in
  if ok then match lookup dimk_eqb KActE m with
             | Some n => set_act s' n
             | None => (derive_act s', true)
             end
  else (s', false).

(** defaults(), Units.cpp:394-426 *)
Definition std_default (k : dimk) : option text :=
  match k with
  | KMass => Some (tx "kg") | KLength => Some (tx "m") | KTime => Some (tx "s") | KQuantity => Some (tx "kmol")
  | KPressure => Some (tx "Pa") | KEnergy => Some (tx "J") | KTemperature => Some (tx "K") | KCurrent => Some (tx "A")
  | KActE => Some (tx "J / kmol") | KOther _ => None
  end.
Definition defaults (s : usys) (k : dimk) : option text :=
  let m k := match defs s k with Some n => Some n | None => std_default k end in
  match k, defs s KActE, m KEnergy, m KQuantity with
  | KActE, None, Some e, Some q => Some (e ++ tx " / " ++ q)
  | _, _, _, _ => m k
  end.

(** convert, convertTo, convertFrom, Units.cpp:545-591 *)
Definition convert (v : R) (src dest : units) : outcome R :=
  if convertible src dest then Ok (v * fac src / fac dest) else Err.
Definition convertTo (s : usys) (v : R) (d : units) : R :=
  v / fac d
  * cpow (fM s) (dim d Mass - pdim d - edim d)
  * cpow (fL s) (dim d Length + pdim d - 2 * edim d)
  * cpow (fT s) (dim d Time + 2 * pdim d + 2 * edim d)
  * cpow (fQ s) (dim d Quantity) * cpow (fP s) (pdim d) * cpow (fE s) (edim d).
Definition convertFrom (s : usys) (v : R) (u : units) : R :=
  v * fac u
  * cpow (fM s) (- dim u Mass + pdim u + edim u)
  * cpow (fL s) (- dim u Length - pdim u + 2 * edim u)
  * cpow (fT s) (- dim u Time - 2 * pdim u - 2 * edim u)
  * cpow (fQ s) (- dim u Quantity) * cpow (fP s) (- pdim u) * cpow (fE s) (- edim u).

(** AnyValue restricted to numbers and strings; split_unit and convert(AnyValue), Units.cpp:593-633. *)
Inductive anyv := ANum (v : R) | AStr (s : text).
Definition is_space_char (c : ascii) : bool := Ascii.eqb c " ".
Definition split_unit (v : anyv) : outcome (R * text) :=
  match v with
  | ANum x => Ok (x, [])
  | AStr s => match find_idx is_space_char s with
              | None => Err
              | Some i => obind (fpValueCheck (firstn i s)) (fun x => Ok (x, skipn (S i) s))
              end
  end.
Definition convert_any (s : usys) (v : anyv) (dest : units) : outcome R :=
  obind (split_unit v) (fun '(x, un) =>
  match un with
  | [] => Ok (convertTo s x dest)
  | _ => obind (Units un) (fun u => convert x u dest)
  end).
(** convertRateCoeff, Units.cpp:635-662 *)
Definition convertRateCoeff (s : usys) (v : anyv) (dest : units) : outcome R :=
  if negb (reqb (fac dest) 0) then convert_any s v dest
  else
    obind (split_unit v) (fun '(x, un) =>
    match un with
    | [] => if reqb (fL s) 1 && reqb (fQ s) 1 then Ok x else Err
    | _ => obind (Units un) (fun u => if rltb (Rabs (fac u - 1)) (powerRZ 10 (-14)) then Ok x else Err)
    end).

(** Activation energies, Units.cpp:680-757. *)
Definition act_to (v : R) (u : units) : outcome R :=
  if convertible u uJkmol then Ok (v * fac u)
  else if convertible u uK then Ok (v * (GasConstant * fac u))
  else if convertible u uEV then Ok (v * (Avogadro * fac u))
  else Err.
Definition act_from (v : R) (u : units) : outcome R :=
  if convertible u uJkmol then Ok (v / fac u)
  else if convertible u uK then Ok (v / (GasConstant * fac u))
  else if convertible u uEV then Ok (v / (Avogadro * fac u))
  else Err.
Definition convertActivationEnergy (v : R) (src dest : text) : outcome R :=
  obind (Units src) (fun us => obind (act_to v us) (fun w => obind (Units dest) (fun ud => act_from w ud))).
Definition convertActivationEnergyTo (s : usys) (v : R) (dest : units) : outcome R :=
  if convertible dest uJkmol then Ok (v * fA s / fac dest)
  else if convertible dest uK then Ok (v * fA s / GasConstant)
  else if convertible dest uEV then Ok (v * fA s / (Avogadro * fac dest))
  else Err.
Definition convertActivationEnergyFrom (s : usys) (v : R) (src : units) : outcome R :=
  if convertible src uJkmol then Ok (v * fac src / fA s)
  else if convertible src uK then Ok (v * GasConstant / fA s)
  else if convertible src uEV then Ok (v * Avogadro * fac src / fA s)
  else Err.

(** getDelta, Units.cpp:776-809: the entries of the resulting map. *)
Definition def_or (s : usys) (k : dimk) (d : string) : text := match defs s k with Some n => n | None => tx d end.
Definition getDelta (s other : usys) : list (dimk * text) :=
  (if negb (reqb (fM s) (fM other)) then [(KMass, def_or s KMass "kg")] else []) ++
  (if negb (reqb (fL s) (fL other)) then [(KLength, def_or s KLength "m")] else []) ++
  (if negb (reqb (fT s) (fT other)) then [(KTime, def_or s KTime "s")] else []) ++
  (if negb (reqb (fP s) (fP other)) then [(KPressure, def_or s KPressure "Pa")] else []) ++
  (if negb (reqb (fE s) (fE other)) then [(KEnergy, def_or s KEnergy "J")] else []) ++
  (if negb (reqb (fQ s) (fQ other)) then [(KQuantity, def_or s KQuantity "kmol")] else []) ++
  (if expl s || (expl other && negb (reqb (fA s) (fE s / fQ s))) then [(KActE, def_or s KActE "J/kmol")] else []).

(** A history of calls on one unit system; a call that throws leaves the state it had reached. *)
Inductive uop := SetNames (names : list text) | SetMap (m : list (dimk * text)) | SetAct (name : text).
Definition ustep (s : usys) (o : uop) : usys * bool :=
  match o with SetNames ns => set_names s ns | SetMap m => set_map s m | SetAct n => set_act s n end.
Fixpoint urun (s : usys) (ops : list uop) : usys * bool :=
  match ops with
  | [] => (s, true)
  | o :: ops' => let '(s', ok) := ustep s o in if ok then urun s' ops' else let '(s'', _) := urun s' ops' in (s'', false)
  end.
