(** Dimensional analysis and the grammar of unit strings. *)
From Coq Require Import Reals ZArith String Ascii List Bool.
From Verif Require Import Base.Outcome Strings.Model Strings.Spec Units.Model.
Import ListNotations.
Open Scope R_scope.

(** The dimensions of [u] are those of [v]. *)
Definition same_dims (u v : units) : Prop := forall b, dim u b = dim v b.

(** Product of powers: factor, and each (pseudo-)dimension. *)
Fixpoint prod_pow (l : list (units * R)) : R := match l with [] => 1 | (u, e) :: l' => Rpower (fac u) e * prod_pow l' end.
Fixpoint sum_dim (f : units -> R) (l : list (units * R)) : R := match l with [] => 0 | (u, e) :: l' => f u * e + sum_dim f l' end.

(** ** Unit strings *)
(** A symbol is a known unit's name, or (if it is not) a metric prefix followed by one. *)
Inductive unit_symbol : text -> units -> Prop :=
| us_known n u : known n = Some u -> unit_symbol n u
| us_prefixed c n k u : known (c :: n) = None -> prefix c = Some k -> known n = Some u ->
    unit_symbol (c :: n) (mkU (fac u * k) (dim u) (pdim u) (edim u)).

(** Names have no operator characters in them and no white space at their ends. *)
Definition uname (n : text) : Prop :=
  Forall (fun c => ~ In c ["*"; "/"; "^"]%char) n /\
  (forall c r, n = c :: r -> ~ white [c]) /\ (forall c r, n = r ++ [c] -> ~ white [c]).

(** unit or unit^exponent, with white space around each. *)
Inductive unit_group : text -> text -> R -> Prop :=
| ug_plain a n b : white a -> white b -> uname n -> unit_group (a ++ n ++ b) n 1
| ug_power a n b c lit d v : white a -> white b -> uname n -> white c -> number lit v -> white d ->
    unit_group (a ++ n ++ b ++ "^"%char :: c ++ lit ++ d) n v.

(** Groups joined by * and /; [neg]: the first is in the denominator.  The list has each name with its
    signed exponent. *)
Inductive operator : ascii -> bool -> Prop := op_mul : operator "*" false | op_div : operator "/" true.
Definition signed (neg : bool) (e : R) : R := if neg then - e else e.
Inductive unit_groups : bool -> text -> list (text * R) -> Prop :=
| gs_one neg g n e : unit_group g n e -> unit_groups neg g [(n, signed neg e)]
| gs_more neg g n e c neg' t l : unit_group g n e -> operator c neg' -> unit_groups neg' t l ->
    unit_groups neg (g ++ c :: t) ((n, signed neg e) :: l).

(** An optional decimal factor (without exponent) in front; what follows does not continue it. *)
Inductive factor_text : text -> R -> Prop :=
| fx_none : factor_text [] 1
| fx_some sg sv m whole frac z : sign sg sv -> mantissa m whole frac -> decimal (whole ++ frac) z -> whole ++ frac <> [] ->
    factor_text (sg ++ m) (sv * (IZR z * powerRZ 10 (- Z.of_nat (length frac)))).
Definition no_number_head (t : text) : Prop :=
  match t with [] => True | c :: _ => ~ In c ("+" :: "-" :: "." :: digit_chars)%char end.
Inductive unit_text : text -> R -> list (text * R) -> Prop :=
| ut f fv t l : factor_text f fv -> unit_groups false t l -> no_number_head t -> unit_text (f ++ t) fv l.

(** ** Unit systems *)
(** The factor a system uses for one of its six adjustable dimensions, and the reference unit. *)
Definition sys_factor (s : usys) (k : dimk) : option R :=
  match k with
  | KMass => Some (fM s) | KLength => Some (fL s) | KTime => Some (fT s)
  | KPressure => Some (fP s) | KEnergy => Some (fE s) | KQuantity => Some (fQ s)
  | _ => None
  end.
Definition reference (k : dimk) : option units :=
  match k with
  | KMass => Some uKg | KLength => Some uM | KTime => Some uS
  | KPressure => Some uPa | KEnergy => Some uJ | KQuantity => Some uKmol
  | _ => None
  end.
(** J/kmol represented by one unit of activation energy [u]. *)
Inductive act_energy : units -> R -> Prop :=
| ae_molar u : same_dims u uJkmol -> act_energy u (fac u)
| ae_kelvin u : same_dims u uK -> act_energy u (GasConstant * fac u)
| ae_molecule u : same_dims u uEV -> act_energy u (Avogadro * fac u).
(** No call of the history throws. *)
Definition runs (ops : list uop) (s : usys) : Prop := urun sys0 ops = (s, true).
(** Every unit string in the history that is a unit string has a positive factor. *)
Definition op_names (o : uop) : list text := match o with SetNames l => l | SetMap m => map snd m | SetAct n => [n] end.
Definition positive_names (ops : list uop) : Prop :=
  forall o n u, In o ops -> In n (op_names o) -> Units n = Ok u -> 0 < fac u.
(** The history sets an activation energy unit explicitly. *)
Definition sets_act (o : uop) : Prop :=
  match o with SetNames _ => False | SetMap m => In KActE (map fst m) | SetAct _ => True end.

(** ** Unit stacks: a history of joins and updates on a stack that starts with standard units [u0] *)
Inductive sop := Join (e : R) | Update (u : units) (e : R).
Fixpoint stack_run (s : ustack) (ops : list sop) : outcome ustack :=
  match ops with
  | [] => Ok s
  | Join e :: ops' => obind (join s e) (fun s' => stack_run s' ops')
  | Update u e :: ops' => stack_run (update s u e) ops'
  end.
Definition factors (u0 : units) (ops : list sop) : list (units * R) :=
  map (fun o => match o with Join e => (u0, e) | Update u e => (u, e) end) ops.

(** [o] makes [n] the default of [k]; [o] gives [k] some default. *)
Inductive assigns : uop -> dimk -> text -> Prop :=
| as_names l1 n l2 u k r : Units n = Ok u -> reference k = Some r -> same_dims u r ->
    (forall n' u', In n' l2 -> Units n' = Ok u' -> ~ same_dims u' r) -> assigns (SetNames (l1 ++ n :: l2)) k n
| as_map m k n : NoDup (map fst m) -> In (k, n) m -> reference k <> None \/ k = KActE -> assigns (SetMap m) k n
| as_act n : assigns (SetAct n) KActE n.
Definition touches (o : uop) (k : dimk) : Prop :=
  match o with
  | SetNames l => exists n u r, In n l /\ Units n = Ok u /\ reference k = Some r /\ same_dims u r
  | SetMap m => In k (map fst m)
  | SetAct _ => k = KActE
  end.
(** The pressure and energy units are those formed from the base units. *)
Definition coherent (s : usys) : Prop := fP s = fM s / (fL s * (fT s * fT s)) /\ fE s = fM s * (fL s * fL s) / (fT s * fT s).

(** The units of the documentation, with their values in SI (amounts in kmol) and their dimensions
    (mass, length, time, temperature, current, amount), and the metric prefixes. *)
Definition catalogue : list (string * R * (R * R * R * R * R * R)) :=
  [("kg", 1, (1, 0, 0, 0, 0, 0)); ("g", 0.001, (1, 0, 0, 0, 0, 0));
   ("m", 1, (0, 1, 0, 0, 0, 0)); ("micron", 0.000001, (0, 1, 0, 0, 0, 0)); ("angstrom", 0.0000000001, (0, 1, 0, 0, 0, 0));
   ("Å", 0.0000000001, (0, 1, 0, 0, 0, 0));
   ("s", 1, (0, 0, 1, 0, 0, 0)); ("min", 60, (0, 0, 1, 0, 0, 0)); ("hr", 60 * 60, (0, 0, 1, 0, 0, 0));
   ("K", 1, (0, 0, 0, 1, 0, 0)); ("C", 1, (0, 0, 0, 1, 0, 0)); ("A", 1, (0, 0, 0, 0, 1, 0));
   ("mol", 0.001, (0, 0, 0, 0, 0, 1)); ("gmol", 0.001, (0, 0, 0, 0, 0, 1)); ("mole", 0.001, (0, 0, 0, 0, 0, 1));
   ("kmol", 1, (0, 0, 0, 0, 0, 1)); ("kgmol", 1, (0, 0, 0, 0, 0, 1)); ("molec", / (6.02214076 * 10 ^ 26), (0, 0, 0, 0, 0, 1));
   ("J", 1, (1, 2, -2, 0, 0, 0)); ("cal", 4.184, (1, 2, -2, 0, 0, 0)); ("erg", 0.0000001, (1, 2, -2, 0, 0, 0));
   ("eV", 1.602176634 / 10 ^ 19, (1, 2, -2, 0, 0, 0));
   ("N", 1, (1, 1, -2, 0, 0, 0)); ("dyn", 0.00001, (1, 1, -2, 0, 0, 0));
   ("Pa", 1, (1, -1, -2, 0, 0, 0)); ("atm", 101325, (1, -1, -2, 0, 0, 0)); ("bar", 100000, (1, -1, -2, 0, 0, 0));
   ("dyn/cm^2", 0.1, (1, -1, -2, 0, 0, 0));
   ("m^3", 1, (0, 3, 0, 0, 0, 0)); ("liter", 0.001, (0, 3, 0, 0, 0, 0)); ("L", 0.001, (0, 3, 0, 0, 0, 0));
   ("l", 0.001, (0, 3, 0, 0, 0, 0)); ("cc", 0.000001, (0, 3, 0, 0, 0, 0));
   ("ohm", 1, (1, 2, -3, 0, -2, 0)); ("V", 1, (1, 2, -3, 0, -1, 0)); ("coulomb", 1, (0, 0, 1, 0, 1, 0));
   ("J/kmol", 1, (1, 2, -2, 0, 0, -1))]%string.
Definition metric_prefixes : list (ascii * R) :=
  [("Y", 10 ^ 24); ("Z", 10 ^ 21); ("E", 10 ^ 18); ("P", 10 ^ 15); ("T", 10 ^ 12); ("G", 10 ^ 9); ("M", 10 ^ 6); ("k", 10 ^ 3);
   ("h", 10 ^ 2); ("d", / 10); ("c", / 10 ^ 2); ("m", / 10 ^ 3); ("u", / 10 ^ 6); ("n", / 10 ^ 9); ("p", / 10 ^ 12);
   ("f", / 10 ^ 15); ("a", / 10 ^ 18); ("z", / 10 ^ 21); ("y", / 10 ^ 24)]%char.
