(** Decimal literals and composition strings. *)
From Coq Require Import Reals ZArith Ascii List Bool.
From Verif Require Import Strings.Model.
Import ListNotations.
Open Scope R_scope.

(** ** Decimal floating point literals *)
Definition digit_chars : text := ["0"; "1"; "2"; "3"; "4"; "5"; "6"; "7"; "8"; "9"]%char.
Inductive digit : ascii -> Z -> Prop :=
| dig d c : nth_error digit_chars d = Some c -> digit c (Z.of_nat d).

(** [decimal s z]: the digits [s] denote the natural number [z] (the empty string denotes zero). *)
Inductive decimal : text -> Z -> Prop :=
| dec_nil : decimal [] 0
| dec_snoc s z c d : decimal s z -> digit c d -> decimal (s ++ [c]) (10 * z + d).

Inductive sign : text -> R -> Prop :=
| sg_none : sign [] 1 | sg_plus : sign ["+"%char] 1 | sg_minus : sign ["-"%char] (-1).
Inductive esign : text -> Z -> Prop :=
| es_none : esign [] 1 | es_plus : esign ["+"%char] 1 | es_minus : esign ["-"%char] (-1).

(** Digits with at most one point: [whole] before it and [frac] after it. *)
Inductive mantissa : text -> text -> text -> Prop :=
| ma_int whole z : decimal whole z -> mantissa whole whole []
| ma_frac whole frac z z' : decimal whole z -> decimal frac z' -> mantissa (whole ++ "."%char :: frac) whole frac.

(** Exponent: one of e, E, d, D, an optional sign and at least one digit. *)
Inductive exponent : text -> Z -> Prop :=
| ex_none : exponent [] 0
| ex_some c s sz ds z : In c ["e"; "E"; "d"; "D"]%char -> esign s sz -> decimal ds z -> ds <> [] ->
    exponent (c :: s ++ ds) (sz * z).

(** [number s v]: [s] is a decimal literal denoting [v]: at least one digit in the mantissa. *)
Inductive number : text -> R -> Prop :=
| num sg sv m whole frac z e ev : sign sg sv -> mantissa m whole frac -> decimal (whole ++ frac) z ->
    whole ++ frac <> [] -> exponent e ev ->
    number (sg ++ m ++ e) (sv * (IZR z * powerRZ 10 (ev - Z.of_nat (length frac)))).

(** The same, except that the mantissa may lack digits if the whole is more than a sign. *)
Inductive loose_number : text -> Prop :=
| lnum sg sv m whole frac e ev : sign sg sv -> mantissa m whole frac -> exponent e ev -> m ++ e <> [] ->
    loose_number (sg ++ m ++ e).

(** White space around the number is ignored. *)
Definition white (s : text) : Prop := Forall (fun c => In c (map ascii_of_nat [9; 10; 11; 12; 13; 32]%nat)) s.

(** ** Composition strings *)
(** Blanks are space, tab and newline; separators are those, comma and semicolon. *)
Definition blanks (s : text) : Prop := Forall (fun c => In c (map ascii_of_nat [9; 10; 32]%nat)) s.
Definition separators (s : text) : Prop := Forall (fun c => In c ("," :: ";" :: map ascii_of_nat [9; 10; 32]%nat)%char) s.
(** A name has no white space and no separator in it; it may contain colons only where [colons] allows. *)
Definition name_ok (colons : bool) (n : text) : Prop :=
  Forall (fun c => ~ In c ("," :: ";" :: map ascii_of_nat [9; 10; 11; 12; 13; 32]%nat)%char) n /\
  (colons = false -> ~ In ":"%char n).

Inductive composition_text (colons : bool) : list (text * R) -> text -> Prop :=
| ct_one n ws lit v ws' : name_ok colons n -> blanks ws -> number lit v -> blanks ws' ->
    composition_text colons [(n, v)] (n ++ ":"%char :: ws ++ lit ++ ws')
| ct_cons n ws lit v sep l t : name_ok colons n -> blanks ws -> number lit v -> separators sep -> sep <> [] ->
    composition_text colons l t ->
    composition_text colons ((n, v) :: l) (n ++ ":"%char :: ws ++ lit ++ sep ++ t).

(** The amount a list of pairs gives to a name. *)
Fixpoint assoc (l : list (text * R)) (n : text) : option R :=
  match l with
  | [] => None
  | (m, v) :: l' => if list_eq_dec ascii_dec m n then Some v else assoc l' n
  end.

(** The beginning of a composition string: pairs, each followed by separators. *)
Inductive composition_prefix (colons : bool) : list (text * R) -> text -> Prop :=
| cp_nil : composition_prefix colons [] []
| cp_cons n ws lit v sep l t : name_ok colons n -> blanks ws -> number lit v -> separators sep -> sep <> [] ->
    composition_prefix colons l t ->
    composition_prefix colons ((n, v) :: l) (n ++ ":"%char :: ws ++ lit ++ sep ++ t).
