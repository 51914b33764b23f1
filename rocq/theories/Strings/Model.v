(** Model of src/base/stringUtils.cpp: fpValue, fpValueCheck, parseCompString, and of the std::string and
    boost functions they use.  A string is a list of characters; [None] is npos.  Numbers are reals:
    rounding, overflow and underflow of the conversion are not modelled. *)
From Coq Require Import Reals ZArith Ascii List Bool Arith.
From Verif Require Import Base.Outcome.
Import ListNotations.
Open Scope R_scope.

Notation text := (list ascii).

(** isspace, isdigit in the C locale. *)
Definition isspace (c : ascii) : bool :=
  let n := nat_of_ascii c in (n =? 32)%nat || ((9 <=? n)%nat && (n <=? 13)%nat).
Definition isdigit (c : ascii) : bool :=
  let n := nat_of_ascii c in (48 <=? n)%nat && (n <=? 57)%nat.
Definition digit_val (c : ascii) : Z := Z.of_nat (nat_of_ascii c - 48).

(** boost::algorithm::trim_copy (is_space in the default locale). *)
Fixpoint trim_left (s : text) : text :=
  match s with [] => [] | c :: s' => if isspace c then trim_left s' else s end.
Definition trim (s : text) : text := rev (trim_left (rev (trim_left s))).

(** Reading digits: the accumulated value, how many were read, the rest. *)
Fixpoint scan_digits (s : text) (acc : Z) (n : nat) : Z * nat * text :=
  match s with
  | c :: s' => if isdigit c then scan_digits s' (acc * 10 + digit_val c)%Z (S n) else (acc, n, s)
  | [] => (acc, n, [])
  end.
Definition is_sign (c : ascii) : bool := Ascii.eqb c "+" || Ascii.eqb c "-".
Definition scan_sign (s : text) : bool * text :=
  match s with c :: s' => if is_sign c then (Ascii.eqb c "-", s') else (false, s) | [] => (false, []) end.

(** fpValue, stringUtils.cpp:121-128: [ss >> rval] in the C locale extracts the longest prefix that looks
    like a number and converts it; without a digit in the mantissa the extraction fails and stores 0. *)
Definition is_exp (c : ascii) : bool := Ascii.eqb c "e" || Ascii.eqb c "E".
Definition fpValue (s : text) : R :=
  let '(neg, s1) := scan_sign s in
  let '(m1, n1, s2) := scan_digits s1 0%Z 0 in
  let '(m2, n2, s3) := match s2 with
                       | c :: s2' => if Ascii.eqb c "." then scan_digits s2' m1 0 else (m1, 0%nat, s2)
                       | [] => (m1, 0%nat, [])
                       end in
  if ((n1 =? 0) && (n2 =? 0))%nat then 0
  else
    let e := match s3 with
             | c :: s3' => if is_exp c then
                             let '(eneg, s4) := scan_sign s3' in
                             let '(ev, _, _) := scan_digits s4 0%Z 0 in
                             if eneg then (- ev)%Z else ev
                           else 0%Z
             | [] => 0%Z
             end in
    (if neg then -1 else 1) * IZR m2 * powerRZ 10 (e - Z.of_nat n2).

(** fpValueCheck, stringUtils.cpp:130-184. The loop, on the rest of the string; returns the string with
    exponent characters replaced by 'E'. *)
Definition is_expd (c : ascii) : bool :=
  Ascii.eqb c "e" || Ascii.eqb c "E" || Ascii.eqb c "d" || Ascii.eqb c "D".
Fixpoint fp_loop (s : text) (numDot numExp : nat) : outcome text :=
  match s with
  | [] => Ok []
  | ch :: s' =>
      if isdigit ch then omap (cons ch) (fp_loop s' numDot numExp)
      else if Ascii.eqb ch "." then
        if (1 <? S numDot)%nat then Err
        else if (0 <? numExp)%nat then Err
        else omap (cons ch) (fp_loop s' (S numDot) numExp)
      else if is_expd ch then
        if (1 <? S numExp)%nat then Err
        else match s' with
             | [] => Err
             | c2 :: s'' =>
                 if is_sign c2 then
                   match s'' with
                   | [] => Err
                   | _ => omap (fun r => "E"%char :: c2 :: r) (fp_loop s'' numDot (S numExp))
                   end
                 else omap (cons "E"%char) (fp_loop s' numDot (S numExp))
             end
      else Err
  end.
Definition fpValueCheck (val : text) : outcome R :=
  let str := trim val in
  match str with
  | [] => Err
  | ch :: rest =>
      let checked :=
        if is_sign ch
        then match rest with [] => Err | _ => omap (cons ch) (fp_loop rest 0 0) end
        else fp_loop str 0 0 in
      omap fpValue checked
  end.

(** std::string::find / find_first_of / find_first_not_of from a position, for a set of characters. *)
Fixpoint find_idx (p : ascii -> bool) (s : text) : option nat :=
  match s with [] => None | c :: s' => if p c then Some 0%nat else option_map S (find_idx p s') end.
Definition find_from (p : ascii -> bool) (s : text) (pos : option nat) : option nat :=
  match pos with None => None | Some i => option_map (Nat.add i) (find_idx p (skipn i s)) end.
(** Differences of size_t: npos minus anything, or a wrapped difference, exceeds the length. *)
Definition pos_sub (b a : option nat) : option nat :=
  match b, a with
  | Some j, Some i => if (j <? i)%nat then None else Some (j - i)%nat
  | _, _ => None
  end.
(** npos + 1 = 0. *)
Definition pos_succ (a : option nat) : option nat := match a with Some i => Some (S i) | None => Some 0%nat end.
(** std::string::substr: throws std::out_of_range if the position exceeds the size. *)
Definition substr (s : text) (pos len : option nat) : outcome text :=
  match pos with
  | None => Exn
  | Some i => if (length s <? i)%nat then Exn
              else Ok (match len with None => skipn i s | Some n => firstn n (skipn i s) end)
  end.
Definition pos_lt_size (a : option nat) (s : text) : bool :=
  match a with Some i => (i <? length s)%nat | None => false end.
Definition pos_eqb (a b : option nat) : bool :=
  match a, b with Some i, Some j => (i =? j)%nat | None, None => true | _, _ => false end.

Definition is_colon (c : ascii) : bool := Ascii.eqb c ":".
Definition blank (c : ascii) : bool := let n := nat_of_ascii c in (n =? 32)%nat || (n =? 9)%nat || (n =? 10)%nat.  (* " \t\n" *)
Definition delim (c : ascii) : bool := blank c || Ascii.eqb c "," || Ascii.eqb c ";".                (* ", ;\n\t" *)

(** Composition = map<string, double>. *)
Definition text_eqb (a b : text) : bool := if list_eq_dec ascii_dec a b then true else false.
Definition comp := text -> option R.
Definition comp_set (x : comp) (n : text) (v : R) : comp := fun m => if text_eqb m n then Some v else x m.

(** parseCompString, stringUtils.cpp:59-119: one iteration of the loop at a time. *)
Inductive iter := IBreak | INext (start stop left : option nat) (x : comp) | IStop (o : outcome comp).
Definition is_some {A} (o : option A) : bool := match o with Some _ => true | None => false end.

Definition parse_iter (ss : text) (named : bool) (start left : option nat) (x : comp) : iter :=
  match find_from is_colon ss left with
  | None => IBreak
  | Some colon =>
      let valstart := find_from (fun c => negb (blank c)) ss (Some (S colon)) in
      let stop := find_from delim ss valstart in
      match substr ss start (pos_sub (Some colon) start) with
      | Ok rawname =>
          let name := trim rawname in
          if named && negb (is_some (x name)) then IStop Err
          else
            match obind (substr ss valstart (pos_sub stop valstart)) fpValueCheck with
            | Ok value =>
                match x name with
                | Some old => if Req_EM_T old 0
                              then let start' := find_from (fun c => negb (delim c)) ss (pos_succ stop) in
                                   INext start' stop start' (comp_set x name value)
                              else IStop Err
                | None => let start' := find_from (fun c => negb (delim c)) ss (pos_succ stop) in
                          INext start' stop start' (comp_set x name value)
                end
            | Err =>
                match substr ss start (pos_sub stop start) with
                | Ok testname =>
                    if is_some (find_idx blank testname) then IStop Err
                    else match substr ss valstart (pos_sub stop valstart) with
                         | Ok v => if is_some (find_idx is_colon v)
                                   then INext start (Some 0%nat) (Some (S colon)) x
                                   else IStop Err
                         | _ => IStop Exn
                         end
                | _ => IStop Exn
                end
            | _ => IStop Exn
            end
      | _ => IStop Exn
      end
  end.

(** The loop and the checks after it.  [fuel] bounds the number of iterations; running out of it is
    reported as UB (and proved not to happen). *)
Definition parse_end (ss : text) (start stop left : option nat) (x : comp) : outcome comp :=
  if negb (pos_eqb left start) then Err
  else match stop with
       | None => Ok x
       | Some _ => match substr ss stop None with
                   | Ok t => match trim t with [] => Ok x | _ => Err end
                   | _ => Exn
                   end
       end.
Fixpoint parse_loop (fuel : nat) (ss : text) (named : bool) (start stop left : option nat) (x : comp) : outcome comp :=
  if pos_lt_size stop ss then
    match fuel with
    | O => UB
    | S fuel' =>
        match parse_iter ss named start left x with
        | IBreak => parse_end ss start stop left x
        | INext a b c x' => parse_loop fuel' ss named a b c x'
        | IStop o => o
        end
    end
  else parse_end ss start stop left x.
Definition parseCompString (ss : text) (names : list text) : outcome comp :=
  let x := fold_left (fun x n => comp_set x n 0) names (fun _ => None) in
  parse_loop (S (length ss)) ss (match names with [] => false | _ => true end) (Some 0%nat) (Some 0%nat) (Some 0%nat) x.
