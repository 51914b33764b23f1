(** Model of Kinetics::checkDuplicates and Kinetics::checkDuplicateStoich
    (src/kinetics/Kinetics.cpp:106-278), and of what its side effects reach
    (src/kinetics/BulkKinetics.cpp:73-91, src/kinetics/KineticsFactory.cpp:213-217).

    Simplified: doubles are exact reals; species are looked up by their exact name (no
    case-insensitive fallback, C05); the sums of k*(k+1) are exact integers (in C++ an int product
    added to an unsigned long).  The order in which a std::unordered_set is walked is an arbitrary
    function of the set ([walk] below). *)
From Coq Require Import Reals ZArith String List Bool Arith.
From Verif Require Import Base.Fp Base.Outcome.
Import ListNotations.
Local Open Scope R_scope.

(** ThirdBody, include/cantera/kinetics/Reaction.h:225-290: name, efficiencies, default_efficiency. *)
Record tbody := TB { tb_name : string; tb_eff : list (string * R); tb_def : R }.
(** The parts of a Reaction that are looked at.  [d_type] is Reaction::type() (Reaction.cpp:531-548),
    [d_rtype] the type of its rate, [d_eq] its equation(). *)
Record rxn := RXN {
  d_react : list (string * R); d_prod : list (string * R);
  d_dup : bool; d_rev : bool; d_type : string; d_rtype : string;
  d_tb : option tbody; d_eq : string }.

(** ThirdBody::efficiency, Reaction.cpp:819-822; getValue, utilities.h. *)
Fixpoint lookup (l : list (string * R)) (k : string) (d : R) : R :=
  match l with
  | [] => d
  | (n, v) :: l => if String.eqb n k then v else lookup l k d
  end.
Definition efficiency (t : tbody) (k : string) : R := lookup (tb_eff t) k (tb_def t).
(** efficiencies[n] = v, as used at 180 and 182. *)
Fixpoint put_eff (l : list (string * R)) (k : string) (v : R) : list (string * R) :=
  match l with
  | [] => [(k, v)]
  | (n, w) :: l => if String.eqb n k then (n, v) :: l else (n, w) :: put_eff l k v
  end.
Definition set_eff (t : tbody) (k : string) (v : R) : tbody := TB (tb_name t) (put_eff (tb_eff t) k v) (tb_def t).
Definition set_dup (r : rxn) : rxn :=
  RXN (d_react r) (d_prod r) true (d_rev r) (d_type r) (d_rtype r) (d_tb r) (d_eq r).
Definition set_tb (r : rxn) (t : tbody) : rxn :=
  RXN (d_react r) (d_prod r) (d_dup r) (d_rev r) (d_type r) (d_rtype r) (Some t) (d_eq r).

(** kineticsSpeciesIndex, Kinetics.cpp:290-300, cast to int: npos becomes -1. *)
Fixpoint position (s : string) (l : list string) : option nat :=
  match l with
  | [] => None
  | x :: l => if String.eqb x s then Some 0%nat else option_map S (position s l)
  end.
Definition idx (names : list string) (s : string) : Z :=
  match position s names with Some k => Z.of_nat k | None => (-1)%Z end.

(** map<int, double> as its keys and its values, 0 where there is no key. *)
Record nmap := NM { dom : list Z; at_ : Z -> R }.
Definition memz (k : Z) (l : list Z) : bool := existsb (Z.eqb k) l.
(** operator[] creates the entry it does not find. *)
Definition touch (r : nmap) (k : Z) : nmap := if memz k (dom r) then r else NM (k :: dom r) (at_ r).
Definition add_at (r : nmap) (k : Z) (v : R) : nmap :=
  let r := touch r k in NM (dom r) (fun z => if Z.eqb z k then at_ r k + v else at_ r z).
(** begin()->first: the smallest key. *)
Definition first_key (r : nmap) : option Z :=
  match dom r with [] => None | k :: l => Some (fold_left Z.min l k) end.

(** 121-134: the key of a reaction and its stoichiometry, reactants under -1-k, products under 1+k. *)
Definition weight (names : list string) (e : string * R) : Z := let k := idx names (fst e) in (k * (k + 1))%Z.
Definition key (names : list string) (r : rxn) : Z :=
  fold_left Z.add (map (weight names) (d_react r ++ d_prod r)) 0%Z.
Definition net (names : list string) (r : rxn) : nmap :=
  let n := fold_left (fun m e => add_at m (-1 - idx names (fst e))%Z (- snd e)) (d_react r) (NM [] (fun _ => 0)) in
  fold_left (fun m e => add_at m (1 + idx names (fst e))%Z (snd e)) (d_prod r) n.

(** checkDuplicateStoich, 238-278.  The loops stop at the first difference; each pass looks up (and so
    creates) both entries. *)
Definition nz (x : R) : bool := negb (reqb x 0).
Definition differ (a b ratio : R) : bool :=
  (nz a && negb (nz b)) || (negb (nz a) && nz b) || (nz a && rltb (/ 10 ^ 8) (Rabs (b / a - ratio))).
Fixpoint compare (sg : Z) (ratio : R) (ks : list Z) (r1 r2 : nmap) : bool * (nmap * nmap) :=
  match ks with
  | [] => (false, (r1, r2))
  | k :: ks =>
      let r1 := touch r1 k in
      let r2 := touch r2 (sg * k) in
      if differ (at_ r1 k) (at_ r2 (sg * k)%Z) ratio then (true, (r1, r2))
      else compare sg ratio ks r1 r2
  end.
Definition union (a b : list Z) : list Z := nodup Z.eq_dec (a ++ b).
Definition stoich_ratio (walk : list Z -> list Z) (r1 r2 : nmap) : outcome (R * (nmap * nmap)) :=
  match first_key r1 with
  | None => UB
  | Some k1 =>
      let keys := walk (union (dom r1) (dom r2)) in
      if reqb (at_ r1 k1) 0 then Ok (0, (r1, r2))
      else
        let r2 := touch r2 k1 in
        let '(same, (r1, r2)) :=
          if nz (at_ r2 k1)
          then let (d, rs) := compare 1 (at_ r2 k1 / at_ r1 k1) keys r1 r2 in (negb d, rs)
          else (false, (r1, r2)) in
        if same then Ok (at_ r2 k1 / at_ r1 k1, (r1, r2))
        else
          let r2 := touch r2 (- k1) in
          if reqb (at_ r2 (- k1)%Z) 0 then Ok (0, (r1, r2))
          else
            let ratio := at_ r2 (- k1)%Z / at_ r1 k1 in
            let (d, rs) := compare (-1) ratio keys r1 r2 in
            Ok (if d then 0 else ratio, rs)
  end.

(** m_explicit_third_body_duplicates, 92-104. *)
Inductive handling := Warn | Error | MarkDuplicate | ModifyEfficiency.

(** What the loops work on: the reactions (the check is a const method, but reactions are shared),
    net_stoich, unmatched_duplicates, errs and the warnings given. *)
Record dst := DST {
  c_rx : list rxn; c_net : list nmap; c_unm : list nat;
  c_errs : list (nat * nat); c_warn : list (nat * nat) }.
Inductive flow := Go (s : dst) | Found (i m : nat) (s : dst) | Undefined.

Fixpoint put {A} (l : list A) (i : nat) (v : A) : list A :=
  match l, i with
  | [], _ => []
  | _ :: t, O => v :: t
  | h :: t, S i => h :: put t i v
  end.
Definition erase (i : nat) (l : list nat) : list nat := filter (fun k => negb (k =? i)%nat) l.

(** 160-168: some species of the phases has a nonzero efficiency in both. *)
Definition overlap (names : list string) (a b : tbody) : bool :=
  existsb (fun s => nz (efficiency a s * efficiency b s)) names.

Section Check.
Context (names : list string) (walk : list Z -> list Z) (h : handling) (throw_err : bool).

(** 201-209. *)
Definition report (i m : nat) (s : dst) : flow :=
  if throw_err then Go (DST (c_rx s) (c_net s) (c_unm s) (c_errs s ++ [(i, m)]) (c_warn s)) else Found i m s.
(** 155-209, after the tests for stoichiometry and direction. *)
Definition third_bodies (i m : nat) (r o : rxn) (s : dst) : flow :=
  match d_tb r, d_tb o with
  | Some t1, Some t2 =>
      if negb (overlap names t1 t2) then Go s
      else if negb (Bool.eqb (String.eqb (tb_name t1) "M") (String.eqb (tb_name t2) "M")) then
        match h with
        | MarkDuplicate =>
            Go (DST (put (put (c_rx s) i (set_dup r)) m (set_dup o)) (c_net s) (c_unm s) (c_errs s) (c_warn s))
        | ModifyEfficiency =>
            Go (DST (if String.eqb (tb_name t1) "M" then put (c_rx s) i (set_tb r (set_eff t1 (tb_name t2) 0))
                     else put (c_rx s) m (set_tb o (set_eff t2 (tb_name t1) 0)))
                  (c_net s) (c_unm s) (c_errs s) (c_warn s))
        | Warn => Go (DST (c_rx s) (c_net s) (c_unm s) (c_errs s) (c_warn s ++ [(i, m)]))
        | Error => report i m s
        end
      else report i m s
  | _, _ => report i m s
  end.
(** 138-209: one pass of the inner loop. *)
Definition pair_step (i m : nat) (s : dst) : flow :=
  match nth_error (c_rx s) i, nth_error (c_rx s) m, nth_error (c_net s) i, nth_error (c_net s) m with
  | Some r, Some o, Some n1, Some n2 =>
      if d_dup r && d_dup o
      then Go (DST (c_rx s) (c_net s) (erase m (erase i (c_unm s))) (c_errs s) (c_warn s))
      else if negb (String.eqb (d_type r) (d_type o)) then Go s
      else if negb (String.eqb (d_rtype r) (d_rtype o)) then Go s
      else
        match stoich_ratio walk n1 n2 with
        | Ok (c, (n1, n2)) =>
            let s := DST (c_rx s) (put (put (c_net s) i n1) m n2) (c_unm s) (c_errs s) (c_warn s) in
            if reqb c 0 then Go s
            else if rltb c 0 && negb (d_rev r) && negb (d_rev o) then Go s
            else third_bodies i m r o s
        | _ => Undefined
        end
  | _, _, _, _ => Undefined
  end.
Fixpoint related_loop (i : nat) (related : list nat) (s : dst) : flow :=
  match related with
  | [] => Go s
  | m :: l => match pair_step i m s with Go s => related_loop i l s | f => f end
  end.
(** 118-212: the outer loop; [parts] is the map of participants. *)
Fixpoint main_loop (n i : nat) (parts : Z -> list nat) (s : dst) : flow :=
  match n with
  | O => Go s
  | S n =>
      match nth_error (c_rx s) i with
      | None => Undefined
      | Some r =>
          let k := key names r in
          match related_loop i (parts k) (DST (c_rx s) (c_net s ++ [net names r]) (c_unm s) (c_errs s) (c_warn s)) with
          | Go s => main_loop n (S i) (fun z => if Z.eqb z k then parts k ++ [i] else parts z) s
          | f => f
          end
      end
  end.
(** 106-236: the answer, the reactions afterwards and the warnings given.  [pick] is the element at the front of the unordered set of unmatched duplicates. *)
Inductive problem := Undeclared (i m : nat) | Unmatched (i : nat).
Inductive answer := Nothing | Pair (i m : nat) | Throws (l : list problem).
Definition declared (rs : list rxn) : list nat :=
  filter (fun i => match nth_error rs i with Some r => d_dup r | None => false end) (seq 0 (List.length rs)).
Definition checkDuplicates (pick : list nat -> nat) (rs : list rxn) : outcome answer * (list rxn * list (nat * nat)) :=
  match main_loop (List.length rs) 0 (fun _ => []) (DST rs [] (declared rs) [] []) with
  | Undefined => (UB, (rs, []))
  | Found i m s => (Ok (Pair i m), (c_rx s, c_warn s))
  | Go s =>
      let errs := map (fun p => Undeclared (fst p) (snd p)) (c_errs s) in
      (match c_unm s with
       | [] => Ok (match errs with [] => Nothing | _ => Throws errs end)
       | l => if throw_err then Ok (Throws (errs ++ [Unmatched (pick l)]))
              else Ok (Pair (pick l) (pick l))
       end, (c_rx s, c_warn s))
  end.
End Check.

(** The numbered equations in the messages, 202-206 and 216-219: [R] is reaction i, [other] m. *)
Definition message (rs : list rxn) (p : problem) : list (nat * string) :=
  let eq i := match nth_error rs i with Some r => d_eq r | None => EmptyString end in
  match p with
  | Undeclared i m => [((m + 1)%nat, eq i); ((i + 1)%nat, eq m)]
  | Unmatched i => [(i, eq i)]
  end.

(** BulkKinetics::addThirdBody, BulkKinetics.cpp:73-91, and ThirdBodyCalc::install and update
    (ThirdBodyCalc.h:23-44, 75-84): the efficiencies are copied when the reaction is added; [conc] are
    the species' concentrations.  (Undeclared colliders are left out; they are refused or skipped.) *)
Definition installed (names : list string) (t : tbody) : list (nat * R) * R :=
  (flat_map (fun e => match position (fst e) names with Some k => [(k, snd e - tb_def t)] | None => [] end) (tb_eff t),
   tb_def t).
Definition concm (c : list (nat * R) * R) (conc : nat -> R) (ctot : R) : R :=
  fold_left Rplus (map (fun e => snd e * conc (fst e)) (fst c)) (snd c * ctot).
(** addReactions, KineticsFactory.cpp: every reaction is added (its third body installed), then the
    duplicates are checked. *)
Definition addReactions (names : list string) (walk : list Z -> list Z) (h : handling) (pick : list nat -> nat)
    (rs : list rxn) : outcome answer * (list rxn * list (option (list (nat * R) * R))) :=
  let '(o, (rs', _)) := checkDuplicates names walk h true pick rs in
  (o, (rs', map (fun r => option_map (installed names) (d_tb r)) rs)).
