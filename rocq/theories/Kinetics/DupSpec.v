(** What "undeclared duplicate reactions" are, independently of how Kinetics/DupModel.v looks for them
    (only the data types are used). *)
From Coq Require Import Reals ZArith String List Bool Arith.
From Verif Require Import Base.RSum Kinetics.DupModel.
Import ListNotations.
Local Open Scope R_scope.

(** The coefficient of a species on one side of an equation. *)
Definition amount (l : list (string * R)) (s : string) : R :=
  rsum (map (fun e => if String.eqb (fst e) s then snd e else 0) l).
(** Reactions a kinetics manager accepts: known species, each once per side, positive coefficients;
    and not both sides empty. *)
Definition proper_side (names : list string) (l : list (string * R)) : Prop :=
  (forall e, In e l -> In (fst e) names /\ 0 < snd e) /\ NoDup (map fst l).
Definition proper (names : list string) (r : rxn) : Prop :=
  proper_side names (d_react r) /\ proper_side names (d_prod r) /\ d_react r ++ d_prod r <> [].

(** One side is [c] times the other, to within 1e-8 for each species. *)
Definition alike (c : R) (a b : list (string * R)) (s : string) : Prop :=
  (amount a s = 0 <-> amount b s = 0) /\
  (amount a s <> 0 -> Rabs (amount b s / amount a s - c) <= / 10 ^ 8).
Definition same_direction (c : R) (r o : rxn) : Prop :=
  forall s, alike c (d_react r) (d_react o) s /\ alike c (d_prod r) (d_prod o) s.
(** Written the other way round, looking only at the species [which]. *)
Definition opposite (which : string -> Prop) (c : R) (r o : rxn) : Prop :=
  forall s, which s -> alike c (d_react r) (d_prod o) s /\ alike c (d_prod r) (d_react o) s.
(** Exact multiples. *)
Definition multiple (c : R) (r o : rxn) : Prop :=
  forall s, amount (d_react o) s = c * amount (d_react r) s /\ amount (d_prod o) s = c * amount (d_prod r) s.
Definition reversed_multiple (c : R) (r o : rxn) : Prop :=
  forall s, amount (d_prod o) s = c * amount (d_react r) s /\ amount (d_react o) s = c * amount (d_prod r) s.

(** Efficiency of a collider. *)
Definition eff (t : tbody) (s : string) : R :=
  match find (fun e => String.eqb (fst e) s) (tb_eff t) with Some e => snd e | None => tb_def t end.
(** Third bodies that make two reactions duplicates: some species collides in both; if one of them is
    the generic M and the other is not, only when that is to be an error. *)
Definition third_bodies_clash (names : list string) (h : handling) (r o : rxn) : Prop :=
  match d_tb r, d_tb o with
  | Some t1, Some t2 =>
      (exists s, In s names /\ eff t1 s <> 0 /\ eff t2 s <> 0) /\
      ((tb_name t1 = "M"%string <-> tb_name t2 = "M"%string) \/ h = Error)
  | _, _ => True
  end.
(** Everything but the stoichiometry. *)
Definition comparable (r o : rxn) : Prop :=
  ~ (d_dup r = true /\ d_dup o = true) /\ d_type r = d_type o /\ d_rtype r = d_rtype o.
Definition either_reversible (r o : rxn) : Prop := d_rev r = true \/ d_rev o = true.

(** Same stoichiometry up to a factor; written the other way round only if one of them is reversible. *)
Definition related_by (names : list string) (r o : rxn) : Prop :=
  exists c, 0 < c /\ (same_direction c r o \/
    (opposite (fun s => Some s <> hd_error names) c r o /\ either_reversible r o)).
(** Two reactions that are duplicates although not both are declared. *)
Definition genuine (names : list string) (h : handling) (rs : list rxn) (i m : nat) : Prop :=
  (m < i)%nat /\ exists r o, nth_error rs i = Some r /\ nth_error rs m = Some o /\ comparable r o /\
    related_by names r o /\ third_bodies_clash names h r o.
(** Duplicates but for an explicit collider [t] in one where the other has the generic M. *)
Definition generic_and_explicit (names : list string) (r o : rxn) : Prop :=
  exists t1 t2, d_tb r = Some t1 /\ d_tb o = Some t2 /\ tb_name t1 = "M"%string /\ tb_name t2 <> "M"%string /\
    exists s, In s names /\ eff t1 s <> 0 /\ eff t2 s <> 0.
Definition mixed (names : list string) (rs : list rxn) (g e : nat) : Prop :=
  exists r o, nth_error rs g = Some r /\ nth_error rs e = Some o /\ comparable r o /\ generic_and_explicit names r o /\
    (related_by names r o \/ related_by names o r).
(** The same species take part (on either side). *)
Definition same_species (r o : rxn) : Prop :=
  forall s, In s (map fst (d_react r ++ d_prod r)) <-> In s (map fst (d_react o ++ d_prod o)).
(** Position of a species, and the sum by which the check groups the reactions. *)
Definition place (names : list string) (s : string) : Z :=
  match position s names with Some k => Z.of_nat k | None => (-1)%Z end.
Definition group (names : list string) (r : rxn) : Z :=
  fold_right (fun e z => (place names (fst e) * (place names (fst e) + 1) + z)%Z) 0%Z (d_react r ++ d_prod r).
(** Comparison with [i] is not spoilt by earlier ones: either there is no earlier reaction it is
    compared with, or the species of the group that comes last is a reactant of [i]. *)
Definition unspoilt (names : list string) (rs : list rxn) (i m : nat) (r : rxn) : Prop :=
  (forall m' o', (m' < m)%nat -> nth_error rs m' = Some o' -> group names o' = group names r -> ~ comparable r o') \/
  (exists s, In s (map fst (d_react r)) /\
     forall j q t, (j <= i)%nat -> nth_error rs j = Some q -> group names q = group names r ->
       In t (map fst (d_react q ++ d_prod q)) -> (place names t <= place names s)%Z).
(** Walking a set visits each element. *)
Definition walks (walk : list Z -> list Z) : Prop := forall l z, In z (walk l) <-> In z l.
Definition picks (pick : list nat -> nat) : Prop := forall l, l <> [] -> In (pick l) l.
(** Nothing is changed by the check: always with "warn" and "error"; otherwise if there are only
    generic third bodies. *)
Definition passive (h : handling) (rs : list rxn) : Prop :=
  h = Warn \/ h = Error \/ (forall r t, In r rs -> d_tb r = Some t -> tb_name t = "M"%string).

(** A reaction declared a duplicate with no other such reaction in its group. *)
Definition partner (names : list string) (rs : list rxn) (j k : nat) : Prop :=
  j <> k /\ exists r o, nth_error rs j = Some r /\ nth_error rs k = Some o /\ d_dup r = true /\ d_dup o = true /\
    group names r = group names o.
Definition lonely (names : list string) (rs : list rxn) (j : nat) : Prop :=
  (exists r, nth_error rs j = Some r /\ d_dup r = true) /\ forall k, ~ partner names rs j k.
(** What may become of reaction [j]: it is declared a duplicate ("mark-duplicate"), or efficiencies of
    its generic M are set to zero for the named colliders of other reactions ("modify-efficiency"). *)
Definition may_become (names : list string) (h : handling) (rs : list rxn) (j : nat) (r r' : rxn) : Prop :=
  d_react r' = d_react r /\ d_prod r' = d_prod r /\ d_rev r' = d_rev r /\ d_type r' = d_type r /\
  d_rtype r' = d_rtype r /\ d_eq r' = d_eq r /\
  (d_dup r' = d_dup r \/ (h = MarkDuplicate /\ d_dup r' = true /\ exists k, mixed names rs j k \/ mixed names rs k j)) /\
  (d_tb r' = d_tb r \/ (h = ModifyEfficiency /\ exists t t', d_tb r = Some t /\ d_tb r' = Some t' /\
     tb_name t' = tb_name t /\ tb_def t' = tb_def t /\
     forall s, eff t' s = eff t s \/
       (eff t' s = 0 /\ exists k o t2, mixed names rs j k /\ nth_error rs k = Some o /\ d_tb o = Some t2 /\ tb_name t2 = s))).
