(** What the tables of a phase should contain. *)
From Coq Require Import Reals String List Arith.
From Verif Require Import Base.RSum Phase.Model.
Import ListNotations.
Open Scope R_scope.

(** The amount of an element in a composition; zero if it is not listed. *)
Fixpoint amount (comp : list (string * R)) (e : string) : R :=
  match comp with
  | [] => 0
  | (x, v) :: l => if String.eqb x e then v else amount l e
  end.

(** The number of atoms [n] of element [e] that a species with this composition and this charge must
    report.  Element "E" counts electrons: a charged species has minus its charge, within the tolerance
    0.001 that the input may deviate by, when the composition does not say otherwise. *)
Definition atoms_ok (comp : list (string * R)) (ch : R) (e : string) (n : R) : Prop :=
  if String.eqb e "E"
  then (ch = 0 -> n = amount comp e) /\
       (amount comp e <> 0 -> n = amount comp e) /\
       (ch <> 0 -> Rabs (ch + n) <= 1 / 1000) /\
       (amount comp e = 0 -> 1 / 1000 < Rabs ch -> n = - ch)
  else n = amount comp e.

(** The positions of the names that agree with [s] up to case. *)
Fixpoint same_lower_from (k : nat) (names : list string) (s : string) : list nat :=
  match names with
  | [] => []
  | n :: l => if String.eqb (to_lower n) (to_lower s) then k :: same_lower_from (S k) l s
              else same_lower_from (S k) l s
  end.
Definition same_lower := same_lower_from 0.

(** Calls a program can make: a composition is a std::map, so it lists no element twice. *)
Definition wf_op (o : top) : Prop :=
  match o with
  | AddSpecies sp => NoDup (map fst (sp_comp sp))
  | _ => True
  end.


(** How many locks are held after a history of calls (releasing a lock that is not held is refused). *)
Fixpoint lock_depth (n : nat) (ops : list top) : nat :=
  match ops with
  | [] => n
  | Lock :: l => lock_depth (S n) l
  | Unlock :: l => lock_depth (pred n) l
  | _ :: l => lock_depth n l
  end.

(** A program that never replaces species data. *)
Definition no_modify (ops : list top) : Prop := forall k sp, ~ In (Modify k sp) ops.
