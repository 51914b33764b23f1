(** Independent specification of the handle table: a list of issued handles, each with its object,
    its parent and a flag telling whether it is still live.  There is no reverse table: reverse
    lookups search the list. *)
From Coq Require Import ZArith NArith List Bool.
From Verif Require Import Base.Outcome.
Import ListNotations.
Open Scope Z_scope.

Record entry := mkEntry { e_obj : N; e_parent : Z; e_live : bool }.

Notation spec_state := (list entry).

Definition get (s : spec_state) (n : Z) : option entry :=
  if n <? 0 then None else nth_error s (Z.to_nat n).

(** Handles live in [s] that denote [obj] and have parent [q]. *)
Definition is_handle_of (s : spec_state) (obj : N) (q : Z) (h : Z) : Prop :=
  exists e, get s h = Some e /\ e_live e = true /\ e_obj e = obj /\ e_parent e = q.

(** Some live handle denotes [obj]. *)
Definition has_handle (s : spec_state) (obj : N) : Prop :=
  exists q h, is_handle_of s obj q h.

Definition kill (e : entry) : entry := mkEntry (e_obj e) (e_parent e) false.

Fixpoint kill_nth (n : nat) (s : spec_state) : spec_state :=
  match s, n with
  | [], _ => []
  | e :: s', O => kill e :: s'
  | e :: s', S n' => e :: kill_nth n' s'
  end.

Definition spec_at (s : spec_state) (h : Z) : outcome N :=
  match get s h with
  | Some e => if e_live e then Ok (e_obj e) else Err
  | None => Err
  end.

Definition spec_parent (s : spec_state) (h : Z) : outcome Z :=
  match get s h with
  | Some e => Ok (e_parent e)
  | None => Err
  end.

(** What [index] has to return, as a relation. *)
Definition spec_index (s : spec_state) (obj : N) (q : Z) (r : Z) : Prop :=
  (~ has_handle s obj /\ r = -1)
  \/ (has_handle s obj /\ (forall h, ~ is_handle_of s obj q h) /\ r = -2)
  \/ (is_handle_of s obj q r /\ forall h, is_handle_of s obj q h -> h <= r).

(** Deleting every live handle from the left; the code as it is stops with an error at the first
    handle that has been deleted before. *)
Fixpoint spec_clear (s : spec_state) : spec_state * outcome unit :=
  match s with
  | [] => ([], Ok tt)
  | e :: s' => if e_live e
               then let '(s1, r) := spec_clear s' in (kill e :: s1, r)
               else (s, Err)
  end.

From Verif Require Import Cabinet.Model.

(** Meaning of a call in the specification: new state, and which results are allowed. *)
Definition spec_next (s : spec_state) (o : op) : spec_state :=
  match o with
  | Add (Some a) q => s ++ [mkEntry a q true]
  | Add None _ => s
  | Del h => match get s h with
             | Some e => if e_live e then kill_nth (Z.to_nat h) s else s
             | None => s
             end
  | Clear => fst (spec_clear s)
  | Reset => []
  | _ => s
  end.

Definition spec_allows (s : spec_state) (o : op) (r : result) : Prop :=
  match o with
  | Add _ _ => r = RInt (Ok (Z.of_nat (length s)))
  | Del h => r = RUnit (match spec_at s h with Ok _ => Ok tt | _ => Err end)
  | Clear => r = RUnit (snd (spec_clear s))
  | Reset => r = RUnit (Ok tt)
  | At h => r = RObj (spec_at s h)
  | Parent h => r = RInt (spec_parent s h)
  | Index a q => exists i, r = RInt (Ok i) /\ spec_index s a q i
  | Size => r = RInt (Ok (Z.of_nat (length s)))
  end.

Fixpoint spec_run (s : spec_state) (ops : list op) (rs : list result) : Prop :=
  match ops, rs with
  | [], [] => True
  | o :: ops', r :: rs' => spec_allows s o r /\ spec_run (spec_next s o) ops' rs'
  | _, _ => False
  end.

(** No null pointer is ever stored. *)
Definition adds_object (o : op) : Prop := match o with Add None _ => False | _ => True end.
Definition objects_only (ops : list op) : Prop := Forall adds_object ops.

(** Calls that may end the life of handle [h]. *)
Definition may_kill (h : Z) (o : op) : Prop :=
  match o with Del n => n = h | Clear => True | Reset => True | _ => False end.

(** Calls other than a table reset. *)
Definition not_reset (o : op) : Prop := match o with Reset => False | _ => True end.
