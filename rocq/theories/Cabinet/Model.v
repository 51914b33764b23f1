(** Model of the handle table of the C interface: src/clib/Cabinet.h *)
From stdpp Require Import gmap list.
From Coq Require Import ZArith.
From Verif Require Import Base.Outcome.
Open Scope Z_scope.

(** A [shared_ptr<M>]/[const M*]: [None] is the null pointer, [Some a] a non-null address.
    Two shared pointers to the same object have the same address. *)
Notation ptr := (option N).

(** [set<int>] (Cabinet.h:248): the elements in ascending order, as std::set iterates them. *)
Fixpoint set_insert (x : Z) (s : list Z) : list Z :=
  match s with
  | [] => [x]
  | y :: s' => if x <? y then x :: s
               else if x =? y then s
               else y :: set_insert x s'
  end.

Definition set_erase (x : Z) (s : list Z) : list Z :=
  List.filter (fun y => negb (y =? x)) s.

(** The three static tables of a cabinet, Cabinet.h:248 (m_lookup), 253 (m_parents),
    258 (m_table).  Simplification: table sizes are assumed to stay below INT_MAX, so that the
    [static_cast<int>] of Cabinet.h:70 is exact. *)
Record cabinet := mkCabinet {
  m_table : list ptr;
  m_parents : list Z;
  m_lookup : gmap ptr (list Z)
}.

(** Cabinet.h:209-214 (getData etc. create empty tables on first use). *)
Definition cab_init : cabinet := mkCabinet [] [] ∅.

Definition len {A} (l : list A) : Z := Z.of_nat (length l).

(** Cabinet.h:65-78. *)
Definition cab_add (c : cabinet) (obj : ptr) (parent : Z) : cabinet * Z :=
  let data := m_table c ++ [obj] in
  let parents := m_parents c ++ [parent] in
  let idx := len data - 1 in
  let lookup :=
    match m_lookup c !! obj with
    | Some s => <[obj := set_insert idx s]> (m_lookup c)
    | None => <[obj := [idx]]> (m_lookup c)
    end in
  (mkCabinet data parents lookup, idx).

(** Cabinet.h:83-85. *)
Definition cab_size (c : cabinet) : Z := len (m_table c).

(** Cabinet.h:123-143.  [data[n].reset()] leaves a null pointer in slot n. *)
Definition cab_del (c : cabinet) (n : Z) : cabinet * outcome unit :=
  if (0 <=? n) && (n <? len (m_table c)) then
    match m_table c !! Z.to_nat n with
    | None => (c, UB) (* not possible: index in range *)
    | Some p =>
      match m_lookup c !! p with
      | None => (c, Err)
      | Some s =>
        let lookup := if (length s =? 1)%nat then delete p (m_lookup c)
                      else <[p := set_erase n s]> (m_lookup c) in
        (mkCabinet (<[Z.to_nat n := None]> (m_table c)) (m_parents c) lookup, Ok tt)
      end
    end
  else (c, Err).

(** Cabinet.h:90-96: deletes slot 0, 1, 2, ...; an exception thrown by [del] leaves the loop. *)
Fixpoint cab_clear_from (c : cabinet) (i : nat) (todo : nat) : cabinet * outcome unit :=
  match todo with
  | O => (c, Ok tt)
  | S todo' =>
    match cab_del c (Z.of_nat i) with
    | (c', Ok _) => cab_clear_from c' (S i) todo'
    | (c', r) => (c', r)
    end
  end.

Definition cab_clear (c : cabinet) : cabinet * outcome unit :=
  cab_clear_from c 0 (length (m_table c)).

(** Cabinet.h:101-106. *)
Definition cab_reset (c : cabinet) : cabinet := mkCabinet [] [] ∅.

(** Cabinet.h:148-154. *)
Definition cab_parent (c : cabinet) (n : Z) : outcome Z :=
  if (n <? 0) || (n >=? len (m_parents c)) then Err
  else match m_parents c !! Z.to_nat n with Some p => Ok p | None => UB end.

(** Cabinet.h:159-169.  The returned reference is modelled by the address stored in the slot. *)
Definition cab_at (c : cabinet) (n : Z) : outcome N :=
  if (n <? 0) || (n >=? len (m_table c)) then Err
  else match m_table c !! Z.to_nat n with
       | Some (Some a) => Ok a
       | Some None => Err
       | None => UB
       end.

(** Cabinet.h:195-199: first element, in descending order, whose parent is as requested.
    An access outside of [parents] would be undefined. *)
Fixpoint find_parent (parents : list Z) (parent : Z) (es : list Z) : outcome Z :=
  match es with
  | [] => Ok (-2)
  | e :: es' =>
    match (if 0 <=? e then parents !! Z.to_nat e else None) with
    | None => UB
    | Some q => if q =? parent then Ok e else find_parent parents parent es'
    end
  end.

(** Cabinet.h:188-201. [obj] is a reference, hence never null. *)
Definition cab_index (c : cabinet) (obj : N) (parent : Z) : outcome Z :=
  match m_lookup c !! Some obj with
  | None => Ok (-1)
  | Some s => find_parent (m_parents c) parent (rev s)
  end.

(** One call of the interface and what it returns.  [Cabinet::copy] (Cabinet.h:111-118) is not
    modelled: it is never instantiated in the code base. [Cabinet::as] (175-181) adds a dynamic
    type test to [at] and is not modelled. *)
Inductive op :=
| Add (obj : ptr) (parent : Z)
| Del (n : Z)
| Clear
| Reset
| At (n : Z)
| Parent (n : Z)
| Index (obj : N) (parent : Z)
| Size.

(** Observable result of a call. *)
Inductive result :=
| RInt (r : outcome Z)
| RObj (r : outcome N)
| RUnit (r : outcome unit).

Definition step (c : cabinet) (o : op) : cabinet * result :=
  match o with
  | Add p q => let '(c', i) := cab_add c p q in (c', RInt (Ok i))
  | Del n => let '(c', r) := cab_del c n in (c', RUnit r)
  | Clear => let '(c', r) := cab_clear c in (c', RUnit r)
  | Reset => (cab_reset c, RUnit (Ok tt))
  | At n => (c, RObj (cab_at c n))
  | Parent n => (c, RInt (cab_parent c n))
  | Index p q => (c, RInt (cab_index c p q))
  | Size => (c, RInt (Ok (cab_size c)))
  end.

Fixpoint run (c : cabinet) (ops : list op) : cabinet * list result :=
  match ops with
  | [] => (c, [])
  | o :: ops' => let '(c1, r) := step c o in
                 let '(c2, rs) := run c1 ops' in (c2, r :: rs)
  end.

Definition after (ops : list op) : cabinet := fst (run cab_init ops).
