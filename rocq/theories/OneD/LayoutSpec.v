(* What the numbering of unknowns of a one-dimensional simulation has to satisfy. *)
From Coq Require Import Reals ZArith String List Bool Arith.
From Verif Require Import OneD.LayoutModel.
Import ListNotations.
Local Open Scope list_scope.
Local Open Scope nat_scope.

(* The domains the calls ask for: components and points of each, in order. *)
Definition shape := list (nat * nat).
Fixpoint reshape (n nv np : nat) (l : shape) : shape :=
  match l, n with
  | [], _ => []
  | _ :: l, O => (nv, np) :: l
  | q :: l, S n => q :: reshape n nv np l
  end.
Definition shape_step (l : shape) (o : lop) : shape :=
  match o with
  | LAdd d => l ++ [(d_nv d, d_np d)]
  | LDomain n nv np => reshape n nv np l
  | LResize => l
  end.
Definition shape_of (ops : list lop) : shape := fold_left shape_step ops [].

(* The last call was not a change of a single domain, so OneDim::resize has been called
   since. *)
Definition settled (ops : list lop) : Prop := forall ops' n nv np, ops <> ops' ++ [LDomain n nv np].

(* Component c at point j of domain n exists. *)
Definition unknown (l : shape) (n j c : nat) : Prop :=
  exists nv np, nth_error l n = Some (nv, np) /\ j < np /\ c < nv.
(* Its place: everything in the domains before, then the points before, then the
   components before. *)
Definition unknowns_in (l : shape) : nat := list_sum (map (fun q => fst q * snd q) l).
Definition points_in (l : shape) : nat := list_sum (map snd l).
Definition position (l : shape) (n j c : nat) : nat :=
  unknowns_in (firstn n l) + fst (nth n l (0, 0)) * j + c.
(* The number of point j of domain n among all points. *)
Definition point_number (l : shape) (n j : nat) : nat := points_in (firstn n l) + j.
(* Unknowns of the same or of neighbouring points. *)
Definition near (p q : nat) : Prop := p = q \/ p = S q \/ q = S p.
Definition coupled (l : shape) (r c : nat) : Prop :=
  exists n j k n' j' k', unknown l n j k /\ unknown l n' j' k' /\
    r = position l n j k /\ c = position l n' j' k' /\ near (point_number l n j) (point_number l n' j').

(* ---------------------------------------------------------------- *)
(** * The Jacobian *)
Section JacobianSpec.
  Local Open Scope R_scope.
  (* The residual as a function of the solution; sizes of the perturbation. *)
  Context (f : list R -> list R) (rel abs : R).
  Definition comp (x : list R) (i : nat) : R := nth i x 0.
  (* x with element c replaced. *)
  Definition with_value (x : list R) (c : nat) (v : R) : list R := firstn c x ++ v :: skipn (S c) x.
  (* The perturbation grows with the element and has its sign. *)
  Definition perturbation (v : R) : R :=
    if Rlt_dec v 0 then - (Rabs v * rel + abs) else Rabs v * rel + abs.
  Definition change (x : list R) (r c : nat) : R :=
    comp (f (with_value x c (comp x c + perturbation (comp x c)))) r - comp (f x) r.
  Definition quotient (x : list R) (r c : nat) : R := change x r c / perturbation (comp x c).
End JacobianSpec.

(* Evaluating the residual near one point gives the rows of that point and its neighbours. *)
Definition evaluates_near (l : shape) (F : option nat -> list R -> list R) : Prop :=
  forall x n j n' j' k, length x = unknowns_in l -> unknown l n' j' k -> n < length l -> j < snd (nth n l (0, 0)) ->
    near (point_number l n j) (point_number l n' j') ->
    comp (F (Some (point_number l n j)) x) (position l n' j' k) = comp (F None x) (position l n' j' k).
(* Every row depends only on the unknowns of its own and of neighbouring points. *)
Definition depends_near (l : shape) (f : list R -> list R) : Prop :=
  forall x r c v, length x = unknowns_in l -> r < unknowns_in l -> c < unknowns_in l -> ~ coupled l r c ->
    comp (f (with_value x c v)) r = comp (f x) r.
