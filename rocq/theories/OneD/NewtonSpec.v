(* What the damped Newton solver and the time stepping promise. *)
From Coq Require Import Reals ZArith List Bool Arith.
From Verif Require Import Base.Outcome OneD.LayoutModel OneD.LayoutSpec OneD.NewtonModel.
Import ListNotations.
Local Open Scope list_scope.
Local Open Scope R_scope.

(* The domains of a simulation, as the calls left them, with their bounds. *)
Definition sim (ops : list lop) (ds : list ndom) : Prop := settled ops /\ map nd ds = o_dom (lrun ops).
(* A statement about every unknown: component c at point j of domain n, with that domain. *)
Definition each (ops : list lop) (ds : list ndom) (P : ndom -> nat -> nat -> Prop) : Prop :=
  forall n j c q, unknown (shape_of ops) n j c -> nth_error ds n = Some q -> P q c (position (shape_of ops) n j c).
(* The solution is between the bounds. *)
Definition in_bounds (ops : list lop) (ds : list ndom) (x : list R) : Prop :=
  each ops ds (fun q c i => nd_lo q c <= comp x i <= nd_up q c).
(* y is no further outside the bounds than x, in any unknown. *)
Definition no_worse (ops : list lop) (ds : list ndom) (x y : list R) : Prop :=
  each ops ds (fun q c i => Rmin (comp x i) (nd_lo q c) <= comp y i <= Rmax (comp x i) (nd_up q c)).
(* x moved by a times the step. *)
Definition moved (a : R) (x step y : list R) : Prop :=
  length y = length x /\ forall i, (i < length x)%nat -> comp y i = comp x i + a * comp step i.
(* The error weight of component c of a domain: relative tolerance times the mean size over
   the points, plus the absolute tolerance. *)
Definition mean_size (ops : list lop) (n c : nat) (x : list R) : R :=
  fold_right Rplus 0 (map (fun j => Rabs (comp x (position (shape_of ops) n j c))) (seq 0 (snd (nth n (shape_of ops) (0, 0)%nat))))
  / INR (snd (nth n (shape_of ops) (0, 0)%nat)).

(* The state of time stepping after k attempts, if it has not ended before. *)
Fixpoint after_attempts (step : tstate -> tres) (k : nat) (s : tstate) : option tstate :=
  match k with
  | O => Some s
  | S k => match step s with TMore s' => after_attempts step k s' | _ => None end
  end.
