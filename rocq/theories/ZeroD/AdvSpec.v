(* What advancing with limits is expected to do. *)
From Coq Require Import Reals List Arith.
From Verif Require Import Base.Outcome Base.RSum ZeroD.AdvModel.
Local Open Scope R_scope.

(* The expansion around the present time in k derivatives d 1, ..., d k, of component j. *)
Definition taylor (y : list R) (d : nat -> list R) (k : nat) (dt : R) (j : nat) : R :=
  nth j y 0 + sum_of (fun n => dt ^ n / INR (fact n) * nth j (d n) 0) (seq 1 k).
(* No component with a positive limit is expected to change by more than the limit. *)
Definition within (lim y : list R) (est : nat -> R) : Prop :=
  forall j, (j < length lim)%nat -> 0 < nth j lim 0 -> Rabs (est j - nth j y 0) <= nth j lim 0.

Section Adv.
Context {C : Type} (cstep : R -> C -> outcome C) (ctime : C -> R) (cy : C -> list R) (corder : C -> nat)
        (cdky : C -> R -> nat -> outcome (list R)).
(* The solver gives the derivatives d 1, ..., d k at the network's time. *)
Definition derivs (r : @rnet C) (k : nat) (d : nat -> list R) : Prop :=
  forall n, (1 <= n <= k)%nat -> cdky (i_c (r_i r)) (r_t r) n = Ok (d n) /\ length (d n) = length (i_y (r_i r)).
(* Internal steps taken one after another, each from a time before tout. *)
Inductive csteps (tout : R) : nat -> C -> C -> Prop :=
| cs_0 c : csteps tout 0 c c
| cs_S n c c1 c2 : ctime c < tout -> cstep tout c = Ok c1 -> csteps tout n c1 c2 -> csteps tout (S n) c c2.
(* Steps of the network until the solver has an order. *)
Inductive firsts : @rnet C -> @rnet C -> Prop :=
| fi_0 r : (1 <= corder (i_c (r_i r)))%nat -> firsts r r
| fi_S r r1 r2 : corder (i_c (r_i r)) = 0%nat -> rstep cstep ctime cy r = Ok r1 -> firsts r1 r2 -> firsts r r2.
End Adv.
