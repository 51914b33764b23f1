(* What a user relies on: a property read from an object is the property of its present state. *)
From Coq Require Import Reals ZArith List Bool Arith.
From Verif Require Import Base.Fp Base.Outcome Cache.Model.
Import ListNotations.
Local Open Scope R_scope.
Local Open Scope list_scope.

(* Which overload of validate a method uses. *)
Definition shape (k : keys) : nat := match k with KD _ => 0 | KDD _ _ => 1 | KDI _ _ => 2 | KI _ => 3 | KDDI _ _ _ => 4 end.
(* Equality of keys as C++ tests it: NaN differs from itself. *)
Definition keys_eq (a b : keys) : bool :=
  match a, b with
  | KD x, KD y => feqb x y
  | KDD x x', KDD y y' => feqb x y && feqb x' y'
  | KDI x n, KDI y m => feqb x y && Z.eqb n m
  | KI n, KI m => Z.eqb n m
  | KDDI x x' n, KDDI y y' m => feqb x y && feqb x' y' && Z.eqb n m
  | _, _ => false
  end.
(* The numbers a state counter can be: the initial value of stateNum is kept for "never evaluated". *)
Definition counter_ok (k : keys) : Prop := match k with KI n => n <> int_min | _ => True end.

Section Histories.
Context {S A : Type}.
(* The states the object is in while a history h takes place, from s. *)
Fixpoint states (s : S) (h : list (event S)) : list S :=
  match h with
  | [] => [s]
  | EState s' :: h => s :: states s' h
  | _ :: h => states s h
  end.
(* The reads, each with the state it happened in. *)
Fixpoint reads (s : S) (h : list (event S)) : list (nat * S) :=
  match h with
  | [] => []
  | EState s' :: h => reads s' h
  | EClear :: h => reads s h
  | ERead id :: h => (id, s) :: reads s h
  end.
Definition last_state (s : S) (h : list (event S)) : S :=
  fold_left (fun s e => match e with EState s' => s' | _ => s end) h s.
Definition no_clear (h : list (event S)) : Prop := ~ In EClear h.
End Histories.

Section Phases.
Context {D : Type}.
(* Temperature and data after a history of a phase. *)
Definition T_after (t : fp) (h : list (pop D)) : fp :=
  fold_left (fun t o => match o with PT t' => if good_T t' then t' else t | _ => t end) h t.
Definition D_after (d : D) (h : list (pop D)) : D :=
  fold_left (fun d o => match o with PData d' => d' | _ => d end) h d.
(* How often the data changed. *)
Definition changes (h : list (pop D)) : nat := length (filter (fun o => match o with PData _ => true | _ => false end) h).
Definition no_read (h : list (pop D)) : Prop := Forall (fun o => o <> PRead) h.

Definition lT_after (t : fp) (h : list (plop D)) : fp :=
  fold_left (fun t o => match o with LT t' => if good_T t' then t' else t | _ => t end) h t.
Definition lTe_after (t : fp) (h : list (plop D)) : fp := fold_left (fun t o => match o with LTe t' => t' | _ => t end) h t.
Definition lD_after (d : D) (h : list (plop D)) : D := fold_left (fun d o => match o with LData d' => d' | _ => d end) h d.

Context {C : Type}.
Definition cT_after (t : fp) (h : list (cop D C)) : fp :=
  fold_left (fun t o => match o with CT t' => if good_T t' then t' else t | _ => t end) h t.
Definition cC_after (c : C) (h : list (cop D C)) : C := fold_left (fun c o => match o with CComp c' => c' | _ => c end) h c.
Definition cD_after (d : D) (h : list (cop D C)) : D := fold_left (fun d o => match o with CData d' => d' | _ => d end) h d.

Definition vT_after (t : fp) (h : list (vop D)) : fp :=
  fold_left (fun t o => match o with VT t' => if good_T t' then t' else t | _ => t end) h t.
Definition vP_after (p : fp) (h : list (vop D)) : fp := fold_left (fun p o => match o with VPr p' => p' | _ => p end) h p.
Definition vD_after (d : D) (h : list (vop D)) : D := fold_left (fun d o => match o with VData d' => d' | _ => d end) h d.
Definition finite_Ts (h : list (vop D)) : Prop := Forall (fun o => match o with VT PInf => False | _ => True end) h.
Definition vchanges (h : list (vop D)) : nat := length (filter (fun o => match o with VData _ => true | _ => false end) h).
Definition vno_read (h : list (vop D)) : Prop := Forall (fun o => o <> VRead) h.
End Phases.

Section Bulk.
Context {P W M : Type}.
Fixpoint bstates (p : P) (h : list (bop P W M)) : list P :=
  match h with
  | [] => [p]
  | BState p' :: h => p :: bstates p' h
  | _ :: h => bstates p h
  end.
Definition bP_after (p : P) (h : list (bop P W M)) : P := fold_left (fun p o => match o with BState p' => p' | _ => p end) h p.
Definition bM_after (m : M) (h : list (bop P W M)) : M := fold_left (fun m o => match o with BMult m' => m' | _ => m end) h m.
(* The parameters of the rates of evaluator i. *)
Definition bW_after (w : nat -> W) (h : list (bop P W M)) (i : nat) : W :=
  fold_left (fun w o => match o with BModify j w' => if Nat.eqb i j then w' else w | _ => w end) h (w i).
End Bulk.

(* A gas and its kinetics: calls that change the phase, and calls on the kinetics object. *)
From Verif Require Import Units.Model.
From Verif Require Phase.CompModel.
Section Gas.
Context {W M : Type}.
Inductive gcall := GPhase (o : CompModel.op) | GMult (m : M) | GModify (j : nat) (w : W) | GInvalidate | GRead.
Definition toR (f : fp) : R := match f with Fin r => r | _ => 0 end.
(* Finite positive temperature, density and mean molecular weight. *)
Definition physical (c : CompModel.st) : Prop :=
  exists T D m, CompModel.s_T c = Fin T /\ CompModel.s_D c = Fin D /\ CompModel.s_mmw c = Fin m /\ 0 < T /\ 0 < D /\ 0 < m.
Definition composition (c : CompModel.st) : list fp * list fp * fp := (CompModel.s_Y c, CompModel.s_YM c, CompModel.s_mmw c).
(* p = R rho T / W, and the reciprocal equilibrium constants of reactions with net coefficients nus,
   for species with reference Gibbs energies g0(T)/RT at p0. *)
Definition gas_pressure (c : CompModel.st) : R :=
  GasConstant * (toR (CompModel.s_D c) / toR (CompModel.s_mmw c)) * toR (CompModel.s_T c).
Definition gas_rkcn (nus : list (list R)) (g0 : R -> list R) (p0 : R) (c : CompModel.st) : list R :=
  map (fun nu => ig_rkcn nu (g0 (toR (CompModel.s_T c))) (GasConstant * toR (CompModel.s_T c)) (gas_pressure c) p0) nus.
(* Rate evaluators with the keys of ArrheniusData (Arrhenius.cpp:146-154 through ReactionData::update)
   or of FalloffData (Falloff.cpp:38-56). *)
Definition eval_keys (arrhenius : nat -> bool) (i : nat) (c : CompModel.st) : list fp :=
  if arrhenius i then [CompModel.s_T c] else [CompModel.s_T c; CompModel.molarDensity c; Fin (INR (CompModel.s_num c))].
End Gas.
Arguments gcall : clear implicits.
