(** Specification of functors: when a functor is smooth at a point, and what its derivative must be.  Only [fn],
    [eval] and [derivative] of the model are mentioned. *)
From Coq Require Import Reals List Sorted.
From Verif Require Import Base.Outcome Func1.Model.
Import ListNotations.
Open Scope R_scope.

(** The real function a functor evaluates (0 where it has no finite value). *)
Definition value (f : fn) (t : R) : R := match eval f t with V x => x | _ => 0 end.
Definition defined_near (f : fn) (t : R) : Prop :=
  exists eps, 0 < eps /\ forall s, Rabs (s - t) < eps -> exists x, eval f s = V x.

(** [t] lies strictly inside a segment of the table that satisfies [P]. *)
Definition inside (P : option R -> option R -> Prop) (tab : list (R * option R)) (t : R) : Prop :=
  exists l1 l2 ta fa tb fb, tab = l1 ++ (ta, fa) :: (tb, fb) :: l2 /\ ta < t < tb /\ P fa fb.
Definition after (tab : list (R * option R)) (t : R) : Prop :=
  exists l tn x, tab = l ++ [(tn, Some x)] /\ tn < t.
Definition before (tab : list (R * option R)) (t : R) : Prop :=
  exists l t0 x, tab = (t0, Some x) :: l /\ t < t0.
Definition finite (a : option R) : Prop := exists x, a = Some x.

(** All exponents of the "pow" functors inside [f] are integers. *)
Fixpoint int_powers (f : fn) : Prop :=
  match f with
  | FPow c => exists z, c = IZR z
  | FSum a b | FDiff a b | FProd a b | FRatio a b | FComp a b => int_powers a /\ int_powers b
  | FTimes a _ | FPlus a _ | FPeriodic a _ => int_powers a
  | _ => True
  end.

(** No functor inside [f] is a times-constant with constant zero. *)
Fixpoint nonzero_times (f : fn) : Prop :=
  match f with
  | FTimes a c => c <> Some 0 /\ nonzero_times a
  | FSum a b | FDiff a b | FProd a b | FRatio a b | FComp a b => nonzero_times a /\ nonzero_times b
  | FPlus a _ | FPeriodic a _ => nonzero_times a
  | _ => True
  end.

(** [f] is built from functors that have derivatives, and each of them is smooth where it is evaluated. *)
Fixpoint regular (f : fn) (t : R) : Prop :=
  match f with
  | FSin _ | FCos _ | FExp _ | FConst _ => True
  | FLog c => c = 1 /\ 0 < t
  | FPow c => 0 < t \/ (exists n, c = INR n) \/ (t <> 0 /\ exists z, c = IZR z)
  | FTab true tab =>
      StronglySorted Rle (map fst tab) /\ (inside (fun a b => finite a /\ finite b) tab t \/ after tab t)
  | FTab false tab =>
      StronglySorted Rle (map fst tab) /\ (inside (fun a _ => finite a) tab t \/ after tab t \/ before tab t)
  | FSum a b | FDiff a b | FProd a b => regular a t /\ regular b t
  | FRatio a b => regular a t /\ regular b t /\ value b t <> 0
  | FComp a b =>
      regular b t /\ regular a (value b t) /\ ((exists c, b = FPow c) -> 0 <= t \/ int_powers a)
  | FTimes a c => regular a t /\ finite c /\ c <> Some 0
  | FPlus a _ => regular a t
  | _ => False
  end.

(** [d] computes the derivative of [f] at [t]. *)
Definition computes_derivative (d f : fn) (t : R) : Prop :=
  exists v, eval d t = V v /\ derivable_pt_lim (value f) t v.

(** Parameter vectors a constructor must accept. *)
Definition valid (k : kind) (p : list R) : Prop :=
  match k with
  | KFunctor => True
  | KSin | KCos | KExp | KLog | KPow | KConst => length p = 1%nat
  | KPoly => (1 <= length p)%nat
  | KGauss => length p = 3%nat
  | KFourier => exists n, (1 <= n)%nat /\ length p = (2 * n + 2)%nat
  | KArr => exists n, (1 <= n)%nat /\ length p = (3 * n)%nat
  | KTabLin | KTabPrev =>
      exists times vals, p = times ++ vals /\ length times = length vals /\ (2 <= length times)%nat /\ StronglySorted Rle times
  end.

(** [f] contains a functor without a derivative (the base class, periodic, Gaussian, polynomial, Fourier, Arrhenius). *)
Fixpoint no_derivative (f : fn) : Prop :=
  match f with
  | FBase | FPeriodic _ _ | FGauss _ _ _ | FPoly _ | FFourier _ _ _ | FArr _ => True
  | FSum a b | FDiff a b | FProd a b | FRatio a b | FComp a b => no_derivative a \/ no_derivative b
  | FTimes a _ | FPlus a _ => no_derivative a
  | _ => False
  end.
(** All tables inside [f] have at least one entry (the constructors ensure it). *)
Fixpoint tables_nonempty (f : fn) : Prop :=
  match f with
  | FTab _ tab => tab <> []
  | FSum a b | FDiff a b | FProd a b | FRatio a b | FComp a b => tables_nonempty a /\ tables_nonempty b
  | FTimes a _ | FPlus a _ | FPeriodic a _ => tables_nonempty a
  | _ => True
  end.
