(** Floating point numbers with exact arithmetic and the special values of IEEE 754.
    Rounding, overflow and the sign of zero are not modelled (a zero divisor counts as +0). *)
From Coq Require Import Reals Lra List Bool.
Import ListNotations.
Open Scope R_scope.

Inductive fp := Fin (r : R) | PInf | NInf | NaN.

Definition rltb (x y : R) : bool := if Rlt_dec x y then true else false.
Definition reqb (x y : R) : bool := if Req_EM_T x y then true else false.

(** The C++ operator < on doubles. *)
Definition fltb (a b : fp) : bool :=
  match a, b with
  | NaN, _ | _, NaN => false
  | Fin x, Fin y => rltb x y
  | NInf, NInf => false
  | NInf, _ => true
  | _, NInf => false
  | PInf, _ => false
  | _, PInf => true
  end.
(** The C++ operator == on doubles. *)
Definition feqb (a b : fp) : bool :=
  match a, b with
  | Fin x, Fin y => reqb x y
  | PInf, PInf | NInf, NInf => true
  | _, _ => false
  end.
(** std::max(a, b) = (a < b) ? b : a. *)
Definition fmax (a b : fp) : fp := if fltb a b then b else a.
Definition fmin (a b : fp) : fp := if fltb b a then b else a.

Definition fadd (a b : fp) : fp :=
  match a, b with
  | NaN, _ | _, NaN => NaN
  | Fin x, Fin y => Fin (x + y)
  | PInf, NInf | NInf, PInf => NaN
  | PInf, _ | _, PInf => PInf
  | NInf, _ | _, NInf => NInf
  end.
Definition fopp (a : fp) : fp :=
  match a with Fin x => Fin (- x) | PInf => NInf | NInf => PInf | NaN => NaN end.
Definition fsub (a b : fp) : fp := fadd a (fopp b).

(** An infinity with the sign of x. *)
Definition sinf (x : R) (pos : bool) : fp :=
  if rltb 0 x then (if pos then PInf else NInf) else if rltb x 0 then (if pos then NInf else PInf) else NaN.
Definition fmul (a b : fp) : fp :=
  match a, b with
  | NaN, _ | _, NaN => NaN
  | Fin x, Fin y => Fin (x * y)
  | Fin x, PInf | PInf, Fin x => sinf x true
  | Fin x, NInf | NInf, Fin x => sinf x false
  | PInf, PInf | NInf, NInf => PInf
  | _, _ => NInf
  end.
Definition fdiv (a b : fp) : fp :=
  match a, b with
  | NaN, _ | _, NaN => NaN
  | Fin x, Fin y => if reqb y 0 then sinf x true else Fin (x / y)
  | Fin _, _ => Fin 0
  | PInf, Fin y => if rltb y 0 then NInf else PInf
  | NInf, Fin y => if rltb y 0 then PInf else NInf
  | _, _ => NaN
  end.

(** std::accumulate(begin, end, 0.0). *)
Definition fsum (l : list fp) : fp := fold_left fadd l (Fin 0).

Definition finite (a : fp) : Prop := exists x, a = Fin x.

Lemma rltb_true x y : rltb x y = true <-> x < y.
Proof. unfold rltb. destruct (Rlt_dec x y); split; intros; try discriminate; try contradiction; auto. Qed.
Lemma rltb_false x y : rltb x y = false <-> y <= x.
Proof. unfold rltb. destruct (Rlt_dec x y); split; intros; try discriminate; auto; lra. Qed.
Lemma reqb_true x y : reqb x y = true <-> x = y.
Proof. unfold reqb. destruct (Req_EM_T x y); split; intros; try discriminate; try contradiction; auto. Qed.
Lemma reqb_false x y : reqb x y = false <-> x <> y.
Proof. unfold reqb. destruct (Req_EM_T x y); split; intros; try discriminate; try contradiction; auto. Qed.

Lemma fdiv_fin x y : y <> 0 -> fdiv (Fin x) (Fin y) = Fin (x / y).
Proof. intros H. simpl. apply reqb_false in H. now rewrite H. Qed.
Lemma fmax_fin x y : fmax (Fin x) (Fin y) = Fin (Rmax x y).
Proof.
  unfold fmax. simpl. destruct (rltb x y) eqn:E.
  - apply rltb_true in E. rewrite Rmax_right; [reflexivity|lra].
  - apply rltb_false in E. rewrite Rmax_left; [reflexivity|lra].
Qed.
Lemma fmin_fin x y : fmin (Fin x) (Fin y) = Fin (Rmin x y).
Proof.
  unfold fmin. simpl. destruct (rltb y x) eqn:E.
  - apply rltb_true in E. rewrite Rmin_right; [reflexivity|lra].
  - apply rltb_false in E. rewrite Rmin_left; [reflexivity|lra].
Qed.
