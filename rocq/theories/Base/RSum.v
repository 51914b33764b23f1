(** Finite sums and products of real numbers over lists. *)
From Coq Require Import Reals Lra List Lia Arith Permutation.
Import ListNotations.
Open Scope R_scope.

Fixpoint rsum (l : list R) : R :=
  match l with [] => 0 | x :: l' => x + rsum l' end.

Fixpoint rprod (l : list R) : R :=
  match l with [] => 1 | x :: l' => x * rprod l' end.

(** [sum_of f l] is the sum of [f a] over the elements [a] of [l]. *)
Definition sum_of {A} (f : A -> R) (l : list A) : R := rsum (map f l).
Definition prod_of {A} (f : A -> R) (l : list A) : R := rprod (map f l).

(** [sum_n f n] = f 0 + ... + f (n-1). *)
Definition sum_n (f : nat -> R) (n : nat) : R := sum_of f (seq 0 n).

Lemma rsum_app l1 l2 : rsum (l1 ++ l2) = rsum l1 + rsum l2.
Proof. induction l1 as [|x l1 IH]; simpl; [lra|rewrite IH; lra]. Qed.

Lemma rprod_app l1 l2 : rprod (l1 ++ l2) = rprod l1 * rprod l2.
Proof. induction l1 as [|x l1 IH]; simpl; [lra|rewrite IH; lra]. Qed.

Lemma sum_of_app {A} (f : A -> R) l1 l2 : sum_of f (l1 ++ l2) = sum_of f l1 + sum_of f l2.
Proof. unfold sum_of. now rewrite map_app, rsum_app. Qed.

Lemma prod_of_app {A} (f : A -> R) l1 l2 : prod_of f (l1 ++ l2) = prod_of f l1 * prod_of f l2.
Proof. unfold prod_of. now rewrite map_app, rprod_app. Qed.

Lemma sum_of_cons {A} (f : A -> R) x l : sum_of f (x :: l) = f x + sum_of f l.
Proof. reflexivity. Qed.

Lemma prod_of_cons {A} (f : A -> R) x l : prod_of f (x :: l) = f x * prod_of f l.
Proof. reflexivity. Qed.

Lemma sum_of_nil {A} (f : A -> R) : sum_of f [] = 0.
Proof. reflexivity. Qed.

Lemma sum_of_ext {A} (f g : A -> R) l :
  (forall x, In x l -> f x = g x) -> sum_of f l = sum_of g l.
Proof.
  induction l as [|x l IH]; intros H; [reflexivity|].
  rewrite !sum_of_cons, (H x) by (left; reflexivity).
  f_equal. apply IH. intros y Hy. apply H. now right.
Qed.

Lemma prod_of_ext {A} (f g : A -> R) l :
  (forall x, In x l -> f x = g x) -> prod_of f l = prod_of g l.
Proof.
  induction l as [|x l IH]; intros H; [reflexivity|].
  rewrite !prod_of_cons, (H x) by (left; reflexivity).
  f_equal. apply IH. intros y Hy. apply H. now right.
Qed.

Lemma sum_of_plus {A} (f g : A -> R) l :
  sum_of (fun x => f x + g x) l = sum_of f l + sum_of g l.
Proof.
  induction l as [|x l IH]; [unfold sum_of; simpl; lra|].
  rewrite !sum_of_cons, IH. lra.
Qed.

Lemma sum_of_minus {A} (f g : A -> R) l :
  sum_of (fun x => f x - g x) l = sum_of f l - sum_of g l.
Proof.
  induction l as [|x l IH]; [unfold sum_of; simpl; lra|].
  rewrite !sum_of_cons, IH. lra.
Qed.

Lemma sum_of_scal {A} (c : R) (f : A -> R) l :
  sum_of (fun x => c * f x) l = c * sum_of f l.
Proof.
  induction l as [|x l IH]; [unfold sum_of; simpl; lra|].
  rewrite !sum_of_cons, IH. lra.
Qed.

Lemma sum_of_scal_r {A} (c : R) (f : A -> R) l :
  sum_of (fun x => f x * c) l = sum_of f l * c.
Proof.
  induction l as [|x l IH]; [unfold sum_of; simpl; lra|].
  rewrite !sum_of_cons, IH. lra.
Qed.

Lemma sum_of_0 {A} (f : A -> R) l : (forall x, In x l -> f x = 0) -> sum_of f l = 0.
Proof.
  induction l as [|x l IH]; intros H; [reflexivity|].
  rewrite sum_of_cons, (H x) by (left; reflexivity).
  rewrite IH; [lra|]. intros y Hy. apply H. now right.
Qed.

Lemma sum_of_nonneg {A} (f : A -> R) l : (forall x, In x l -> 0 <= f x) -> 0 <= sum_of f l.
Proof.
  induction l as [|x l IH]; intros H; [unfold sum_of; simpl; lra|].
  rewrite sum_of_cons. assert (0 <= f x) by (apply H; left; reflexivity).
  assert (0 <= sum_of f l) by (apply IH; intros y Hy; apply H; now right). lra.
Qed.

Lemma sum_of_le {A} (f g : A -> R) l :
  (forall x, In x l -> f x <= g x) -> sum_of f l <= sum_of g l.
Proof.
  induction l as [|x l IH]; intros H; [unfold sum_of; simpl; lra|].
  rewrite !sum_of_cons. assert (f x <= g x) by (apply H; left; reflexivity).
  assert (sum_of f l <= sum_of g l) by (apply IH; intros y Hy; apply H; now right). lra.
Qed.

Lemma sum_of_pos {A} (f : A -> R) l x :
  (forall y, In y l -> 0 <= f y) -> In x l -> 0 < f x -> 0 < sum_of f l.
Proof.
  induction l as [|y l IH]; intros H Hx Hp; [destruct Hx|].
  rewrite sum_of_cons. assert (0 <= f y) by (apply H; left; reflexivity).
  assert (0 <= sum_of f l) by (apply sum_of_nonneg; intros z Hz; apply H; now right).
  destruct Hx as [->|Hx]; [lra|].
  assert (0 < sum_of f l) by (apply IH; auto; intros z Hz; apply H; now right). lra.
Qed.

Lemma sum_of_swap {A B} (f : A -> B -> R) la lb :
  sum_of (fun a => sum_of (fun b => f a b) lb) la = sum_of (fun b => sum_of (fun a => f a b) la) lb.
Proof.
  induction la as [|a la IH]; simpl.
  - rewrite sum_of_nil. symmetry. apply sum_of_0. reflexivity.
  - rewrite sum_of_cons, IH, <- sum_of_plus. reflexivity.
Qed.

Lemma sum_of_map {A B} (g : A -> B) (f : B -> R) l :
  sum_of f (map g l) = sum_of (fun x => f (g x)) l.
Proof. unfold sum_of. now rewrite map_map. Qed.

Lemma sum_of_perm {A} (f : A -> R) l1 l2 : Permutation l1 l2 -> sum_of f l1 = sum_of f l2.
Proof.
  induction 1; rewrite ?sum_of_cons; try lra; reflexivity.
Qed.

Lemma sum_of_flat_map {A B} (g : A -> list B) (f : B -> R) l :
  sum_of f (flat_map g l) = sum_of (fun a => sum_of f (g a)) l.
Proof.
  induction l as [|a l IH]; [reflexivity|]. simpl. now rewrite sum_of_app, sum_of_cons, IH.
Qed.

Lemma sum_n_S f n : sum_n f (S n) = sum_n f n + f n.
Proof. unfold sum_n. rewrite seq_S, sum_of_app. simpl. rewrite sum_of_cons, sum_of_nil. lra. Qed.

Lemma sum_n_0 f : sum_n f 0 = 0.
Proof. reflexivity. Qed.

Lemma sum_n_ext f g n : (forall k, (k < n)%nat -> f k = g k) -> sum_n f n = sum_n g n.
Proof.
  intros H. apply sum_of_ext. intros k Hk. apply in_seq in Hk. apply H. lia.
Qed.

Lemma sum_n_single f n i : (i < n)%nat -> (forall k, (k < n)%nat -> k <> i -> f k = 0) ->
  sum_n f n = f i.
Proof.
  intros Hi H. induction n as [|n IH]; [lia|]. rewrite sum_n_S.
  destruct (Nat.eq_dec i n) as [->|Hne].
  - rewrite (sum_n_ext f (fun _ => 0)); [|intros k Hk; apply H; lia].
    unfold sum_n. rewrite sum_of_0; [lra|reflexivity].
  - rewrite IH; [|lia|intros k Hk Hki; apply H; lia]. rewrite (H n); [lra|lia|lia].
Qed.

Lemma sum_n_shift f n : sum_n f (S n) = f 0%nat + sum_n (fun k => f (S k)) n.
Proof.
  unfold sum_n. simpl. rewrite sum_of_cons. f_equal. rewrite <- seq_shift, sum_of_map. reflexivity.
Qed.

(** Sum of a list as an indexed sum. *)
Lemma rsum_nth l : rsum l = sum_n (fun k => nth k l 0) (length l).
Proof.
  induction l as [|x l IH]; [reflexivity|]. simpl length. rewrite sum_n_shift. simpl. now rewrite IH.
Qed.
