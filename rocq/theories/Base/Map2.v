(** Element-wise combination of two lists. *)
From Coq Require Import List Arith Lia.
Import ListNotations.

Fixpoint map2 {A B C} (f : A -> B -> C) (l : list A) (m : list B) : list C :=
  match l, m with
  | a :: l', b :: m' => f a b :: map2 f l' m'
  | _, _ => []
  end.

Lemma map2_length {A B C} (f : A -> B -> C) l m : length l = length m -> length (map2 f l m) = length m.
Proof. revert m. induction l as [|a l IH]; intros [|b m]; simpl; intros H; try discriminate; auto. Qed.

Lemma map2_nth {A B C} (f : A -> B -> C) da db dc l m k :
  length l = length m -> k < length m ->
  nth k (map2 f l m) dc = f (nth k l da) (nth k m db).
Proof.
  revert m k. induction l as [|a l IH]; intros [|b m] k H Hk; simpl in *; try discriminate; try lia.
  destruct k; auto. apply IH; lia.
Qed.

Lemma map_map2 {A B C D} (g : C -> D) (f : A -> B -> C) l m :
  map g (map2 f l m) = map2 (fun a b => g (f a b)) l m.
Proof. revert m. induction l as [|a l IH]; intros [|b m]; simpl; auto. now rewrite IH. Qed.

Lemma map2_map_l {A A' B C} (f : A -> B -> C) (g : A' -> A) l m :
  map2 f (map g l) m = map2 (fun a b => f (g a) b) l m.
Proof. revert m. induction l as [|a l IH]; intros [|b m]; simpl; auto. now rewrite IH. Qed.
Lemma map2_map_r {A B B' C} (f : A -> B -> C) (g : B' -> B) l m :
  map2 f l (map g m) = map2 (fun a b => f a (g b)) l m.
Proof. revert m. induction l as [|a l IH]; intros [|b m]; simpl; auto. now rewrite IH. Qed.
Lemma map2_ext {A B C} (f g : A -> B -> C) l m :
  (forall a b, In a l -> In b m -> f a b = g a b) -> map2 f l m = map2 g l m.
Proof.
  revert m. induction l as [|a l IH]; intros [|b m] H; simpl; auto.
  rewrite H by (simpl; auto). rewrite IH; auto. intros; apply H; simpl; auto.
Qed.
(** The two halves of a nested [map2]. *)
Lemma map2_map2_l {A B C D} (f : C -> B -> D) (g : A -> B -> C) l m :
  map2 f (map2 g l m) m = map2 (fun a b => f (g a b) b) l m.
Proof. revert m. induction l as [|a l IH]; intros [|b m]; simpl; auto. now rewrite IH. Qed.
Lemma map2_swap {A B C} (f : A -> B -> C) l m : map2 f l m = map2 (fun b a => f a b) m l.
Proof. revert m. induction l as [|a l IH]; intros [|b m]; simpl; auto. now rewrite IH. Qed.
Lemma map2_fst {A B} (l : list A) (m : list B) : length l = length m -> map2 (fun a _ => a) l m = l.
Proof. revert m. induction l as [|a l IH]; intros [|b m] H; simpl in *; try discriminate; auto. rewrite IH; auto. Qed.
Lemma Forall_map2 {A B C} (P : C -> Prop) (f : A -> B -> C) l m :
  (forall a b, In a l -> In b m -> P (f a b)) -> Forall P (map2 f l m).
Proof.
  revert m. induction l as [|a l IH]; intros [|b m] H; simpl; auto.
  constructor; [apply H; simpl; auto|]. apply IH. intros; apply H; simpl; auto.
Qed.
