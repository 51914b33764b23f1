(* What grid refinement promises. *)
From Coq Require Import Reals ZArith List Bool Arith.
From Verif Require Import Base.Outcome Base.Map2 OneD.RefineModel.
Import ListNotations.
Local Open Scope list_scope.
Local Open Scope R_scope.

(* The smallest and the largest of some numbers. *)
Definition spans (l : list R) (lo hi : R) : Prop := In lo l /\ In hi l /\ forall v, In v l -> lo <= v <= hi.
(* They differ by more than a fraction f of the largest size. *)
Definition varies (f lo hi : R) : Prop := hi - lo > f * Rmax (Rabs hi) (Rabs lo).

Section Criteria.
  (* Criteria, n points at z, values v i j of the components i that count. *)
  Context (c : crit) (n : nat) (z : nat -> R) (v : nat -> nat -> R) (used : nat -> Prop) (special : R -> Prop).
  Definition gap (j : nat) : R := z (j + 1)%nat - z j.
  Definition rate (i j : nat) : R := (v i (j + 1)%nat - v i j) / gap j.
  (* The change of a component over interval j, relative to what is allowed. *)
  Definition change (i j : nat) (r : R) : Prop := used i /\ (j + 1 < n)%nat /\
    exists lo hi, spans (map (v i) (seq 0 n)) lo hi /\ varies (c_range c) lo hi /\
      r = Rabs (v i (j + 1)%nat - v i j) / (c_slope c * (hi - lo) + c_thresh c).
  (* The change of its slope from interval j to the next, relative to what is allowed. *)
  Definition bend (i j : nat) (r : R) : Prop := used i /\ (j + 2 < n)%nat /\
    exists lo hi, spans (map (rate i) (seq 0 (n - 1))) lo hi /\ varies (c_range c) lo hi /\
      r = Rabs (rate i (j + 1) - rate i j) / (c_curve c * (hi - lo) + c_thresh c / gap j).
  (* Interval j needs a new point. *)
  Definition needs (j : nat) : Prop :=
    (exists i r, change i j r /\ 1 < r /\ 2 * c_gridmin c <= gap j) \/
    (exists i k r, bend i k r /\ 1 < r /\ 2 * c_gridmin c <= gap k /\ 2 * c_gridmin c <= gap (k + 1) /\ (j = k \/ j = k + 1)%nat) \/
    ((0 < j)%nat /\ (j + 1 < n)%nat /\ c_ratio c * gap (j - 1) < gap j) \/
    ((j + 2 < n)%nat /\ c_ratio c * gap (j + 1) < gap j).
  (* Point j is required. *)
  Definition required (j : nat) : Prop :=
    j = 0%nat \/ j = (n - 1)%nat \/
    (exists i k r, change i k r /\ c_prune c <= r /\ (j = k \/ j = k + 1)%nat) \/
    (exists i k r, bend i k r /\ c_prune c <= r /\ j = (k + 1)%nat) \/
    (exists k, (0 < k)%nat /\ (k + 1 < n)%nat /\ c_ratio c * gap (k - 1) < gap k /\ (k - 1 <= j <= k + 2)%nat) \/
    (exists k, (0 < k)%nat /\ (k + 1 < n)%nat /\ c_ratio c * gap k < gap (k - 1) /\ (k <= j + 2 /\ j <= k + 1)%nat) \/
    ((1 < j)%nat /\ (j + 1 < n)%nat /\ c_ratio c * gap (j - 2) < z (j + 1)%nat - z (j - 1)%nat) \/
    ((0 < j)%nat /\ (j + 2 < n)%nat /\ c_ratio c * gap (j + 1) < z (j + 1)%nat - z (j - 1)%nat) \/
    ((0 < j)%nat /\ (j + 1 < n)%nat /\ special (z j)).
  (* Some component changes by less than the pruning threshold there. *)
  Definition idle (j : nat) : Prop :=
    (exists i r, change i j r /\ r < c_prune c) \/ (exists i k r, bend i k r /\ r < c_prune c /\ j = (k + 1)%nat).
End Criteria.

(* ---------------------------------------------------------------- *)
(* A point of a grid: coordinate and values. *)
Notation pt := (R * list R)%type.
Definition midpoint (a b : pt) : pt := ((fst a + fst b) / 2, map2 (fun u v => (u + v) / 2) (snd a) (snd b)).
(* One pass of refinement: the first and the last point stay; between two points there may be a
   new one in the middle, with averaged values, if [may_add] holds of them; points for which
   [may_drop] holds may go, but never two neighbours. *)
Inductive refines (may_add : pt -> pt -> Prop) (may_drop : pt -> Prop) : list pt -> list pt -> Prop :=
| rf_last a : refines may_add may_drop [a] [a]
| rf_keep a b p p' m : (m = [] \/ may_add a b /\ m = [midpoint a b]) ->
    refines may_add may_drop (b :: p) p' -> refines may_add may_drop (a :: b :: p) (a :: m ++ p')
| rf_drop a b c p p' m : (m = [] \/ may_add a b /\ m = [midpoint a b]) -> may_drop b ->
    refines may_add may_drop (c :: p) p' -> refines may_add may_drop (a :: b :: c :: p) (a :: m ++ p').
(* Coordinates strictly increase, with gaps of at least h. *)
Fixpoint increasing (p : list pt) : Prop :=
  match p with a :: ((b :: _) as t) => fst a < fst b /\ increasing t | _ => True end.
Fixpoint spaced (h : R) (p : list pt) : Prop :=
  match p with a :: ((b :: _) as t) => h <= fst b - fst a /\ spaced h t | _ => True end.

(* The points of domain n of a simulation. *)
Definition points (s : sim1) (n : nat) : list pt :=
  match nth_error (s_dom s) n with
  | Some d => map (fun j => (nth j (g_z d) 0, map (fun i => nth (dstart (s_dom s) n + (j * g_nv d + i)) (s_x s) 0) (seq 0 (g_nv d)))) (seq 0 (length (g_z d)))
  | None => []
  end.
(* Criteria that setCriteria accepts, with a positive tolerance. *)
Definition sound (c : crit) : Prop := 2 <= c_ratio c /\ 0 <= c_slope c /\ 0 <= c_curve c /\ 0 < c_thresh c /\ 0 <= c_range c.
(* Every domain has points in increasing order and sound criteria; the refiners do not ask for
   the removal of a first point; the solution has one value per unknown. *)
Definition wellformed (s : sim1) : Prop :=
  length (s_x s) = dstart (s_dom s) (length (s_dom s)) /\
  forall n d, nth_error (s_dom s) n = Some d -> g_z d <> [] /\ increasing (points s n) /\ sound (g_crit d) /\ f_keep (g_ref d) 0 <> REMOVE.
(* The points that must stay: where the temperature is fixed, and control points. *)
Definition special_at (d : rdom) (v : R) : Prop := g_free d = true /\ v = g_zfixed d \/ In v (g_ctrl d).
(* What a domain keeps in refinement. *)
Definition same_domain (d d' : rdom) : Prop :=
  g_nv d = g_nv d' /\ g_flow d = g_flow d' /\ g_free d = g_free d' /\ g_zfixed d = g_zfixed d' /\ g_tfixed d = g_tfixed d' /\
  g_ctrl d = g_ctrl d' /\ g_crit d = g_crit d' /\ (forall i, g_active d i = g_active d' i).

(* A point between two others, at a fraction of the way from b to a. *)
Definition between (f : R) (a b : pt) : pt := (fst b + f * (fst a - fst b), map2 (fun u v => v + f * (u - v)) (snd a) (snd b)).
(* q has been put between two neighbours. *)
Definition inserted (p : list pt) (q : pt) (p' : list pt) : Prop :=
  exists l1 a b l2 f, p = l1 ++ a :: b :: l2 /\ p' = l1 ++ a :: q :: b :: l2 /\ 0 < f < 1 /\ q = between f a b.
(* The temperature at a point of a flow domain. *)
Definition temperature (q : pt) : R := nth 2 (snd q) 0.
(* Two neighbours of a list. *)
Definition neighbours (p : list pt) (a b : pt) : Prop := exists l1 l2, p = l1 ++ a :: b :: l2.

(* Point j is removed: nothing requires it, and its left neighbour stays. *)
Section Removed.
  Context (c : crit) (n : nat) (z : nat -> R) (v : nat -> nat -> R) (used : nat -> Prop) (special : R -> Prop).
  Fixpoint removed (j : nat) : Prop :=
    match j with
    | O => False
    | S k => idle c n z v used j /\ ~ required c n z v used special j /\ ~ removed k
    end.
End Removed.
(* Removal and need of new points in domain n of a simulation. *)
Definition coordinate (d : rdom) (j : nat) : R := nth j (g_z d) 0.
Definition value_of (s : sim1) (n : nat) (d : rdom) (i j : nat) : R := nth (dstart (s_dom s) n + (j * g_nv d + i)) (s_x s) 0.
Definition counts (d : rdom) (i : nat) : Prop := (i < g_nv d)%nat /\ g_active d i = true.
Definition removes (s : sim1) (n : nat) (d : rdom) (j : nat) : Prop :=
  removed (g_crit d) (length (g_z d)) (coordinate d) (value_of s n d) (counts d) (special_at d) j.
Definition wants (s : sim1) (n : nat) (d : rdom) (j : nat) : Prop :=
  needs (g_crit d) (length (g_z d)) (coordinate d) (value_of s n d) (counts d) j.

(* The temperature at q is near t, given the rise from a to b. *)
Definition near (t : R) (a b q : pt) : Prop := Rabs (temperature q - t) <= Rmin 1 ((temperature b - temperature a) / 10).
(* Putting the fixed temperature t in a free flow domain: nothing is found and nothing changes; a
   point near t is taken; or a point with temperature t is put between two neighbours. *)
Definition fixes (t : R) (d : rdom) (p : list pt) (d' : rdom) (p' : list pt) : Prop :=
  (g_zfixed d' = g_zfixed d /\ g_tfixed d' = g_tfixed d /\ p' = p /\
     forall a b, neighbours p a b -> ~ (temperature a < t < temperature b) /\ ~ near t a b a /\ ~ near t a b b) \/
  (exists a b q, neighbours p a b /\ (q = a \/ q = b) /\ near t a b q /\ g_zfixed d' = fst q /\ g_tfixed d' = t /\ p' = p) \/
  (exists q, inserted p q p' /\ temperature q = t /\ g_zfixed d' = fst q /\ g_tfixed d' = t).
