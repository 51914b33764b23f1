(** What the composition properties mean, in terms of ordinary real vectors. *)
From Coq Require Import Reals List.
From Verif Require Import Base.RSum Base.Map2 Base.Fp Phase.CompModel.
Import ListNotations.
Open Scope R_scope.

(** Weighted sum  sum_k a_k b_k. *)
Definition wsum (a b : list R) : R := rsum (map2 Rmult a b).

(** The non-negative part of an input vector, and its entries divided by their sum. *)
Definition clip (x : list R) : list R := map (fun v => Rmax v 0) x.
Definition fractions (x : list R) : list R := map (fun v => Rmax v 0 / rsum (clip x)) x.

(** Mole fractions X, mass fractions Y and mean molecular weight Mbar describe the same mixture of
    species with molecular weights M. *)
Record same_mixture (M X Y : list R) (Mbar : R) : Prop := {
  sm_lenX : length X = length M;
  sm_lenY : length Y = length M;
  sm_sumX : rsum X = 1;
  sm_sumY : rsum Y = 1;
  sm_rel  : forall k, (k < length M)%nat -> nth k X 0 = nth k Y 0 * Mbar / nth k M 0;
  sm_mean : Mbar = wsum X M;
  sm_harm : Mbar = 1 / rsum (map2 Rdiv Y M) }.

(** The values a setter of a positive quantity must accept. *)
Definition positive (v : fp) : Prop :=
  match v with Fin r => 0 < r | PInf => True | NInf | NaN => False end.

Definition all_pos (l : list R) : Prop := Forall (fun m => 0 < m) l.
Definition all_nonneg (l : list R) : Prop := Forall (fun m => 0 <= m) l.
Definition some_pos (l : list R) : Prop := Exists (fun m => 0 < m) l.

(** Inputs for which a composition setter is meaningful.  Setters that normalise accept any vector of
    finite numbers with a positive entry; the "NoNorm" setters expect vectors that are normalised by
    the caller; no restriction is put on temperatures, densities and pressures. *)
Definition vec_ok (M : list R) (P : list R -> Prop) (x : list fp) : Prop :=
  exists xs, x = map Fin xs /\ length xs = length M /\ P xs.
Definition admissible (M : list R) (o : op) : Prop :=
  match o with
  | SetT _ | SetD _ | SetP _ | SetTD _ _ => True
  | SetX x | SetY x | SetC x => vec_ok M some_pos x
  | SetXNoNorm x => vec_ok M (fun xs => rsum xs = 1 /\ wsum xs M <> 0) x
  | SetYNoNorm y => vec_ok M (fun ys => rsum ys = 1 /\ rsum (map2 Rdiv ys M) <> 0) y
  | SetCNoNorm x => vec_ok M (fun xs => rsum xs <> 0 /\ 0 < wsum xs M) x
  | SetN n => vec_ok M (fun ns => rsum ns <> 0 /\ wsum ns M <> 0) n
  | Restore s =>
      (2 <= length s)%nat /\ vec_ok M (fun ys => rsum ys = 1 /\ rsum (map2 Rdiv ys M) <> 0) (skipn 2 s)
  end.
(** The same with non-negative amounts. *)
Definition admissible_nonneg (M : list R) (o : op) : Prop :=
  match o with
  | SetT _ | SetD _ | SetP _ | SetTD _ _ => True
  | SetX x | SetY x | SetC x => vec_ok M some_pos x
  | SetXNoNorm x | SetYNoNorm x => vec_ok M (fun xs => all_nonneg xs /\ rsum xs = 1) x
  | SetCNoNorm x | SetN x => vec_ok M (fun xs => all_nonneg xs /\ some_pos xs) x
  | Restore s => (2 <= length s)%nat /\ vec_ok M (fun ys => all_nonneg ys /\ rsum ys = 1) (skipn 2 s)
  end.
