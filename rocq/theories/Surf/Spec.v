(* What a user of a surface phase relies on. *)
From Coq Require Import Reals String List Bool Arith.
From Verif Require Import Base.Fp Base.RSum Base.Outcome Surf.Model.
Import ListNotations.
Local Open Scope R_scope.
Local Open Scope list_scope.

(* A consistent surface: K species, positive site density and mean weight, surface density that of the
   site density, and the logarithm of the site density, if there, the right one. *)
Record surface (K : nat) (s : sst) : Prop := SURF {
  f_nan : vNaN s = false; f_n0 : 0 < vN0 s; f_W : 0 < vW s; f_D : vD s = vN0 s * vW s; f_len : length (vYM s) = K;
  f_log : forall l, vLogN0 s = Some l -> l = ln (vN0 s) }.
Definition positive (l : list R) : Prop := forall k, (k < length l)%nat -> 0 < nth k l 0.
(* The fraction of the k-th of the non-negative parts. *)
Definition share (l : list R) (k : nat) : R := Rmax (nth k l 0) 0 / sum_n (fun j => Rmax (nth j l 0) 0) (length l).
Definition X (s : sst) (k : nat) : R := nth k (getMoleFractions s) 0.
Definition C (s : sst) (k : nat) : R := nth k (getConcentrations s) 0.
(* Everything but the composition and the density. *)
(* The value given for a name: that of the first entry with it, zero if there is none. *)
Definition given (c : list (string * R)) (name : string) : R :=
  match find (fun e => String.eqb (fst e) name) c with Some e => snd e | None => 0 end.
Definition same_but_composition (s s' : sst) : Prop :=
  vT s' = vT s /\ vP s' = vP s /\ vN0 s' = vN0 s /\ vLogN0 s' = vLogN0 s.

(* Calls in turn, going on after exceptions, with what each returned. *)
Fixpoint calls (mw sz : list R) (s : sst) (h : list sop) : list (outcome unit) * sst :=
  match h with
  | [] => ([], s)
  | o :: h => let (r, s1) := sstep mw sz s o in let (l, s2) := calls mw sz s1 h in (r :: l, s2)
  end.
(* The calls that write the composition or the density. *)
Definition writes (o : sop) : bool :=
  match o with SiteDensity _ | Coverages _ | CoveragesNoNorm _ | CoveragesByName _ _ | MoleFractions _ => true | _ => false end.
(* Arrays as long as the phase has species. *)
Definition fits (K : nat) (o : sop) : Prop :=
  match o with
  | Coverages t | CoveragesNoNorm t => length t = K
  | CoveragesByName n _ => length n = K
  | MoleFractions x => length x = K
  | _ => True
  end.
