(* What a user expects of species thermo data: independent of how it is computed. *)
From Coq Require Import Reals ZArith List Bool Arith.
From Verif Require Import Base.Outcome SpThermo.Model.
Import ListNotations.
Local Open Scope R_scope.

(* The three functions of temperature that a parameterisation reports. *)
Definition value (f : props -> R) (t : stit) (T : R) : R := match update_temp t T with Ok p => f p | _ => 0 end.
Definition cp_R : stit -> R -> R := value (fun p => fst (fst p)).
Definition h_RT : stit -> R -> R := value (fun p => snd (fst p)).
Definition s_R : stit -> R -> R := value snd.
(* Molar enthalpy over R, and molar Gibbs energy. *)
Definition h_R (t : stit) (T : R) : R := T * h_RT t T.
Definition gibbs (t : stit) (T : R) : R := GasConstant * T * (h_RT t T - s_R t T).

(* Temperatures at which one formula gives way to another. *)
Definition breaks (t : stit) : list R :=
  match t_kind t with
  | KNasa2 mid _ _ | KShomate2 mid _ _ => [mid]
  | KNasa9 rs => map r_min (tl rs)
  | KMu0 m => m_t m
  | _ => []
  end.

(* Objects a user can have: made by the factory and then changed. *)
Inductive change := Modify (h : R) | Reset.
Definition change1 (t : stit) (c : change) : outcome stit :=
  match c with Modify h => modifyHf298 t h | Reset => resetHf298 t end.
Fixpoint changes (t : stit) (l : list change) : outcome stit :=
  match l with [] => Ok t | c :: l => obind (change1 t c) (fun t => changes t l) end.
Definition made (ty : Z) (lo hi p : R) (c : list R) (l : list change) (t : stit) : Prop :=
  exists t0, new_stit ty lo hi p c = Ok t0 /\ changes t0 l = Ok t.
(* The reported parameters make an object again. *)
Definition remade (t : stit) : outcome stit := new_stit (type_of t) (t_min t) (t_max t) (t_pref t) (reportParameters t).

(* Strictly increasing temperatures. *)
Fixpoint increasing (l : list (R * R)) : Prop :=
  match l with a :: ((b :: _) as t) => fst a < fst b /\ increasing t | _ => True end.

(* The documented formulas: cp/R, H/R, S/R. NasaPoly1.h:18-30, Nasa9Poly1.h:16-35. *)
Definition nasa7 (a : list R) (T : R) : R * R * R :=
  let a i := nth i a 0 in
  (a 0%nat + a 1%nat * T + a 2%nat * T ^ 2 + a 3%nat * T ^ 3 + a 4%nat * T ^ 4,
   a 0%nat * T + a 1%nat / 2 * T ^ 2 + a 2%nat / 3 * T ^ 3 + a 3%nat / 4 * T ^ 4 + a 4%nat / 5 * T ^ 5 + a 5%nat,
   a 0%nat * ln T + a 1%nat * T + a 2%nat / 2 * T ^ 2 + a 3%nat / 3 * T ^ 3 + a 4%nat / 4 * T ^ 4 + a 6%nat).
Definition nasa9 (a : list R) (T : R) : R * R * R :=
  let a i := nth i a 0 in
  (a 0%nat / T ^ 2 + a 1%nat / T + a 2%nat + a 3%nat * T + a 4%nat * T ^ 2 + a 5%nat * T ^ 3 + a 6%nat * T ^ 4,
   - a 0%nat / T + a 1%nat * ln T + a 2%nat * T + a 3%nat / 2 * T ^ 2 + a 4%nat / 3 * T ^ 3 + a 5%nat / 4 * T ^ 4 + a 6%nat / 5 * T ^ 5 + a 7%nat,
   - a 0%nat / 2 / T ^ 2 - a 1%nat / T + a 2%nat * ln T + a 3%nat * T + a 4%nat / 2 * T ^ 2 + a 5%nat / 3 * T ^ 3 + a 6%nat / 4 * T ^ 4 + a 8%nat).
(* ShomatePoly.h:194-217: cp and S in J/mol/K, H in kJ/mol, t = T / 1000. *)
Definition nist (a : list R) (T : R) : R * R * R :=
  let a i := nth i a 0 in
  let t := T / 1000 in
  (a 0%nat + a 1%nat * t + a 2%nat * t ^ 2 + a 3%nat * t ^ 3 + a 4%nat / t ^ 2,
   a 0%nat * t + a 1%nat * t ^ 2 / 2 + a 2%nat * t ^ 3 / 3 + a 3%nat * t ^ 4 / 4 - a 4%nat / t + a 5%nat,
   a 0%nat * ln t + a 1%nat * t + a 2%nat * t ^ 2 / 2 + a 3%nat * t ^ 3 / 3 - a 4%nat / (2 * t ^ 2) + a 6%nat).
Definition values (t : stit) (T : R) : R * R * R := (cp_R t T, h_R t T, s_R t T).
Definition scale (a b c : R) (v : R * R * R) : R * R * R := (a * fst (fst v), b * snd (fst v), c * snd v).
Definition pick (mid : R) (low high : list R) (T : R) : list R := if Rle_dec T mid then low else high.

(* ---------------------------------------------------------------- *)
(* The data of all species: a table from species to parameterisations. *)
Definition override (f : nat -> option stit) (k : nat) (t : stit) (i : nat) : option stit := if Nat.eqb i k then Some t else f i.
(* What each successful operation does to the table. *)
Definition effect (g : mgr) (o : op) (g' : mgr) : Prop :=
  match o with
  | OInstall k t => provide g k = None /\ (forall i, provide g' i = override (provide g) k t i)
  | OModify k t => (exists t0, provide g k = Some t0 /\ type_of t = type_of t0 /\ t_min t <= minTemp g None /\ maxTemp g None <= t_max t) /\
      (forall i, provide g' i = override (provide g) k t i)
  | OSetHf k h => match provide g k with
      | Some t => exists t', modifyHf298 t h = Ok t' /\ forall i, provide g' i = override (provide g) k t' i
      | None => g' = g end
  | OResetHf k => match provide g k with
      | Some t => exists t', resetHf298 t = Ok t' /\ forall i, provide g' i = override (provide g) k t' i
      | None => g' = g end
  end.
(* When it succeeds. *)
Definition accepts (g : mgr) (o : op) : Prop :=
  match o with
  | OInstall k t => provide g k = None /\ (g_p0 g = 0 \/ Rabs (g_p0 g - t_pref t) <= / 10 ^ 6)
  | OModify k t => exists t0, provide g k = Some t0 /\ type_of t = type_of t0 /\ t_min t <= minTemp g None /\ maxTemp g None <= t_max t
  | OSetHf k h => forall t, provide g k = Some t -> exists t', modifyHf298 t h = Ok t'
  | OResetHf k => forall t, provide g k = Some t -> exists t', resetHf298 t = Ok t'
  end.
