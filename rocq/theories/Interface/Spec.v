(** Surface kinetics as documented, without the code's data structures. *)
From Coq Require Import Reals String List.
From Verif Require Import Base.RSum Units.Model Interface.Model.
Import ListNotations.
Open Scope R_scope.

(** The coverage of a named species. *)
Fixpoint coverage_of (species : list string) (theta : list R) (sp : string) : R :=
  match species, theta with
  | s :: ss, t :: ts => if String.eqb s sp then t else coverage_of ss ts sp
  | _, _ => 0
  end.
(** The change of the activation energy (over R) with coverage: linear, or a polynomial without
    constant term. *)
Fixpoint poly_from (n : nat) (es : list R) (x : R) : R :=
  match es with [] => 0 | e :: rest => e * x ^ n + poly_from (S n) rest x end.
Definition energy_at (E : energy) (x : R) : R :=
  match E with ELin e => e * x | EPoly es => poly_from 1 es x end.
(** One factor of the documented rate: 10^(a theta) theta^m exp(-E(theta)/T), with coverages below
    10^-20 taken as 10^-20 in the power. *)
Definition factor (T theta : R) (d : dep) : R :=
  Rpower 10 (d_a d * theta) * Rpower (Rmax theta (/ 10 ^ 20)) (d_m d) * exp (- energy_at (d_E d) theta / T).
Definition documented (base T : R) (species : list string) (theta : list R) (deps : list dep) : R :=
  base * prod_of (fun d => factor T (coverage_of species theta (d_name d)) d) deps.

(** Change of a species quantity by one turn of a reaction. *)
Definition reaction_change (g : nat -> R) (reac prod : list (nat * R)) : R :=
  sum_of (fun p => snd p * g (fst p)) prod - sum_of (fun p => snd p * g (fst p)) reac.
(** The electrochemical potential of species k. *)
Definition electrochemical (T : R) (mu0 act charge phi_of : nat -> R) (k : nat) : R :=
  mu0 k + GasConstant * T * ln (act k) + Faraday * charge k * phi_of k.
(** Net charge that a reaction brings into phase n. *)
Definition charge_into (phase_of : nat -> nat) (charge : nat -> R) (reac prod : list (nat * R)) (n : nat) : R :=
  reaction_change (fun k => if Nat.eqb (phase_of k) n then charge k else 0) reac prod.
(** How many phases are marked as missing. *)
Definition missing (ex : list bool) : nat := length (filter negb ex).

(** The activity concentration of a species with activity a: coverages over the area they occupy, other
    activities times the standard concentration. *)
Definition conc_of (siteDensity : R) (k : kind) (a : R) : R :=
  match k with Surf size => a * siteDensity / size | Other _ c0 => a * c0 end.
Definition kind_ok (k : kind) : Prop := match k with Surf size => 0 < size | Other _ c0 => 0 < c0 end.
(** The flux of gas with concentration c and molecular weight W onto a wall, Knudsen. *)
Definition wall_flux (T W c : R) : R := sqrt (GasConstant * T / (2 * PI * W)) * c.
(** The documented exchange current density: n F kf^(1-beta) kr^beta times the activity concentrations of
    the reactants to (1-beta) nu' and of the products to beta nu''. *)
Definition exchange_current (n kf kr beta : R) (c : nat -> R) (reac prod : list (nat * R)) : R :=
  n * Faraday * Rpower kf (1 - beta) * Rpower kr beta
  * prod_of (fun p => Rpower (c (fst p)) ((1 - beta) * snd p)) reac
  * prod_of (fun p => Rpower (c (fst p)) (beta * snd p)) prod.
(** Net production of a species by reactions with the given net rates of progress. *)
Definition coeff_in (l : list (nat * R)) (k : nat) : R := sum_of (fun p => if Nat.eqb (fst p) k then snd p else 0) l.
Definition production (rxns : list (list (nat * R) * list (nat * R) * R)) (k : nat) : R :=
  sum_of (fun q => snd q * (coeff_in (snd (fst q)) k - coeff_in (fst (fst q)) k)) rxns.
