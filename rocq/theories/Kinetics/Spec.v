(** What a mechanism is supposed to compute, written from the reactions themselves. *)
From Coq Require Import Reals String List Arith Bool.
From Verif Require Import Base.RSum Base.Vec Stoich.Spec Kinetics.Model.
Import ListNotations.
Open Scope R_scope.

(** The reactions of a mechanism with their numbers. *)
Definition numbered (rs : list reaction) : list (nat * reaction) :=
  combine (seq 0 (length rs)) rs.

(** Value of a species property [v] for a species name. *)
Definition at_name (phs : list phase) (v : vec) (nm : string) : R :=
  match species_index phs nm with Some k => v k | None => 0 end.

(** Sum over the participants of one side: coefficient times property. *)
Definition weighted (phs : list phase) (v : vec) (l : list (string * R)) : R :=
  sum_of (fun '(nm, s) => s * at_name phs v nm) l.

(** Coefficient of species [k] on one side. *)
Definition coef (phs : list phase) (l : list (string * R)) (k : nat) : R :=
  sum_of (fun '(nm, s) => match species_index phs nm with
                          | Some k' => if Nat.eqb k' k then s else 0
                          | None => 0
                          end) l.

(** Change of the sum of [v] caused by one event of the reaction. *)
Definition delta (phs : list phase) (v : vec) (r : reaction) : R :=
  weighted phs v (rx_products r) - weighted phs v (rx_reactants r).

(** Coefficients are nonnegative. *)
Definition nonneg_coefs (r : reaction) : Prop :=
  Forall (fun '(_, s) => 0 <= s) (rx_reactants r) /\ Forall (fun '(_, s) => 0 <= s) (rx_products r).

(** Species numbers returned by the phases are below their species count. *)
Definition phases_ok (phs : list phase) : Prop :=
  Forall (fun p => forall nm k, ph_index p nm = Some k -> (k < ph_n p)%nat) phs.

(** Atoms of element [e] in species [k] of phase [p]: the total over the columns named [e]. *)
Definition elem_count (p : phase) (k : nat) (e : string) : R :=
  sum_of (fun '(m, e') => if String.eqb e' e then ph_atoms p k m else 0)
         (combine (seq 0 (length (ph_elems p))) (ph_elems p)).
(** The same by global species number. *)
Fixpoint atoms_of (phs : list phase) (e : string) (k : nat) : R :=
  match phs with
  | [] => 0
  | p :: phs' => if (k <? ph_n p)%nat then elem_count p k e else atoms_of phs' e (k - ph_n p)
  end.

(** Efficiency of species [k] in a third body: the one stated (the last one, should several names
    denote species k), else the default. *)
Definition stated_eff (phs : list phase) (tb : third) (k : nat) : R :=
  fold_left (fun acc '(nm, e) => match species_index phs nm with
                                 | Some k' => if Nat.eqb k' k then e else acc
                                 | None => acc
                                 end) (tb_eff tb) (tb_default tb).

(** Forward reaction order in species [k]: the last overriding entry of the orders map that denotes
    species k, else its stoichiometric coefficient. *)
Definition order_of (phs : list phase) (r : reaction) (k : nat) : R :=
  fold_left (fun acc '(nm, o) => match species_index phs nm with
                                 | Some k' => if Nat.eqb k' k then o else acc
                                 | None => acc
                                 end) (rx_orders r) (coef phs (rx_reactants r) k).

(** No two names of the list denote the same species. *)
Definition distinct_species (phs : list phase) (l : list (string * R)) : Prop :=
  NoDup (map (fun x => species_index phs (fst x)) l).

(** Change of the number of moles. *)
Definition mole_change (r : reaction) : R :=
  sum_of snd (rx_products r) - sum_of snd (rx_reactants r).

(** Equilibrium constant in concentration units: exp(-dG0/RT) * c0 ^ dn. *)
Definition Kc (phs : list phase) (mu0 : vec) (logc0 rt : R) (r : reaction) : R :=
  exp (- (delta phs mu0 r) / rt) * exp (mole_change r * logc0).

(** Effective third-body concentration. *)
Definition effective_conc (phs : list phase) (tb : third) (c : vec) : R :=
  sum_n (fun k => stated_eff phs tb k * c k) (total_species phs).

(** A mechanism: any sequence of addReaction calls on a new kinetics object. *)
Definition mechanism (phs : list phase) (skip_sp skip_tb : bool) (rs : list reaction) : kin :=
  kin_adds (kin_init phs skip_sp skip_tb) rs.
