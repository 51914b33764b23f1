(* What the rate parameterisations are documented to compute. *)
From Coq Require Import Reals List Lra.
From Verif Require Import Base.Outcome Base.RSum Rates.Model.
Import ListNotations.
Local Open Scope R_scope.

(* A T^b exp(-Ea/(R T)), Ea in temperature units. *)
Definition arrhenius (a : arr) (T : R) : R :=
  aA a * Rpower T (ab a) * exp (- (aE a / T)).

(** ** P-log *)

(* The sum of the rates given at pressure p. *)
Fixpoint rate_at (tab : list (R * arr)) (p T : R) : R :=
  match tab with
  | [] => 0
  | (q, a) :: tab' =>
      (if Req_EM_T q p then arrhenius a T else 0) + rate_at tab' p T
  end.

(* The offset the program adds before taking logarithms: 1e-300. *)
Definition offset : R := / 10 ^ 300.
Definition knot (tab : list (R * arr)) (p T : R) : R := offset + rate_at tab p T.

Definition listed (tab : list (R * arr)) (p : R) : Prop := exists a, In (p, a) tab.

(* Every double that is positive and finite lies in this range. *)
Definition in_double_range (p : R) : Prop := exp (-1000) < p < exp 1000.

(* A table that can be evaluated at T: pressures are positive and finite, there
   is at least one, and the total rate at each of them is not negative. *)
Definition good_table (tab : list (R * arr)) (T : R) : Prop :=
  tab <> [] /\
  (forall p, listed tab p -> in_double_range p) /\
  (forall p, listed tab p -> 0 <= rate_at tab p T).

Definition usable_table (tab : list (R * arr)) : Prop :=
  tab <> [] /\ forall p, listed tab p -> in_double_range p.

(* Evaluating an object built from the table, after the evaluations h. *)
Definition plog_value (tab : list (R * arr)) (h : list (R * R)) (T P : R)
    : outcome (option R) :=
  obind (plog_hist h (plog_of tab)) (fun s => omap snd (plog_at T P s)).

Definition hist_ok (h : list (R * R)) : Prop :=
  forall T P, In (T, P) h -> in_double_range P.

(** ** Chebyshev *)

Fixpoint chebT (n : nat) (x : R) : R :=
  match n with
  | O => 1
  | S n' => match n' with
            | O => x
            | S n'' => 2 * x * chebT n' x - chebT n'' x
            end
  end.

(* (2 y - y(min) - y(max)) / (y(max) - y(min)) *)
Definition reduced (y ymin ymax : R) : R := (2 * y - ymin - ymax) / (ymax - ymin).

(* sum over i, j of a(i,j) T_i(Tr) T_j(Pr) *)
Definition double_sum (c : mat) (Tr Pr : R) : R :=
  sum_n (fun i => sum_n (fun j => m_at c i j * chebT i Tr * chebT j Pr) (m_nc c)) (m_nr c).

Definition cheb_value (Tmin Tmax Pmin Pmax : R) (c : mat) (h : list (R * R)) (T P : R)
    : outcome (option R) :=
  obind (cheb_hist h (cheb_of Tmin Tmax Pmin Pmax c))
        (fun s => omap snd (cheb_at T P s)).

(** ** P-log, continued *)

(* The documented value of a P-log rate
   (include/cantera/kinetics/PlogRate.h:57-75), with the offset above. *)
Inductive plog_spec (tab : list (R * arr)) (T P : R) : R -> Prop :=
| PS_below p :
    listed tab p -> (forall q, listed tab q -> p <= q) -> P < p ->
    plog_spec tab T P (knot tab p T)
| PS_between p1 p2 :
    listed tab p1 -> listed tab p2 -> p1 <= P < p2 ->
    (forall q, listed tab q -> q <= p1 \/ p2 <= q) ->
    plog_spec tab T P
      (exp (ln (knot tab p1 T) +
            (ln (knot tab p2 T) - ln (knot tab p1 T)) *
            ((ln P - ln p1) / (ln p2 - ln p1))))
| PS_above p :
    listed tab p -> (forall q, listed tab q -> q <= p) -> p <= P ->
    plog_spec tab T P (knot tab p T).

(** ** Shared data *)

(* What a rate can read from a container. *)
Definition obs (d : rdata) : R * R * R * R * R * list R :=
  (rd_T d, rd_logT d, rd_recipT d, rd_P d, rd_logP d, rd_M d).

(* No perturbation is pending. *)
Definition clean (d : rdata) : Prop :=
  rd_Tbuf d = -1 /\ rd_Pbuf d = -1 /\ rd_pert d = false.

(* Perturbations a PlogData / ChebyshevData resp. FalloffData object offers. *)
Definition plog_op (o : dop) : Prop :=
  match o with DPertT _ | DPertP _ => True | DPertM _ => False end.
Definition falloff_op (o : dop) : Prop :=
  match o with DPertT _ | DPertM _ => True | DPertP _ => False end.

(* Rate constants of a set of P-log reactions at (T, P), each from an object of
   its own. *)
Fixpoint constants (l : list (nat * list (R * arr))) (T P : R)
    : outcome (list (nat * option R)) :=
  match l with
  | [] => Ok []
  | (i, tab) :: l' =>
      obind (plog_value tab [] T P) (fun k =>
      obind (constants l' T P) (fun ks => Ok ((i, k) :: ks)))
  end.

(* An evaluator holding these reactions after updates to the given states. *)
Fixpoint updates (h : list (R * R)) (m : multi) : outcome multi :=
  match h with
  | [] => Ok m
  | (T, P) :: h' => obind (mu_update T P m) (updates h')
  end.

Definition usable_all (l : list (nat * list (R * arr))) : Prop :=
  Forall (fun x => usable_table (snd x)) l.
