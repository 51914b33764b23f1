(* What sensitivity parameters are meant to do: while a reactor is evaluated, the multiplier
   of each registered reaction is multiplied by its parameter and the heat of formation of
   each registered species is shifted by its parameter; afterwards everything is as before. *)
From Coq Require Import Reals List Bool Arith.
From Verif Require Import Base.Outcome ZeroD.SensModel.
Import ListNotations.
Local Open Scope R_scope.

(* All parameters of a reactor and its surfaces, each with the Kinetics it refers to. *)
Definition entries (x : srx) : list (nat * sparam) :=
  map (pair (x_kin x)) (x_params x) ++ flat_map (fun b => map (pair (fst b)) (snd b)) (x_surf x).
Definition is_rxn (e : nat * sparam) : bool := match sp_kind (snd e) with PReaction => true | PEnthalpy => false end.
Definition key (e : nat * sparam) : nat * nat := (fst e, sp_local (snd e)).
(* The registered reactions and species. *)
Definition reactions (x : srx) : list (nat * nat) := map key (filter is_rxn (entries x)).
Definition species (x : srx) : list nat :=
  map (fun e => sp_local (snd e)) (filter (fun e => negb (is_rxn e)) (entries x)).
(* No reaction is registered twice for the same reactor (or its surfaces). *)
Definition once (s : snet) : Prop := Forall (fun x => NoDup (reactions x)) (s_rx s).
(* The heat of formation is that of the species' input data (types without the methods
   cannot be changed). *)
Definition original (w : world) (th k : nat) : Prop :=
  forall t, nth_error (w_th w th) k = Some t -> t <> Other -> resetHf298 t = Ok t.
Definition unmodified (s : snet) : Prop :=
  forall x k, In x (s_rx s) -> In k (species x) -> original (s_world s) (x_th x) k.
(* Coefficients that make sense: the enthalpy depends on the coefficient that is changed. *)
Definition slopes (t : sth) : Prop :=
  match t with One p => p_g p <> 0 | Two _ lo hi => p_g lo <> 0 /\ p_g hi <> 0 | Other => True end.
Definition sound (w : world) : Prop := forall th k t, nth_error (w_th w th) k = Some t -> slopes t.

(* The multiplier a user set last. *)
Definition last_set (w0 : world) (ops : list sop) (kin i : nat) : R :=
  fold_left (fun v o => match o with
                        | SMult k j x => if Nat.eqb k kin && Nat.eqb j i then x else v
                        | _ => v
                        end) ops (w_mult w0 kin i).

(* The multipliers and heats of formation seen by the evaluation of reactor x. *)
Definition perturbed (w : world) (x : srx) (ps : list R) (w1 : world) : Prop :=
  (forall e, In e (entries x) -> is_rxn e = true ->
     exists v, nth_error ps (sp_global (snd e)) = Some v /\
       w_mult w1 (fst e) (sp_local (snd e)) = w_mult w (fst e) (sp_local (snd e)) * v) /\
  (forall kin i, ~ In (kin, i) (reactions x) -> w_mult w1 kin i = w_mult w kin i) /\
  (NoDup (species x) -> forall e, In e (entries x) -> is_rxn e = false ->
     exists v, nth_error ps (sp_global (snd e)) = Some v /\
       Hf298SS w1 (x_th x) (sp_local (snd e)) = Ok (sp_value (snd e) + v)) /\
  (forall k, ~ In k (species x) -> nth_error (w_th w1 (x_th x)) k = nth_error (w_th w (x_th x)) k) /\
  (forall th, th <> x_th x -> w_th w1 th = w_th w th).

(* Every evaluation in a history returned. *)
Definition all_ok {obs} (E : nat -> world -> outcome obs) (w0 : world) (ops : list sop) : Prop :=
  forall a params b, ops = a ++ SEval params :: b -> is_ok (fst (netEval E (srun E w0 a) params)).

(* No species data is changed by hand during the history, or before it. *)
Definition no_hf (ops : list sop) : Prop := forall th k h, ~ In (SHf th k h) ops.
Definition pristine (w : world) : Prop := forall th k, original w th k.
(* The positions in the parameter vector of all registrations in the network. *)
Definition positions (s : snet) : list nat :=
  flat_map (fun x => map (fun e => sp_global (snd e)) (entries x)) (s_rx s).
