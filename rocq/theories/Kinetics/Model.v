(** Model of src/kinetics/Kinetics.cpp, src/kinetics/BulkKinetics.cpp (mechanism construction and
    rates of progress), the checks of src/kinetics/Reaction.cpp and
    include/cantera/kinetics/ThirdBodyCalc.h.

    Simplifications: [double] is [R]; [double*] is [vec]; a rate object is represented by the rate
    constant it returns (input [e_kf0] of [env]) and by a flag telling whether its own checks accept
    it; the thermodynamic quantities read from the phase are inputs ([env]); no caching (the caches
    are the subject of the Cache area); phases do not change while reactions are added. *)
From Coq Require Import Reals ZArith String List Bool Arith.
From Verif Require Import Base.Outcome Base.RSum Base.Vec Stoich.Model.
Import ListNotations.
Open Scope R_scope.

(** The parts of ThermoPhase/SurfPhase used: nSpecies, speciesIndex, element names, nAtoms(k, m),
    nDim, and SurfPhase::size (None if the object is not a SurfPhase). *)
Record phase := mkPhase {
  ph_n : nat;
  ph_index : string -> option nat;
  ph_elems : list string;
  ph_atoms : nat -> nat -> R;
  ph_dim : nat;
  ph_site : option (nat -> R)
}.

(** ThirdBody, include/cantera/kinetics/Reaction.h:209-275. *)
Record third := mkThird {
  tb_name : string; tb_eff : list (string * R); tb_default : R; tb_mass_action : bool
}.

(** Reaction: the maps reactants, products, orders are listed in iteration order.
    include/cantera/kinetics/Reaction.h:124-205. [rx_rate_ok] is the verdict of
    ReactionRate::check and ReactionRate::validate. *)
Record reaction := mkReaction {
  rx_reactants : list (string * R);
  rx_products : list (string * R);
  rx_orders : list (string * R);
  rx_reversible : bool;
  rx_allow_nonreactant : bool;
  rx_allow_negative : bool;
  rx_third : option third;
  rx_rate_ok : bool
}.

(** ** Species lookup *)

(** Kinetics::resizeSpecies, Kinetics.cpp:601-611: m_kk and m_start. *)
Definition total_species (phs : list phase) : nat := fold_left (fun n p => (n + ph_n p)%nat) phs 0%nat.
Fixpoint starts (n : nat) (phs : list phase) : list nat :=
  match phs with [] => [] | p :: phs' => n :: starts (n + ph_n p) phs' end.

(** Kinetics::kineticsSpeciesIndex, Kinetics.cpp:290-300 ([None] is npos); the offset [start] is
    m_start[n]. *)
Fixpoint species_index_from (start : nat) (phs : list phase) (nm : string) : option nat :=
  match phs with
  | [] => None
  | p :: phs' =>
    match ph_index p nm with
    | Some k => Some (k + start)%nat
    | None => species_index_from (start + ph_n p) phs' nm
    end
  end.
Definition species_index (phs : list phase) (nm : string) : option nat :=
  species_index_from 0 phs nm.

(** Kinetics::speciesPhase, Kinetics.cpp:302-321, with the index of the species in that phase. *)
Fixpoint species_phase (phs : list phase) (nm : string) : outcome (phase * nat) :=
  match phs with
  | [] => Err
  | p :: phs' => match ph_index p nm with
                 | Some k => Ok (p, k)
                 | None => species_phase phs' nm
                 end
  end.

(** Kinetics::speciesPhaseIndex, Kinetics.cpp:323-332: search from the last phase. *)
Fixpoint phase_index_down (st : list nat) (k n : nat) : outcome nat :=
  match n with
  | O => Err
  | S n' => if (nth n' st 0 <=? k)%nat then Ok n' else phase_index_down st k n'
  end.
Definition species_phase_index (phs : list phase) (k : nat) : outcome nat :=
  let st := starts 0 phs in phase_index_down st k (length st).

(** ** std::map<string, double> as association list *)
Fixpoint mget (l : list (string * R)) (e : string) : R :=
  match l with
  | [] => 0
  | (e', x) :: l' => if String.eqb e' e then x else mget l' e
  end.
Fixpoint mset (l : list (string * R)) (e : string) (x : R) : list (string * R) :=
  match l with
  | [] => [(e, x)]
  | (e', y) :: l' => if String.eqb e' e then (e', x) :: l' else (e', y) :: mset l' e x
  end.
Definition madd (l : list (string * R)) (e : string) (x : R) : list (string * R) :=
  mset l e (mget l e + x).

(** ** Reaction::check, Reaction.cpp:125-152 (rate-specific part: [rx_rate_ok]) *)
Definition has_key (l : list (string * R)) (nm : string) : bool :=
  existsb (fun '(nm', _) => String.eqb nm' nm) l.
Definition rx_check (r : reaction) : outcome unit :=
  if negb (rx_allow_nonreactant r)
     && existsb (fun '(nm, _) => negb (has_key (rx_reactants r) nm)) (rx_orders r) then Err
  else if negb (rx_allow_negative r) && existsb (fun '(_, o) => Rltb o 0) (rx_orders r) then Err
  else if rx_reversible r && negb (length (rx_orders r) =? 0)%nat then Err
  else if rx_rate_ok r then Ok tt else Err.

(** updateUndeclared, Reaction.cpp:593-601. *)
Definition undeclared (phs : list phase) (l : list (string * R)) : bool :=
  existsb (fun '(nm, _) => match species_index phs nm with None => true | Some _ => false end) l.

(** ** Reaction::checkBalance, Reaction.cpp:603-668 *)

(** Inner loop over the elements of the phase of one participant (lines 611-614 / 619-621):
    [bal[elementName(m)] += stoich * nAtoms(k, m)]. *)
Fixpoint add_elems (bal : list (string * R)) (m : nat) (els : list string) (stoich : R)
    (atoms : nat -> R) : list (string * R) :=
  match els with
  | [] => bal
  | e :: els' => add_elems (madd bal e (stoich * atoms m)) (S m) els' stoich atoms
  end.
(** Line 612: [balr[elementName(m)] = 0.0]. *)
Definition zero_elems (bal : list (string * R)) (els : list string) : list (string * R) :=
  fold_left (fun b e => mset b e 0) els bal.

(** Lines 608-615. *)
Fixpoint bal_products (phs : list phase) (prods : list (string * R))
    (bal : list (string * R) * list (string * R))
  : outcome (list (string * R) * list (string * R)) :=
  match prods with
  | [] => Ok bal
  | (nm, s) :: prods' =>
    obind (species_phase phs nm) (fun '(p, k) =>
      bal_products phs prods'
        (zero_elems (fst bal) (ph_elems p), add_elems (snd bal) 0 (ph_elems p) s (ph_atoms p k)))
  end.
(** Lines 616-622. *)
Fixpoint bal_reactants (phs : list phase) (reacs : list (string * R)) (balr : list (string * R))
  : outcome (list (string * R)) :=
  match reacs with
  | [] => Ok balr
  | (nm, s) :: reacs' =>
    obind (species_phase phs nm) (fun '(p, k) =>
      bal_reactants phs reacs' (add_elems balr 0 (ph_elems p) s (ph_atoms p k)))
  end.

(** Lines 626-634: the test on one element. *)
Definition elem_bad (balr balp : list (string * R)) (e : string) : bool :=
  let elemsum := mget balr e + mget balp e in
  let elemdiff := Rabs (mget balp e - mget balr e) in
  Rltb 0 elemsum && Rltb (1/10000) (elemdiff / elemsum).

(** Lines 650-661: sum of surface sites. *)
Fixpoint sites (p : phase) (size : nat -> R) (l : list (string * R)) : R :=
  match l with
  | [] => 0
  | (nm, s) :: l' => match ph_index p nm with
                     | Some k => s * size k + sites p size l'
                     | None => sites p size l'
                     end
  end.

Definition check_balance (phs : list phase) (r : reaction) : outcome unit :=
  obind (bal_products phs (rx_products r) ([], [])) (fun '(balr, balp) =>
  obind (bal_reactants phs (rx_reactants r) balr) (fun balr =>
    if existsb (fun '(e, _) => elem_bad balr balp e) balr then Err
    else match phs with
         | [] => UB                             (* thermo(0) with no phase *)
         | p0 :: _ =>
           if (ph_dim p0 =? 3)%nat then Ok tt
           else match ph_site p0 with
                | None => Exn                    (* std::bad_cast, line 649 *)
                | Some size =>
                  let rs := sites p0 size (rx_reactants r) in
                  let prs := sites p0 size (rx_products r) in
                  if Rltb (1/100000 * (rs + prs)) (Rabs (rs - prs)) then Err else Ok tt
                end
         end)).

(** ThirdBody::checkSpecies, Reaction.cpp:832-856. *)
Definition tb_check (phs : list phase) (skip_tb : bool) (tb : third) : outcome bool :=
  if undeclared phs (tb_eff tb)
  then if negb skip_tb then Err
       else if negb (String.eqb (tb_name tb) "M") then Ok false else Ok true
  else Ok true.

(** Reaction::checkSpecies, Reaction.cpp:670-712. *)
Definition check_species (phs : list phase) (skip_sp skip_tb : bool) (r : reaction) : outcome bool :=
  if undeclared phs (rx_reactants r) || undeclared phs (rx_products r)
  then if skip_sp then Ok false else Err
  else if undeclared phs (rx_orders r)
  then if skip_sp then Ok false else Err
  else match rx_third r with
       | Some tb => tb_check phs skip_tb tb
       | None => obind (check_balance phs r) (fun _ => Ok true)
       end.

(** ** ThirdBodyCalc, ThirdBodyCalc.h:19-153: one entry per installed reaction; the parallel vectors
    m_reaction_index, m_default, m_species, m_eff are one list of records, m_mass_action_index is the
    field [te_mass_action]. *)
Record tb_entry := mkTbEntry {
  te_rxn : nat; te_default : R; te_mass_action : bool; te_eff : list (nat * R)
}.

(** install, ThirdBodyCalc.h:23-44. *)
Definition tb_install (l : list tb_entry) (rxn : nat) (effs : list (nat * R)) (def : R) (ma : bool)
  : list tb_entry :=
  l ++ [mkTbEntry rxn def ma (map (fun '(k, e) => (k, e - def)) effs)].

(** update, ThirdBodyCalc.h:75-83. *)
Definition tb_update (l : list tb_entry) (conc : vec) (ctot : R) (concm : vec) : vec :=
  fold_left (fun cm t =>
      upd cm (te_rxn t)
          (te_default t * ctot + fold_left (fun sum '(k, e) => sum + e * conc k) (te_eff t) 0))
    l concm.

(** multiply, ThirdBodyCalc.h:86-91. *)
Definition tb_multiply (l : list tb_entry) (out concm : vec) : vec :=
  fold_left (fun o t => if te_mass_action t
                        then upd o (te_rxn t) (o (te_rxn t) * concm (te_rxn t)) else o) l out.

(** resizeCoeffs, ThirdBodyCalc.h:47-72: entry (i, k) of m_multipliers for nSpc species. *)
Definition tb_multiplier (l : list tb_entry) (nsp : nat) (i k : nat) : R :=
  sum_of (fun t => if Nat.eqb (te_rxn t) i
                   then sum_of (fun '(k', e) => if Nat.eqb k' k then e else 0) (te_eff t)
                        + (if (k <? nsp)%nat then te_default t else 0)
                   else 0) l.

(** ** The kinetics object *)
Record kin := mkKin {
  k_phases : list phase;
  k_skip_sp : bool;                   (* m_skipUndeclaredSpecies *)
  k_skip_tb : bool;                   (* m_skipUndeclaredThirdBodies *)
  k_rmgr : manager;                   (* m_reactantStoich *)
  k_pmgr : manager;                   (* m_productStoich *)
  k_rpmgr : manager;                  (* m_revProductStoich *)
  k_rxns : list reaction;             (* m_reactions *)
  k_dn : list R;                      (* m_dn *)
  k_revindex : list nat;              (* m_revindex *)
  k_irrev : list nat;                 (* m_irrev *)
  k_tb : list tb_entry                (* m_multi_concm *)
}.

Definition kin_init (phs : list phase) (skip_sp skip_tb : bool) : kin :=
  mkKin phs skip_sp skip_tb mgr_init mgr_init mgr_init [] [] [] [] [].

(** Outcome of addReaction; the state is returned in every case. *)
Inductive add_result := Added | Skipped | Threw | Undefined.

(** Kinetics.cpp:644-652: indices of the participants; [None] would store npos in the manager. *)
Fixpoint indices (phs : list phase) (l : list (string * R)) : option (list nat) :=
  match l with
  | [] => Some []
  | (nm, _) :: l' =>
    match species_index phs nm, indices phs l' with
    | Some k, Some ks => Some (k :: ks)
    | _, _ => None
    end
  end.

(** std::find, Kinetics.cpp:661. *)
Fixpoint find_pos (k : nat) (ks : list nat) : option nat :=
  match ks with
  | [] => None
  | k' :: ks' => if Nat.eqb k' k then Some 0%nat else option_map S (find_pos k ks')
  end.
Fixpoint set_nth {A} (n : nat) (x : A) (l : list A) : list A :=
  match l, n with
  | [], _ => []
  | _ :: l', O => x :: l'
  | y :: l', S n' => y :: set_nth n' x l'
  end.

(** Kinetics.cpp:657-673: (rk, rorder, rstoich) after the loop over orders. *)
Fixpoint apply_orders (phs : list phase) (orders : list (string * R))
    (st : list nat * list R * list R) : option (list nat * list R * list R) :=
  match orders with
  | [] => Some st
  | (nm, o) :: orders' =>
    match species_index phs nm with
    | None => None
    | Some k =>
      let '(rk, rorder, rstoich) := st in
      match find_pos k rk with
      | Some n => apply_orders phs orders' (rk, set_nth n o rorder, rstoich)
      | None => apply_orders phs orders' (rk ++ [k], rorder ++ [o], rstoich ++ [0])
      end
    end
  end.

(** BulkKinetics::addThirdBody, BulkKinetics.cpp:75-87: map from species index to efficiency
    (a later name with the same index overwrites); [None]: CanteraError. *)
Fixpoint nset (l : list (nat * R)) (k : nat) (x : R) : list (nat * R) :=
  match l with
  | [] => [(k, x)]
  | (k', y) :: l' => if Nat.eqb k' k then (k', x) :: l'
                     else (k', y) :: nset l' k x
  end.
Fixpoint tb_effs (phs : list phase) (skip_tb : bool) (effs : list (string * R)) (acc : list (nat * R))
  : option (list (nat * R)) :=
  match effs with
  | [] => Some acc
  | (nm, e) :: effs' =>
    match species_index phs nm with
    | Some k => tb_effs phs skip_tb effs' (nset acc k e)
    | None => if skip_tb then tb_effs phs skip_tb effs' acc else None
    end
  end.

(** BulkKinetics::addReaction, BulkKinetics.cpp:19-71, with Kinetics::addReaction,
    Kinetics.cpp:613-703, inlined. *)
Definition kin_add (s : kin) (r : reaction) : kin * add_result :=
  match rx_check r with
  | Ok _ =>
    match check_species (k_phases s) (k_skip_sp s) (k_skip_tb s) r with
    | Ok false => (s, Skipped)
    | Ok true =>
      let irxn := length (k_rxns s) in
      match indices (k_phases s) (rx_reactants r), indices (k_phases s) (rx_products r) with
      | Some rk, Some pk =>
        let rstoich := map snd (rx_reactants r) in
        let pstoich := map snd (rx_products r) in
        match apply_orders (k_phases s) (rx_orders r) (rk, rstoich, rstoich) with
        | None => (s, Undefined)
        | Some (rk', rorder, rstoich') =>
          match mgr_add (k_rmgr s) irxn rk' rorder rstoich' with
          | Ok rm =>
            let s1 := mkKin (k_phases s) (k_skip_sp s) (k_skip_tb s) rm (k_pmgr s) (k_rpmgr s)
                        (k_rxns s) (k_dn s) (k_revindex s) (k_irrev s) (k_tb s) in
            match mgr_add (k_pmgr s) irxn pk pstoich pstoich with
            | Ok pm =>
              match (if rx_reversible r then mgr_add (k_rpmgr s) irxn pk pstoich pstoich
                     else Ok (k_rpmgr s)) with
              | Ok rpm =>
                let dn := fold_left (fun d '(_, x) => d - x) (rx_reactants r)
                            (fold_left (fun d '(_, x) => d + x) (rx_products r) 0) in
                let s2 tb := mkKin (k_phases s) (k_skip_sp s) (k_skip_tb s) rm pm rpm
                            (k_rxns s ++ [r]) (k_dn s ++ [dn])
                            (if rx_reversible r then k_revindex s ++ [irxn] else k_revindex s)
                            (if rx_reversible r then k_irrev s else k_irrev s ++ [irxn]) tb in
                match rx_third r with
                | None => (s2 (k_tb s), Added)
                | Some tb =>
                  match tb_effs (k_phases s) (k_skip_tb s) (tb_eff tb) [] with
                  | Some effs => (s2 (tb_install (k_tb s) irxn effs (tb_default tb) (tb_mass_action tb)),
                                  Added)
                  | None => (s2 (k_tb s), Threw)
                  end
                end
              | _ => (s1, Threw)
              end
            | _ => (s1, Threw)
            end
          | _ => (s, Threw)
          end
        end
      | _, _ => (s, Undefined)
      end
    | UB => (s, Undefined)
    | _ => (s, Threw)
    end
  | UB => (s, Undefined)
  | _ => (s, Threw)
  end.

Definition kin_adds (s : kin) (rs : list reaction) : kin :=
  fold_left (fun s r => fst (kin_add s r)) rs s.

(** ** Rates *)

(** What updateROP reads: temperature-dependent standard chemical potentials, the logarithm of the
    standard concentration, RT, activity concentrations, concentrations, molar density, the rate
    constants of the rate objects and the multipliers m_perturb; [e_concm0] is the previous content
    of m_concm (NaN when a reaction was just added, hence an arbitrary value). *)
Record env := mkEnv {
  e_mu0 : vec; e_logc0 : R; e_rt : R; e_act : vec; e_conc : vec; e_ctot : R;
  e_kf0 : vec; e_perturb : vec; e_concm0 : vec
}.

Definition BigNumber : R := IZR (10 ^ 300).   (* ct_defs.h:160 *)

(** Kinetics::getReactionDelta and getRevReactionDelta, Kinetics.cpp:362-378. *)
Definition reaction_delta (s : kin) (prop : vec) : vec :=
  mgr_decReactions (k_rmgr s) prop (mgr_incReactions (k_pmgr s) prop zeros).
Definition rev_reaction_delta (s : kin) (prop : vec) : vec :=
  mgr_decReactions (k_rmgr s) prop (mgr_incReactions (k_rpmgr s) prop zeros).

(** BulkKinetics.cpp:465-484: m_rkcn (previous content zero: Kinetics.cpp:685). *)
Definition rkcn (s : kin) (e : env) : vec :=
  let dg := rev_reaction_delta s (e_mu0 e) in
  let rrt := 1 / e_rt e in
  let v := fold_left (fun v i => upd v i (Rmin (exp (dg i * rrt - nth i (k_dn s) 0 * e_logc0 e)) BigNumber))
             (k_revindex s) zeros in
  fold_left (fun v i => upd v i 0) (k_irrev s) v.

(** BulkKinetics.cpp:486-518. *)
Definition concm (s : kin) (e : env) : vec :=
  tb_update (k_tb s) (e_conc e) (e_ctot e) (e_concm0 e).
Definition rfn (s : kin) (e : env) : vec := fun i => e_kf0 e i * e_perturb e i.
Definition rop_base (s : kin) (e : env) : vec := tb_multiply (k_tb s) (rfn s e) (concm s e).

(** BulkKinetics.cpp:521-529. *)
Definition ropf (s : kin) (e : env) : vec := mgr_multiply (k_rmgr s) (e_act e) (rop_base s e).
Definition ropr (s : kin) (e : env) : vec :=
  mgr_multiply (k_rpmgr s) (e_act e) (fun i => rop_base s e i * rkcn s e i).
Definition ropnet (s : kin) (e : env) : vec := fun i => ropf s e i - ropr s e i.

(** BulkKinetics::getEquilibriumConstants, BulkKinetics.cpp:168-183. *)
Definition equilibrium_constants (s : kin) (e : env) : vec :=
  fun i => exp (- (reaction_delta s (e_mu0 e) i) * (1 / e_rt e) + nth i (k_dn s) 0 * e_logc0 e).
(** BulkKinetics::getRevRateConstants, BulkKinetics.cpp:185-202, with the default
    (non-legacy) forward constants m_rfn. *)
Definition rev_rate_constants (s : kin) (e : env) (do_irreversible : bool) : vec :=
  if do_irreversible then fun i => rfn s e i / equilibrium_constants s e i
  else fun i => rfn s e i * rkcn s e i.

(** Kinetics::getCreationRates, getDestructionRates, getNetProductionRates, Kinetics.cpp:380-414. *)
Definition creation_rates (s : kin) (e : env) : vec :=
  mgr_incSpecies (k_rmgr s) (ropr s e) (mgr_incSpecies (k_pmgr s) (ropf s e) zeros).
Definition destruction_rates (s : kin) (e : env) : vec :=
  mgr_incSpecies (k_rmgr s) (ropf s e) (mgr_incSpecies (k_rpmgr s) (ropr s e) zeros).
Definition net_production_rates (s : kin) (e : env) : vec :=
  mgr_decSpecies (k_rmgr s) (ropnet s e) (mgr_incSpecies (k_pmgr s) (ropnet s e) zeros).

(** ** Kinetics::modifyReaction, Kinetics.cpp:705-741. [same_type] is the comparison of the reaction
    and rate type strings (lines 710-726); operator== on the maps is [maps_eqb].  The managers are left
    as they are.  The result tells whether the call returned normally. *)
Fixpoint maps_eqb (l1 l2 : list (string * R)) : bool :=
  match l1, l2 with
  | [], [] => true
  | (a, x) :: l1', (b, y) :: l2' => String.eqb a b && Reqb x y && maps_eqb l1' l2'
  | _, _ => false
  end.
Definition modify_reaction (s : kin) (i : nat) (r : reaction) (same_type : bool) : kin * bool :=
  match nth_error (k_rxns s) i with
  | None => (s, false)
  | Some old =>
    if negb same_type then (s, false)
    else if negb (maps_eqb (rx_reactants r) (rx_reactants old)) then (s, false)
    else if negb (maps_eqb (rx_products r) (rx_products old)) then (s, false)
    else (mkKin (k_phases s) (k_skip_sp s) (k_skip_tb s) (k_rmgr s) (k_pmgr s) (k_rpmgr s)
            (set_nth i r (k_rxns s)) (k_dn s) (k_revindex s) (k_irrev s) (k_tb s), true)
  end.
