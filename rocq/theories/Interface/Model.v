(** Rates at interfaces: InterfaceRate.h/.cpp (coverage dependence, charge transfer, sticking),
    InterfaceData, and the rate-of-progress part of InterfaceKinetics.cpp.  Numbers are reals. *)
From Coq Require Import Reals ZArith String List Bool.
From Verif Require Import Base.Fp Base.RSum Units.Model.
Import ListNotations.
Open Scope R_scope.

(** ct_defs.h:173, 81, 90, 131. *)
Definition Tiny : R := / 10 ^ 20.
Definition Avogadro : R := 602214076 * 10 ^ 18.
Definition ElectronCharge : R := 1602176634 / 10 ^ 28.
Definition Faraday : R := ElectronCharge * Avogadro.

(** ** Coverage dependence *)

(** The modifier of the activation energy in the input, in kelvin after conversion: a scalar or a
    list (InterfaceRate.cpp:151-160). *)
Inductive energy := ELin (e : R) | EPoly (es : list R).
Record dep := Dep { d_name : string; d_a : R; d_m : R; d_E : energy }.

(** The members of InterfaceRateBase that concern coverages (InterfaceRate.h).  i_indices is the map
    from positions in m_cov to kinetics species.  i_comp is ReactionRate::m_composition_dependent_rate. *)
Record irate := Irate { i_cov : list string; i_ac : list R; i_ec : list (list R); i_mc : list R;
  i_lindep : list bool; i_indices : list (nat * nat); i_comp : bool }.
Definition new_rate : irate := Irate [] [] [] [] [] [] false.

(** InterfaceRate.cpp:199-212; sticking: StickingRate does not override the method, so that
    setCompositionDependence is called for InterfaceRate only (InterfaceRate.h:443-448).  None: exception. *)
Definition add_cov (sticking : bool) (sp : string) (a m : R) (e : list R) (r : irate) : option irate :=
  if existsb (String.eqb sp) (i_cov r) then None
  else Some (Irate (i_cov r ++ [sp]) (i_ac r ++ [a]) (i_ec r ++ [e]) (i_mc r ++ [m])
                   (i_lindep r) [] (if sticking then i_comp r else true)).

(** E has five entries, the first 0 (InterfaceRate.cpp:146-174); a list must have one to
    four entries. *)
Definition energies (E : energy) : option (list R) :=
  match E with
  | ELin e => Some [0; e; 0; 0; 0]
  | EPoly es => if (1 <=? length es)%nat && (length es <=? 4)%nat
                then Some (0 :: es ++ repeat 0 (4 - length es)) else None
  end.
Definition is_lin (E : energy) : bool := match E with ELin _ => true | EPoly _ => false end.
(** InterfaceRate.cpp:136-178.  m_indices is not among the members cleared. *)
Fixpoint add_deps (sticking : bool) (deps : list dep) (r : irate) : option irate :=
  match deps with
  | [] => Some r
  | d :: rest =>
      let r1 := Irate (i_cov r) (i_ac r) (i_ec r) (i_mc r) (i_lindep r ++ [is_lin (d_E d)])
                      (i_indices r) (i_comp r) in
      match energies (d_E d) with
      | None => None
      | Some e => match add_cov sticking (d_name d) (d_a d) (d_m d) e r1 with
                  | None => None
                  | Some r2 => add_deps sticking rest r2
                  end
      end
  end.
Definition set_cov (sticking : bool) (deps : list dep) (r : irate) : option irate :=
  add_deps sticking deps (Irate [] [] [] [] [] (i_indices r) (i_comp r)).

(** InterfaceRate.cpp:180-197. *)
Definition get_one (r : irate) (k : nat) : dep :=
  let e := nth k (i_ec r) [] in
  Dep (nth k (i_cov r) EmptyString) (nth k (i_ac r) 0) (nth k (i_mc r) 0)
      (if nth k (i_lindep r) false then ELin (nth 1 e 0)
       else EPoly (map (fun i => nth (S i) e 0) (seq 0 4))).
Definition get_cov (r : irate) : list dep := map (get_one r) (seq 0 (length (i_cov r))).

(** InterfaceRate.cpp:214-226: the species list is that of the surface phase.  None: exception. *)
Fixpoint find_pos (sp : string) (l : list string) : option nat :=
  match l with
  | [] => None
  | x :: l' => if String.eqb x sp then Some O else option_map S (find_pos sp l')
  end.
Fixpoint index_from (k : nat) (cov species : list string) : option (list (nat * nat)) :=
  match cov with
  | [] => Some []
  | c :: rest => match find_pos c species with
                 | None => None
                 | Some i => option_map (cons (k, i)) (index_from (S k) rest species)
                 end
  end.
Definition set_species (species : list string) (r : irate) : option irate :=
  match index_from 0 (i_cov r) species with
  | None => None
  | Some ix => Some (Irate (i_cov r) (i_ac r) (i_ec r) (i_mc r) (i_lindep r) ix (i_comp r))
  end.

(** utilities.h:152-157. *)
Definition poly4 (x : R) (c : list R) : R :=
  (((nth 4 c 0 * x + nth 3 c 0) * x + nth 2 c 0) * x + nth 1 c 0) * x + nth 0 c 0.
(** InterfaceRate.cpp:63-66. *)
Definition log_cov (theta : R) : R := ln (Rmax theta Tiny).

(** InterfaceRate.cpp:233-251: m_acov, m_ecov, m_mcov.  CNaN: the setup is incomplete; CUndef: m_lindep
    is read beyond its end. *)
Inductive cres := CNaN | CUndef | CVal (acov ecov mcov : R).
Fixpoint cov_loop (r : irate) (theta : nat -> R) (ix : list (nat * nat)) (a e m : R) : cres :=
  match ix with
  | [] => CVal a e m
  | (ic, ik) :: rest =>
      match nth_error (i_lindep r) ic with
      | None => CUndef
      | Some lin =>
          let ec := nth ic (i_ec r) [] in
          cov_loop r theta rest
            (a + nth ic (i_ac r) 0 * theta ik)
            (e + (if lin then nth 1 ec 0 * theta ik else poly4 (theta ik) ec))
            (m + nth ic (i_mc r) 0 * log_cov (theta ik))
      end
  end.
Definition cov_terms (r : irate) (theta : nat -> R) : cres :=
  if Nat.eqb (length (i_indices r)) (length (i_cov r)) then cov_loop r theta (i_indices r) 0 0 0
  else CNaN.

(** The base rate, ArrheniusRate::evalRate (Arrhenius.h). *)
Definition arrhenius (A b Ea_R T : R) : R := A * exp (b * ln T - Ea_R * / T).

(** ** Charge transfer *)

(** InterfaceRateBase::setContext, InterfaceRate.cpp:279-303: m_stoichCoeffs as (kinetics species,
    signed coefficient), and m_netCharges. *)
Definition stoich_coeffs (reac prod : list (nat * R)) : list (nat * R) :=
  map (fun p => (fst p, - snd p)) reac ++ prod.
Definition net_charges (phase_of : nat -> nat) (charge : nat -> R) (st : list (nat * R)) : list (nat * R) :=
  map (fun p => (phase_of (fst p), Faraday * charge (fst p) * snd p)) st.
(** InterfaceRate.cpp:253-261. *)
Definition delta_potential_RT (phi : nat -> R) (T : R) (nc : list (nat * R)) : R :=
  sum_of (fun p => phi (fst p) * snd p) nc / (GasConstant * T).
(** InterfaceRate.cpp:263-276. *)
Definition delta_gibbs0_RT (mu0 : nat -> R) (T : R) (st : list (nat * R)) : R :=
  sum_of (fun p => mu0 (fst p) * snd p) st / (GasConstant * T).
Definition prod_conc (c0 : nat -> R) (st : list (nat * R)) : R :=
  prod_of (fun p => if rltb 0 (snd p) then c0 (fst p) else 1) st.
(** InterfaceRateBase::voltageCorrection, InterfaceRate.h:162-187. *)
Definition voltage (beta dpot : R) (ecd : bool) (dg prodc : R) : R :=
  let c := if reqb dpot 0 then 1 else exp (- beta * dpot) in
  if ecd then c * (exp (- beta * dg) / (prodc * Faraday)) else c.
(** Reaction::usesElectrochemistry, Reaction.cpp:714-744: products first, then reactants. *)
Definition e_counter (phase_of : nat -> nat) (charge : nat -> R) (reac prod : list (nat * R)) (n : nat) : R :=
  sum_of (fun p => if Nat.eqb (phase_of (fst p)) n then snd p * charge (fst p) else 0) prod
  - sum_of (fun p => if Nat.eqb (phase_of (fst p)) n then snd p * charge (fst p) else 0) reac.
Definition uses_electro (nph : nat) (phase_of : nat -> nat) (charge : nat -> R) (reac prod : list (nat * R)) : bool :=
  existsb (fun n => rltb (/ 10 ^ 4) (Rabs (e_counter phase_of charge reac prod n))) (seq 0 nph).

(** InterfaceRate::evalFromStruct, InterfaceRate.h:418-425; volt is voltageCorrection(). *)
Definition interface_rate (base T acov ecov mcov : R) (transfer : bool) (volt : R) : R :=
  let out := base * exp (ln 10 * acov - ecov * / T + mcov) in
  if transfer then out * volt else out.

(** ** Sticking *)

(** A reactant of a sticking reaction: kind, molecular weight and order (the coefficient, unless
    overridden, InterfaceRate.cpp:395). *)
Inductive kind := Surf (size : R) | Other (gas : bool) (c0 : R).
Record sreact := Sreact { s_name : string; s_stoich : R; s_kind : kind; s_W : R }.
Definition order_of (orders : list (string * R)) (s : sreact) : R :=
  match find (fun p => String.eqb (fst p) (s_name s)) orders with
  | Some (_, o) => o | None => s_stoich s end.
(** InterfaceRate.cpp:344-377.  None: exception. *)
Definition sticking_species (given : string) (rs : list sreact) : option string :=
  if negb (String.eqb given EmptyString) then Some given
  else
    let any := map s_name (filter (fun s => match s_kind s with Surf _ => false | _ => true end) rs) in
    let gas := map s_name (filter (fun s => match s_kind s with Other true _ => true | _ => false end) rs) in
    match gas with
    | [g] => Some g
    | _ => match any with [a] => Some a | _ => None end
    end.
(** pow(x, y). *)
Definition powr (x y : R) : R := Rpower x y.
(** InterfaceRate.cpp:380-405: multiplier and surface order. *)
Fixpoint stick_loop (orders : list (string * R)) (sp : string) (rs : list sreact) (mult so : R) : R * R :=
  match rs with
  | [] => (mult, so)
  | s :: rest =>
      if String.eqb (s_name s) sp then
        stick_loop orders sp rest (mult * sqrt (GasConstant / (2 * PI * s_W s))) so
      else
        let o := order_of orders s in
        match s_kind s with
        | Surf size => stick_loop orders sp rest (mult * powr size o) (so + o)
        | Other _ c0 => stick_loop orders sp rest (mult * powr c0 (- o)) so
        end
  end.
(** StickingRate::updateFromStruct and evalFromStruct, InterfaceRate.h:546-568; gamma is the sticking
    coefficient with its coverage (and voltage) factors. *)
Definition motz_wise (mw : bool) (gamma : R) : R := if mw then gamma / (1 - 1/2 * gamma) else gamma.
Definition sticking_rate (mw : bool) (gamma siteDensity T mult so : R) : R :=
  motz_wise mw gamma * powr siteDensity (- so) * sqrt T * mult.

(** ** The data shared by the rates of an interface: InterfaceData::update, InterfaceRate.cpp:44-86 *)

(** A phase as far as the update looks at it.  p_mf is stateMFNumber; p_comp stands for the composition
    (of phase 0: the coverages). *)
Record phs := Phs { p_mf : Z; p_T : R; p_P : R; p_comp : list R; p_phi : R }.
(** What the enthalpies, standard potentials and standard concentrations of a phase are functions of. *)
Definition snap (p : phs) : R * R * list R := (p_T p, p_P p, p_comp p).
(** id_T, id_site: None is NaN, different from every number. *)
Record idata := Idata { id_T : option R; id_site : option R; id_mf : Z; id_cov : list R;
  id_phi : list R; id_snap : list (R * R * list R) }.
Definition fresh_data : idata := Idata None None (-1) [] [] [].
Definition oeqb (x : option R) (y : R) : bool := match x with Some v => reqb v y | None => false end.
Definition mf_sum (ps : list phs) : Z := fold_right (fun p n => (p_mf p + n)%Z) 0%Z ps.
Definition data_update (site : R) (ps : list phs) (d : idata) : idata * bool :=
  match ps with
  | [] => (d, false)
  | surf :: _ =>
      let changed := negb (oeqb (id_site d) site) || negb (oeqb (id_T d) (p_T surf)) in
      if changed || negb (Z.eqb (mf_sum ps) (id_mf d)) then
        (Idata (Some (p_T surf)) (Some site) (mf_sum ps) (p_comp surf) (map p_phi ps) (map snap ps), true)
      else (d, false)
  end.
(** Changes of a phase.  Setting the composition calls compositionChanged, setting the electric
    potential calls invalidateCache, which also advances the number (ThermoPhase.h:650-653,
    ThermoPhase.cpp:1162-1165, Phase.cpp:908-911, 923-925).  Setting temperature or pressure does not. *)
Inductive change := SetComp (c : list R) | SetPhi (v : R) | SetT (t : R) | SetP (p : R).
Definition apply_change (c : change) (p : phs) : phs :=
  match c with
  | SetComp x => Phs (p_mf p + 1) (p_T p) (p_P p) x (p_phi p)
  | SetPhi v => Phs (p_mf p + 1) (p_T p) (p_P p) (p_comp p) v
  | SetT t => Phs (p_mf p) t (p_P p) (p_comp p) (p_phi p)
  | SetP q => Phs (p_mf p) (p_T p) q (p_comp p) (p_phi p)
  end.
(** MultiRate::resize, add and replace forget the temperature (ReactionData.h:108-110, MultiRate.h). *)
Inductive event := Change (i : nat) (c : change) | SetSite (g : R) | Evaluate | Modified.
Fixpoint upd_nth {A} (i : nat) (f : A -> A) (l : list A) : list A :=
  match l, i with
  | [], _ => []
  | x :: l', O => f x :: l'
  | x :: l', S j => x :: upd_nth j f l'
  end.
Definition istep (e : event) (s : R * list phs * idata) : R * list phs * idata :=
  let '(g, ps, d) := s in
  match e with
  | Change i c => (g, upd_nth i (apply_change c) ps, d)
  | SetSite g' => (g', ps, d)
  | Evaluate => (g, ps, fst (data_update g ps d))
  | Modified => (g, ps, Idata None (id_site d) (id_mf d) (id_cov d) (id_phi d) (id_snap d))
  end.
Definition irun (es : list event) (s : R * list phs * idata) : R * list phs * idata :=
  fold_left (fun s e => istep e s) es s.

(** ** Rates of progress: InterfaceKinetics.cpp *)

(** InterfaceKinetics::updateMu0, 148-164: the potential of a species with its concentration term. *)
Definition mu0_Kc (T : R) (mu0 : nat -> R) (phi : nat -> R) (phase_of : nat -> nat) (charge c0 : nat -> R) (k : nat) : R :=
  mu0 k + Faraday * phi (phase_of k) * charge k - GasConstant * T * ln (c0 k).
(** getReactionDelta: products minus reactants. *)
Definition delta (g : nat -> R) (reac prod : list (nat * R)) : R :=
  sum_of (fun p => snd p * g (fst p)) prod - sum_of (fun p => snd p * g (fst p)) reac.
(** updateKc, 117-146, and getEquilibriumConstants, 166-175. *)
Definition rkc (T : R) (rev : bool) (muKc : nat -> R) (reac prod : list (nat * R)) : R :=
  if rev then exp (delta muKc reac prod * (1 / (GasConstant * T))) else 0.
Definition kc (T : R) (muKc : nat -> R) (reac prod : list (nat * R)) : R :=
  exp (- delta muKc reac prod * (1 / (GasConstant * T))).
(** updateROP, 213-231; the orders are the coefficients. *)
Definition conc_prod (c : nat -> R) (l : list (nat * R)) : R := prod_of (fun p => powr (c (fst p)) (snd p)) l.
Definition rop_f (kf pert : R) (c : nat -> R) (reac : list (nat * R)) : R := kf * pert * conc_prod c reac.
Definition rop_r (kf pert rk : R) (c : nat -> R) (prod : list (nat * R)) : R := kf * pert * rk * conc_prod c prod.

(** The check of phases, updateROP, 233-279, for one reaction: is_r, is_p tell which phases take part,
    ex, st which exist and are stable.  State: (ropf, ropr, ropnet). *)
Definition rstep := (R * R * R)%type.
(** Reverse direction (ropr > ropf). *)
Definition rev_phase (nph : nat) (is_r is_p ex st : nat -> bool) (s : rstep) (p : nat) : rstep :=
  let '(f, r, n) := s in
  let s1 := if is_p p && negb (ex p) then
              let s' := (f, f, 0) in
              if rltb 0 f then
                fold_left (fun s rp => if is_r rp && negb (ex rp) then (0, 0, 0) else s) (seq 0 nph) s'
              else s'
            else (f, r, n) in
  let '(f1, r1, n1) := s1 in
  if is_r p && negb (st p) then (f1, f1, 0) else s1.
Definition fwd_phase (nph : nat) (is_r is_p ex st : nat -> bool) (s : rstep) (p : nat) : rstep :=
  let '(f, r, n) := s in
  let s1 := if is_r p && negb (ex p) then
              let s' := (r, r, 0) in
              if rltb 0 r then
                fold_left (fun s rp => if is_p rp && negb (ex rp) then (0, 0, 0) else s) (seq 0 nph) s'
              else s'
            else (f, r, n) in
  let '(f1, r1, n1) := s1 in
  if is_p p && negb (st p) then (r1, r1, 0) else s1.
Definition phase_check (nph : nat) (is_r is_p ex st : nat -> bool) (f r : R) : rstep :=
  let s := (f, r, f - r) in
  if rltb f r && rltb 0 r then fold_left (rev_phase nph is_r is_p ex st) (seq 0 nph) s
  else if rltb r f && rltb 0 f then fold_left (fwd_phase nph is_r is_p ex st) (seq 0 nph) s
  else s.

(** m_phaseExistsCheck, m_phaseExists, m_phaseIsStable and their setters, 487-492 (addThermo) and
    548-587. *)
Record pflags := Pflags { pf_count : Z; pf_ex : list bool; pf_st : list bool }.
Definition set_nth {A} (i : nat) (x : A) (l : list A) : list A := upd_nth i (fun _ => x) l.
Inductive pop := AddThermo | SetExist (i : nat) (b : bool) | SetStable (i : nat) (b : bool).
(** None: checkPhaseIndex throws. *)
Definition pstep (o : pop) (s : pflags) : option pflags :=
  match o with
  | AddThermo => Some (Pflags (pf_count s) (pf_ex s ++ [true]) (pf_st s ++ [true]))
  | SetExist i b =>
      match nth_error (pf_ex s) i with
      | None => None
      | Some ex =>
          if b then
            Some (Pflags (if ex then pf_count s else Z.max (pf_count s - 1) 0)
                         (if ex then pf_ex s else set_nth i true (pf_ex s)) (set_nth i true (pf_st s)))
          else
            Some (Pflags (if ex then (pf_count s + 1)%Z else pf_count s)
                         (if ex then set_nth i false (pf_ex s) else pf_ex s) (set_nth i false (pf_st s)))
      end
  | SetStable i b =>
      match nth_error (pf_ex s) i with
      | None => None
      | Some _ => Some (Pflags (pf_count s) (pf_ex s) (set_nth i b (pf_st s)))
      end
  end.
(** A call that throws leaves the flags as they were. *)
Definition prun (os : list pop) (s : pflags) : pflags :=
  fold_left (fun s o => match pstep o s with Some s' => s' | None => s end) os s.
Definition no_phases : pflags := Pflags 0 [] [].
(** updateROP for one reaction with the flags (ropf and ropr before the check). *)
Definition checked (s : pflags) (is_r is_p : nat -> bool) (f r : R) : rstep :=
  if Z.eqb (pf_count s) 0 then (f, r, f - r)
  else phase_check (length (pf_ex s)) is_r is_p (fun p => nth p (pf_ex s) true) (fun p => nth p (pf_st s) true) f r.

(** interfaceCurrent, 589-605: prod is the net production rate of each species. *)
Definition current (species : list nat) (charge prod : nat -> R) : R :=
  sum_of (fun k => charge k * prod k) species * Faraday.

(** setDerivativeSettings and getDerivativeSettings, InterfaceKinetics.cpp:642-663.  A missing key is
    None; an empty map resets everything. *)
Record dsettings := Dsettings { ds_cov : bool; ds_elec : bool; ds_rtol : R }.
Record dinput := Dinput { di_cov : option bool; di_elec : option bool; di_rtol : option R }.
Definition default_rtol : R := / 10 ^ 8.
Definition set_deriv (i : dinput) (s : dsettings) : dsettings :=
  match i with
  | Dinput None None None => Dsettings false false default_rtol
  | _ => Dsettings (match di_cov i with Some b => b | None => ds_cov s end)
                   (match di_elec i with Some b => b | None => ds_elec s end)
                   (match di_rtol i with Some x => x | None => ds_rtol s end)
  end.
Definition get_deriv (s : dsettings) : dinput :=
  Dinput (Some (ds_elec s)) (Some (ds_cov s)) (Some (ds_rtol s)).
(** assertDerivativesValid, 674-681, with the flags set in addReaction, 433-441.  true: no exception. *)
Definition deriv_valid (s : dsettings) (has_cov has_elec : bool) : bool :=
  negb (negb (ds_cov s) && has_cov) && negb (negb (ds_elec s) && has_elec).
