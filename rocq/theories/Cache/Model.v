(* Memoised properties: ValueCache and the objects that keep results of earlier evaluations.
   include/cantera/base/ValueCache.h, src/base/ValueCache.cpp, and the users named below.
   Keys are doubles with NaN and infinities (Base/Fp.v). *)
From Coq Require Import Reals ZArith List Bool Arith.
From Verif Require Import Base.Fp Base.Outcome Base.Map2.
Import ListNotations.
Local Open Scope R_scope.
Local Open Scope list_scope.

(* ---------------------------------------------------------------- *)
(** * ValueCache *)
Section Values.
Context {A : Type}.
(* CachedValue<T>, ValueCache.h:33-116. *)
Record cval := CV { k1 : fp; k2 : fp; kn : Z; val : A }.
Definition int_min : Z := -2147483648.
Definition cval0 (a : A) : cval := CV NaN NaN int_min a.
(* The five overloads of validate, ValueCache.h:38-102: whether the entry is valid, and the entry
   after the call. *)
Inductive keys := KD (a : fp) | KDD (a b : fp) | KDI (a : fp) (n : Z) | KI (n : Z) | KDDI (a b : fp) (n : Z).
Definition validate (c : cval) (k : keys) : bool * cval :=
  match k with
  | KD a => if feqb (k1 c) a then (true, c) else (false, CV a (k2 c) (kn c) (val c))
  | KDD a b => if feqb (k1 c) a && feqb (k2 c) b then (true, c) else (false, CV a b (kn c) (val c))
  | KDI a n => if feqb (k1 c) a && Z.eqb (kn c) n then (true, c) else (false, CV a (k2 c) n (val c))
  | KI n => if Z.eqb (kn c) n then (true, c) else (false, CV (k1 c) (k2 c) n (val c))
  | KDDI a b n => if feqb (k1 c) a && feqb (k2 c) b && Z.eqb (kn c) n then (true, c) else (false, CV a b n (val c))
  end.
(* The map m_scalarCache or m_arrayCache: getScalar and getArray (ValueCache.h:140-150) create an
   entry that does not exist; writes through the reference change the entry. *)
Definition cache := nat -> option cval.
Definition empty : cache := fun _ => None.
Definition getEntry (m : cache) (dflt : A) (id : nat) : cval := match m id with Some c => c | None => cval0 dflt end.
Definition setEntry (m : cache) (id : nat) (c : cval) : cache := fun i => if Nat.eqb i id then Some c else m i.
(* ValueCache::clear, ValueCache.cpp:27-31. *)
Definition clear (m : cache) : cache := empty.
(* The use of an entry in HMWSoln::dA_DebyedP_TP, HMWSoln.cpp:1021-1042: validate, otherwise compute
   and store. The computation may throw. *)
Definition memo (m : cache) (dflt : A) (id : nat) (k : keys) (compute : outcome A) : outcome A * cache :=
  let (hit, c) := validate (getEntry m dflt id) k in
  if hit then (Ok (val c), setEntry m id c)
  else match compute with
       | Ok v => (Ok v, setEntry m id (CV (k1 c) (k2 c) (kn c) v))
       | e => (e, setEntry m id c)
       end.
End Values.
Arguments cval : clear implicits.
Arguments cache : clear implicits.
(* ValueCache::getId, ValueCache.cpp:21-25 (under a lock): the new value of m_last_id, which is returned. *)
Definition getId (last : nat) : nat := S last.

(* An object with several methods that memoise: its state, its cache, and what happens to it. *)
Section Object.
Context {S A : Type} (dflt : A) (keysof : nat -> S -> keys) (compute : nat -> S -> outcome A).
Inductive event := EState (s : S) | EClear | ERead (id : nat).
Definition ostep (o : S * cache A) (e : event) : option (outcome A) * (S * cache A) :=
  match e with
  | EState s => (None, (s, snd o))
  | EClear => (None, (fst o, clear (snd o)))
  | ERead id => let (r, m) := memo (snd o) dflt id (keysof id (fst o)) (compute id (fst o)) in (Some r, (fst o, m))
  end.
Fixpoint oruns (o : S * cache A) (h : list event) : S * cache A :=
  match h with [] => o | e :: h => oruns (snd (ostep o e)) h end.
End Object.
Arguments event : clear implicits.

(* ---------------------------------------------------------------- *)
(** * Reference-state properties of phases *)
(* What m_spthermo holds (D) and MultiSpeciesThermo::update (modelled in SpThermo/Model.v): for each
   species, cp/R, H/RT, S/R at a temperature. A changed D stands for modifyOneHf298SS
   (ThermoPhase.h:485), resetHf298 (ThermoPhase.cpp:28-37) and modifySpecies (ThermoPhase.cpp:
   1067-1081), each of which calls invalidateCache. *)
Section Phases.
Context {D : Type} (eval : D -> fp -> nat -> R * R * R).
Definition gibbs3 (v : R * R * R) : R := snd (fst v) - snd v.
(* Phase::setTemperature, Phase.h:624-631. *)
Definition good_T (t : fp) : bool := fltb (Fin 0) t.

(** IdealGasPhase: m_cache entry of updateThermo (state1), m_cp0_R/m_h0_RT/m_s0_R and m_g0_RT. *)
Record gas := GS { g_d : D; g_T : fp; g_key : fp; g_v : nat -> R * R * R; g_g : nat -> R }.
(* Phase::invalidateCache, Phase.cpp:908-911 (the map is cleared, so the key is NaN again). *)
Definition g_invalidate (s : gas) : gas := GS (g_d s) (g_T s) NaN (g_v s) (g_g s).
(* IdealGasPhase::updateThermo, IdealGasPhase.cpp:267-284. *)
Definition g_update (s : gas) : gas :=
  if negb (feqb (g_key s) (g_T s)) then
    GS (g_d s) (g_T s) (g_T s) (eval (g_d s) (g_T s)) (fun k => gibbs3 (eval (g_d s) (g_T s) k))
  else s.
Inductive pop := PT (t : fp) | PData (d : D) | PRead.
Definition g_step (s : gas) (o : pop) : gas :=
  match o with
  | PT t => if good_T t then GS (g_d s) t (g_key s) (g_v s) (g_g s) else s
  | PData d => g_invalidate (GS d (g_T s) (g_key s) (g_v s) (g_g s))
  | PRead => g_update s
  end.
(* m_temp = 0.001, vectors of zeros. *)
Definition g_init (d : D) : gas := GS d (Fin (1 / 1000)) NaN (fun _ => (0, 0, 0)) (fun _ => 0).

(** PlasmaPhase: a second entry (state1, state2) for the electron species e at its own temperature. *)
Record plasma := PL { p_gas : gas; p_Te : fp; p_k1 : fp; p_k2 : fp }.
Definition set_at {B} (f : nat -> B) (k : nat) (b : B) : nat -> B := fun i => if Nat.eqb i k then b else f i.
(* PlasmaPhase::updateThermo, PlasmaPhase.cpp:482-501. *)
Definition p_update (e : nat) (s : plasma) : plasma :=
  let g := g_update (p_gas s) in
  let stale := negb (feqb (p_k1 s) (g_T g)) || negb (feqb (p_k2 s) (p_Te s)) in
  let v := if stale then set_at (g_v g) e (eval (g_d g) (p_Te s) e) else g_v g in
  PL (GS (g_d g) (g_T g) (g_key g) v (set_at (g_g g) e (gibbs3 (v e)))) (p_Te s)
     (if stale then g_T g else p_k1 s) (if stale then p_Te s else p_k2 s).
Inductive plop := LT (t : fp) | LTe (t : fp) | LData (d : D) | LRead.
Definition p_step (e : nat) (s : plasma) (o : plop) : plasma :=
  match o with
  | LT t => PL (g_step (p_gas s) (PT t)) (p_Te s) (p_k1 s) (p_k2 s)
  | LTe t => PL (p_gas s) t (p_k1 s) (p_k2 s)
  | LData d => PL (g_step (p_gas s) (PData d)) (p_Te s) NaN NaN
  | LRead => p_update e s
  end.
Definition p_init (d : D) (te : fp) : plasma := PL (g_init d) te NaN NaN.

(** Phases that remember the last temperature in m_tlast: SurfPhase::_updateThermo (SurfPhase.cpp:
    303-317), LatticePhase (269-281), IdealSolidSolnPhase (428-442), SingleSpeciesTP (242-249) and
    MixtureFugacityTP::_updateReferenceStateThermo (719-740). Quantities computed from v at the same
    time (m_g0_RT, m_mu0) are not repeated. *)
Record tphase := TP { t_d : D; t_T : fp; t_last : fp; t_v : nat -> R * R * R }.
Definition shift : R := 1234 / 10000.
(* ThermoPhase::invalidateCache, ThermoPhase.cpp:1162-1165. *)
Definition t_invalidate (s : tphase) : tphase := TP (t_d s) (t_T s) (fadd (t_last s) (Fin shift)) (t_v s).
Definition t_update (s : tphase) : tphase :=
  if negb (feqb (t_last s) (t_T s)) then TP (t_d s) (t_T s) (t_T s) (eval (t_d s) (t_T s)) else s.
Definition t_step (s : tphase) (o : pop) : tphase :=
  match o with
  | PT t => if good_T t then TP (t_d s) t (t_last s) (t_v s) else s
  | PData d => t_invalidate (TP d (t_T s) (t_last s) (t_v s))
  | PRead => t_update s
  end.
(* m_tlast = 0, ThermoPhase.h:2069. *)
Definition t_init (d : D) : tphase := TP d (Fin (1 / 1000)) (Fin 0) (fun _ => (0, 0, 0)).

(** CoverageDependentSurfPhase: the coverage-dependent parts depend on temperature and coverages C.
    m_stateNum counts composition changes and invalidations. *)
Context {C : Type} (covdep : fp -> C -> nat -> R * R * R).
Record cphase := CP { c_t : tphase; c_comp : C; c_num : Z; c_numlast : Z; c_cov : nat -> R * R * R }.
(* _updateCovDepThermo, CoverageDependentSurfPhase.cpp:456-528. *)
Definition c_update_cov (s : cphase) : cphase :=
  if negb (Z.eqb (c_numlast s) (c_num s)) || negb (feqb (t_last (c_t s)) (t_T (c_t s))) then
    CP (c_t s) (c_comp s) (c_num s) (c_num s) (covdep (t_T (c_t s)) (c_comp s))
  else s.
(* _updateTotalThermo, CoverageDependentSurfPhase.cpp:530-541. *)
Definition c_update (s : cphase) : cphase :=
  let s := c_update_cov s in CP (t_update (c_t s)) (c_comp s) (c_num s) (c_numlast s) (c_cov s).
Inductive cop := CT (t : fp) | CComp (c : C) | CData (d : D) | CReadRef | CRead.
(* CReadRef: getEnthalpy_RT_ref and its like, CoverageDependentSurfPhase.cpp:322-344. *)
Definition c_step (s : cphase) (o : cop) : cphase :=
  match o with
  | CT t => CP (t_step (c_t s) (PT t)) (c_comp s) (c_num s) (c_numlast s) (c_cov s)
  | CComp c => CP (c_t s) c (c_num s + 1) (c_numlast s) (c_cov s)
  | CData d => CP (t_step (c_t s) (PData d)) (c_comp s) (c_num s + 1) (c_numlast s) (c_cov s)
  | CReadRef => CP (t_update (c_t s)) (c_comp s) (c_num s) (c_numlast s) (c_cov s)
  | CRead => c_update s
  end.
(* m_stateNum = -1 (Phase.h:919), m_stateNumlast = -2. *)
Definition c_init (d : D) (c : C) : cphase := CP (t_init d) c (-1) (-2) (fun _ => (0, 0, 0)).
Definition total (a b : R * R * R) : R * R * R := (fst (fst a) + fst (fst b), snd (fst a) + snd (fst b), snd a + snd b).
Definition c_props (s : cphase) (k : nat) : R * R * R := total (t_v (c_t s) k) (c_cov s k).

(** VPStandardStateTP: reference-state values (of PDSS objects) with key m_tlast, standard-state
    values with keys m_Tlast_ss and m_Plast_ss. *)
Context (evals : D -> fp -> fp -> nat -> R * R * R).
Record vphase := VP { v_d : D; v_T : fp; v_P : fp; v_tlast : fp; v_Tss : fp; v_Pss : fp;
                      v_ref : nat -> R * R * R; v_ss : nat -> R * R * R }.
Definition shift_ss : R := 1234 / 10000000.
(* VPStandardStateTP::invalidateCache, VPStandardStateTP.cpp:255-259. *)
Definition v_invalidate (s : vphase) : vphase :=
  VP (v_d s) (v_T s) (v_P s) (fadd (v_tlast s) (Fin shift)) (fadd (v_Tss s) (Fin shift_ss)) (v_Pss s) (v_ref s) (v_ss s).
(* updateStandardStateThermo and _updateStandardStateThermo, VPStandardStateTP.cpp:261-293. *)
Definition v_update (s : vphase) : vphase :=
  if negb (feqb (v_T s) (v_Tss s)) || negb (feqb (v_T s) (v_tlast s)) || negb (feqb (v_P s) (v_Pss s)) then
    VP (v_d s) (v_T s) (v_P s) (v_T s) (v_T s) (v_P s)
       (if negb (feqb (v_T s) (v_tlast s)) then eval (v_d s) (v_T s) else v_ref s)
       (evals (v_d s) (v_T s) (v_P s))
  else s.
Inductive vop := VT (t : fp) | VPr (p : fp) | VData (d : D) | VRead.
Definition v_step (s : vphase) (o : vop) : vphase :=
  match o with
  | VT t => if good_T t then VP (v_d s) t (v_P s) (v_tlast s) (v_Tss s) (v_Pss s) (v_ref s) (v_ss s) else s
  | VPr p => VP (v_d s) (v_T s) p (v_tlast s) (v_Tss s) (v_Pss s) (v_ref s) (v_ss s)
  | VData d => v_invalidate (VP d (v_T s) (v_P s) (v_tlast s) (v_Tss s) (v_Pss s) (v_ref s) (v_ss s))
  | VRead => v_update s
  end.
(* m_Pcurrent = OneAtm, m_Tlast_ss = -1, m_Plast_ss = -1 (VPStandardStateTP.h:236-250). *)
Definition v_init (d : D) : vphase :=
  VP d (Fin (1 / 1000)) (Fin 101325) (Fin 0) (Fin (-1)) (Fin (-1)) (fun _ => (0, 0, 0)) (fun _ => (0, 0, 0)).
End Phases.
Arguments pop : clear implicits.
Arguments plop : clear implicits.
Arguments cop : clear implicits.
Arguments vop : clear implicits.
Arguments gas : clear implicits.
Arguments plasma : clear implicits.
Arguments tphase : clear implicits.
Arguments cphase : clear implicits.
Arguments vphase : clear implicits.

(* ---------------------------------------------------------------- *)
(** * HMWSoln::A_Debye_TP *)
(* m_A_Debye (None: not initialised), m_form_A_Debye (true: from the water model), and the entry of the
   cache. *)
Record hmw := HM { h_A : option R; h_water : bool; h_c : cval unit }.
(* HMWSoln::setA_Debye, HMWSoln.cpp:512-520. *)
Definition h_setA (s : hmw) (a : R) : hmw := if rltb a 0 then HM (h_A s) true (h_c s) else HM (Some a) false (h_c s).
(* HMWSoln.cpp:955-985, at T and P (given or current); adebye is WaterProps::ADebye(T, P, 0). *)
Definition h_ret (a : option R) : outcome R := match a with Some a => Ok a | None => UB end.
Definition h_read (adebye : fp -> fp -> outcome R) (s : hmw) (T P : fp) : outcome R * hmw :=
  let (hit, c) := validate (h_c s) (KDD T P) in
  if hit then (h_ret (h_A s), HM (h_A s) (h_water s) c)
  else if h_water s then
    match adebye T P with
    | Ok a => (Ok a, HM (Some a) true c)
    | e => (e, HM (h_A s) true c)
    end
  else (h_ret (h_A s), HM (h_A s) false c).
Inductive hop := HSet (a : R) | HClear | HRead (T P : fp).
Definition h_step (adebye : fp -> fp -> outcome R) (s : hmw) (o : hop) : hmw :=
  match o with
  | HSet a => h_setA s a
  | HClear => HM (h_A s) (h_water s) (cval0 tt)
  | HRead T P => snd (h_read adebye s T P)
  end.
(* m_form_A_Debye = A_DEBYE_CONST (HMWSoln.h:1357); the constructors (HMWSoln.cpp:41-52) do not set
   m_A_Debye, and initThermo (HMWSoln.cpp:562-568) calls setA_Debye only if the input has A_Debye. *)
Definition h_init : hmw := HM None false (cval0 tt).

(* ---------------------------------------------------------------- *)
(** * BulkKinetics::updateROP *)
Section Bulk.
(* A state of the phase, and what the kinetics object reads from it: temperature, density,
   stateMFNumber, the reciprocal equilibrium constants m_rkcn (from getStandardChemPotentials and
   standardConcentration), and the concentrations m_act_conc with the third-body ones m_concm. *)
Context {P K Q W : Type} (pT pD : P -> fp) (pN : P -> Z) (kc : P -> K) (conc : P -> Q).
(* MultiRate evaluators, one per rate type: the quantities its shared data compares (for example
   ArrheniusData::update, Arrhenius.cpp:146-154; FalloffData::update, Falloff.cpp:38-56), and its rate
   constants at a state, given the rate parameters W of its reactions. Evaluating them may throw (a
   rate defined in Python, for example); a partial update of m_kf0 is then not modelled. *)
Context {KF : Type} (rkeys : nat -> P -> list fp) (kf : nat -> W -> P -> outcome KF).
(* What is computed from rate constants, multipliers, concentrations and equilibrium constants. *)
Context {M R' : Type} (rop : list KF -> M -> Q -> K -> R').
Record bulk := BK { b_last : cval unit; b_rkcn : K; b_conc : Q; b_rates : list (list fp * KF); b_w : nat -> W; b_perturb : M;
                    b_ok : bool; b_rop : R' }.
Fixpoint same_keys (a b : list fp) : bool :=
  match a, b with [], [] => true | x :: a, y :: b => feqb x y && same_keys a b | _, _ => false end.
(* The loop over evaluators, BulkKinetics.cpp:497-504 with MultiRate.h:68-72 and 169-177: how it ended,
   whether a finished update reported a change, and the evaluators. *)
Fixpoint upd_rates (i : nat) (w : nat -> W) (p : P) (l : list (list fp * KF)) : outcome unit * bool * list (list fp * KF) :=
  match l with
  | [] => (Ok tt, false, [])
  | (ks, v) :: l =>
      if same_keys ks (rkeys i p) then
        let '(r, ch, l') := upd_rates (S i) w p l in (r, ch, (ks, v) :: l')
      else match kf i (w i) p with
           | Ok v' => let '(r, _, l') := upd_rates (S i) w p l in (r, true, (rkeys i p, v') :: l')
           | Err => (Err, false, (rkeys i p, v) :: l)
           | Exn => (Exn, false, (rkeys i p, v) :: l)
           | UB => (UB, false, (rkeys i p, v) :: l)
           end
  end.
(* BulkKinetics.cpp:457-540. The checks that rates are finite (debug builds) are not modelled. *)
Definition updateROP (s : bulk) (p : P) : outcome unit * bulk :=
  let rk := if negb (feqb (k1 (b_last s)) (pT p)) || negb (feqb (k2 (b_last s)) (pD p)) then kc p else b_rkcn s in
  let (hit, last) := validate (b_last s) (KDDI (pT p) (pD p) (pN p)) in
  let cn := if hit then b_conc s else conc p in
  let ok := if hit then b_ok s else false in
  let '(r, ch, rates) := upd_rates 0 (b_w s) p (b_rates s) in
  let ok := if ch then false else ok in
  match r with
  | Ok _ => if ok then (Ok tt, BK last rk cn rates (b_w s) (b_perturb s) true (b_rop s))
            else (Ok tt, BK last rk cn rates (b_w s) (b_perturb s) true (rop (map snd rates) (b_perturb s) cn rk))
  | e => (e, BK last rk cn rates (b_w s) (b_perturb s) ok (b_rop s))
  end.
(* setMultiplier (BulkKinetics.cpp:147-151); modifyReaction (91-117: new parameters for the rates of
   evaluator j, whose shared data are invalidated, MultiRate.h:54, together with the object's own
   cache); invalidateCache (153-157). *)
Inductive bop := BState (p : P) | BMult (m : M) | BModify (j : nat) (w : W) | BInvalidate | BRead.
Fixpoint nan_key (j : nat) (l : list (list fp * KF)) : list (list fp * KF) :=
  match l, j with
  | [], _ => []
  | e :: l, O => ([NaN], snd e) :: l
  | e :: l, S j => e :: nan_key j l
  end.
Definition b_step (st : P * bulk) (o : bop) : P * bulk :=
  let (p, s) := st in
  match o with
  | BState p' => (p', s)
  | BMult m => (p, BK (b_last s) (b_rkcn s) (b_conc s) (b_rates s) (b_w s) m false (b_rop s))
  | BModify j w => (p, BK (cval0 tt) (b_rkcn s) (b_conc s) (nan_key j (b_rates s)) (set_at (b_w s) j w) (b_perturb s) false (b_rop s))
  | BInvalidate => (p, BK (cval0 tt) (b_rkcn s) (b_conc s) (b_rates s) (b_w s) (b_perturb s) false (b_rop s))
  | BRead => (p, snd (updateROP s p))
  end.
(* getFwdRatesOfProgress and its like, Kinetics.cpp: updateROP, then copy. *)
Definition b_read (st : P * bulk) : outcome R' :=
  let (r, s) := updateROP (snd st) (fst st) in
  match r with Ok _ => Ok (b_rop s) | Err => Err | Exn => Exn | UB => UB end.
Definition b_init (n : nat) (k : K) (q : Q) (v : KF) (w : nat -> W) (m : M) (r : R') : bulk :=
  BK (cval0 tt) k q (repeat ([NaN], v) n) w m false r.
End Bulk.
Arguments bulk : clear implicits.
Arguments bop : clear implicits.

(** The equilibrium constants of BulkKinetics::updateROP, BulkKinetics.cpp:465-484, for one reversible
    reaction with net stoichiometric coefficients nu (before the bound BigNumber). *)
Definition BigNumber : R := 1e300.
Fixpoint dot (a b : list R) : R := match a, b with x :: a, y :: b => x * y + dot a b | _, _ => 0 end.
Definition rkcn (nu mu0 : list R) (RT c0 : R) : R :=
  Rmin (exp (dot nu mu0 * (1 / RT) - fold_right Rplus 0 nu * ln c0)) BigNumber.
(* IdealGasPhase: getStandardChemPotentials (IdealGasPhase.cpp:58-65), standardConcentration
   (IdealGasPhase.cpp:46-49), pressure (IdealGasPhase.h:351-353) with molarDensity (Phase.cpp:576-579).
   g0: the reference-state Gibbs energies over RT, p0: the reference pressure. *)
Definition ig_mu0 (g0 : list R) (RT p p0 : R) : list R := map (fun g => g * RT + RT * ln (p / p0)) g0.
Definition ig_rkcn (nu g0 : list R) (RT p p0 : R) : R := rkcn nu (ig_mu0 g0 RT p p0) RT (p / RT).
(* IdealSolidSolnPhase: getPureGibbs (IdealSolidSolnPhase.cpp:165-172), standardConcentration 1. *)
Definition ss_mu0 (g0 v : list R) (RT p p0 : R) : list R := Verif.Base.Map2.map2 (fun g v => RT * g + (p - p0) * v) g0 v.
Definition ss_rkcn (nu g0 v : list R) (RT p p0 : R) : R := rkcn nu (ss_mu0 g0 v RT p p0) RT 1.
