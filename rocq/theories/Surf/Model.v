(* SurfPhase: include/cantera/thermo/SurfPhase.h, src/thermo/SurfPhase.cpp; coverages in reactors:
   src/zeroD/Reactor.cpp; site balance of reactions: src/kinetics/Reaction.cpp. Numbers are reals; a
   division by zero makes the composition not-a-number, which is recorded by a flag. Memoisation of the
   reference-state properties is Cache/ (C04). *)
From Coq Require Import Reals String List Bool Arith.
From Verif Require Import Base.Fp Base.Outcome Base.RSum Base.Map2 Units.Model.
Import ListNotations.
Local Open Scope R_scope.
Local Open Scope list_scope.

(* m_temp, m_n0, m_logn0 (None: never assigned), m_ym, m_mmw, m_dens, m_press; vNaN: the composition
   holds NaN or infinity. *)
Record sst := SST { vT : R; vN0 : R; vLogN0 : option R; vYM : list R; vW : R; vD : R; vP : R; vNaN : bool }.

Section Surf.
(* m_molwts and m_speciesSize. *)
Context (mw sz : list R).

Definition size (k : nat) : R := nth k sz 0.
(* Phase::moleFraction, Phase.cpp:439-443; getMoleFractions, 434-437; getConcentrations, 482-485. *)
Definition getMoleFractions (s : sst) : list R := map (fun y => y * vW s) (vYM s).
Definition getConcentrations (s : sst) : list R := map (fun y => y * vD s) (vYM s).
Definition mean_X (s : sst) (q : list R) : R := vW s * rsum (map2 Rmult (vYM s) q).

(* Phase::assignDensity, Phase.cpp:597-606; SurfPhase::compositionChanged, SurfPhase.cpp:324-328: the
   new composition stays even if the density is refused. A NaN mean molecular weight is refused. *)
Definition assignDensity (s : sst) (d : R) : outcome unit * sst :=
  if rltb 0 d then (Ok tt, SST (vT s) (vN0 s) (vLogN0 s) (vYM s) (vW s) d (vP s) (vNaN s)) else (Err, s).
Definition compositionChanged (s : sst) : outcome unit * sst :=
  if vNaN s then (Err, s) else assignDensity s (vN0 s * vW s).
Definition with_comp (s : sst) (ym : list R) (w : R) (nan : bool) : sst :=
  SST (vT s) (vN0 s) (vLogN0 s) ym w (vD s) (vP s) nan.
(* Phase::setMoleFractions and setMoleFractions_NoNorm, Phase.cpp:289-328. *)
Definition setMoleFractions (s : sst) (x : list R) : outcome unit * sst :=
  let xk := map (fun v => Rmax v 0) x in
  let sum := rsum (map2 Rmult mw xk) in
  compositionChanged (with_comp s (map (fun v => v * (1 / sum)) xk) (sum / rsum xk) (reqb sum 0 || reqb (rsum xk) 0)).
Definition setMoleFractions_NoNorm (s : sst) (x : list R) : outcome unit * sst :=
  let mmw := rsum (map2 Rmult x mw) in
  compositionChanged (with_comp s (map (fun v => v * (1 / mmw)) x) mmw (reqb mmw 0)).

(* SurfPhase.cpp:208-217. *)
Definition setSiteDensity (s : sst) (n0 : R) : outcome unit * sst :=
  if rltb 0 n0 then
    match assignDensity (SST (vT s) n0 (vLogN0 s) (vYM s) (vW s) (vD s) (vP s) (vNaN s)) (n0 * vW s) with
    | (Ok _, s') => if vNaN s then (Err, SST (vT s) n0 (vLogN0 s) (vYM s) (vW s) (vD s) (vP s) (vNaN s))
                    else (Ok tt, SST (vT s') (vN0 s') (Some (ln n0)) (vYM s') (vW s') (vD s') (vP s') (vNaN s'))
    | r => r
    end
  else (Err, s).
(* SurfPhase.cpp:219-233. *)
Definition setCoverages (s : sst) (theta : list R) : outcome unit * sst :=
  let sum := rsum (map2 Rdiv theta sz) in
  if rltb 0 sum then setMoleFractions s (map2 (fun t z => t / (sum * z)) theta sz) else (Err, s).
(* SurfPhase.cpp:235-252. *)
Definition setCoveragesNoNorm (s : sst) (theta : list R) : outcome unit * sst :=
  let sum := rsum (map2 Rdiv theta sz) in
  let sum2 := rsum theta in
  if rltb 0 sum then setMoleFractions_NoNorm s (map2 (fun t z => t * sum2 / (sum * z)) theta sz) else (Err, s).
(* SurfPhase.cpp:254-266. *)
Definition getCoverages (s : sst) : list R :=
  let x := getMoleFractions s in
  let sum_X := rsum x in
  let sum_X_s := rsum (map2 Rmult x sz) in
  map2 (fun t z => t * (z * sum_X / sum_X_s)) x sz.
(* SurfPhase.cpp:273-289; getValue, utilities.h: the value under that key, or the default. *)
Fixpoint getValue (cov : list (string * R)) (name : string) (d : R) : R :=
  match cov with
  | [] => d
  | (n, v) :: r => if String.eqb n name then v else getValue r name d
  end.
Definition setCoveragesByName (names : list string) (s : sst) (cov : list (string * R)) : outcome unit * sst :=
  let cs := map (fun n => getValue cov n 0) names in
  if existsb (fun c => rltb 0 c) cs then setCoverages s (map (fun c => if rltb 0 c then c else 0) cs) else (Err, s).

(* Phase::setTemperature; SurfPhase::setPressure, SurfPhase.h:250-252; Phase::setDensity and
   setConcentrations on a phase that is not compressible, Phase.cpp:487-489, 586-588. *)
Definition setTemperature (s : sst) (t : R) : outcome unit * sst :=
  if rltb 0 t then (Ok tt, SST t (vN0 s) (vLogN0 s) (vYM s) (vW s) (vD s) (vP s) (vNaN s)) else (Err, s).
Definition setPressure (s : sst) (p : R) : outcome unit * sst :=
  (Ok tt, SST (vT s) (vN0 s) (vLogN0 s) (vYM s) (vW s) (vD s) p (vNaN s)).
Definition setDensity (s : sst) (d : R) : outcome unit * sst := (Err, s).
Definition setConcentrations (s : sst) (c : list R) : outcome unit * sst := (Err, s).

(* SurfPhase.cpp:126-134; m_logsize is log(size), set in addSpecies, 195. *)
Definition standardConcentration (s : sst) (k : nat) : R := vN0 s / size k.
Definition logStandardConc (s : sst) (k : nat) : outcome R :=
  match vLogN0 s with Some l => Ok (l - ln (size k)) | None => UB end.

(* Thermodynamic functions: reference-state cp/R, h/RT, s/R of the species (_updateThermo,
   SurfPhase.cpp:330-345, makes them cp0, h0, s0, mu0). *)
Context (cpR hRT sR : nat -> R -> R).
Definition kk (s : sst) : nat := length (vYM s).
Definition h0 (s : sst) : list R := map (fun k => hRT k (vT s) * (GasConstant * vT s)) (seq 0 (kk s)).
Definition s0 (s : sst) : list R := map (fun k => sR k (vT s) * GasConstant) (seq 0 (kk s)).
Definition cp0 (s : sst) : list R := map (fun k => cpR k (vT s) * GasConstant) (seq 0 (kk s)).
Definition mu0 (s : sst) : list R := map2 (fun h e => h - vT s * e) (h0 s) (s0 s).
(* SurfPhase.cpp:28-61. *)
Definition enthalpy_mole (s : sst) : R := if rltb 0 (vN0 s) then mean_X s (h0 s) else 0.
Definition intEnergy_mole (s : sst) : R := enthalpy_mole s.
Definition entropy_mole (s : sst) : R :=
  rsum (map (fun k => nth k (getMoleFractions s) 0 *
                      (nth k (s0 s) 0 - GasConstant * ln (Rmax (nth k (getConcentrations s) 0 * size k / vN0 s) SmallNumber))) (seq 0 (kk s))).
Definition cp_mole (s : sst) : R := mean_X s (cp0 s).
Definition cv_mole (s : sst) : R := cp_mole s.
(* SurfPhase.cpp:63-88 and 103-111, 142-164. *)
Definition RT (s : sst) : R := vT s * GasConstant.
Definition getEnthalpy_RT (s : sst) : list R := map (fun h => h * (1 / RT s)) (h0 s).
Definition getEntropy_R (s : sst) : list R := map (fun e => e * (1 / GasConstant)) (s0 s).
Definition getCp_R (s : sst) : list R := map (fun c => c * (1 / GasConstant)) (cp0 s).
Definition getGibbs_RT (s : sst) : list R := map (fun m => m * (1 / RT s)) (mu0 s).
Definition getPartialMolarEnthalpies (s : sst) : list R := map (fun h => h * RT s) (getEnthalpy_RT s).
Definition getPartialMolarCp (s : sst) : list R := map (fun c => c * GasConstant) (getCp_R s).
Definition getPartialMolarEntropies (s : sst) : outcome (list R) :=
  match vLogN0 s with
  | None => UB
  | Some l => Ok (map (fun k => (nth k (getEntropy_R s) 0 - (ln (Rmax (nth k (getConcentrations s) 0) SmallNumber) - (l - ln (size k)))) * GasConstant) (seq 0 (kk s)))
  end.
Definition getChemPotentials (s : sst) : outcome (list R) :=
  match vLogN0 s with
  | None => UB
  | Some l => Ok (map (fun k => nth k (mu0 s) 0 + RT s * (ln (Rmax (nth k (getConcentrations s) 0) SmallNumber) - (l - ln (size k)))) (seq 0 (kk s)))
  end.
(* ThermoPhase::gibbs_mole, ThermoPhase.h:566-569. *)
Definition gibbs_mole (s : sst) : outcome R := omap (mean_X s) (getChemPotentials s).
End Surf.

(* Construction: SurfPhase::addSpecies, SurfPhase.cpp:186-206, on a phase of temperature t. When the
   first species is there, coverages are set to [1]; later ones get mole fraction 0 (Phase::addSpecies).
   initThermo, 347-355: the site density of the input, if it has one. Default site density 1. *)
Definition new_phase (mw sz : list R) (t : R) : sst :=
  match mw with
  | [] => SST t 1 None [] 0 0 OneAtm true
  | w :: _ => snd (setCoverages mw sz (SST t 1 None [] 0 0 OneAtm true) (1 :: repeat 0 (length mw - 1)))
  end.
Definition initThermo (s : sst) (site : option R) : outcome unit * sst :=
  match site with Some n => setSiteDensity s n | None => (Ok tt, s) end.

Inductive sop :=
| SiteDensity (n : R) | Coverages (t : list R) | CoveragesNoNorm (t : list R) | CoveragesByName (names : list string) (c : list (string * R))
| MoleFractions (x : list R) | Temperature (t : R) | Pressure (p : R) | Density (d : R) | Concentrations (c : list R).
Definition sstep (mw sz : list R) (s : sst) (o : sop) : outcome unit * sst :=
  match o with
  | SiteDensity n => setSiteDensity s n
  | Coverages t => setCoverages mw sz s t
  | CoveragesNoNorm t => setCoveragesNoNorm mw sz s t
  | CoveragesByName names c => setCoveragesByName mw sz names s c
  | MoleFractions x => setMoleFractions mw s x
  | Temperature t => setTemperature s t
  | Pressure p => setPressure s p
  | Density d => setDensity s d
  | Concentrations c => setConcentrations s c
  end.

(* Reactor::evalSurfaces, Reactor.cpp:288-315 and 370-397, for one surface: the rates of change of the
   coverages from the net production rates. *)
Definition coverage_rates (n0 : R) (sz sdot : list R) : list R :=
  let rest := map (fun k => nth k sdot 0 * (1 / n0) * nth k sz 0) (seq 1 (length sz - 1)) in
  match sz with [] => [] | _ => - rsum rest :: rest end.

(* The surface part of Reaction::checkBalance, Reaction.cpp:646-667, for a reaction given by the
   stoichiometric coefficients of its reactants and products among the species of the surface. *)
Definition sites (sz nu : list R) : R := rsum (map2 Rmult nu sz).
Definition site_check (sz reac prod : list R) : outcome unit :=
  if rltb (1 / 100000 * (sites sz reac + sites sz prod)) (Rabs (sites sz reac - sites sz prod)) then Err else Ok tt.
(* Net production rates of a mechanism: sum of net stoichiometric coefficients times rates of
   progress (C17, C18). *)
Definition net_rates (K : nat) (rxns : list (list R * list R)) (q : list R) : list R :=
  map (fun k => rsum (map2 (fun r v => (nth k (snd r) 0 - nth k (fst r) 0) * v) rxns q)) (seq 0 K).
