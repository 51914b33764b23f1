(* IdealGasPhase: include/cantera/thermo/IdealGasPhase.h, src/thermo/IdealGasPhase.cpp, with what it
   uses of Phase and ThermoPhase. Numbers are reals; the memoised reference-state properties are those
   of the current temperature (C04). *)
From Coq Require Import Reals List Bool Arith.
From Verif Require Import Base.Fp Base.Outcome Base.RSum Base.Map2 Units.Model.
Import ListNotations.
Local Open Scope R_scope.
Local Open Scope list_scope.

(* m_temp, m_dens, m_ym, m_mmw (m_y = m_ym * m_molwts is not needed here). *)
Record gst := GST { gT : R; gD : R; gYM : list R; gW : R }.

Section Gas.
(* Reference-state functions of the species (SpThermo/Model.v): cp/R, H/RT, S/R at temperature; the
   common reference pressure refPressure() = m_p0; molecular weights. *)
Context (cpR hRT sR : nat -> R -> R) (p0 : R) (mw : list R).

Definition kk (s : gst) : nat := length (gYM s).
(* cp_R_ref, enthalpy_RT_ref, entropy_R_ref, gibbs_RT_ref: IdealGasPhase.h with updateThermo,
   IdealGasPhase.cpp:267-284. *)
Definition vecT (f : nat -> R -> R) (s : gst) : list R := map (fun k => f k (gT s)) (seq 0 (kk s)).
Definition cp_R_ref := vecT cpR.
Definition enthalpy_RT_ref := vecT hRT.
Definition entropy_R_ref := vecT sR.
Definition gibbs_RT_ref := vecT (fun k T => hRT k T - sR k T).

(* Phase: temperature, meanMolecularWeight, moleFraction (Phase.cpp:439-443), molarDensity
   (Phase.cpp:576-579), molarVolume (581-584), mean_X (616-624), sum_xlogx (626-633). *)
Definition moleFraction (s : gst) (k : nat) : R := nth k (gYM s) 0 * gW s.
Definition molarDensity (s : gst) : R := gD s / gW s.
Definition molarVolume (s : gst) : R := 1 / molarDensity s.
Definition mean_X (s : gst) (q : list R) : R := gW s * rsum (map2 Rmult (gYM s) q).
Definition sum_xlogx (s : gst) : R :=
  gW s * rsum (map (fun y => y * ln (Rmax y SmallNumber)) (gYM s)) + ln (gW s).
(* ThermoPhase::RT, ThermoPhase.h:1124-1126. *)
Definition RT (s : gst) : R := gT s * GasConstant.

(* IdealGasPhase.h:351-353 and 375-408. *)
Definition pressure (s : gst) : R := GasConstant * molarDensity s * gT s.
Definition isothermalCompressibility (s : gst) : R := 1 / pressure s.
Definition thermalExpansionCoeff (s : gst) : R := 1 / gT s.
(* Phase::setTemperature (Phase.h:624-631), Phase::setDensity (Phase.cpp:586-595). *)
Definition setTemperature (s : gst) (t : R) : outcome unit * gst :=
  if rltb 0 t then (Ok tt, GST t (gD s) (gYM s) (gW s)) else (Err, s).
Definition setDensity (s : gst) (d : R) : outcome unit * gst :=
  if rltb 0 d then (Ok tt, GST (gT s) d (gYM s) (gW s)) else (Err, s).
(* IdealGasPhase::setPressure, IdealGasPhase.h:362-364; setState_DP, 366-374. *)
Definition setPressure (s : gst) (p : R) : outcome unit * gst := setDensity s (p * gW s / RT s).
Definition setState_DP (s : gst) (rho p : R) : outcome unit * gst :=
  if rltb 0 p then
    match setDensity s rho with
    | (Ok _, s') => setTemperature s' (p * gW s' / (GasConstant * rho))
    | r => r
    end
  else (Err, s).
(* Phase::setMoleFractions, Phase.cpp:289-319, for finite input with positive weighted sum. *)
Definition setMoleFractions (s : gst) (x : list R) : gst :=
  let xk := map (fun v => Rmax v 0) x in
  let sum := rsum (map2 Rmult mw xk) in
  GST (gT s) (gD s) (map (fun v => v * (1 / sum)) xk) (sum / rsum xk).

(* IdealGasPhase.h:286-288 and IdealGasPhase.cpp:25-44. *)
Definition enthalpy_mole (s : gst) : R := RT s * mean_X s (enthalpy_RT_ref s).
Definition entropy_mole (s : gst) : R :=
  GasConstant * (mean_X s (entropy_R_ref s) - sum_xlogx s - ln (pressure s / p0)).
Definition cp_mole (s : gst) : R := GasConstant * mean_X s (cp_R_ref s).
Definition cv_mole (s : gst) : R := cp_mole s - GasConstant.
Definition soundSpeed (s : gst) : R := sqrt (cp_mole s / cv_mole s * GasConstant / gW s * gT s).
(* IdealGasPhase.cpp:46-65. *)
Definition standardConcentration (s : gst) (k : nat) : R := pressure s / RT s.
Definition getStandardChemPotentials (s : gst) : list R :=
  map (fun g => g * RT s + ln (pressure s / p0) * RT s) (gibbs_RT_ref s).
(* IdealGasPhase.cpp:69-116. *)
Definition add_each (f : nat -> R) (l : list R) : list R := map2 (fun k v => v + f k) (seq 0 (length l)) l.
Definition getChemPotentials (s : gst) : list R :=
  add_each (fun k => RT s * ln (Rmax SmallNumber (moleFraction s k))) (getStandardChemPotentials s).
Definition getPartialMolarEnthalpies (s : gst) : list R := map (fun h => h * RT s) (enthalpy_RT_ref s).
Definition getPartialMolarEntropies (s : gst) : list R :=
  add_each (fun k => GasConstant * (- ln (pressure s / p0) - ln (Rmax SmallNumber (moleFraction s k))))
           (map (fun x => x * GasConstant) (entropy_R_ref s)).
Definition getPartialMolarIntEnergies (s : gst) : list R := map (fun h => RT s * (h - 1)) (enthalpy_RT_ref s).
Definition getPartialMolarCp (s : gst) : list R := map (fun c => c * GasConstant) (cp_R_ref s).
Definition getPartialMolarVolumes (s : gst) : list R := map (fun _ => 1 / molarDensity s) (seq 0 (kk s)).
(* IdealGasPhase.cpp:120-172: standard states. *)
Definition getEnthalpy_RT (s : gst) : list R := enthalpy_RT_ref s.
Definition getEntropy_R (s : gst) : list R := map (fun x => x - ln (pressure s / p0)) (entropy_R_ref s).
Definition getGibbs_RT (s : gst) : list R := map (fun g => g + ln (pressure s / p0)) (gibbs_RT_ref s).
Definition getPureGibbs (s : gst) : list R := map (fun g => g * RT s + ln (pressure s / p0) * RT s) (gibbs_RT_ref s).
Definition getIntEnergy_RT (s : gst) : list R := map (fun h => h - 1) (enthalpy_RT_ref s).
Definition getCp_R (s : gst) : list R := cp_R_ref s.
Definition getStandardVolumes (s : gst) : list R := map (fun _ => 1 / molarDensity s) (seq 0 (kk s)).
(* IdealGasPhase.cpp:218-224. *)
Definition getStandardVolumes_ref (s : gst) : list R := map (fun _ => RT s / p0) (seq 0 (kk s)).
(* ThermoPhase::intEnergy_mole and gibbs_mole, ThermoPhase.h:541-543 and 566-569; specific properties,
   1089-1119. *)
Definition intEnergy_mole (s : gst) : R := enthalpy_mole s - pressure s * molarVolume s.
Definition gibbs_mole (s : gst) : R := mean_X s (getChemPotentials s).
Definition per_mass (f : gst -> R) (s : gst) : R := f s / gW s.

(* IdealGasPhase::setToEquilState, IdealGasPhase.cpp:242-267. *)
Definition equil_pp (g mu : R) : R :=
  let tmp := - g + mu in
  if rltb tmp (-600) then 0
  else if rltb 300 tmp then p0 * exp 300 * (tmp / 300 * (tmp / 300))
  else p0 * exp tmp.
Definition setToEquilState (s : gst) (mu_RT : list R) : outcome unit * gst :=
  let pp := map2 equil_pp (gibbs_RT_ref s) mu_RT in
  setPressure (setMoleFractions s pp) (rsum pp).
End Gas.
