(** The electron energy distribution of a plasma: src/thermo/PlasmaPhase.cpp:47-211 and
    include/cantera/thermo/PlasmaPhase.h:150-192.  Left out: collisions and cross sections, the warning about
    the last value, reading and writing YAML, and the thermodynamic functions. *)
From Coq Require Import Reals String List Bool.
From Verif Require Import Base.Outcome Base.Fp Units.Model Numerics.Model.
Import ListNotations.
Open Scope R_scope.

(** What a phase holds, PlasmaPhase.h:318-403. *)
Record plasma := Plasma {
  p_type : string; p_levels : list R; p_dist : list R; p_diff : list R; p_Te : R;
  p_norm : bool; p_quad : string; p_shape : R; p_distNum : nat; p_levelNum : nat }.
Definition set_type v s := Plasma v (p_levels s) (p_dist s) (p_diff s) (p_Te s) (p_norm s) (p_quad s) (p_shape s) (p_distNum s) (p_levelNum s).
Definition put_levels v s := Plasma (p_type s) v (p_dist s) (p_diff s) (p_Te s) (p_norm s) (p_quad s) (p_shape s) (p_distNum s) (p_levelNum s).
Definition put_dist v s := Plasma (p_type s) (p_levels s) v (p_diff s) (p_Te s) (p_norm s) (p_quad s) (p_shape s) (p_distNum s) (p_levelNum s).
Definition put_diff v s := Plasma (p_type s) (p_levels s) (p_dist s) v (p_Te s) (p_norm s) (p_quad s) (p_shape s) (p_distNum s) (p_levelNum s).
Definition put_Te v s := Plasma (p_type s) (p_levels s) (p_dist s) (p_diff s) v (p_norm s) (p_quad s) (p_shape s) (p_distNum s) (p_levelNum s).
Definition put_norm v s := Plasma (p_type s) (p_levels s) (p_dist s) (p_diff s) (p_Te s) v (p_quad s) (p_shape s) (p_distNum s) (p_levelNum s).
Definition put_quad v s := Plasma (p_type s) (p_levels s) (p_dist s) (p_diff s) (p_Te s) (p_norm s) v (p_shape s) (p_distNum s) (p_levelNum s).
Definition put_shape v s := Plasma (p_type s) (p_levels s) (p_dist s) (p_diff s) (p_Te s) (p_norm s) (p_quad s) v (p_distNum s) (p_levelNum s).
(** electronEnergyDistributionChanged and electronEnergyLevelChanged, PlasmaPhase.cpp:124-132. *)
Definition dist_changed s := Plasma (p_type s) (p_levels s) (p_dist s) (p_diff s) (p_Te s) (p_norm s) (p_quad s) (p_shape s) (S (p_distNum s)) (p_levelNum s).
Definition level_changed s := Plasma (p_type s) (p_levels s) (p_dist s) (p_diff s) (p_Te s) (p_norm s) (p_quad s) (p_shape s) (p_distNum s) (S (p_levelNum s)).

(** How a call ends.  NotNumber: it computes with 0/0, 1/0 or a power of a negative number and stores
    infinities or NaN; what follows is not modelled. *)
Inductive ends := Done | Throws | Undefined | NotNumber.
Definition call := (plasma * ends)%type.
Definition andthen (c : call) (f : plasma -> call) : call :=
  match snd c with Done => f (fst c) | e => (fst c, e) end.

(** std::pow with a positive exponent, of a number that is not negative. *)
Definition pw (x p : R) : R := if reqb x 0 then 0 else Rpower x p.

(** meanElectronEnergy, PlasmaPhase.h:177-179. *)
Definition mean_energy (s : plasma) : R := 3 / 2 * p_Te s * Boltzmann / ElectronCharge.

(** checkElectronEnergyLevels, PlasmaPhase.cpp:134-143. *)
Definition check_levels (s : plasma) : call :=
  match p_levels s with
  | [] => (s, Undefined)
  | e :: _ => if rltb e 0 || any_nonpos (diffs (p_levels s)) then (s, Throws) else (s, Done)
  end.
(** checkElectronEnergyDistribution, PlasmaPhase.cpp:145-160. *)
Definition check_dist (s : plasma) : call :=
  if existsb (fun f => rltb f 0) (p_dist s) then (s, Throws) else (s, Done).

(** setIsotropicElectronEnergyDistribution, PlasmaPhase.cpp:82-95; gamma is boost's tgamma. *)
Definition iso_c1 (gamma : R -> R) (x : R) : R :=
  x * Rpower (gamma (5 / 2 * x)) (3 / 2) / Rpower (gamma (3 / 2 * x)) (5 / 2).
Definition iso_c2 (gamma : R -> R) (x : R) : R :=
  x * Rpower (gamma (5 / 2 * x) / gamma (3 / 2 * x)) x.
Definition iso_value (gamma : R -> R) (x em e : R) : R :=
  iso_c1 gamma x / Rpower em (3 / 2) * exp (- iso_c2 gamma x * pw (e / em) x).
Definition set_isotropic (gamma : R -> R) (s : plasma) : call :=
  if rltb 0 (p_Te s) && rltb 0 (p_shape s)
  then check_dist (put_dist (map (iso_value gamma (p_shape s) (mean_energy s)) (p_levels s)) s)
  else (s, NotNumber).

(** updateElectronEnergyDistDifference, PlasmaPhase.cpp:387-413. *)
Definition diff_at (l f : list R) (n i : nat) : R :=
  match i with
  | O => (nth 1 f 0 - nth 0 f 0) / (nth 1 l 0 - nth 0 l 0)
  | S j =>
      if Nat.eqb (S i) n then (nth i f 0 - nth j f 0) / (nth i l 0 - nth j l 0)
      else
        let h1 := nth (S i) l 0 - nth i l 0 in
        let h0 := nth i l 0 - nth j l 0 in
        (h0 * h0 * nth (S i) f 0 + (h1 * h1 - h0 * h0) * nth i f 0 - h1 * h1 * nth j f 0) / (h1 * h0) / (h1 + h0)
  end.
Definition update_diff (s : plasma) : call :=
  let n := length (p_levels s) in
  if Nat.ltb n 2 then (s, Undefined)
  else (put_diff (map (diff_at (p_levels s) (p_dist s) n) (seq 0 n)) s, Done).

(** updateElectronEnergyDistribution, PlasmaPhase.cpp:47-57. *)
Definition update_dist (gamma : R -> R) (s : plasma) : call :=
  if String.eqb (p_type s) "discretized" then (s, Throws)
  else andthen (if String.eqb (p_type s) "isotropic" then set_isotropic gamma s else (s, Done))
       (fun s => andthen (update_diff s) (fun s => (dist_changed s, Done))).

(** numericalQuadrature over a power of the energy. *)
Definition quad (m : string) (s : plasma) (p : R) : outcome R :=
  numericalQuadrature m (p_dist s) (map (fun e => pw e p) (p_levels s)).

(** normalizeElectronEnergyDistribution, PlasmaPhase.cpp:59-69. *)
Definition normalize (s : plasma) : call :=
  match quad (p_quad s) s (3 / 2) with
  | Ok q =>
      let norm := 2 / 3 * q in
      if rltb norm 0 then (s, Throws)
      else if reqb norm 0 then (s, NotNumber)
      else (put_dist (map (fun f => f / norm) (p_dist s)) s, Done)
  | UB => (s, Undefined)
  | _ => (s, Throws)
  end.

(** updateElectronTemperatureFromEnergyDist, PlasmaPhase.cpp:182-201. *)
Definition Te_of (em : R) : R := 2 / 3 * em * ElectronCharge / Boltzmann.
Definition temperature_from (s : plasma) : call :=
  match quad (p_quad s) s (5 / 2) with
  | Ok q =>
      let em := 2 / 5 * q in
      match (if rltb em 0 && String.eqb (p_quad s) "simpson"
             then omap (fun q => 2 / 5 * q) (quad "trapezoidal" s (5 / 2)) else Ok em) with
      | Ok em => if rltb em 0 then (s, Throws) else (put_Te (Te_of em) s, Done)
      | UB => (s, Undefined)
      | _ => (s, Throws)
      end
  | UB => (s, Undefined)
  | _ => (s, Throws)
  end.

(** The calls a user makes. *)
(* PlasmaPhase.cpp:97-100 *)
Definition setElectronTemperature gamma (Te : R) (s : plasma) : call := update_dist gamma (put_Te Te s).
(* PlasmaPhase.cpp:102-105 *)
Definition setMeanElectronEnergy gamma (em : R) (s : plasma) : call := update_dist gamma (put_Te (Te_of em) s).
(* PlasmaPhase.cpp:203-206 *)
Definition setIsotropicShapeFactor gamma (x : R) (s : plasma) : call := update_dist gamma (put_shape x s).
(* PlasmaPhase.cpp:107-122, without the cross sections *)
Definition set_levels gamma (upd : bool) (l : list R) (s : plasma) : call :=
  andthen (check_levels (put_levels l s)) (fun s =>
    if upd then update_dist gamma (level_changed s) else (level_changed s, Done)).
Definition setElectronEnergyLevels gamma (l : list R) (s : plasma) : call := set_levels gamma true l s.
(* PlasmaPhase.cpp:162-180; levels and values have the same length, which is passed once *)
Definition setDiscretizedElectronEnergyDist gamma (l f : list R) (s : plasma) : call :=
  andthen (set_levels gamma false l (set_type "discretized" s)) (fun s =>
  andthen (check_levels (put_dist f s)) (fun s =>
  andthen (if p_norm s then normalize s else (s, Done)) (fun s =>
  andthen (check_dist s) (fun s =>
  andthen (update_diff s) (fun s =>
  andthen (temperature_from s) (fun s => (dist_changed (level_changed s), Done))))))).
(* PlasmaPhase.cpp:71-80 *)
Definition setElectronEnergyDistributionType (t : string) (s : plasma) : call :=
  if String.eqb t "discretized" || String.eqb t "isotropic" then (set_type t s, Done) else (s, Throws).
(* PlasmaPhase.h:172-174, 183-185 *)
Definition setQuadratureMethod (m : string) (s : plasma) : call := (put_quad m s, Done).
Definition enableNormalize (b : bool) (s : plasma) : call := (put_norm b s, Done).

Inductive op :=
| OTe (Te : R) | OMean (em : R) | OShape (x : R) | OLevels (l : list R) | ODist (pts : list (R * R))
| OType (t : string) | OQuad (m : string) | ONorm (b : bool).
Definition step gamma (o : op) (s : plasma) : call :=
  match o with
  | OTe Te => setElectronTemperature gamma Te s
  | OMean em => setMeanElectronEnergy gamma em s
  | OShape x => setIsotropicShapeFactor gamma x s
  | OLevels l => setElectronEnergyLevels gamma l s
  | ODist pts => setDiscretizedElectronEnergyDist gamma (map fst pts) (map snd pts) s
  | OType t => setElectronEnergyDistributionType t s
  | OQuad m => setQuadratureMethod m s
  | ONorm b => enableNormalize b s
  end.
Fixpoint run gamma (os : list op) (s : plasma) : call :=
  match os with [] => (s, Done) | o :: os => andthen (step gamma o s) (run gamma os) end.
