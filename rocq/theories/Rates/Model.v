(* Rate parameterisations: P-log, Chebyshev and falloff rates, and the data
   containers they share.  Doubles are modelled by reals; "None" stands for a
   value that is NaN. *)
From Coq Require Import Reals List Lra Lia Bool.
From Verif Require Import Base.Outcome Base.Fp Base.RSum.
Import ListNotations.
Local Open Scope R_scope.

(* ---------------------------------------------------------------- *)
(** * Arrhenius expressions *)

(* ArrheniusBase members m_A, m_b, m_Ea_R
   (include/cantera/kinetics/Arrhenius.h: class ArrheniusBase).
   m_E4_R is unused by ArrheniusRate and left out. *)
Record arr := Arr { aA : R; ab : R; aE : R }.

(* ArrheniusRate::evalRate, include/cantera/kinetics/Arrhenius.h. *)
Definition evalRate (a : arr) (logT recipT : R) : R :=
  aA a * exp (ab a * logT - aE a * recipT).

(* ---------------------------------------------------------------- *)
(** * PlogRate *)

(* std::multimap<double, ArrheniusRate>::insert: a new element goes after the
   elements whose key is not greater. *)
Fixpoint mm_insert (x : R * arr) (l : list (R * arr)) : list (R * arr) :=
  match l with
  | [] => [x]
  | y :: l' => if rltb (fst x) (fst y) then x :: l else y :: mm_insert x l'
  end.

(* The multimap built by inserting the entries of the input one by one:
   PlogRate::setParameters, src/kinetics/PlogRate.cpp:62-74. *)
Definition multimap_of (l : list (R * arr)) : list (R * arr) :=
  fold_left (fun m x => mm_insert x m) l [].

Notation range := (nat * nat)%type.

(* std::map<double, pair<size_t,size_t>>::operator[] with assignment. *)
Fixpoint map_set (k : R) (v : range) (m : list (R * range)) : list (R * range) :=
  match m with
  | [] => [(k, v)]
  | (k', v') :: m' =>
      if rltb k k' then (k, v) :: m
      else if rltb k' k then (k', v') :: map_set k v m'
      else (k, v) :: m'
  end.

(* std::map::insert: keeps an existing element. *)
Fixpoint map_insert (k : R) (v : range) (m : list (R * range)) : list (R * range) :=
  match m with
  | [] => [(k, v)]
  | (k', v') :: m' =>
      if rltb k k' then (k, v) :: m
      else if rltb k' k then (k', v') :: map_insert k v m'
      else m
  end.

(* std::map::operator[] reading (a missing key would be default-inserted). *)
Fixpoint map_get (k : R) (m : list (R * range)) : range :=
  match m with
  | [] => (0, 0)%nat
  | (k', v') :: m' => if reqb k k' then v' else map_get k m'
  end.

(* rbegin() *)
Definition map_last (m : list (R * range)) : option (R * range) :=
  match rev m with [] => None | x :: _ => Some x end.

(* Members of PlogRate, include/cantera/kinetics/PlogRate.h:179-196.  A rate
   of "None" is an unconfigured ArrheniusRate() whose parameters are NaN; the
   index members are uninitialised ("None") until the first look-up. *)
Record plog := Plog {
  pl_pressures : list (R * range);
  pl_rates : list (option arr);
  pl_logP : R; pl_logP1 : R; pl_logP2 : R;
  pl_low : option range; pl_high : option range;
  pl_rDelta : R
}.

(* PlogRate() = default *)
Definition plog_new : plog := Plog [] [] (-1000) 1000 (-1000) None None (-1).

(* The body of the loop of PlogRate::setRates, PlogRate.cpp:100-113. *)
Definition set_step (st : nat * list (R * range) * list (option arr))
    (x : R * arr) : nat * list (R * range) * list (option arr) :=
  let '(j, ps, rs) := st in
  let logp := ln (fst x) in
  let fresh := match map_last ps with
               | None => true
               | Some (k, _) => negb (reqb k logp)
               end in
  let ps' := if fresh then map_set logp (j, S j) ps
             else map_set logp (fst (map_get logp ps), S j) ps in
  (S j, ps', rs ++ [Some (snd x)]).

Definition OneBar : R := 100000.

(* PlogRate::setRates, PlogRate.cpp:92-123.  The argument is the multimap in
   iteration order.  logP_, logP1_, logP2_ and the indices are left as they
   are. *)
Definition setRates (rates : list (R * arr)) (s : plog) : plog :=
  let '(_, ps, rs) := fold_left set_step rates (0%nat, [], []) in
  let '(ps, rs) := match rates with
                   | [] => (map_set (ln OneBar) (0, 0)%nat ps, rs ++ [None])
                   | _ => (ps, rs)
                   end in
  let first := match ps with [] => (0, 0)%nat | x :: _ => snd x end in
  let ps := map_insert (-1000) first ps in
  let last := match map_last ps with None => (0, 0)%nat | Some x => snd x end in
  let ps := map_insert 1000 last ps in
  Plog ps rs (pl_logP s) (pl_logP1 s) (pl_logP2 s) (pl_low s) (pl_high s)
       (pl_rDelta s).

(* std::map::upper_bound followed by --iter: the element before the first one
   whose key is greater than x, and that one. *)
Fixpoint upper (x : R) (prev : option (R * range)) (m : list (R * range)) :
    option (option (R * range) * (R * range)) :=
  match m with
  | [] => None
  | e :: m' => if rltb x (fst e) then Some (prev, e) else upper x (Some e) m'
  end.

(* PlogRate::updateFromStruct, PlogRate.h:110-135. *)
Definition plog_update (logP : R) (s : plog) : outcome plog :=
  if reqb logP (pl_logP s) then Ok s
  else
    if rltb (pl_logP1 s) logP && rltb logP (pl_logP2 s) then
      Ok (Plog (pl_pressures s) (pl_rates s) logP (pl_logP1 s) (pl_logP2 s)
               (pl_low s) (pl_high s) (pl_rDelta s))
    else
      match upper logP None (pl_pressures s) with
      | None => Err                       (* AssertThrowMsg(iter != end()) *)
      | Some (None, _) => Err             (* AssertThrowMsg(iter != begin()) *)
      | Some (Some lo, hi) =>
          Ok (Plog (pl_pressures s) (pl_rates s) logP (fst lo) (fst hi)
                   (Some (snd lo)) (Some (snd hi)) (/ (fst hi - fst lo)))
      end.

(* The sum over rates_[i], i in [i1, i1 + n): None if one of them is NaN, UB if
   an index is out of range. *)
Fixpoint sum_rates (rs : list (option arr)) (i n : nat) (logT recipT acc : R)
    : outcome (option R) :=
  match n with
  | O => Ok (Some acc)
  | S n' =>
      match nth_error rs i with
      | None => UB
      | Some None => Ok None
      | Some (Some a) => sum_rates rs (S i) n' logT recipT (acc + evalRate a logT recipT)
      end
  end.

Definition tiny300 : R := / 10 ^ 300.

(* One of the two blocks computing log_k1 / log_k2 in PlogRate::evalFromStruct,
   PlogRate.h:143-161.  Equal indices only occur for an unconfigured rate
   (setRates, PlogRate.cpp:114-119), whose evalLog is NaN; for a configured rate
   evalLog is log A + b log T - E/T.  The logarithm of a number that is not
   positive is not a finite number: None. *)
Definition side_log (rs : list (option arr)) (r : option range) (logT recipT : R)
    : outcome (option R) :=
  match r with
  | None => UB
  | Some (i1, i2) =>
      if Nat.eqb i1 i2 then
        match nth_error rs i1 with
        | None => UB
        | Some None => Ok None
        | Some (Some a) =>
            if rltb 0 (aA a) then Ok (Some (ln (aA a) + ab a * logT - aE a * recipT))
            else Ok None
        end
      else
        obind (sum_rates rs i1 (i2 - i1) logT recipT tiny300) (fun k =>
          match k with
          | None => Ok None
          | Some k => if rltb 0 k then Ok (Some (ln k)) else Ok None
          end)
  end.

(* PlogRate::evalFromStruct, PlogRate.h:141-164. *)
Definition plog_eval (logT recipT : R) (s : plog) : outcome (option R) :=
  obind (side_log (pl_rates s) (pl_low s) logT recipT) (fun k1 =>
  obind (side_log (pl_rates s) (pl_high s) logT recipT) (fun k2 =>
    match k1, k2 with
    | Some l1, Some l2 =>
        Ok (Some (exp (l1 + (l2 - l1) * (pl_logP s - pl_logP1 s) * pl_rDelta s)))
    | _, _ => Ok None
    end)).

(* PlogRate::getRates, PlogRate.cpp:160-174: the groups between the first one
   and the one at 1000, as insertions into a multimap. *)
Fixpoint get_groups (m : list (R * range)) (rs : list (option arr))
    (acc : list (R * arr)) : outcome (list (R * arr)) :=
  match m with
  | [] => UB                                     (* iterating past the end *)
  | (k, (i1, i2)) :: m' =>
      if rltb k 1000 then
        get_groups m' rs
          (fold_left (fun acc i => match nth_error rs i with
                                   | Some (Some a) => mm_insert (exp k, a) acc
                                   | _ => acc
                                   end) (seq i1 (i2 - i1)) acc)
      else Ok acc
  end.
Definition getRates (s : plog) : outcome (list (R * arr)) :=
  match pl_pressures s with [] => UB | _ :: m => get_groups m (pl_rates s) [] end.

(* ReactionRate::eval(T, P), include/cantera/kinetics/ReactionRate.h: through
   MultiRate::evalSingle (MultiRate.h:181-187) on a PlogData that has been given
   (T, P) (PlogRate.h:25-29). *)
Definition plog_at (T P : R) (s : plog) : outcome (plog * option R) :=
  obind (plog_update (ln P) s) (fun s' =>
  obind (plog_eval (ln T) (/ T) s') (fun k => Ok (s', k))).

(* A history of evaluations of one object; results are discarded, an exception
   ends the history. *)
Fixpoint plog_hist (h : list (R * R)) (s : plog) : outcome plog :=
  match h with
  | [] => Ok s
  | (T, P) :: h' => obind (plog_at T P s) (fun r => plog_hist h' (fst r))
  end.

(* PlogRate(rates), PlogRate.cpp:52-55, with the entries given in any order. *)
Definition plog_of (l : list (R * arr)) : plog := setRates (multimap_of l) plog_new.

(* ---------------------------------------------------------------- *)
(** * ChebyshevRate *)

Definition log10 (x : R) : R := ln x / ln 10.

(* Array2D as used here: a rectangular matrix. *)
Record mat := Mat { m_nr : nat; m_nc : nat; m_at : nat -> nat -> R }.

(* Members of ChebyshevRate, include/cantera/kinetics/ChebyshevRate.h:221-229.
   m_log10P and the limits are None until assigned; ch_coeffs = None is the 1x1
   NaN matrix standing for "no data". dotProd_ is None where its entry is not a
   number. *)
Record cheb := Cheb {
  ch_log10P : option R;
  ch_lims : option (R * R * R * R);              (* TrNum_, TrDen_, PrNum_, PrDen_ *)
  ch_coeffs : option mat;
  ch_dot : list R
}.

Definition cheb_new : cheb := Cheb None None None [].

(* ChebyshevRate::setLimits, src/kinetics/ChebyshevRate.cpp:96-112. *)
Definition setLimits (Tmin Tmax Pmin Pmax : R) (s : cheb) : cheb :=
  Cheb (ch_log10P s)
       (Some (- / Tmin - / Tmax, / (/ Tmax - / Tmin),
              - log10 Pmin - log10 Pmax, / (log10 Pmax - log10 Pmin)))
       (ch_coeffs s) (ch_dot s).

(* std::vector::resize *)
Definition vresize (n : nat) (v : list R) : list R :=
  firstn n v ++ repeat 0 (n - length v).

(* ChebyshevRate::setData, ChebyshevRate.cpp:114-124.  m_log10P is left as it
   is. *)
Definition setData (c : mat) (s : cheb) : cheb :=
  if Nat.eqb (m_nr c * m_nc c) 0 then
    Cheb (ch_log10P s) (ch_lims s) None (vresize 1 (ch_dot s))
  else Cheb (ch_log10P s) (ch_lims s) (Some c) (vresize (m_nr c) (ch_dot s)).

(* The loop over the columns in ChebyshevRate::updateFromStruct,
   ChebyshevRate.h:143-150. *)
Fixpoint dot_loop (c : mat) (Pr : R) (j n : nat) (Cn Cnm1 : R) (dot : list R) : list R :=
  match n with
  | O => dot
  | S n' =>
      let Cnp1 := 2 * Pr * Cn - Cnm1 in
      dot_loop c Pr (S j) n' Cnp1 Cn
        (map (fun i => nth i dot 0 + Cnp1 * m_at c i j) (seq 0 (m_nr c)))
  end.

(* The body of the conditional in ChebyshevRate::updateFromStruct,
   ChebyshevRate.h:135-151.  Reading limits that were never set is reading an
   uninitialised double. *)
Definition cheb_recompute (log10P : R) (s : cheb) : outcome cheb :=
  match ch_lims s, ch_coeffs s with
  | None, _ => UB
  | Some _, None => Ok (Cheb (Some log10P) (ch_lims s) None (ch_dot s))
  | Some (_, _, PrNum, PrDen), Some c =>
      let Pr := (2 * log10P + PrNum) * PrDen in
      Ok (Cheb (Some log10P) (ch_lims s) (Some c)
            (dot_loop c Pr 1 (m_nc c - 1) 1 Pr
               (map (fun i => m_at c i 0) (seq 0 (m_nr c)))))
  end.

(* ChebyshevRate::updateFromStruct, ChebyshevRate.h:133-152; m_log10P starts as
   NaN, which differs from every number. *)
Definition cheb_update (log10P : R) (s : cheb) : outcome cheb :=
  match ch_log10P s with
  | Some p => if reqb log10P p then Ok s else cheb_recompute log10P s
  | None => cheb_recompute log10P s
  end.

(* The loop of ChebyshevRate::evalFromStruct, ChebyshevRate.h:164-169. *)
Fixpoint sum_loop (dot : list R) (Tr : R) (i n : nat) (Cn Cnm1 logk : R) : R :=
  match n with
  | O => logk
  | S n' =>
      let Cnp1 := 2 * Tr * Cn - Cnm1 in
      sum_loop dot Tr (S i) n' Cnp1 Cn (logk + Cnp1 * nth i dot 0)
  end.

(* ChebyshevRate::evalFromStruct, ChebyshevRate.h:158-171. *)
Definition cheb_eval (recipT : R) (s : cheb) : outcome (option R) :=
  match ch_lims s, ch_coeffs s with
  | None, _ => UB
  | Some _, None => Ok None
  | Some (TrNum, TrDen, _, _), Some c =>
      let Tr := (2 * recipT + TrNum) * TrDen in
      Ok (Some (Rpower 10 (sum_loop (ch_dot s) Tr 1 (m_nr c - 1) 1 Tr
                             (nth 0 (ch_dot s) 0))))
  end.

(* ReactionRate::eval(T, P) for a Chebyshev rate (see plog_at). *)
Definition cheb_at (T P : R) (s : cheb) : outcome (cheb * option R) :=
  obind (cheb_update (log10 P) s) (fun s' =>
  obind (cheb_eval (/ T) s') (fun k => Ok (s', k))).

Fixpoint cheb_hist (h : list (R * R)) (s : cheb) : outcome cheb :=
  match h with
  | [] => Ok s
  | (T, P) :: h' => obind (cheb_at T P s) (fun r => cheb_hist h' (fst r))
  end.

(* ChebyshevRate(Tmin, Tmax, Pmin, Pmax, coeffs), ChebyshevRate.cpp:50-55. *)
Definition cheb_of (Tmin Tmax Pmin Pmax : R) (c : mat) : cheb :=
  setData c (setLimits Tmin Tmax Pmin Pmax cheb_new).

(* ---------------------------------------------------------------- *)
(** * Falloff rates *)

(* The falloff functions with the parameters their objects hold
   (include/cantera/kinetics/Falloff.h: TroeRate, SriRate, TsangRate).  m_rt3
   and m_rt1 are None where the code stores infinity. *)
Inductive blend :=
| Lindemann
| Troe (a : R) (rt3 rt1 : option R) (t2 : R)
| Sri (a b c d e : R)
| Tsang (a b : R).

Definition SmallNumber : R := tiny300.

(* LindemannRate / FalloffRate::setFalloffCoeffs, Falloff.cpp:113-121. *)
Definition setLindemann (c : list R) : outcome blend :=
  match c with [] => Ok Lindemann | _ => Err end.

Definition inv_or_inf (x : R) : option R :=
  if rltb (Rabs x) SmallNumber then None else Some (/ x).

(* TroeRate::setFalloffCoeffs, Falloff.cpp:233-268. *)
Definition setTroe (c : list R) : outcome blend :=
  match c with
  | [c0; c1; c2] => Ok (Troe c0 (inv_or_inf c1) (inv_or_inf c2) 0)
  | [c0; c1; c2; c3] => Ok (Troe c0 (inv_or_inf c1) (inv_or_inf c2) c3)
  | _ => Err
  end.

(* SriRate::setFalloffCoeffs, Falloff.cpp:347-375. *)
Definition setSri (c : list R) : outcome blend :=
  match c with
  | [c0; c1; c2] => if rltb c2 0 then Err else Ok (Sri c0 c1 c2 1 0)
  | [c0; c1; c2; c3; c4] =>
      if rltb c2 0 then Err else if rltb c3 0 then Err else Ok (Sri c0 c1 c2 c3 c4)
  | _ => Err
  end.

(* TsangRate::setFalloffCoeffs, Falloff.cpp:456-472. *)
Definition setTsang (c : list R) : outcome blend :=
  match c with
  | [c0] => Ok (Tsang c0 0)
  | [c0; c1] => Ok (Tsang c0 c1)
  | _ => Err
  end.

Definition recip_opt (x : option R) : R := match x with None => 0 | Some r => / r end.

(* getFalloffCoeffs, Falloff.cpp:123-126, 270-281, 377-389, 474-483. *)
Definition getCoeffs (b : blend) : list R :=
  match b with
  | Lindemann => []
  | Troe a rt3 rt1 t2 =>
      if rltb (Rabs t2) SmallNumber then [a; recip_opt rt3; recip_opt rt1]
      else [a; recip_opt rt3; recip_opt rt1; t2]
  | Sri a b c d e =>
      if rltb e SmallNumber && rltb (Rabs (e - 1)) SmallNumber then [a; b; c]
      else [a; b; c; d; e]
  | Tsang a b => if rltb (Rabs b) SmallNumber then [a] else [a; b]
  end.

(* exp(-T * m_rt) for T > 0, where m_rt may be infinite. *)
Definition exp_neg (T : R) (rt : option R) : R :=
  match rt with None => 0 | Some r => exp (- T * r) end.

(* The centre value computed by TroeRate::updateTemp (Falloff.cpp:283-290) and
   TsangRate::updateTemp (485-489). *)
Definition troe_fcent (a : R) (rt3 rt1 : option R) (t2 T : R) : R :=
  (1 - a) * exp_neg T rt3 + a * exp_neg T rt1 +
  (if reqb t2 0 then 0 else exp (- t2 / T)).
Definition tsang_fcent (a b T : R) : R := a + b * T.

(* TroeRate::F, Falloff.cpp:292-300, and TsangRate::F, 491-499.  A vanishing
   denominator makes f1 infinite and lgf zero; 0/0 gives NaN. *)
Definition troe_F (pr work : R) : option R :=
  let lpr := log10 (Rmax pr SmallNumber) in
  let cc := - 0.4 - 0.67 * work in
  let nn := 0.75 - 1.27 * work in
  let den := nn - 0.14 * (lpr + cc) in
  if reqb den 0 then (if reqb (lpr + cc) 0 then None else Some 1)
  else
    let f1 := (lpr + cc) / den in
    Some (Rpower 10 (work / (1 + f1 * f1))).

(* pow(x, y) for x >= 0 and 0 < y: 0 at x = 0; NaN for negative x. *)
Definition fpow (x y : R) : option R :=
  if rltb 0 x then Some (Rpower x y) else if reqb x 0 then Some 0 else None.

(* updateTemp followed by F.  SriRate: Falloff.cpp:391-405. *)
Definition blendF (b : blend) (T pr : R) : option R :=
  match b with
  | Lindemann => Some 1
  | Troe a rt3 rt1 t2 =>
      troe_F pr (log10 (Rmax (troe_fcent a rt3 rt1 t2 T) SmallNumber))
  | Tsang a b => troe_F pr (log10 (Rmax (tsang_fcent a b T) SmallNumber))
  | Sri a b c d e =>
      let w0 := a * exp (- b / T) + (if reqb c 0 then 0 else exp (- T / c)) in
      let w1 := d * Rpower T e in
      let lpr := log10 (Rmax pr SmallNumber) in
      let xx := 1 / (1 + lpr * lpr) in
      match fpow w0 xx with None => None | Some p => Some (p * w1) end
  end.

(* Members of FalloffRate: m_lowRate, m_highRate (None: unconfigured),
   m_chemicallyActivated, m_negativeA_ok, and the falloff function. *)
Record falloff := Falloff {
  fo_low : option arr; fo_high : option arr;
  fo_act : bool; fo_negA : bool; fo_blend : blend
}.

(* FalloffRate::evalFromStruct, Falloff.h:157-178; 1 + pr = 0 is left undefined
   (None). *)
Definition falloff_eval (f : falloff) (T M : R) : option R :=
  match fo_low f, fo_high f with
  | Some lo, Some hi =>
      let kl := evalRate lo (ln T) (/ T) in
      let kh := evalRate hi (ln T) (/ T) in
      if reqb (kh + SmallNumber) 0 then None else
      let pr := M * kl / (kh + SmallNumber) in
      if reqb (1 + pr) 0 then None else
      match blendF (fo_blend f) T pr with
      | None => None
      | Some F =>
          if fo_act f then Some (F / (1 + pr) * kl)
          else Some (pr * (F / (1 + pr)) * kh)
      end
  | _, _ => None
  end.

(* ArrheniusBase::check, src/kinetics/Arrhenius.cpp:123-136, with the flag the
   falloff rate passes on. *)
Definition arr_check (negA : bool) (a : option arr) : bool :=
  match a with None => true | Some a => negA || negb (rltb (aA a) 0) end.

(* The sign test of FalloffRate::setLowRate / setHighRate / check: the product
   of the pre-exponential factors is not negative (NaN passes). *)
Definition sign_ok (a b : option arr) : bool :=
  match a, b with
  | Some a, Some b => negb (rltb (aA a * aA b) 0)
  | _, _ => true
  end.

(* FalloffRate::setLowRate, Falloff.cpp:87-98. *)
Definition setLowRate (low : option arr) (f : falloff) : outcome falloff :=
  if negb (arr_check (fo_negA f) low) then Err
  else if negb (sign_ok low (fo_high f)) then Err
  else Ok (Falloff low (fo_high f) (fo_act f) (fo_negA f) (fo_blend f)).

(* FalloffRate::setHighRate, Falloff.cpp:100-111. *)
Definition setHighRate (high : option arr) (f : falloff) : outcome falloff :=
  if negb (arr_check (fo_negA f) high) then Err
  else if negb (sign_ok (fo_low f) high) then Err
  else Ok (Falloff (fo_low f) high (fo_act f) (fo_negA f) (fo_blend f)).

(* FalloffRate::check, Falloff.cpp:178-191; each member rate carries its own
   negative-A flag, which setParameters and the setters copy from the falloff
   rate. *)
Definition falloff_check (f : falloff) : outcome unit :=
  if negb (arr_check (fo_negA f) (fo_low f)) then Err
  else if negb (arr_check (fo_negA f) (fo_high f)) then Err
  else if negb (sign_ok (fo_low f) (fo_high f)) then Err else Ok tt.

(* Calls on a falloff rate: setLowRate, setHighRate, and
   setAllowNegativePreExponentialFactor (include/cantera/kinetics/Falloff.h); a
   rejected call leaves the object as it was. *)
Inductive fop := SetLow (a : arr) | SetHigh (a : arr) | AllowNegative (b : bool).
Definition fstep (f : falloff) (o : fop) : falloff :=
  match o with
  | SetLow a => match setLowRate (Some a) f with Ok f' => f' | _ => f end
  | SetHigh a => match setHighRate (Some a) f with Ok f' => f' | _ => f end
  | AllowNegative b => Falloff (fo_low f) (fo_high f) (fo_act f) b (fo_blend f)
  end.

(* ---------------------------------------------------------------- *)
(** * Shared data containers *)

(* The fields of PlogData / ChebyshevData / FalloffData that a rate reads, as
   functions of the arguments of update: temperature, logT, recipT
   (include/cantera/kinetics/ReactionData.h), pressure and its logarithm
   (PlogRate.h:25-29, ChebyshevRate.h:26-31), third-body concentrations
   (Falloff.h), and the buffers.  Buffers hold -1 when nothing is buffered. *)
Record rdata := RData {
  rd_T : R; rd_logT : R; rd_recipT : R;
  rd_P : R; rd_logP : R;
  rd_M : list R;
  rd_Tbuf : R; rd_Pbuf : R; rd_Mbuf : list R; rd_pert : bool
}.

(* ReactionData::update(T), ReactionData.h:38-42. *)
Definition upd_T (T : R) (d : rdata) : rdata :=
  RData T (ln T) (/ T) (rd_P d) (rd_logP d) (rd_M d)
        (rd_Tbuf d) (rd_Pbuf d) (rd_Mbuf d) (rd_pert d).
(* PlogData::update(T, P), PlogRate.h:25-29 (ChebyshevData: the same with the
   decimal logarithm). *)
Definition upd_TP (T P : R) (d : rdata) : rdata :=
  let d := upd_T T d in
  RData (rd_T d) (rd_logT d) (rd_recipT d) P (ln P) (rd_M d)
        (rd_Tbuf d) (rd_Pbuf d) (rd_Mbuf d) (rd_pert d).
(* FalloffData::update(phase, kin), Falloff.cpp:38-55, with the third-body
   concentrations of the phase. *)
Definition upd_TM (T : R) (M : list R) (d : rdata) : rdata :=
  let d := upd_T T d in
  RData (rd_T d) (rd_logT d) (rd_recipT d) (rd_P d) (rd_logP d) M
        (rd_Tbuf d) (rd_Pbuf d) (rd_Mbuf d) (rd_pert d).

Definition set_Tbuf b d :=
  RData (rd_T d) (rd_logT d) (rd_recipT d) (rd_P d) (rd_logP d) (rd_M d)
        b (rd_Pbuf d) (rd_Mbuf d) (rd_pert d).
Definition set_Pbuf b d :=
  RData (rd_T d) (rd_logT d) (rd_recipT d) (rd_P d) (rd_logP d) (rd_M d)
        (rd_Tbuf d) b (rd_Mbuf d) (rd_pert d).

(* ReactionData::perturbTemperature, ReactionData.h:82-89. *)
Definition perturbT (dT : R) (d : rdata) : outcome rdata :=
  if rltb 0 (rd_Tbuf d) then Err
  else Ok (upd_T (rd_T d * (1 + dT)) (set_Tbuf (rd_T d) d)).
(* ReactionData::restore, ReactionData.h:92-99. *)
Definition restoreT (d : rdata) : rdata :=
  if rltb (rd_Tbuf d) 0 then d else set_Tbuf (-1) (upd_T (rd_Tbuf d) d).
(* PlogData::perturbPressure, PlogRate.cpp:29-37; ChebyshevRate.cpp:29-37. *)
Definition perturbP (dP : R) (d : rdata) : outcome rdata :=
  if rltb 0 (rd_Pbuf d) then Err
  else Ok (upd_TP (rd_T d) (rd_P d * (1 + dP)) (set_Pbuf (rd_P d) d)).
(* PlogData::restore, PlogRate.cpp:39-48; ChebyshevRate.cpp:39-48. *)
Definition restoreP (d : rdata) : rdata :=
  let d := restoreT d in
  if rltb (rd_Pbuf d) 0 then d else set_Pbuf (-1) (upd_TP (rd_T d) (rd_Pbuf d) d).
(* FalloffData::perturbThirdBodies, Falloff.cpp:57-68. *)
Definition perturbM (dM : R) (d : rdata) : outcome rdata :=
  if rd_pert d then Err
  else Ok (RData (rd_T d) (rd_logT d) (rd_recipT d) (rd_P d) (rd_logP d)
                 (map (fun c => c * (1 + dM)) (rd_M d))
                 (rd_Tbuf d) (rd_Pbuf d) (rd_M d) true).
(* FalloffData::restore, Falloff.cpp:70-79. *)
Definition restoreM (d : rdata) : rdata :=
  let d := restoreT d in
  if rd_pert d then
    RData (rd_T d) (rd_logT d) (rd_recipT d) (rd_P d) (rd_logP d) (rd_Mbuf d)
          (rd_Tbuf d) (rd_Pbuf d) (rd_Mbuf d) false
  else d.

(* Freshly constructed containers; NaN fields (pressure, concentrations) are
   represented by 0 and are never read before an update in the theorems. *)
Definition rd_new : rdata := RData 1 0 1 0 0 [] (-1) (-1) [] false.

(* Calls on a PlogData / ChebyshevData object.  A rejected perturbation leaves
   the object as it was. *)
Inductive dop := DPertT (d : R) | DPertP (d : R) | DPertM (d : R).
Definition try (o : outcome rdata) (d : rdata) : rdata :=
  match o with Ok d' => d' | _ => d end.
Definition dstep (d : rdata) (o : dop) : rdata :=
  match o with
  | DPertT x => try (perturbT x d) d
  | DPertP x => try (perturbP x d) d
  | DPertM x => try (perturbM x d) d
  end.

(* ---------------------------------------------------------------- *)
(** * MultiRate<PlogRate, PlogData> *)

(* m_rxn_rates and m_shared, include/cantera/kinetics/MultiRate.h:204-208. *)
Record multi := Multi { mu_rates : list (nat * plog); mu_sh : rdata }.

(* MultiRate::_update, MultiRate.h:197-203. *)
Fixpoint mu_update_rates (logP : R) (l : list (nat * plog)) : outcome (list (nat * plog)) :=
  match l with
  | [] => Ok []
  | (i, r) :: l' =>
      obind (plog_update logP r) (fun r' =>
      obind (mu_update_rates logP l') (fun l'' => Ok ((i, r') :: l'')))
  end.
Definition mu_refresh (m : multi) : outcome multi :=
  obind (mu_update_rates (rd_logP (mu_sh m)) (mu_rates m))
        (fun l => Ok (Multi l (mu_sh m))).

(* MultiRate::getRateConstants, MultiRate.h:68-72: the values stored at the
   reaction indices, in order. *)
Fixpoint mu_consts (sh : rdata) (l : list (nat * plog)) : outcome (list (nat * option R)) :=
  match l with
  | [] => Ok []
  | (i, r) :: l' =>
      obind (plog_eval (rd_logT sh) (rd_recipT sh) r) (fun k =>
      obind (mu_consts sh l') (fun ks => Ok ((i, k) :: ks)))
  end.
Definition getRateConstants (m : multi) : outcome (list (nat * option R)) :=
  mu_consts (mu_sh m) (mu_rates m).

(* The factor applied to rop[iRxn] when kf[iRxn] <> 0, MultiRate.h:87-92 and
   107-112. *)
Definition fd_factor (inv k1 kf : R) : R := inv * (k1 / kf - 1).
Fixpoint fd_list (inv : R) (kf : nat -> R) (ks : list (nat * option R)) :
    list (nat * option R) :=
  match ks with
  | [] => []
  | (i, k) :: ks' =>
      (i, if reqb (kf i) 0 then Some 1
          else match k with None => None | Some k1 => Some (fd_factor inv k1 (kf i)) end)
      :: fd_list inv kf ks'
  end.

(* MultiRate::processRateConstants_ddP, MultiRate.h:100-122: returns the factors
   and the evaluator afterwards. *)
Definition process_ddP (deltaP : R) (kf : nat -> R) (m : multi) :
    outcome (multi * list (nat * option R)) :=
  let inv := / (rd_P (mu_sh m) * deltaP) in
  obind (perturbP deltaP (mu_sh m)) (fun sh1 =>
  obind (mu_refresh (Multi (mu_rates m) sh1)) (fun m1 =>
  obind (getRateConstants m1) (fun ks =>
  obind (mu_refresh (Multi (mu_rates m1) (restoreP (mu_sh m1)))) (fun m2 =>
    Ok (m2, fd_list inv kf ks))))).

(* MultiRate::processRateConstants_ddT, MultiRate.h:74-98 (the branch for rates
   without an analytical derivative). *)
Definition process_ddT (deltaT : R) (kf : nat -> R) (m : multi) :
    outcome (multi * list (nat * option R)) :=
  let inv := / (rd_T (mu_sh m) * deltaT) in
  obind (perturbT deltaT (mu_sh m)) (fun sh1 =>
  obind (mu_refresh (Multi (mu_rates m) sh1)) (fun m1 =>
  obind (getRateConstants m1) (fun ks =>
  obind (mu_refresh (Multi (mu_rates m1) (restoreP (mu_sh m1)))) (fun m2 =>
    Ok (m2, fd_list inv kf ks))))).

(* MultiRate::update(T, P), MultiRate.h:161-164. *)
Definition mu_update (T P : R) (m : multi) : outcome multi :=
  mu_refresh (Multi (mu_rates m) (upd_TP T P (mu_sh m))).

(* MultiRate::add, MultiRate.h:37-41 (the invalidation of the shared data is
   subsumed by the update that must follow). *)
Definition mu_of (l : list (nat * list (R * arr))) : multi :=
  Multi (map (fun x => (fst x, plog_of (snd x))) l) rd_new.
