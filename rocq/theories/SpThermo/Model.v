(* Thermodynamic parameterisations of species and the object that holds them.
   Models include/cantera/thermo/NasaPoly1.h, NasaPoly2.h, ShomatePoly.h, ConstCpPoly.h,
   Nasa9Poly1.h, src/thermo/ConstCpPoly.cpp, Nasa9Poly1.cpp, Nasa9PolyMultiTempRegion.cpp,
   Mu0Poly.cpp and MultiSpeciesThermo.cpp. *)
From Coq Require Import Reals ZArith List Bool Arith.
From Verif Require Import Base.Outcome Base.Fp.
From Verif Require Units.Model.
Import ListNotations.
Local Open Scope list_scope.
Local Open Scope R_scope.

Notation GasConstant := Units.Model.GasConstant.
Definition T298 : R := 29815 / 100.
(* cp/R, h/RT, s/R. *)
Definition props := (R * R * R)%type.
Definition c_ (l : list R) (i : nat) : R := nth i l 0.

(* ---------------------------------------------------------------- *)
(** * Seven coefficients, NasaPoly1.h *)
(* m_coeff and m_coeff5_orig. *)
Record poly7 := P7 { p7_c : list R; p7_orig : R }.
(* Constructor and setParameters, NasaPoly1.h:60-75 (of a vector of the right size). *)
Definition poly7_of (l : list R) : poly7 := P7 l (c_ l 5).
(* updateTemperaturePoly, NasaPoly1.h:83-90. *)
Definition nasa_tpoly (T : R) : list R := let t1 := T * T in let t2 := t1 * T in [T; t1; t2; t2 * T; 1 / T; ln T].
(* updateProperties, NasaPoly1.h:103-122. *)
Definition nasa_props (c tt : list R) : props :=
  let ct0 := c_ c 0 in let ct1 := c_ c 1 * c_ tt 0 in let ct2 := c_ c 2 * c_ tt 1 in
  let ct3 := c_ c 3 * c_ tt 2 in let ct4 := c_ c 4 * c_ tt 3 in
  (ct0 + ct1 + ct2 + ct3 + ct4,
   ct0 + (1/2) * ct1 + 1/3 * ct2 + (1/4) * ct3 + (1/5) * ct4 + c_ c 5 * c_ tt 4,
   ct0 * c_ tt 5 + ct1 + (1/2) * ct2 + 1/3 * ct3 + (1/4) * ct4 + c_ c 6).
(* reportHf298, NasaPoly1.h:147-165. *)
Definition nasa_hf (c : list R) : R :=
  let tt := nasa_tpoly T298 in
  let ct0 := c_ c 0 in let ct1 := c_ c 1 * c_ tt 0 in let ct2 := c_ c 2 * c_ tt 1 in
  let ct3 := c_ c 3 * c_ tt 2 in let ct4 := c_ c 4 * c_ tt 3 in
  (ct0 + (1/2) * ct1 + 1/3 * ct2 + (1/4) * ct3 + (1/5) * ct4 + c_ c 5 * c_ tt 4) * GasConstant * T298.
Fixpoint upd (l : list R) (i : nat) (v : R) : list R :=
  match l, i with [], _ => [] | _ :: t, O => v :: t | a :: t, S i => a :: upd t i v end.
(* modifyOneHf298, resetHf298, NasaPoly1.h:167-175. *)
Definition nasa_modify (p : poly7) (h : R) : poly7 :=
  let delH := h - nasa_hf (p7_c p) in P7 (upd (p7_c p) 5 (c_ (p7_c p) 5 + delH / GasConstant)) (p7_orig p).
Definition poly7_reset (p : poly7) : poly7 := P7 (upd (p7_c p) 5 (p7_orig p)) (p7_orig p).

(* ---------------------------------------------------------------- *)
(** * Shomate, ShomatePoly.h *)
(* setParameters, ShomatePoly.h:74-95. *)
Definition shomate_of (l : list R) : poly7 := poly7_of (map (fun a => a * 1000 / GasConstant) l).
(* ShomatePoly.h:103-111. *)
Definition shomate_tpoly (T : R) : list R :=
  let tt := / 1000 * T in let t1 := tt * tt in [tt; t1; t1 * tt; 1 / t1; ln tt; 1 / tt].
(* ShomatePoly.h:125-138. *)
Definition shomate_props (c tt : list R) : props :=
  let A := c_ c 0 in let Bt := c_ c 1 * c_ tt 0 in let Ct2 := c_ c 2 * c_ tt 1 in let Dt3 := c_ c 3 * c_ tt 2 in
  let Etm2 := c_ c 4 * c_ tt 3 in let Ftm1 := c_ c 5 * c_ tt 5 in let G := c_ c 6 in
  (A + Bt + Ct2 + Dt3 + Etm2,
   A + (1/2) * Bt + 1/3 * Ct2 + (1/4) * Dt3 - Etm2 + Ftm1,
   A * c_ tt 4 + Bt + (1/2) * Ct2 + 1/3 * Dt3 - (1/2) * Etm2 + G).
(* reportHf298, modifyOneHf298, ShomatePoly.h:169-179; resetHf298 (181-183) is as above. *)
Definition shomate_hf (c : list R) : R := snd (fst (shomate_props c (shomate_tpoly T298))) * GasConstant * T298.
Definition shomate_modify (p : poly7) (h : R) : poly7 :=
  let delH := h - shomate_hf (p7_c p) in P7 (upd (p7_c p) 5 (c_ (p7_c p) 5 + delH / (1000 * GasConstant))) (p7_orig p).
(* reportParameters, ShomatePoly.h:147-157. *)
Definition shomate_report (p : poly7) : list R := map (fun a => a * GasConstant / 1000) (p7_c p).

(* ---------------------------------------------------------------- *)
(** * Nine coefficients, Nasa9Poly1.cpp:47-80 *)
Definition nasa9_tpoly (T : R) : list R :=
  let t1 := T * T in let t2 := t1 * T in let t4 := 1 / T in [T; t1; t2; t2 * T; t4; t4 / T; ln T].
Definition nasa9_props (c tt : list R) : props :=
  let ct0 := c_ c 0 * c_ tt 5 in let ct1 := c_ c 1 * c_ tt 4 in let ct2 := c_ c 2 in let ct3 := c_ c 3 * c_ tt 0 in
  let ct4 := c_ c 4 * c_ tt 1 in let ct5 := c_ c 5 * c_ tt 2 in let ct6 := c_ c 6 * c_ tt 3 in
  (ct0 + ct1 + ct2 + ct3 + ct4 + ct5 + ct6,
   - ct0 + c_ tt 6 * ct1 + ct2 + (1/2) * ct3 + 1/3 * ct4 + (1/4) * ct5 + (1/5) * ct6 + c_ c 7 * c_ tt 4,
   - (1/2) * ct0 - ct1 + c_ tt 6 * ct2 + ct3 + (1/2) * ct4 + 1/3 * ct5 + (1/4) * ct6 + c_ c 8).
(* A region: lower and upper temperature, coefficients. *)
Record region := Region { r_min : R; r_max : R; r_c : list R }.
(* The search, Nasa9PolyMultiTempRegion.cpp:119-125, 134-140: number of regions after the
   first whose lower bound is not above T, up to the first that is. *)
Fixpoint find_region (T : R) (bounds : list R) : nat :=
  match bounds with [] => 0%nat | b :: t => if rltb T b then 0%nat else S (find_region T t) end.

(* ---------------------------------------------------------------- *)
(** * Piecewise Gibbs energies, Mu0Poly.cpp *)
(* m_numIntervals, m_H298 and the columns m_t0_int, m_mu0_R_int, m_h0_R_int, m_s0_R_int,
   m_cp0_R_int. *)
Record mu0 := Mu0 { m_num : nat; m_H298 : R; m_t : list R; m_mu : list R; m_h : list R; m_s : list R; m_cp : list R }.
(* The loop upwards from the point at 298.15 K, Mu0Poly.cpp:68-79: given a point (T1, mu1) with
   h and s, and the points after it: for each point h, s and cp of the interval from it; the last
   point takes the cp of the interval before it. *)
Fixpoint go_up (T1 mu1 h1 s1 cp_prev : R) (pts : list (R * R)) : list (R * R * R) :=
  match pts with
  | [] => [(h1, s1, cp_prev)]
  | (T2, mu2) :: pts =>
      let deltaMu := mu2 - mu1 in let deltaT := T2 - T1 in
      let cpi := (deltaMu - T1 * s1 + T2 * s1) / (deltaT - T2 * ln (T2 / T1)) in
      (h1, s1, cpi) :: go_up T2 mu2 (h1 + cpi * deltaT) (s1 + cpi * ln (T2 / T1)) cpi pts
  end.
(* The loop downwards, Mu0Poly.cpp:85-98: the points before it, nearest first; result nearest
   first. *)
Fixpoint go_down (T2 mu2 h2 s2 : R) (pts : list (R * R)) : list (R * R * R) :=
  match pts with
  | [] => []
  | (T1, mu1) :: pts =>
      let deltaMu := mu2 - mu1 in let deltaT := T2 - T1 in
      let cpi := (deltaMu - T1 * s2 + T2 * s2) / (deltaT - T1 * ln (T2 / T1)) in
      (h2 - cpi * deltaT, s2 - cpi * ln (T2 / T1), cpi) ::
      go_down T1 mu1 (h2 - cpi * deltaT) (s2 - cpi * ln (T2 / T1)) pts
  end.
(* Points before 298.15 K (nearest first), that point, and the points after it. *)
Fixpoint split298 (before : list (R * R)) (pts : list (R * R)) : option (list (R * R) * (R * R) * list (R * R)) :=
  match pts with
  | [] => None
  | p :: pts => if reqb (fst p) T298 then Some (before, p, pts) else split298 (p :: before) pts
  end.
(* std::map<double, double>: assignment T_mu[T] = mu. *)
Fixpoint map_set (m : list (R * R)) (T mu : R) : list (R * R) :=
  match m with
  | [] => [(T, mu)]
  | (a, x) :: m' => if rltb a T then (a, x) :: map_set m' T mu else if rltb T a then (T, mu) :: m else (T, mu) :: m'
  end.
Definition map_of (l : list (R * R)) : list (R * R) := fold_left (fun m p => map_set m (fst p) (snd p)) l [].
(* Mu0Poly::setParameters, Mu0Poly.cpp:36-100, on an object whose columns m_t0_int and m_mu0_R_int
   hold [old] (nothing if the object is new): the new points are put after them. pts is the map in
   increasing order of temperature. The other columns get as many rows as there are new points: a
   write beyond that is undefined behaviour. The last row takes the cp of the interval below it
   (lines 78, 95-97). *)
Definition mu0_set (old : list (R * R)) (h0 : R) (pts : list (R * R)) : outcome mu0 :=
  let n := length pts in
  if (n <? 2)%nat then Err
  else
    let new := map (fun p => (fst p, snd p / GasConstant)) pts in
    match split298 (rev old) new with
    | None => Err
    | Some (before, (T, mu), after) =>
        if (n <=? length before)%nat then UB
        else
          let h := h0 / GasConstant in
          let s := - (mu - h) / T in
          let down := go_down T mu h s before in
          let up := go_up T mu h s (match down with (_, _, cp) :: _ => cp | [] => 0 end) (firstn (n - 1 - length before) after) in
          let all := rev down ++ up in
          Ok (Mu0 (n - 1) h (map fst (old ++ new)) (map snd (old ++ new))
                  (map (fun a => fst (fst a)) all) (map (fun a => snd (fst a)) all) (map snd all))
    end.
(* Mu0Poly::updateProperties, Mu0Poly.cpp:102-119: the first interval whose upper end is not below T. *)
Fixpoint find_interval (T : R) (uppers : list R) : nat :=
  match uppers with [] => 0%nat | t2 :: t => if rltb t2 T then S (find_interval T t) else 0%nat end.
Definition mu0_props (m : mu0) (T : R) : props :=
  let j := find_interval T (firstn (m_num m) (tl (m_t m))) in
  let T1 := c_ (m_t m) j in let cp := c_ (m_cp m) j in
  (cp, (c_ (m_h m) j + (T - T1) * cp) / T, c_ (m_s m) j + cp * ln (T / T1)).

(* ---------------------------------------------------------------- *)
(** * Any parameterisation *)
(* ConstCpPoly: m_t0, m_cp0_R, m_h0_R, m_s0_R, m_logt0, m_h0_R_orig, ConstCpPoly.h:97-109. *)
Record constcp := CC { cc_t0 : R; cc_cp : R; cc_h : R; cc_s : R; cc_logt0 : R; cc_orig : R }.
Inductive kind :=
| KNasa1 (p : poly7)
| KShomate1 (p : poly7)
| KNasa2 (mid : R) (low high : poly7)
| KShomate2 (mid : R) (low high : poly7)
| KConst (c : constcp)
| KNasa9 (regions : list region)
| KMu0 (m : mu0).
(* With temperature limits and reference pressure. *)
Record stit := ST { t_min : R; t_max : R; t_pref : R; t_kind : kind }.

(* ConstCpPoly::setParameters, ConstCpPoly.cpp:29-36, on a new object: m_h0_R_orig keeps its
   initial value. *)
Definition constcp_of (t0 h0 s0 cp0 : R) : constcp :=
  CC t0 (cp0 / GasConstant) (h0 / GasConstant) (s0 / GasConstant) (ln t0) 0.
(* The constructors from an array of coefficients. *)
Definition seg (l : list R) (i n : nat) : list R := firstn n (skipn i l).
(* Nasa9PolyMultiTempRegion.cpp:54-80. *)
Fixpoint regions_of (n : nat) (c : list R) : list region :=
  match n with O => [] | S n => Region (c_ c 0) (c_ c 1) (seg c 2 9) :: regions_of n (skipn 11 c) end.
Fixpoint regions_ok (l : list region) : bool :=
  match l with
  | a :: ((b :: _) as t) => rltb (r_min a) (r_min b) && negb (rltb (1 / 10000) (Rabs (r_max a - r_min b))) && regions_ok t
  | _ => true
  end.
(* Mu0Poly.cpp:29-32: the pairs. *)
Fixpoint pairs_of (n : nat) (c : list R) : list (R * R) :=
  match n with O => [] | S n => (c_ c 0, c_ c 1) :: pairs_of n (skipn 2 c) end.
(* newSpeciesThermoInterpType, SpeciesThermoFactory.cpp:27-50, and the constructors: NasaPoly1.h:60-65,
   ShomatePoly.h:74-82, ConstCpPoly.cpp:22-27, Mu0Poly.cpp:23-34, ShomatePoly.h:245-251,
   NasaPoly2.h:63-68, Nasa9PolyMultiTempRegion.cpp:54-80. c is the array the pointer points to: an
   access outside it is undefined behaviour. static_cast<size_t> of the first element cuts off the
   fraction; a negative number is given no regions. *)
Definition cast (x : R) : nat := Z.to_nat (up x - 1).
Definition need (n : nat) (c : list R) (t : outcome stit) : outcome stit := if (n <=? length c)%nat then t else UB.
Definition new_stit (type : Z) (lo hi p : R) (c : list R) : outcome stit :=
  if (type =? 256)%Z then need 7 c (Ok (ST lo hi p (KNasa1 (poly7_of (seg c 0 7)))))
  else if (type =? 128)%Z then need 7 c (Ok (ST lo hi p (KShomate1 (shomate_of (seg c 0 7)))))
  else if ((type =? 1) || (type =? 32))%Z then need 4 c (Ok (ST lo hi p (KConst (constcp_of (c_ c 0) (c_ c 1) (c_ c 2) (c_ c 3)))))
  else if (type =? 64)%Z then
    need 1 c (need (2 + 2 * cast (c_ c 0)) c
      (omap (fun m => ST lo hi p (KMu0 m)) (mu0_set [] (c_ c 1) (map_of (pairs_of (cast (c_ c 0)) (skipn 2 c))))))
  else if (type =? 8)%Z then need 15 c (Ok (ST lo hi p (KShomate2 (c_ c 0) (shomate_of (seg c 1 7)) (shomate_of (seg c 8 7)))))
  else if (type =? 4)%Z then need 15 c (Ok (ST lo hi p (KNasa2 (c_ c 0) (poly7_of (seg c 8 7)) (poly7_of (seg c 1 7)))))
  else if (type =? 513)%Z then
    need 1 c (need (1 + 11 * cast (c_ c 0)) c
      (let l := regions_of (cast (c_ c 0)) (skipn 1 c) in if regions_ok l then Ok (ST lo hi p (KNasa9 l)) else Err))
  else Err.

(* updateTemperaturePoly; SpeciesThermoInterpType.h:169-171 for the last two. *)
Definition tpoly (t : stit) (T : R) : list R :=
  match t_kind t with
  | KNasa1 _ | KNasa2 _ _ _ => nasa_tpoly T
  | KShomate1 _ | KShomate2 _ _ _ => shomate_tpoly T
  | KNasa9 _ => nasa9_tpoly T
  | KConst _ | KMu0 _ => [T]
  end.
(* updateProperties: NasaPoly2.h:105-112, ShomatePoly.h:294-302, ConstCpPoly.cpp:38-49,
   Nasa9PolyMultiTempRegion.cpp:116-128, Mu0Poly.cpp:102-119. *)
Definition update_tt (t : stit) (tt : list R) : outcome props :=
  match t_kind t with
  | KNasa1 p => Ok (nasa_props (p7_c p) tt)
  | KShomate1 p => Ok (shomate_props (p7_c p) tt)
  | KNasa2 mid low high => Ok (if negb (rltb mid (c_ tt 0)) then nasa_props (p7_c low) tt else nasa_props (p7_c high) tt)
  | KShomate2 mid low high =>
      let T := 1000 * c_ tt 0 in
      Ok (if negb (rltb mid T) then shomate_props (p7_c low) tt else shomate_props (p7_c high) tt)
  | KConst c =>
      let T := c_ tt 0 in let rt := 1 / T in
      Ok (cc_cp c, rt * (cc_h c + (T - cc_t0 c) * cc_cp c), cc_s c + cc_cp c * (ln T - cc_logt0 c))
  | KNasa9 rs =>
      match nth_error rs (find_region (c_ tt 0) (map r_min (tl rs))) with
      | Some r => Ok (nasa9_props (r_c r) tt)
      | None => UB
      end
  | KMu0 m => Ok (mu0_props m (c_ tt 0))
  end.
(* updatePropertiesTemp: NasaPoly2.h:114-121, ShomatePoly.h:304-311, ConstCpPoly.cpp:51-61,
   Nasa9PolyMultiTempRegion.cpp:130-143, Mu0Poly.cpp:121-127. *)
Definition update_temp (t : stit) (T : R) : outcome props :=
  match t_kind t with
  | KNasa1 p => Ok (nasa_props (p7_c p) (nasa_tpoly T))
  | KShomate1 p => Ok (shomate_props (p7_c p) (shomate_tpoly T))
  | KNasa2 mid low high => Ok (if negb (rltb mid T) then nasa_props (p7_c low) (nasa_tpoly T) else nasa_props (p7_c high) (nasa_tpoly T))
  | KShomate2 mid low high =>
      Ok (if negb (rltb mid T) then shomate_props (p7_c low) (shomate_tpoly T) else shomate_props (p7_c high) (shomate_tpoly T))
  | KConst c => let rt := 1 / T in Ok (cc_cp c, rt * (cc_h c + (T - cc_t0 c) * cc_cp c), cc_s c + cc_cp c * (ln T - cc_logt0 c))
  | KNasa9 rs =>
      match nth_error rs (find_region T (map r_min (tl rs))) with
      | Some r => Ok (nasa9_props (r_c r) (nasa9_tpoly T))
      | None => UB
      end
  | KMu0 m => Ok (mu0_props m T)
  end.
Definition set_kind (t : stit) (k : kind) : stit := ST (t_min t) (t_max t) (t_pref t) k.
(* reportHf298: NasaPoly2.h:134-145, ShomatePoly.h:332-343, ConstCpPoly.cpp:87-95; the others
   throw NotImplementedError, SpeciesThermoInterpType.cpp:65-73. *)
Definition reportHf298 (t : stit) : outcome R :=
  match t_kind t with
  | KNasa1 p => Ok (nasa_hf (p7_c p))
  | KShomate1 p => Ok (shomate_hf (p7_c p))
  | KNasa2 mid low high => Ok (if negb (rltb mid T298) then nasa_hf (p7_c low) else nasa_hf (p7_c high))
  | KShomate2 mid low high => Ok (if negb (rltb mid T298) then shomate_hf (p7_c low) else shomate_hf (p7_c high))
  | KConst c => Ok (GasConstant * (cc_h c + (T298 - cc_t0 c) * cc_cp c))
  | _ => Err
  end.
(* modifyOneHf298: NasaPoly2.h:152-162, ShomatePoly.h:345-354, ConstCpPoly.cpp:97-102. *)
Definition modifyHf298 (t : stit) (h : R) : outcome stit :=
  match t_kind t with
  | KNasa1 p => Ok (set_kind t (KNasa1 (nasa_modify p h)))
  | KShomate1 p => Ok (set_kind t (KShomate1 (shomate_modify p h)))
  | KNasa2 mid low high =>
      let delH := h - (if negb (rltb mid T298) then nasa_hf (p7_c low) else nasa_hf (p7_c high)) in
      Ok (set_kind t (KNasa2 mid (nasa_modify low (nasa_hf (p7_c low) + delH)) (nasa_modify high (nasa_hf (p7_c high) + delH))))
  | KShomate2 mid low high =>
      let delH := h - (if negb (rltb mid T298) then shomate_hf (p7_c low) else shomate_hf (p7_c high)) in
      Ok (set_kind t (KShomate2 mid (shomate_modify low (shomate_hf (p7_c low) + delH)) (shomate_modify high (shomate_hf (p7_c high) + delH))))
  | KConst c =>
      let delH := h - GasConstant * (cc_h c + (T298 - cc_t0 c) * cc_cp c) in
      Ok (set_kind t (KConst (CC (cc_t0 c) (cc_cp c) (cc_h c + delH / GasConstant) (cc_s c) (cc_logt0 c) (cc_orig c))))
  | _ => Err
  end.
(* resetHf298: NasaPoly2.h:147-150, ShomatePoly.h:356-359, ConstCpPoly.cpp:104-106; the others
   throw NotImplementedError, SpeciesThermoInterpType.h:269-271. *)
Definition resetHf298 (t : stit) : outcome stit :=
  match t_kind t with
  | KNasa1 p => Ok (set_kind t (KNasa1 (poly7_reset p)))
  | KShomate1 p => Ok (set_kind t (KShomate1 (poly7_reset p)))
  | KNasa2 mid low high => Ok (set_kind t (KNasa2 mid (poly7_reset low) (poly7_reset high)))
  | KShomate2 mid low high => Ok (set_kind t (KShomate2 mid (poly7_reset low) (poly7_reset high)))
  | KConst c => Ok (set_kind t (KConst (CC (cc_t0 c) (cc_cp c) (cc_orig c) (cc_s c) (cc_logt0 c) (cc_orig c))))
  | _ => Err
  end.
(* reportParameters: the coefficients, NasaPoly1.h:131-139, ShomatePoly.h:147-157,
   NasaPoly2.h:125-130, ShomatePoly.h:315-320, ConstCpPoly.cpp:63-75,
   Nasa9PolyMultiTempRegion.cpp:150-173, Mu0Poly.cpp:134-150. For the two
   ranges coeffs[0] is first the lower limit of the high range, then overwritten by the upper
   limit of the low range (NASA), or the other way round; both are the middle temperature. *)
Definition reportParameters (t : stit) : list R :=
  match t_kind t with
  | KNasa1 p => p7_c p
  | KShomate1 p => shomate_report p
  | KNasa2 mid low high => mid :: p7_c high ++ p7_c low
  | KShomate2 mid low high => mid :: shomate_report low ++ shomate_report high
  | KConst c => [cc_t0 c; cc_h c * GasConstant; cc_s c * GasConstant; cc_cp c * GasConstant]
  | KNasa9 rs => INR (length rs) :: flat_map (fun r => r_min r :: r_max r :: r_c r) rs
  | KMu0 m => INR (m_num m + 1) :: m_H298 m * GasConstant ::
              flat_map (fun p => [fst p; snd p * GasConstant]) (firstn (m_num m + 1) (combine (m_t m) (m_mu m)))
  end.
(* nCoeffs, NasaPoly2.h:123, ShomatePoly.h:313, ConstCpPoly.h:86,
   Nasa9PolyMultiTempRegion.cpp:145-148, Mu0Poly.cpp:129-132; the others throw,
   SpeciesThermoInterpType.cpp:36-39. *)
Definition nCoeffs (t : stit) : outcome nat :=
  match t_kind t with
  | KNasa1 _ | KShomate1 _ => Err
  | KNasa2 _ _ _ | KShomate2 _ _ _ => Ok 15%nat
  | KConst _ => Ok 4%nat
  | KNasa9 rs => Ok (11 * length rs + 1)%nat
  | KMu0 m => Ok (2 * m_num m + 4)%nat
  end.

(* ---------------------------------------------------------------- *)
(** * MultiSpeciesThermo *)
(* reportType, with the numbers of speciesThermoTypes.h:13-58. The single Shomate polynomial says
   SHOMATE (ShomatePoly.h:97-99), which is SHOMATE2. *)
Definition type_of (t : stit) : Z :=
  match t_kind t with KNasa1 _ => 256 | KNasa2 _ _ _ => 4 | KShomate1 _ | KShomate2 _ _ _ => 8 | KConst _ => 1 | KNasa9 _ => 513 | KMu0 _ => 64 end%Z.
(* m_sp: for each type, in increasing order, the species of that type with their indices in the
   order of installation. m_speciesLoc: index to type and position. m_tlow_max, m_thigh_min, m_p0.
   m_tpoly is scratch space. MultiSpeciesThermo.h:188-222. *)
Record mgr := MG { g_sp : list (Z * list (nat * stit)); g_loc : list (nat * (Z * nat)); g_low : R; g_high : R; g_p0 : R }.
Definition mgr0 : mgr := MG [] [] 0 (10 ^ 30) 0.
Fixpoint loc_find (l : list (nat * (Z * nat))) (k : nat) : option (Z * nat) :=
  match l with [] => None | (i, v) :: t => if Nat.eqb i k then Some v else loc_find t k end.
Fixpoint sp_find (l : list (Z * list (nat * stit))) (ty : Z) : list (nat * stit) :=
  match l with [] => [] | (i, v) :: t => if Z.eqb i ty then v else sp_find t ty end.
(* std::map insertion keeps the types in increasing order. *)
Fixpoint sp_set (l : list (Z * list (nat * stit))) (ty : Z) (v : list (nat * stit)) : list (Z * list (nat * stit)) :=
  match l with
  | [] => [(ty, v)]
  | (i, w) :: t => if Z.eqb i ty then (ty, v) :: t else if Z.ltb ty i then (ty, v) :: l else (i, w) :: sp_set t ty v
  end.
Definition rmax2 (a b : R) : R := if rltb a b then b else a.
Definition rmin2 (a b : R) : R := if rltb b a then b else a.
(* install_STIT, MultiSpeciesThermo.cpp:21-51; the check of line 28 is on (NDEBUG not defined).
   The stored object is the species' own (shared pointer); here it is a copy. *)
Definition install (g : mgr) (k : nat) (t : stit) : outcome mgr :=
  match loc_find (g_loc g) k with
  | Some _ => Err
  | None =>
      if reqb (g_p0 g) 0 || negb (rltb (/ 10 ^ 6) (Rabs (g_p0 g - t_pref t))) then
        let p0 := if reqb (g_p0 g) 0 then t_pref t else g_p0 g in
        let ty := type_of t in
        let sp := sp_find (g_sp g) ty in
        Ok (MG (sp_set (g_sp g) ty (sp ++ [(k, t)])) ((k, (ty, length sp)) :: g_loc g)
               (rmax2 (t_min t) (g_low g)) (rmin2 (t_max t) (g_high g)) p0)
      else Err
  end.
Fixpoint set_nth {A} (l : list A) (i : nat) (v : A) : list A :=
  match l, i with [], _ => [] | _ :: t, O => v :: t | a :: t, S i => a :: set_nth t i v end.
(* provideSTIT, MultiSpeciesThermo.cpp:157-175. *)
Definition provide (g : mgr) (k : nat) : option stit :=
  match loc_find (g_loc g) k with
  | Some (ty, j) => option_map snd (nth_error (sp_find (g_sp g) ty) j)
  | None => None
  end.
Definition put (g : mgr) (k : nat) (t : stit) : mgr :=
  match loc_find (g_loc g) k with
  | Some (ty, j) => MG (sp_set (g_sp g) ty (set_nth (sp_find (g_sp g) ty) j (k, t))) (g_loc g) (g_low g) (g_high g) (g_p0 g)
  | None => g
  end.
(* modifySpecies, MultiSpeciesThermo.cpp:53-83. *)
Definition modifySpecies (g : mgr) (k : nat) (t : stit) : outcome mgr :=
  match loc_find (g_loc g) k with
  | None => Err
  | Some (ty, j) =>
      if negb (Z.eqb ty (type_of t)) then Err
      else if rltb (g_low g) (t_min t) then Err
      else if rltb (t_max t) (g_high g) then Err
      else Ok (put g k t)
  end.
(* modifyOneHf298, resetHf298, reportOneHf298: MultiSpeciesThermo.cpp:177-201. *)
Definition g_modifyHf298 (g : mgr) (k : nat) (h : R) : outcome mgr :=
  match provide g k with Some t => omap (put g k) (modifyHf298 t h) | None => Ok g end.
Definition g_resetHf298 (g : mgr) (k : nat) : outcome mgr :=
  match provide g k with Some t => omap (put g k) (resetHf298 t) | None => Ok g end.
Definition g_reportHf298 (g : mgr) (k : nat) : outcome R :=
  match provide g k with Some t => reportHf298 t | None => Ok (-1) end.
(* update_single, MultiSpeciesThermo.cpp:85-92: None if nothing is written. *)
Definition update_single (g : mgr) (k : nat) (T : R) : outcome (option props) :=
  match provide g k with Some t => omap Some (update_temp t T) | None => Ok None end.
(* update, MultiSpeciesThermo.cpp:94-106: the values written, in order. *)
Fixpoint update_list (tt : list R) (l : list (nat * stit)) : outcome (list (nat * props)) :=
  match l with
  | [] => Ok []
  | (k, t) :: l => obind (update_tt t tt) (fun p => omap (cons (k, p)) (update_list tt l))
  end.
Fixpoint update_types (T : R) (l : list (Z * list (nat * stit))) : outcome (list (nat * props)) :=
  match l with
  | [] => Ok []
  | (_, sp) :: l =>
      match sp with
      | [] => UB
      | (_, t0) :: _ => obind (update_list (tpoly t0 T) sp) (fun a => omap (app a) (update_types T l))
      end
  end.
Definition update (g : mgr) (T : R) : outcome (list (nat * props)) := update_types T (g_sp g).
(* minTemp and maxTemp, MultiSpeciesThermo.cpp:130-150. *)
Definition minTemp (g : mgr) (k : option nat) : R :=
  match k with Some k => match provide g k with Some t => t_min t | None => g_low g end | None => g_low g end.
Definition maxTemp (g : mgr) (k : option nat) : R :=
  match k with Some k => match provide g k with Some t => t_max t | None => g_high g end | None => g_high g end.

(* Operations. *)
Inductive op :=
| OInstall (k : nat) (t : stit)
| OModify (k : nat) (t : stit)
| OSetHf (k : nat) (h : R)
| OResetHf (k : nat).
Definition step (g : mgr) (o : op) : outcome mgr :=
  match o with
  | OInstall k t => install g k t
  | OModify k t => modifySpecies g k t
  | OSetHf k h => g_modifyHf298 g k h
  | OResetHf k => g_resetHf298 g k
  end.
(* A caller that catches exceptions. *)
Definition next (g : mgr) (o : op) : mgr := match step g o with Ok g' => g' | _ => g end.
Definition run (ops : list op) : mgr := fold_left next ops mgr0.

(* ---------------------------------------------------------------- *)
(** * Heats of formation in a phase *)
(* ThermoPhase::resetHf298 without an index, ThermoPhase.cpp:28-37. *)
Fixpoint reset_all (g : mgr) (n : nat) : outcome mgr :=
  match n with O => Ok g | S n => obind (reset_all g n) (fun g => g_resetHf298 g n) end.
(* LatticeSolidPhase: the lattices' species data with their numbers of species. lkstart_,
   LatticeSolidPhase.cpp:352-355. npos is no valid index. *)
Definition lkstart (ls : list (mgr * nat)) (n : nat) : nat := fold_right (fun l a => snd l + a)%nat 0%nat (firstn n ls).
(* LatticeSolidPhase::modifyOneHf298SS, LatticeSolidPhase.cpp:427-438. *)
Fixpoint lat_modify (ls rest : list (mgr * nat)) (n k : nat) (h : R) : outcome (list (mgr * nat)) :=
  match rest with
  | [] => Ok []
  | (g, m) :: rest =>
      obind (if (lkstart ls (S n) <? k)%nat then g_modifyHf298 g (k - lkstart ls n) h else Ok g) (fun g' =>
      omap (cons (g', m)) (lat_modify ls rest (S n) k h))
  end.
Definition lattice_modifyHf298 (ls : list (mgr * nat)) (k : nat) (h : R) : outcome (list (mgr * nat)) := lat_modify ls ls 0 k h.
(* LatticeSolidPhase::resetHf298, LatticeSolidPhase.cpp:440-456. *)
Fixpoint lat_reset (ls rest : list (mgr * nat)) (n k : nat) : outcome (list (mgr * nat)) :=
  match rest with
  | [] => Ok []
  | (g, m) :: rest =>
      obind (if (lkstart ls (S n) <? k)%nat then g_resetHf298 g (k - lkstart ls n) else Ok g) (fun g' =>
      omap (cons (g', m)) (lat_reset ls rest (S n) k))
  end.
(* minTemp and maxTemp of one species, LatticeSolidPhase.cpp:25-57. None: the value for all. *)
Fixpoint lat_temp (f : mgr -> option nat -> R) (ls rest : list (mgr * nat)) (n k : nat) : option R :=
  match rest with
  | [] => None
  | (g, m) :: rest => if (lkstart ls (S n) <? k)%nat then Some (f g (Some (k - lkstart ls n)%nat)) else lat_temp f ls rest (S n) k
  end.
