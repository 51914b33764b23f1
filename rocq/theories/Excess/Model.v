(** Model of the liquid solution models with an excess Gibbs energy: MargulesVPSSTP and
    RedlichKisterVPSSTP (src/thermo/MargulesVPSSTP.cpp, src/thermo/RedlichKisterVPSSTP.cpp) on top of
    GibbsExcessVPSSTP (src/thermo/GibbsExcessVPSSTP.cpp).

    Numbers are real.  The mole fractions x are a function of the species index, n is the number of
    species.  The code adds one contribution per interaction to every element of an array that starts
    at zero; here the element is the sum of these contributions over the list of interactions. *)
From Coq Require Import Reals List Bool Arith.
From Verif Require Import Base.Fp Base.Outcome Base.RSum Base.Vec Units.Model.
Import ListNotations.
Open Scope R_scope.

(** ** Margules *)
(** One binary interaction, addBinaryInteraction, MargulesVPSSTP.cpp:203-226 (an interaction with an unknown species is ignored). *)
Record inter := Int { iA : nat; iB : nat; h0 : R; h1 : R; s0 : R; s1 : R; vh0 : R; vh1 : R; vs0 : R; vs1 : R }.

(** The common pattern of s_update_lnActCoeff, s_update_dlnActCoeff_dT and getPartialMolarVolumes: what
    an interaction with coefficients g0, g1 adds to element k (MargulesVPSSTP.cpp:236-247). *)
Definition contrib (i : inter) (g0 g1 : R) (x : vec) (k : nat) : R :=
  let XA := x (iA i) in
  let XB := x (iB i) in
  let all := - 1 * (XA * XB) * (g0 + g1 * XB) - XA * XB * XB * g1 in
  all + (if (k =? iA i)%nat then XB * (g0 + g1 * XB) else 0)
      + (if (k =? iB i)%nat then XA * (g0 + g1 * XB) + XA * XB * g1 else 0).

Definition RT (T : R) : R := GasConstant * T.
Definition g0_RT (T : R) (i : inter) : R := (h0 i - T * s0 i) / RT T.
Definition g1_RT (T : R) (i : inter) : R := (h1 i - T * s1 i) / RT T.

(** s_update_lnActCoeff, MargulesVPSSTP.cpp:229-249; getLnActivityCoefficients, 25-34. *)
Definition lnac (L : list inter) (T : R) (x : vec) (k : nat) : R :=
  sum_of (fun i => contrib i (g0_RT T i) (g1_RT T i) x k) L.

(** s_update_dlnActCoeff_dT, MargulesVPSSTP.cpp:251-279. *)
Definition invRTT (T : R) : R := 1 / GasConstant * (1 / T) * (1 / T).
Definition dlnac_dT (L : list inter) (T : R) (x : vec) (k : nat) : R :=
  sum_of (fun i => contrib i (- h0 i * invRTT T) (- h1 i * invRTT T) x k) L.
Definition d2lnac_dT2 (L : list inter) (T : R) (x : vec) (k : nat) : R :=
  sum_of (fun i => - (2 * (1 / T)) * contrib i (- h0 i * invRTT T) (- h1 i * invRTT T) x k) L.

(** Phases of this kind get standard chemical potentials, enthalpies, entropies, heat capacities and
    volumes of the species from elsewhere: arbitrary functions of temperature (at one pressure). *)
Record std := Std { st_mu : R -> nat -> R; st_h : R -> nat -> R; st_s : R -> nat -> R; st_cp : R -> nat -> R; st_v : R -> nat -> R }.

(** getChemPotentials, MargulesVPSSTP.cpp:38-50 and RedlichKisterVPSSTP.cpp:39-51; the logarithm
    of the activity coefficient is an argument. *)
Definition chem_potential (st : std) (lac : R -> vec -> nat -> R) (T : R) (x : vec) (k : nat) : R :=
  st_mu st T k + RT T * (ln (Rmax (x k) SmallNumber) + lac T x k).
(** getPartialMolarEnthalpies, MargulesVPSSTP.cpp:57-74, RedlichKisterVPSSTP.cpp:58-75. *)
Definition partial_enthalpy (st : std) (dlac : R -> vec -> nat -> R) (T : R) (x : vec) (k : nat) : R :=
  st_h st T k - RT T * T * dlac T x k.
(** getPartialMolarEntropies, MargulesVPSSTP.cpp:96-116, RedlichKisterVPSSTP.cpp:86-106: the
    standard entropies divided by the gas constant, changed, and multiplied by it. *)
Definition partial_entropy (st : std) (lac dlac : R -> vec -> nat -> R) (T : R) (x : vec) (k : nat) : R :=
  (st_s st T k / GasConstant + (- lac T x k - ln (Rmax (x k) SmallNumber) - T * dlac T x k)) * GasConstant.
(** getPartialMolarCp, MargulesVPSSTP.cpp:76-94; RedlichKisterVPSSTP.cpp:77-84. *)
Definition partial_cp (st : std) (dlac d2lac : R -> vec -> nat -> R) (T : R) (x : vec) (k : nat) : R :=
  (st_cp st T k / GasConstant - (2 * T * dlac T x k + T * T * d2lac T x k)) * GasConstant.
Definition partial_cp_RK (st : std) (T : R) (x : vec) (k : nat) : R := st_cp st T k / GasConstant * GasConstant.

(** getPartialMolarVolumes, MargulesVPSSTP.cpp:118-141. *)
Definition partial_volume (st : std) (L : list inter) (T : R) (x : vec) (k : nat) : R :=
  st_v st T k + sum_of (fun i => contrib i (vh0 i - T * vs0 i) (vh1 i - T * vs1 i) x k) L.
(** GibbsExcessVPSSTP::calcDensity, GibbsExcessVPSSTP.cpp:32-41; W is the mean molecular weight. *)
Definition density (st : std) (n : nat) (T W : R) (x : vec) : R := W / sum_n (fun k => st_v st T k * x k) n.

(** getdlnActCoeffds, MargulesVPSSTP.cpp:296-323: the temperature part is added once for every
    interaction, to every species. *)
Definition dlnac_ds (L : list inter) (T : R) (x : vec) (dT : R) (dX : vec) (k : nat) : R :=
  sum_of (fun i =>
    let XA := x (iA i) in
    let XB := x (iB i) in
    let dXA := dX (iA i) in
    let dXB := dX (iB i) in
    let g02g1XB := g0_RT T i + 2 * g1_RT T i * XB in
    let g2XAdXB := 2 * g1_RT T i * XA * dXB in
    (- XB * dXA - XA * dXB) * g02g1XB - XB * g2XAdXB + dlnac_dT L T x k * dT
    + (if (k =? iA i)%nat then dXB * g02g1XB else 0)
    + (if (k =? iB i)%nat then dXA * g02g1XB + g2XAdXB else 0)) L.

(** delAK and delBK, MargulesVPSSTP.cpp:336-343 and 369-382. *)
Definition delA (i : inter) (k : nat) : R := if (iA i =? k)%nat then 1 else 0.
Definition delB (i : inter) (k : nat) : R := if (iA i =? k)%nat then 0 else if (iB i =? k)%nat then 1 else 0.

(** s_update_dlnActCoeff_dlnN_diag, MargulesVPSSTP.cpp:325-355. *)
Definition dlnac_dlnN_diag (L : list inter) (T : R) (x : vec) (k : nat) : R :=
  x k * sum_of (fun i =>
    let XA := x (iA i) in
    let XB := x (iB i) in
    2 * (delB i k - XB) * (g0_RT T i * (delA i k - XA)
      + g1_RT T i * (2 * (delA i k - XA) * XB + XA * (delB i k - XB)))) L.
(** s_update_dlnActCoeff_dlnN, MargulesVPSSTP.cpp:357-394: element (K, M). *)
Definition dlnac_dlnN (L : list inter) (T : R) (x : vec) (K M : nat) : R :=
  x M * sum_of (fun i =>
    let XA := x (iA i) in
    let XB := x (iB i) in
    g0_RT T i * ((delA i M - XA) * (delB i K - XB) + (delA i K - XA) * (delB i M - XB))
    + 2 * g1_RT T i * ((delA i M - XA) * (delB i K - XB) * XB + (delA i K - XA) * (delB i M - XB) * XB
                       + (delB i M - XB) * (delB i K - XB) * XA)) L.
(** getdlnActCoeffdlnN, MargulesVPSSTP.cpp:432-441, with ld = m_kk: the array of the caller, from the
    column-major matrix. *)
Definition get_dlnac_dlnN (L : list inter) (n : nat) (T : R) (x : vec) (a : nat) : R :=
  dlnac_dlnN L T x (a mod n) (a / n).

(** s_update_dlnActCoeff_dlnX_diag, MargulesVPSSTP.cpp:396-414, with the product 2*g1*-2*g0. *)
Definition dlnac_dlnX_diag (L : list inter) (T : R) (x : vec) (k : nat) : R :=
  sum_of (fun i =>
    let XA := x (iA i) in
    let XB := x (iB i) in
    let g0 := g0_RT T i in
    let g1 := g1_RT T i in
    (if (k =? iA i)%nat then XA * XB * (2 * g1 * -2 * g0 - 6 * g1 * XB) else 0)
    + (if (k =? iB i)%nat then XA * XB * (2 * g1 * -2 * g0 - 6 * g1 * XB) else 0)) L.

(** ** Redlich-Kister *)
(** addBinaryInteraction, RedlichKisterVPSSTP.cpp:422-452: the two lists are padded to one length;
    here a list of pairs (enthalpy, entropy). *)
Record rki := Rki { rA : nat; rB : nat; rhs : list (R * R) }.

(** The loop over the terms (RedlichKisterVPSSTP.cpp:179-189, 225-235): sum, sum2, sumMm1. *)
Fixpoint rk_loop (l : list R) (m : nat) (deltaX poly polyMm1 sum sum2 sumMm1 : R) : R * R * R :=
  match l with
  | [] => (sum, sum2, sumMm1)
  | a :: l =>
      rk_loop l (S m) deltaX (poly * deltaX) (if (1 <=? m)%nat then polyMm1 * deltaX else polyMm1)
        (sum + a * poly) (sum2 + a * (INR m + 1) * poly)
        (if (1 <=? m)%nat then sumMm1 + a * polyMm1 * INR m else sumMm1)
  end.

(** The contribution of an interaction to element k for given coefficients
    (RedlichKisterVPSSTP.cpp:190-202, 236-248). *)
Definition rk_contrib (i : rki) (l : list R) (x : vec) (k : nat) : R :=
  let XA := x (rA i) in
  let XB := x (rB i) in
  let '(sum, sum2, sumMm1) := rk_loop l 0 (XA - XB) 1 1 0 0 0 in
  let oneMXA := 1 - XA in
  let oneMXB := 1 - XB in
  if (rA i =? k)%nat then oneMXA * XB * sum + XA * XB * sumMm1 * (oneMXA + XB)
  else if (rB i =? k)%nat then oneMXB * XA * sum + XA * XB * sumMm1 * (- oneMXB - XA)
  else - (XA * XB * sum2).

(** s_update_lnActCoeff, RedlichKisterVPSSTP.cpp:160-206. *)
Definition rk_A (T : R) (hs : R * R) : R := (fst hs - T * snd hs) / (GasConstant * T).
Definition rk_lnac (L : list rki) (T : R) (x : vec) (k : nat) : R :=
  sum_of (fun i => rk_contrib i (map (rk_A T) (rhs i)) x k) L.
(** s_update_dlnActCoeff_dT, RedlichKisterVPSSTP.cpp:207-250. *)
Definition rk_dA (T : R) (hs : R * R) : R := - fst hs / (GasConstant * T * T).
Definition rk_dlnac_dT (L : list rki) (T : R) (x : vec) (k : nat) : R :=
  sum_of (fun i => rk_contrib i (map (rk_dA T) (rhs i)) x k) L.
Definition rk_d2lnac_dT2 (L : list rki) (T : R) (x : vec) (k : nat) : R := -2 / T * rk_dlnac_dT L T x k.

(** The loop of s_update_dlnActCoeff_dlnX_diag and s_update_dlnActCoeff_dX_ over the terms
    (RedlichKisterVPSSTP.cpp:287-299, 338-354): sum, sumMm1, sumMm2, sum2, sum2Mm1. *)
Fixpoint rk_loop2 (l : list R) (m : nat) (deltaX poly polyMm1 polyMm2 sum sumMm1 sumMm2 sum2 sum2Mm1 : R)
  : R * R * R * R * R :=
  match l with
  | [] => (sum, sumMm1, sumMm2, sum2, sum2Mm1)
  | a :: l =>
      rk_loop2 l (S m) deltaX (poly * deltaX)
        (if (1 <=? m)%nat then polyMm1 * deltaX else polyMm1)
        (if (2 <=? m)%nat then polyMm2 * deltaX else polyMm2)
        (sum + a * poly)
        (if (1 <=? m)%nat then sumMm1 + a * polyMm1 * INR m else sumMm1)
        (if (2 <=? m)%nat then sumMm2 + a * polyMm2 * INR m * (INR m - 1) else sumMm2)
        (sum2 + a * (INR m + 1) * poly)
        (if (1 <=? m)%nat then sum2Mm1 + a * polyMm1 * INR m * (1 + INR m) else sum2Mm1)
  end.

(** s_update_dlnActCoeff_dlnX_diag, RedlichKisterVPSSTP.cpp:268-315. *)
Definition rk_dlnX_contrib (i : rki) (l : list R) (x : vec) (k : nat) : R :=
  let XA := x (rA i) in
  let XB := x (rB i) in
  let '(sum, sumMm1, sumMm2, _, _) := rk_loop2 l 0 (XA - XB) 1 1 1 0 0 0 0 0 in
  if (rA i =? k)%nat then
    XA * (- (1 - XA + XB) * sum + 2 * (1 - XA) * XB * sumMm1
          + sumMm1 * (XB * (1 - 2 * XA + XB) - XA * (1 - XA + 2 * XB))
          + 2 * XA * XB * sumMm2 * (1 - XA + XB))
  else if (rB i =? k)%nat then
    XB * (- (1 - XB + XA) * sum - 2 * (1 - XB) * XA * sumMm1
          + sumMm1 * (XA * (2 * XB - XA - 1) - XB * (- 2 * XA + XB - 1))
          - 2 * XA * XB * sumMm2 * (- XA - 1 + XB))
  else 0.
Definition rk_dlnX_diag (L : list rki) (T : R) (x : vec) (k : nat) : R :=
  sum_of (fun i => rk_dlnX_contrib i (map (rk_A T) (rhs i)) x k) L.

(** s_update_dlnActCoeff_dX_, RedlichKisterVPSSTP.cpp:317-377: element (k, j).  The coefficients are
    not divided by RT.  The row of species B repeats terms of the row of species A. *)
Definition rk_B (T : R) (hs : R * R) : R := fst hs - T * snd hs.
Definition rk_dX_contrib (i : rki) (l : list R) (x : vec) (k j : nat) : R :=
  let XA := x (rA i) in
  let XB := x (rB i) in
  let '(sum, sumMm1, sumMm2, sum2, sum2Mm1) := rk_loop2 l 0 (XA - XB) 1 1 1 0 0 0 0 0 in
  let ca := if (rA i =? k)%nat then
              - XB * sum + (1 - XA) * XB * sumMm1 + XB * sumMm1 * (1 - 2 * XA + XB) + XA * XB * sumMm2 * (1 - XA + XB)
            else if (rB i =? k)%nat then
              (1 - XB) * sum + (1 - XA) * XB * sumMm1 + XB * sumMm1 * (1 - 2 * XA + XB) + XA * XB * sumMm2 * (1 - XA + XB)
            else - XB * sum2 - XA * XB * sum2Mm1 in
  let cb := if (rA i =? k)%nat then
              (1 - XA) * sum - (1 - XA) * XB * sumMm1 + XA * sumMm1 * (1 + 2 * XB - XA) - XA * XB * sumMm2 * (1 - XA + XB)
            else if (rB i =? k)%nat then
              - XA * sum - (1 - XB) * XA * sumMm1 + XA * sumMm1 * (XB - XA - (1 - XB)) - XA * XB * sumMm2 * (- XA - (1 - XB))
            else - XA * sum2 + XA * XB * sum2Mm1 in
  (if (j =? rA i)%nat then ca else 0) + (if (j =? rB i)%nat then cb else 0).
Definition rk_dX (L : list rki) (T : R) (x : vec) (k j : nat) : R :=
  sum_of (fun i => rk_dX_contrib i (map (rk_B T) (rhs i)) x k j) L.
(** The matrix has as many rows and columns as the interaction added last has terms
    (RedlichKisterVPSSTP.cpp:451); the loops of getdlnActCoeffds (379-390) go over all species. *)
Definition rk_dX_dim (L : list rki) : nat := last (map (fun i => length (rhs i)) L) 0%nat.
Definition rk_dlnac_ds (L : list rki) (n : nat) (T : R) (x : vec) (dT : R) (dX : vec) : outcome (list R) :=
  if (n <=? rk_dX_dim L)%nat then
    Ok (map (fun k => rk_dlnac_dT L T x k * dT + sum_n (fun j => rk_dX L T x k j * dX j) n) (seq 0 n))
  else UB.
(** getdlnActCoeffdlnN, RedlichKisterVPSSTP.cpp:411-420: copies dlnActCoeffdlnN_, which nothing
    computes; it holds the zeros it was made with (Array2D::resize). *)
Definition rk_get_dlnac_dlnN (L : list rki) (n : nat) (T : R) (x : vec) (a : nat) : R := 0.
