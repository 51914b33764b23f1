(** Model of the mixture-averaged transport properties of a gas: classes GasTransport and MixTransport
    (src/transport/GasTransport.cpp, src/transport/MixTransport.cpp and their headers) with the
    flags that say which stored quantities are up to date.

    Numbers are real, except for the results of getMixDiffCoeffsMass, where a divisor can be zero.
    Vectors are functions of the index together with a size.  The polynomial fits made by init
    (fitCollisionIntegrals, fitProperties, fitDiffCoeffs) are arbitrary functions of the list of
    species; the collision integral polynomials are left out. *)
From Coq Require Import Reals List Bool Arith.
From Verif Require Import Base.Fp Base.Outcome Base.RSum Base.Vec.
Import ListNotations.
Open Scope R_scope.

(** One polynomial in the logarithm of temperature (four terms are used in CK mode). *)
Record coef := C5 { c0 : R; c1 : R; c2 : R; c3 : R; c4 : R }.
(** dot4 and dot5, include/cantera/base/utilities.h:40-59, with the powers of log(T) computed in
    GasTransport.cpp:46-51. *)
Definition dot4 (L : R) (c : coef) : R := c0 c + L * c1 c + L * L * c2 c + L * L * L * c3 c.
Definition dot5 (L : R) (c : coef) : R := dot4 L c + L * L * L * L * c4 c.

(** A species: molecular weight, and whether it has gas transport data. *)
Record species := Sp { sp_id : nat; sp_w : R; sp_tr : bool }.

(** What the transport object reads from the phase: temperature, pressure, molar density, mole
    fractions. *)
Record gas := Gas { g_T : R; g_P : R; g_rho : R; g_x : vec; g_sp : list species }.
Definition nS (g : gas) : nat := length (g_sp g).
Definition wt (g : gas) (k : nat) : R := sp_w (nth k (g_sp g) (Sp 0 0 true)).
(** Phase::meanMolecularWeight and Phase::massFractions. *)
Definition mmw (g : gas) : R := sum_n (fun k => g_x g k * wt g k) (nS g).
Definition yk (g : gas) (k : nat) : R := g_x g k * wt g k / mmw g.

(** ct_defs.h:173. *)
Definition Tiny : R := / 10 ^ 20.

(** The object (GasTransport.h:225-330, MixTransport.h:160-180).  [t_size] is the length of the
    vectors sized by init; [t_temp] is m_temp, [None] for Undef.  The matrices m_phi and m_bdiff are
    functions of row and column. *)
Record tr := Tr {
  t_n : nat; t_size : nat; t_temp : option R;
  t_svok : bool; t_wok : bool; t_bok : bool; t_cok : bool; t_cmok : bool;
  t_cv : nat -> coef; t_cc : nat -> coef; t_cd : nat -> coef;
  t_mw : vec; t_visc : vec; t_sqv : vec; t_phi : nat -> vec; t_bd : nat -> vec; t_cond : vec;
  t_x : vec; t_lambda : R }.

Section Transport.
  Context (ck : bool) (fitV fitC : list species -> nat -> coef)
          (fitD : list species -> nat -> nat -> coef).

  Definition resize (old : nat) (v : vec) : vec := fun k => if (k <? old)%nat then v k else 0.

  (** Array2D::resize, src/base/Array.cpp:47-52: the data, stored by columns, stay where they are. *)
  Definition resize2 (old new : nat) (m : nat -> vec) : nat -> vec := fun r c =>
    let a := (new * c + r)%nat in
    if (a <? old * old)%nat then m (a mod old)%nat (a / old)%nat else 0.

  (** The pairs (i, j), i <= j, in the order of the loops of fitDiffCoeffs (GasTransport.cpp:650-693) and
      updateDiff_T, and the table of polynomials appended in that order. *)
  Definition pairs (n : nat) : list (nat * nat) :=
    flat_map (fun i => map (pair i) (seq i (n - i))) (seq 0 n).
  Definition diff_table (sp : list species) : nat -> coef := fun ic =>
    let (i, j) := nth ic (pairs (length sp)) (0%nat, 0%nat) in fitD sp i j.

  (** GasTransport::init and MixTransport::init, GasTransport.cpp:256-286, MixTransport.cpp:17-21.  A
      species without transport data ends it (getTransportData, 393-397) when only m_nsp is set. *)
  Definition init (g : gas) (t : tr) : tr * bool :=
    if forallb sp_tr (g_sp g) then
      (Tr (nS g) (nS g) (t_temp t) (t_svok t) (t_wok t) (t_bok t) (t_cok t) (t_cmok t)
         (fitV (g_sp g)) (fitC (g_sp g)) (diff_table (g_sp g)) (wt g)
         (resize (t_size t) (t_visc t)) (resize (t_size t) (t_sqv t))
         (resize2 (t_size t) (nS g) (t_phi t)) (resize2 (t_size t) (nS g) (t_bd t))
         (resize (t_size t) (t_cond t)) (resize (t_size t) (t_x t)) (t_lambda t), true)
    else
      (Tr (nS g) (t_size t) (t_temp t) (t_svok t) (t_wok t) (t_bok t) (t_cok t) (t_cmok t)
         (t_cv t) (t_cc t) (t_cd t) (t_mw t) (t_visc t) (t_sqv t) (t_phi t) (t_bd t)
         (t_cond t) (t_x t) (t_lambda t), false).

  Definition same_T (g : gas) (t : tr) : bool :=
    match t_temp t with Some u => reqb (g_T g) u | None => false end.

  (** GasTransport::update_T, GasTransport.cpp:28-58.  [false]: an exception. *)
  Definition gas_update_T (g : gas) (t : tr) : tr * bool :=
    let (t1, ok) := if (nS g =? t_n t)%nat then (t, true) else init g t in
    if negb ok then (t1, false)
    else if same_T g t1 then (t1, true)
    else (Tr (t_n t1) (t_size t1) (Some (g_T g)) false false false (t_cok t1) (t_cmok t1)
            (t_cv t1) (t_cc t1) (t_cd t1) (t_mw t1) (t_visc t1) (t_sqv t1) (t_phi t1) (t_bd t1)
            (t_cond t1) (t_x t1) (t_lambda t1), true).

  (** MixTransport::update_T, MixTransport.cpp:81-92. *)
  Definition update_T (g : gas) (t : tr) : tr * bool :=
    if same_T g t && (t_n t =? nS g)%nat then (t, true) else
    let (t1, ok) := gas_update_T g t in
    if ok then
      (Tr (t_n t1) (t_size t1) (t_temp t1) (t_svok t1) (t_wok t1) false false false
         (t_cv t1) (t_cc t1) (t_cd t1) (t_mw t1) (t_visc t1) (t_sqv t1) (t_phi t1) (t_bd t1)
         (t_cond t1) (t_x t1) (t_lambda t1), true)
    else (t1, false).

  (** MixTransport::update_C, MixTransport.cpp:94-106.  getMoleFractions writes as many numbers as the
      phase has species into m_molefracs.  (m_visc_ok, which update_C clears before every use, is left
      out.) *)
  Definition update_C (g : gas) (t : tr) : outcome tr :=
    if (nS g <=? t_size t)%nat then
      Ok (Tr (t_n t) (t_size t) (t_temp t) (t_svok t) (t_wok t) (t_bok t) (t_cok t) false
            (t_cv t) (t_cc t) (t_cd t) (t_mw t) (t_visc t) (t_sqv t) (t_phi t) (t_bd t)
            (t_cond t) (fun k => Rmax Tiny (g_x g k)) (t_lambda t))
    else UB.

  (** log(m_temp), sqrt(m_temp) and its square root, GasTransport.cpp:40-44.  They are functions of the
      m_temp set last; all uses come after update_T, when m_temp is the temperature of the phase. *)
  Definition tT (t : tr) : R := match t_temp t with Some u => u | None => 0 end.
  Definition logT (t : tr) : R := ln (tT t).
  Definition sqrtT (t : tr) : R := sqrt (tT t).
  Definition t14 (t : tr) : R := sqrt (sqrtT t).

  (** updateSpeciesViscosities, GasTransport.cpp:104-121. *)
  Definition updateSpeciesViscosities (t : tr) : outcome tr :=
    if (t_n t <=? t_size t)%nat then
      let sqv := if ck then fun k => sqrt (exp (dot4 (logT t) (t_cv t k)))
                 else fun k => t14 t * dot5 (logT t) (t_cv t k) in
      let visc := if ck then fun k => exp (dot4 (logT t) (t_cv t k)) else fun k => sqv k * sqv k in
      Ok (Tr (t_n t) (t_size t) (t_temp t) true (t_wok t) (t_bok t) (t_cok t) (t_cmok t)
            (t_cv t) (t_cc t) (t_cd t) (t_mw t) visc sqv (t_phi t) (t_bd t)
            (t_cond t) (t_x t) (t_lambda t))
    else UB.

  (** The factors precomputed by init (GasTransport.cpp:276-285): m_wratjk(k,j) and m_wratkj1(j,k) for
      j <= k. *)
  Definition wratkj (t : tr) (j k : nat) : R := sqrt (sqrt (t_mw t j / t_mw t k)).
  Definition wratkj1 (t : tr) (j k : nat) : R := sqrt (1 + t_mw t k / t_mw t j).
  (** Body of the loop of updateViscosity_T, GasTransport.cpp:88-99: m_phi(k,j) and m_phi(j,k), j <= k. *)
  Definition phi_low (t : tr) (k j : nat) : R :=
    let factor1 := 1 + (t_sqv t k / t_sqv t j) * wratkj t j k in
    factor1 * factor1 / (sqrt 8 * wratkj1 t j k).
  Definition phi_up (t : tr) (j k : nat) : R :=
    phi_low t k j / ((t_visc t k / t_visc t j) * (t_mw t j / t_mw t k)).

  (** updateViscosity_T, GasTransport.cpp:81-102.  The loop writes the entries (k,j) and (j,k), j <= k. *)
  Definition updateViscosity_T (t : tr) : outcome tr :=
    obind (if t_svok t then Ok t else updateSpeciesViscosities t) (fun t =>
    Ok (Tr (t_n t) (t_size t) (t_temp t) (t_svok t) true (t_bok t) (t_cok t) (t_cmok t)
          (t_cv t) (t_cc t) (t_cd t) (t_mw t) (t_visc t) (t_sqv t)
          (fun r c => if (c <? r)%nat then phi_low t r c else phi_up t r c) (t_bd t)
          (t_cond t) (t_x t) (t_lambda t))).

  (** The binary diffusion coefficients: the loop with its running index ic (GasTransport.cpp:123-149). *)
  Definition upd2 (m : nat -> vec) (i j : nat) (v : R) : nat -> vec :=
    fun a => if (a =? i)%nat then upd (m a) j v else m a.
  Fixpoint diff_loop (val : nat -> R) (ps : list (nat * nat)) (ic : nat) (m : nat -> vec) : nat -> vec :=
    match ps with
    | [] => m
    | (i, j) :: ps => let m := upd2 m i j (val ic) in diff_loop val ps (S ic) (upd2 m j i (m i j))
    end.
  Definition diff_val (t : tr) (ic : nat) : R :=
    if ck then exp (dot4 (logT t) (t_cd t ic)) else tT t * sqrtT t * dot5 (logT t) (t_cd t ic).
  Definition updateDiff_T (t : tr) : outcome tr :=
    if (t_n t <=? t_size t)%nat then
      Ok (Tr (t_n t) (t_size t) (t_temp t) (t_svok t) (t_wok t) true (t_cok t) (t_cmok t)
            (t_cv t) (t_cc t) (t_cd t) (t_mw t) (t_visc t) (t_sqv t) (t_phi t)
            (diff_loop (diff_val t) (pairs (t_n t)) 0 (t_bd t))
            (t_cond t) (t_x t) (t_lambda t))
    else UB.

  (** MixTransport::updateCond_T, MixTransport.cpp:108-122. *)
  Definition updateCond_T (t : tr) : outcome tr :=
    if (t_n t <=? t_size t)%nat then
      Ok (Tr (t_n t) (t_size t) (t_temp t) (t_svok t) (t_wok t) (t_bok t) true false
            (t_cv t) (t_cc t) (t_cd t) (t_mw t) (t_visc t) (t_sqv t) (t_phi t) (t_bd t)
            (if ck then fun k => exp (dot4 (logT t) (t_cc t k)) else fun k => sqrtT t * dot5 (logT t) (t_cc t k))
            (t_x t) (t_lambda t))
    else UB.

  (** Queries.  An exception or undefined behaviour leaves the object as it was at that point. *)
  Inductive query := QViscosity | QSpeciesViscosities | QConductivity | QBinary
                   | QMix | QMixMole | QMixMass | QFluxes (gradX : vec).

  Definition withT (g : gas) (t : tr) (f : tr -> outcome (list fp * tr)) : outcome (list fp) * tr :=
    match update_T g t with
    | (t1, true) => match f t1 with
                    | Ok (a, t2) => (Ok a, t2)
                    | Err => (Err, t1) | Exn => (Exn, t1) | UB => (UB, t1)
                    end
    | (t1, false) => (Err, t1)
    end.
  Definition reals (f : nat -> R) (n : nat) : list fp := map (fun k => Fin (f k)) (seq 0 n).

  (** Sum over all j but k, as in the loops "if (j != k)". *)
  Definition sum_but (k : nat) (f : nat -> R) (n : nat) : R :=
    sum_n (fun j => if (j =? k)%nat then 0 else f j) n.

  (** getMixDiffCoeffs, getMixDiffCoeffsMole, getMixDiffCoeffsMass: the loop bodies,
      GasTransport.cpp:175-192, 205-222, 236-253. *)
  Definition mix_coef (g : gas) (t : tr) (k : nat) : R :=
    if (t_n t =? 1)%nat then t_bd t 0%nat 0%nat / g_P g else
    let sum2 := sum_but k (fun j => t_x t j / t_bd t j k) (t_n t) in
    if negb (rltb 0 sum2) then t_bd t k k / g_P g
    else (mmw g - t_x t k * t_mw t k) / (g_P g * mmw g * sum2).
  Definition mole_coef (g : gas) (t : tr) (k : nat) : R :=
    if (t_n t =? 1)%nat then t_bd t 0%nat 0%nat / g_P g else
    let sum2 := sum_but k (fun j => t_x t j / t_bd t j k) (t_n t) in
    if negb (rltb 0 sum2) then t_bd t k k / g_P g
    else (1 - t_x t k) / (g_P g * sum2).
  Definition mass_coef (g : gas) (t : tr) (k : nat) : fp :=
    if (t_n t =? 1)%nat then Fin (t_bd t 0%nat 0%nat / g_P g) else
    let sum1 := sum_but k (fun i => t_x t i / t_bd t k i) (t_n t) * g_P g in
    let sum2 := sum_but k (fun i => t_x t i * t_mw t i / t_bd t k i) (t_n t) in
    let s2 := fmul (Fin sum2) (fdiv (Fin (g_P g * t_x t k)) (Fin (mmw g - t_mw t k * t_x t k))) in
    fdiv (Fin 1) (fadd (Fin sum1) s2).

  Definition withDiff (t : tr) (f : tr -> list fp) : outcome (list fp * tr) :=
    obind (if t_bok t then Ok t else updateDiff_T t) (fun t => Ok (f t, t)).

  (** MixTransport::getSpeciesFluxes for one space dimension, MixTransport.cpp:57-79. *)
  Definition flux0 (g : gas) (t : tr) (gradX : vec) (k : nat) : R :=
    - g_rho g * wt g k * mix_coef g t k * gradX k.
  Definition flux (g : gas) (t : tr) (gradX : vec) (k : nat) : R :=
    flux0 g t gradX k - yk g k * sum_n (flux0 g t gradX) (t_n t).

  Definition answer (q : query) (g : gas) (t : tr) : outcome (list fp) * tr :=
    match q with
    | QViscosity => (* GasTransport.cpp:60-79 *)
        withT g t (fun t => obind (update_C g t) (fun t =>
          obind (if t_wok t then Ok t else updateViscosity_T t) (fun t =>
          Ok (reals (fun _ => sum_n (fun k => t_x t k * t_visc t k / sum_n (fun j => t_phi t k j * t_x t j) (t_n t)) (t_n t)) 1, t))))
    | QSpeciesViscosities => (* GasTransport.h:51-55 *)
        withT g t (fun t => obind (updateViscosity_T t) (fun t => Ok (reals (t_visc t) (t_size t), t)))
    | QConductivity => (* MixTransport.cpp:32-49 *)
        withT g t (fun t => obind (update_C g t) (fun t =>
          obind (if t_cok t then Ok t else updateCond_T t) (fun t =>
          let lambda := if t_cmok t then t_lambda t else
            1 / 2 * (sum_n (fun k => t_x t k * t_cond t k) (t_n t) + 1 / sum_n (fun k => t_x t k / t_cond t k) (t_n t)) in
          Ok (reals (fun _ => lambda) 1,
              Tr (t_n t) (t_size t) (t_temp t) (t_svok t) (t_wok t) (t_bok t) (t_cok t) true
                (t_cv t) (t_cc t) (t_cd t) (t_mw t) (t_visc t) (t_sqv t) (t_phi t) (t_bd t)
                (t_cond t) (t_x t) lambda))))
    | QBinary => (* GasTransport.cpp:151-168, with ld = m_nsp *)
        withT g t (fun t => withDiff t (fun t =>
          reals (fun a => 1 / g_P g * t_bd t (a mod t_n t)%nat (a / t_n t)%nat) (t_n t * t_n t)))
    | QMix => withT g t (fun t => obind (update_C g t) (fun t => withDiff t (fun t => reals (mix_coef g t) (t_n t))))
    | QMixMole => withT g t (fun t => obind (update_C g t) (fun t => withDiff t (fun t => reals (mole_coef g t) (t_n t))))
    | QMixMass => withT g t (fun t => obind (update_C g t) (fun t => withDiff t (fun t => map (mass_coef g t) (seq 0 (t_n t)))))
    | QFluxes gradX =>
        withT g t (fun t => obind (update_C g t) (fun t => withDiff t (fun t => reals (flux g t gradX) (t_n t))))
    end.

  (** invalidateCache, GasTransport.cpp:353-361. *)
  Definition invalidate (t : tr) : tr :=
    Tr (t_n t) (t_size t) None false false false (t_cok t) (t_cmok t)
      (t_cv t) (t_cc t) (t_cd t) (t_mw t) (t_visc t) (t_sqv t) (t_phi t) (t_bd t) (t_cond t) (t_x t) (t_lambda t).
  Definition updc (v : nat -> coef) (i : nat) (c : coef) : nat -> coef := fun k => if (k =? i)%nat then c else v k.

  (** setViscosityPolynomial, setConductivityPolynomial, setBinDiffusivityPolynomial,
      GasTransport.cpp:800-834.  An index out of range is refused (IndexError). *)
  Definition setViscosityPolynomial (i : nat) (c : coef) (t : tr) : tr :=
    if (i <? t_n t)%nat then
      invalidate (Tr (t_n t) (t_size t) (t_temp t) (t_svok t) (t_wok t) (t_bok t) (t_cok t) (t_cmok t)
        (updc (t_cv t) i c) (t_cc t) (t_cd t) (t_mw t) (t_visc t) (t_sqv t) (t_phi t) (t_bd t) (t_cond t) (t_x t) (t_lambda t))
    else t.
  Definition setConductivityPolynomial (i : nat) (c : coef) (t : tr) : tr :=
    if (i <? t_n t)%nat then
      invalidate (Tr (t_n t) (t_size t) (t_temp t) (t_svok t) (t_wok t) (t_bok t) (t_cok t) (t_cmok t)
        (t_cv t) (updc (t_cc t) i c) (t_cd t) (t_mw t) (t_visc t) (t_sqv t) (t_phi t) (t_bd t) (t_cond t) (t_x t) (t_lambda t))
    else t.
  (** The index of a pair, GasTransport.cpp:822-828 (also 774-780). *)
  Definition pair_index (n i j : nat) : nat :=
    let mi := if (i <=? j)%nat then i else j in
    let mj := if (i <=? j)%nat then j else i in
    (fold_left (fun ic ii => ic + (n - ii)) (seq 0 mi) 0 + (mj - mi))%nat.
  Definition setBinDiffusivityPolynomial (i j : nat) (c : coef) (t : tr) : tr :=
    if (i <? t_n t)%nat && (j <? t_n t)%nat then
      invalidate (Tr (t_n t) (t_size t) (t_temp t) (t_svok t) (t_wok t) (t_bok t) (t_cok t) (t_cmok t)
        (t_cv t) (t_cc t) (updc (t_cd t) (pair_index (t_n t) i j) c)
        (t_mw t) (t_visc t) (t_sqv t) (t_phi t) (t_bd t) (t_cond t) (t_x t) (t_lambda t))
    else t.

  (** getViscosityPolynomial, getConductivityPolynomial, getBinDiffusivityPolynomial,
      GasTransport.cpp:752-785. *)
  Definition getViscosityPolynomial (i : nat) (t : tr) : outcome coef :=
    if (i <? t_n t)%nat then Ok (t_cv t i) else Err.
  Definition getConductivityPolynomial (i : nat) (t : tr) : outcome coef :=
    if (i <? t_n t)%nat then Ok (t_cc t i) else Err.
  Definition getBinDiffusivityPolynomial (i j : nat) (t : tr) : outcome coef :=
    if (i <? t_n t)%nat && (j <? t_n t)%nat then Ok (t_cd t (pair_index (t_n t) i j)) else Err.

  (** A new object, GasTransport.h:313-322 and MixTransport.h:175-178, before and after init. *)
  Definition blank : tr :=
    Tr 0 0 None false false false false false (fun _ => C5 0 0 0 0 0) (fun _ => C5 0 0 0 0 0) (fun _ => C5 0 0 0 0 0)
      zeros zeros zeros (fun _ => zeros) (fun _ => zeros) zeros zeros 0.

  (** What can happen to a phase and its transport object. *)
  Inductive op :=
  | SetState (T P rho : R) (x : vec)
  | AddSpecies (s : species)
  | Ask (q : query)
  | SetV (i : nat) (c : coef) | SetC (i : nat) (c : coef) | SetD (i j : nat) (c : coef).

  (** Phase::addSpecies gives the new species the mole fraction zero. *)
  Definition add_species (g : gas) (s : species) : gas :=
    Gas (g_T g) (g_P g) (g_rho g) (fun k => if (k <? nS g)%nat then g_x g k else 0) (g_sp g ++ [s]).

  Definition step (gt : gas * tr) (o : op) : gas * tr :=
    let (g, t) := gt in
    match o with
    | SetState T P rho x => (Gas T P rho x (g_sp g), t)
    | AddSpecies s => (add_species g s, t)
    | Ask q => (g, snd (answer q g t))
    | SetV i c => (g, setViscosityPolynomial i c t)
    | SetC i c => (g, setConductivityPolynomial i c t)
    | SetD i j c => (g, setBinDiffusivityPolynomial i j c t)
    end.
  Definition run (g : gas) (ops : list op) : gas * tr := fold_left step ops (g, fst (init g blank)).
End Transport.
