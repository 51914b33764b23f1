(** Model of class MultiPhaseEquil (src/equil/MultiPhaseEquil.cpp, include/cantera/equil/
    MultiPhaseEquil.h), the "gibbs" multiphase equilibrium solver: which species and elements it
    includes, how it finds component species and reaction vectors, and how it steps mole numbers.

    Doubles are exact reals.  Vectors and matrices are functions of their indices, with explicit
    sizes [nel] (m_nel) and [nsp] (m_nsp).  [at_ k m] is m_mix->nAtoms(m_species[k], m_element[m]).

    Everything that comes from thermodynamics (chemical potentials, and what is computed from them)
    is an arbitrary argument, so the theorems hold for every mixture model. *)
From Coq Require Import Reals List Bool Arith.
From Verif Require Import Base.Fp Base.RSum.
Import ListNotations.
Local Open Scope R_scope.

Definition vec := nat -> R.
Definition mat := nat -> nat -> R.
Definition upd {A} (f : nat -> A) (i : nat) (v : A) : nat -> A :=
  fun k => if (k =? i)%nat then v else f k.

Section Solver.
Context (nel nsp : nat) (at_ : nat -> nat -> R).

(** nFree(), MultiPhaseEquil.h:163-165. *)
Definition nFree : nat := if (nel <? nsp)%nat then (nsp - nel)%nat else 0%nat.

(** Tiny (ct_defs.h:173) is 1e-20, so the tolerance sqrt(Tiny) of getComponents is 1e-10. *)
Definition Tiny : R := / 10 ^ 20.
Definition tol : R := / 10 ^ 10.

(** getComponents, 276-282 and 288-293: is row [i] zero from column [m] on? *)
Definition zero_from (A : mat) (i m : nat) : bool :=
  forallb (fun k => negb (rltb tol (Rabs (A i k)))) (seq m (nsp - m)).
(** 283-297: the last row below [m] that is not zero. *)
Fixpoint last_nonzero (A : mat) (m fuel : nat) : option nat :=
  match fuel with
  | O => None
  | S f => let n := (m + S f)%nat in
           if zero_from A n m then last_nonzero A m f else Some n
  end.
Definition swap_rows (A : mat) (n m : nat) : mat :=
  fun i k => if (i =? n)%nat then A m k else if (i =? m)%nat then A n k else A i k.
Definition swap_cols (A : mat) (n m : nat) : mat :=
  fun i k => if (k =? n)%nat then A i m else if (k =? m)%nat then A i n else A i k.
Definition swap_fun (o : nat -> nat) (n m : nat) : nat -> nat :=
  fun k => if (k =? n)%nat then o m else if (k =? m)%nat then o n else o k.

(** 319-326: the candidate with the largest mole number. *)
Definition best_column (A : mat) (order : nat -> nat) (moles : vec) (m : nat) : nat :=
  fst (fold_left (fun (b : nat * R) k =>
         if negb (reqb (A m k) 0) && rltb (snd b) (Rabs (moles (order k)))
         then (k, Rabs (moles (order k))) else b)
       (seq (S m) (nsp - S m)) (0%nat, -999)).
(** 339-342. *)
Definition scale_row (A : mat) (m : nat) (f : R) : mat :=
  fun i k => if (i =? m)%nat then A i k * f else A i k.
(** 346-351. *)
Definition eliminate (A : mat) (m : nat) : mat :=
  fun i k => if (m <? i)%nat && (i <? nel)%nat then A i k - A m k * (A i m / A m m) else A i k.

(** 274-352: the elimination loop; the number returned is the row at which it ended. *)
Fixpoint gauss (fuel m : nat) (A : mat) (order : nat -> nat) (moles : vec)
  : mat * (nat -> nat) * nat :=
  match fuel with
  | O => (A, order, m)
  | S f =>
      match (if zero_from A m m
             then match last_nonzero A m (nel - S m) with
                  | Some n => Some (swap_rows A n m)
                  | None => None
                  end
             else Some A) with
      | None => (A, order, m)
      | Some A =>
          let kmax := best_column A order moles m in
          let pz := (m <? nsp)%nat && reqb (A m m) 0 in
          let A := if pz then swap_cols A m kmax else A in
          let order := if pz then swap_fun order m kmax else order in
          let A := scale_row A m (1 / A m m) in
          gauss f (S m) (eliminate A m) order moles
      end
  end.

(** 356-365: back substitution, one column after the other. *)
Definition clear_above (A : mat) (m : nat) : mat :=
  fun i k => if (i <? m)%nat && (m <=? k)%nat && negb (reqb (A i m) 0)
             then A i k - A i m * A m k else A i k.
Fixpoint backsolve (m : nat) (A : mat) : mat :=
  match m with
  | O => A
  | S m' => backsolve m' (clear_above A (S m'))
  end.

(** 368-379: the stoichiometric coefficients; row = position in m_order, column = reaction. *)
Definition stoich (A : mat) : mat :=
  fun n k => if (n <? nel)%nat then - A n (k + nel)%nat
             else if (n =? k + nel)%nat then 1 else 0.

(** getComponents, 249-390, for a preference order of the right length.  (m_solnrxn is not needed.) *)
Definition composition_matrix (order : nat -> nat) : mat := fun m k => at_ (order k) m.
Definition getComponents (pref : nat -> nat) (moles : vec) : mat * (nat -> nat) * nat :=
  let '(A, order, r) := gauss nel 0 (composition_matrix pref) pref moles in
  (stoich (backsolve (Nat.min nel nsp - 1) A), order, r).

(** unsort, 392-398. *)
Definition unsort (order : nat -> nat) (x : vec) : vec :=
  fold_left (fun f k => upd f (order k) (x k)) (seq 0 nsp) x.

(** multiply(m_N, dxi, work): the mole number changes, by position. *)
Definition extents (N : mat) (dxi : vec) : vec := fun k => sum_n (fun j => N k j * dxi j) nFree.

(** step, 400-423, after the check for a negative omega. *)
Definition step1 (order : nat -> nat) (major : nat -> bool) (dG : vec) (omega : R) (dN moles : vec) (ik : nat) : vec :=
  let k := order ik in
  upd moles k
    (if (ik <? nel)%nat then moles k + omega * dN k
     else if major k then moles k + omega * dN k
     else Rabs (moles k) * Rmin 10 (exp (- dG (ik - nel)%nat))).
Definition step (order : nat -> nat) (major : nat -> bool) (dG : vec) (omega : R) (dN moles : vec) : vec :=
  fold_left (step1 order major dG omega dN) (seq 0 nsp) moles.

(** computeReactionSteps, 508-589: [dG] is m_deltaG_RT, [dsoln k] says whether species k belongs to a
    solution phase, [other j] the factor used for reactions of solution species (1 or 1/rfctr). *)
Definition reaction_steps (N : mat) (order : nat -> nat) (moles : vec) (dsoln : nat -> bool) (dG other : vec) : vec :=
  fun j =>
    let k := order (j + nel)%nat in
    let fctr := if negb (dsoln k)
                then (if negb (rltb 0 (moles k)) && rltb 0 (dG j) then 0 else 1 / 2)
                else other j in
    let d := - fctr * dG j in
    if existsb (fun m => negb (rltb 0 (moles (order m))) && rltb (N m j * d) 0) (seq 0 nel)
    then 0 else d.

(** stepComposition, 438-483: the bound on omega and the list of major species.  [major] is only
    written, so the value for a species is that of its own pass. *)
Definition MAJOR : R := / 10 ^ 12.
Definition is_major (dsoln : nat -> bool) (moles : vec) (ik k : nat) : bool :=
  if dsoln k then rltb MAJOR (moles k) || (ik <? nel)%nat else true.
Definition omega_bound (dsoln : nat -> bool) (moles w : vec) (ik k : nat) (om : R) : R :=
  let FCTR := if (ik <? nel)%nat then 99 / 100 else 9 / 10 in
  if dsoln k then
    if rltb MAJOR (moles k) || (ik <? nel)%nat then
      let omax := moles k * FCTR / (Rabs (w k) + Tiny) in
      if rltb (w k) 0 && rltb omax om then omax else om
    else om
  else if rltb (w k) 0 && rltb 0 (moles k) then
    let omax := - moles k / w k in
    if rltb omax om then omax else om
  else om.
Definition omega_max (order : nat -> nat) (dsoln : nat -> bool) (moles w : vec) : R :=
  fold_left (fun om ik => omega_bound dsoln moles w ik (order ik) om) (seq 0 nsp) 1.
Definition majors (order : nat -> nat) (dsoln : nat -> bool) (moles : vec) : nat -> bool :=
  fold_left (fun f ik => upd f (order ik) (is_major dsoln moles ik (order ik))) (seq 0 nsp) (fun _ => true).

(** stepComposition, 485-506: one full step, and a shorter one from the same point if the gradient
    [grad1] at its end is positive.  [None]: step() throws because omega is negative. *)
Definition stepComposition (N : mat) (order : nat -> nat) (dsoln : nat -> bool) (dG other : vec)
    (grad0 grad1 : R) (moles : vec) : option vec :=
  let dxi := reaction_steps N order moles dsoln dG other in
  let w := unsort order (extents N dxi) in
  let om := omega_max order dsoln moles w in
  let major := majors order dsoln moles in
  if rltb om 0 then None
  else if rltb 0 grad1 then
    let om2 := om * (Rabs grad0 / (grad1 + Rabs grad0)) in
    if rltb om2 0 then None else Some (step order major dG om2 w moles)
  else Some (step order major dG om w moles).

(** setInitialMoles, 209-242: each reaction is run as far as the mole numbers allow, in the direction
    [fwd j] (the sign of its Gibbs energy). *)
Definition max_extent (N : mat) (order : nat -> nat) (moles : vec) (j : nat) (idir : R) : R :=
  fold_left (fun d ik => if rltb (N ik j * idir) 0
                         then Rmin d (Rabs (99 / 100 * moles (order ik) / N ik j)) else d)
            (seq 0 nsp) (10 ^ 10).
Definition run_reaction (N : mat) (order : nat -> nat) (fwd : nat -> bool) (moles : vec) (j : nat) : vec :=
  let idir := if fwd j then 1 else -1 in
  let d := max_extent N order moles j idir in
  fold_left (fun f ik => upd f (order ik) (f (order ik) + N ik j * idir * d)) (seq 0 nsp) moles.

(** What the solver does, as a sequence of actions on its mole numbers.  computeN (591-624) calls
    getComponents with a sorted list of species or keeps the reactions it has: [Components] stands
    for the call, its argument for the sorted list.  [Initial] is one pass of setInitialMoles, [Tiny]
    the first step of the constructor (130-140), [Compose] stepComposition. *)
Inductive act :=
| Components (pref : nat -> nat)
| Initial (fwd : nat -> bool)
| TinyStep
| Compose (dG other : vec) (grad0 grad1 : R).
Record est := EST { e_moles : vec; e_N : mat; e_order : nat -> nat }.
Definition act_step (dsoln : nat -> bool) (s : est) (a : act) : option est :=
  match a with
  | Components pref =>
      let '(N, order, _) := getComponents pref (e_moles s) in Some (EST (e_moles s) N order)
  | Initial fwd =>
      Some (EST (fold_left (run_reaction (e_N s) (e_order s) fwd) (seq 0 nFree) (e_moles s)) (e_N s) (e_order s))
  | TinyStep =>
      let w := unsort (e_order s) (extents (e_N s) (fun _ => Tiny)) in
      Some (EST (fun k => e_moles s k + w k) (e_N s) (e_order s))
  | Compose dG other g0 g1 =>
      match stepComposition (e_N s) (e_order s) dsoln dG other g0 g1 (e_moles s) with
      | Some n => Some (EST n (e_N s) (e_order s))
      | None => None
      end
  end.
Fixpoint acts (dsoln : nat -> bool) (s : est) (l : list act) : option est :=
  match l with
  | [] => Some s
  | a :: l => match act_step dsoln s a with Some s => acts dsoln s l | None => None end
  end.

(** finish, 183-190. *)
Definition finish (moles : vec) : vec := fun k => if rltb 0 (moles k) then moles k else 0.

(** error, 626-651: the branch for trace species is overwritten by the [else] of the next test. *)
Definition error_of (order : nat -> nat) (dsoln : nat -> bool) (dG moles : vec) (j : nat) : R :=
  let k := order (j + nel)%nat in
  if negb (dsoln k) && negb (rltb 0 (moles k)) && negb (rltb (dG j) 0) then 0 else Rabs (dG j).
Definition error (order : nat -> nat) (dsoln : nat -> bool) (dG moles : vec) : R :=
  fold_left (fun e j => Rmax e (error_of order dsoln dG moles j)) (seq 0 nFree) 0.
End Solver.
