(* Grid refinement of 1D simulations.
   Models src/oneD/refine.cpp, include/cantera/oneD/refine.h and the refinement part of
   src/oneD/Sim1D.cpp. *)
From Coq Require Import Reals ZArith List Bool Arith.
From Verif Require Import Base.Outcome Base.Fp.
Import ListNotations.
Local Open Scope list_scope.
Local Open Scope R_scope.

(* ---------------------------------------------------------------- *)
(** * Refiner *)
(* The criteria, refine.h:170-191. *)
Record crit := Crit { c_ratio : R; c_slope : R; c_curve : R; c_prune : R; c_gridmin : R; c_range : R; c_thresh : R; c_npmax : nat }.
(* Refiner::setCriteria, refine.cpp:21-41. *)
Definition setCriteria (c : crit) (ratio slope curve prune : R) : outcome crit :=
  if rltb ratio 2 then Err
  else if rltb slope 0 || rltb 1 slope then Err
  else if rltb curve 0 || rltb 1 curve then Err
  else if rltb curve prune || rltb slope prune then Err
  else Ok (Crit ratio slope curve prune (c_gridmin c) (c_range c) (c_thresh c) (c_npmax c)).

(* GridPointStatus, refine.h:155-159; reading an entry of m_keep that is not there gives UNSET. *)
Inductive status := UNSET | KEEP | REMOVE.
Definition is_unset (s : status) : bool := match s with UNSET => true | _ => false end.
Definition is_remove (s : status) : bool := match s with REMOVE => true | _ => false end.
(* m_insertPts (a set) and m_keep (a map). m_componentNames is only for display. *)
Record refiner := RF { f_ins : list nat; f_keep : nat -> status }.
Definition refiner0 : refiner := RF [] (fun _ => UNSET).
Definition ins (j : nat) (r : refiner) : refiner :=
  RF (if existsb (Nat.eqb j) (f_ins r) then f_ins r else j :: f_ins r) (f_keep r).
Definition mark (j : nat) (v : status) (r : refiner) : refiner :=
  RF (f_ins r) (fun i => if Nat.eqb i j then v else f_keep r i).
(* Refiner::newPointNeeded, keepPoint, nNewPoints, refine.h:95-132. *)
Definition newPointNeeded (r : refiner) (j : nat) : bool := existsb (Nat.eqb j) (f_ins r).
Definition keepPoint (r : refiner) (j : nat) : bool := negb (is_remove (f_keep r j)).
Definition nNewPoints (r : refiner) : Z := Z.of_nat (length (f_ins r)).

(* std::min_element and std::max_element of a vector that is not empty. *)
Definition minl (l : list R) : R := fold_left (fun m v => if rltb v m then v else m) (tl l) (hd 0 l).
Definition maxl (l : list R) : R := fold_left (fun m v => if rltb m v then v else m) (tl l) (hd 0 l).
Definition fmax (a b : R) : R := if rltb a b then b else a.

Section Analyze.
  Context (c : crit) (n nv : nat) (z : nat -> R) (val : nat -> nat -> R).
  Context (active : nat -> bool) (protected : R -> bool).
  (* refine.cpp:71-74 and 87-89; val i j is the value of component i at point j. *)
  Definition dz (j : nat) : R := z (S j) - z j.
  Definition slp (i j : nat) : R := (val i (S j) - val i j) / dz j.

  (* Criterion on values, refine.cpp:107-119, one interval. *)
  Definition value_step (i : nat) (max_change : R) (r : refiner) (j : nat) : refiner :=
    let ratio := Rabs (val i (S j) - val i j) / (max_change + c_thresh c) in
    let r := if rltb 1 ratio && negb (rltb (dz j) (2 * c_gridmin c)) then ins j r else r in
    if negb (rltb ratio (c_prune c)) then mark (S j) KEEP (mark j KEEP r)
    else if is_unset (f_keep r j) then mark j REMOVE r else r.
  (* Criterion on slopes, refine.cpp:129-146, two adjacent intervals. *)
  Definition slope_step (i : nat) (max_change : R) (r : refiner) (j : nat) : refiner :=
    let ratio := Rabs (slp i (S j) - slp i j) / (max_change + c_thresh c / dz j) in
    let r := if rltb 1 ratio && negb (rltb (dz j) (2 * c_gridmin c)) && negb (rltb (dz (S j)) (2 * c_gridmin c))
             then ins (S j) (ins j r) else r in
    if negb (rltb ratio (c_prune c)) then mark (S j) KEEP r
    else if is_unset (f_keep r (S j)) then mark (S j) REMOVE r else r.
  (* One component, refine.cpp:77-149. *)
  Definition component_step (r : refiner) (i : nat) : refiner :=
    if active i then
      let vals := map (val i) (seq 0 n) in
      let slopes := map (slp i) (seq 0 (n - 1)) in
      let valMin := minl vals in let valMax := maxl vals in
      let slopeMin := minl slopes in let slopeMax := maxl slopes in
      let r := if rltb (c_range c * fmax (Rabs valMax) (Rabs valMin)) (valMax - valMin)
               then fold_left (value_step i (c_slope c * (valMax - valMin))) (seq 0 (n - 1)) r else r in
      if rltb (c_range c * fmax (Rabs slopeMax) (Rabs slopeMin)) (slopeMax - slopeMin)
      then fold_left (slope_step i (c_curve c * (slopeMax - slopeMin))) (seq 0 (n - 2)) r else r
    else r.
  (* The grid itself, refine.cpp:152-198, for one interior point j. For j = 1 the entry j-2 of
     m_keep has index 2^64-1 and is never read. *)
  Definition grid_step (r : refiner) (j : nat) : refiner :=
    let r := if rltb (c_ratio c * dz (j - 1)) (dz j)
             then mark (j + 2) KEEP (mark (j + 1) KEEP (mark j KEEP (mark (j - 1) KEEP (ins j r)))) else r in
    let r := if rltb (c_ratio c * dz j) (dz (j - 1))
             then mark (j + 1) KEEP (mark j KEEP (mark (j - 1) KEEP
                    (let r := ins (j - 1) r in if (2 <=? j)%nat then mark (j - 2) KEEP r else r))) else r in
    let r := if (1 <? j)%nat && rltb (c_ratio c * dz (j - 2)) (z (j + 1)%nat - z (j - 1)%nat) then mark j KEEP r else r in
    let r := if (j <? n - 2)%nat && rltb (c_ratio c * dz (j + 1)) (z (j + 1)%nat - z (j - 1)%nat) then mark j KEEP r else r in
    if protected (z j) then mark j KEEP r else r.
  (* refine.cpp:200-206. *)
  Definition adjacent_step (r : refiner) (j : nat) : refiner :=
    if is_remove (f_keep r j) && is_remove (f_keep r (j - 1)) then mark j KEEP r else r.
  (* Refiner::analyze, refine.cpp:43-209, for a domain with more than one point. *)
  Definition analysis : refiner :=
    let r := mark (n - 1) KEEP (mark 0 KEEP refiner0) in
    let r := fold_left component_step (seq 0 nv) r in
    let r := fold_left grid_step (seq 1 (n - 2)) r in
    fold_left adjacent_step (seq 2 (n - 3)) r.
End Analyze.

(* ---------------------------------------------------------------- *)
(** * Domains and simulations *)
(* A domain: number of components, grid, whether it is a Flow1D (whose setupGrid checks the
   order), isFree, m_zfixed, m_tfixed, the control points in use, the criteria, active
   components and the refiner's state. nPoints() is the size of the grid. *)
Record rdom := RD { g_nv : nat; g_z : list R; g_flow : bool; g_free : bool; g_zfixed : R; g_tfixed : R;
                    g_ctrl : list R; g_crit : crit; g_active : nat -> bool; g_ref : refiner }.
Definition np (d : rdom) : nat := length (g_z d).
Definition zat (d : rdom) (j : nat) : R := nth j (g_z d) 0.
Definition set_ref (d : rdom) (r : refiner) : rdom :=
  RD (g_nv d) (g_z d) (g_flow d) (g_free d) (g_zfixed d) (g_tfixed d) (g_ctrl d) (g_crit d) (g_active d) r.
Definition set_grid (d : rdom) (z : list R) : rdom :=
  RD (g_nv d) z (g_flow d) (g_free d) (g_zfixed d) (g_tfixed d) (g_ctrl d) (g_crit d) (g_active d) (g_ref d).
Definition set_fixed (d : rdom) (zf tf : R) : rdom :=
  RD (g_nv d) (g_z d) (g_flow d) (g_free d) zf tf (g_ctrl d) (g_crit d) (g_active d) (g_ref d).
Definition protects (d : rdom) (v : R) : bool := (g_free d && reqb v (g_zfixed d)) || existsb (reqb v) (g_ctrl d).

(* Sim1D: the domains, the solution, and what restoreSteadySolution uses. *)
Record sim1 := S1 { s_dom : list rdom; s_x : list R; s_xss : list R; s_gridss : list (list R) }.
(* The start of domain n in the solution, C38: the unknowns of the domains before it. *)
Definition dstart (ds : list rdom) (n : nat) : nat := fold_right (fun d a => g_nv d * np d + a)%nat 0%nat (firstn n ds).
(* Refiner::value and Sim1D::value, Sim1D.cpp:63-69, refine.cpp:211-214. *)
Definition value_at (x : list R) (start : nat) (d : rdom) (i j : nat) : R := nth (start + (j * g_nv d + i)) x 0.

(* Refiner::analyze with its checks, refine.cpp:43-57. *)
Definition analyze (d : rdom) (x : list R) (start : nat) : outcome refiner :=
  if (c_npmax (g_crit d) <=? np d)%nat then Err
  else if (np d <=? 1)%nat then Ok (g_ref d)
  else Ok (analysis (g_crit d) (np d) (g_nv d) (zat d) (value_at x start d) (g_active d) (protects d)).

(* The new points of one domain, Sim1D.cpp:539-573: coordinate and values. *)
Definition row (x : list R) (start : nat) (d : rdom) (m : nat) : list R := map (fun i => value_at x start d i m) (seq 0 (g_nv d)).
Definition mid_row (x : list R) (start : nat) (d : rdom) (m : nat) : list R :=
  map (fun i => / 2 * (value_at x start d i m + value_at x start d i (S m))) (seq 0 (g_nv d)).
Definition new_points_at (r : refiner) (x : list R) (start : nat) (d : rdom) (m : nat) : list (R * list R) :=
  if keepPoint r m then
    (zat d m, row x start d m) ::
    (if newPointNeeded r m && (S m <? np d)%nat then [(/ 2 * (zat d m + zat d (S m)), mid_row x start d m)] else [])
  else [].
Definition new_points (r : refiner) (x : list R) (start : nat) (d : rdom) : list (R * list R) :=
  flat_map (new_points_at r x start d) (seq 0 (np d)).
Definition count (f : nat -> bool) (n : nat) : Z := Z.of_nat (length (filter f (seq 0 n))).
(* added and discarded, Sim1D.cpp:532, 559, 569. *)
Definition added (r : refiner) (d : rdom) : Z :=
  (nNewPoints r + count (fun m => keepPoint r m && (newPointNeeded r m && (S m <? np d)%nat)) (np d))%Z.
Definition discarded (r : refiner) (d : rdom) : Z := count (fun m => negb (keepPoint r m)) (np d).

(* Domain1D::setupGrid, Domain1D.cpp:225-233, and Flow1D::setupGrid, Flow1D.cpp:185-198. *)
Fixpoint ordered (l : list R) : bool :=
  match l with a :: ((b :: _) as t) => rltb a b && ordered t | _ => true end.
Definition setupGrid (d : rdom) (z : list R) : outcome rdom :=
  if g_flow d then if ordered z then Ok (set_grid d z) else Err
  else Ok (if (1 <? length z)%nat then set_grid d z else d).

(* The first loop of Sim1D::refine, Sim1D.cpp:519-575. Result: the domains with the refiners
   updated so far; the grids saved; None if analyze threw, otherwise the new points of each
   domain, and the numbers added and discarded. *)
Fixpoint refine_loop (x : list R) (start : nat) (ds : list rdom)
    : list rdom * list (list R) * option (list (list (R * list R)) * Z * Z) :=
  match ds with
  | [] => ([], [], Some ([], 0%Z, 0%Z))
  | d :: ds =>
      match analyze d x start with
      | Ok r =>
          let '(ds', gs, res) := refine_loop x (start + g_nv d * np d) ds in
          (set_ref d r :: ds', g_z d :: gs,
           match res with
           | Some (pts, a, b) => Some (new_points r x start d :: pts, (added r d + a)%Z, (discarded r d + b)%Z)
           | None => None
           end)
      | _ => (d :: ds, [g_z d], None)
      end
  end.
(* The second loop, Sim1D.cpp:581-589. *)
Fixpoint regrid (ds : list rdom) (pts : list (list (R * list R))) : outcome (list rdom) :=
  match ds, pts with
  | d :: ds, p :: pts =>
      obind (if (length p =? 0)%nat then Ok d else setupGrid d (map fst p)) (fun d =>
      obind (regrid ds pts) (fun ds => Ok (d :: ds)))
  | ds, _ => Ok ds
  end.
Definition flatten (pts : list (list (R * list R))) : list R := flat_map (flat_map snd) pts.
(* Sim1D::refine, Sim1D.cpp:511-597. "return added || -discarded" is a truth value. When
   Flow1D::setupGrid throws, some domains have been changed; that state is not modelled (it is
   proved that this does not happen). finalize() does nothing here. *)
Definition refine (s : sim1) : outcome Z * sim1 :=
  let '(ds, gs, res) := refine_loop (s_x s) 0 (s_dom s) in
  match res with
  | None => (Err, S1 ds (s_x s) (s_x s) gs)
  | Some (pts, a, b) =>
      match regrid ds pts with
      | Ok ds' => (Ok (if negb (a =? 0)%Z || negb (- b =? 0)%Z then 1%Z else 0%Z), S1 ds' (flatten pts) (s_x s) gs)
      | o => (omap (fun _ => 0%Z) o, S1 ds (s_x s) (s_x s) gs)
      end
  end.
(* Sim1D::restoreSteadySolution, Sim1D.cpp:350-361. m_grid_last_ss is read for every domain. *)
Fixpoint restore_grids (ds : list rdom) (gs : list (list R)) : outcome (list rdom) :=
  match ds with
  | [] => Ok []
  | d :: ds =>
      match gs with
      | [] => UB
      | g :: gs => obind (setupGrid d g) (fun d => obind (restore_grids ds gs) (fun ds => Ok (d :: ds)))
      end
  end.
Definition restoreSteadySolution (s : sim1) : outcome sim1 :=
  if (length (s_xss s) =? 0)%nat then Err
  else omap (fun ds => S1 ds (s_xss s) (s_xss s) (s_gridss s)) (restore_grids (s_dom s) (s_gridss s)).

(* ---------------------------------------------------------------- *)
(** * The fixed temperature of a free flame *)
(* The search, Sim1D.cpp:634-663, over the intervals from m on; c_offset_T = 2. Result: the
   coordinate, and the interval in which a new point is to be put, if any. *)
Definition offset_T : nat := 2.
Fixpoint find_fixed (t : R) (T z : nat -> R) (m k : nat) : option (R * option nat) :=
  match k with
  | O => None
  | S k =>
      let t1 := T m in let t2 := T (S m) in
      let z1 := z m in let z2 := z (S m) in
      let thresh := let u := / 10 * (t2 - t1) in if rltb u 1 then u else 1 in
      if negb (rltb thresh (Rabs (t - t1))) then Some (z1, None)
      else if negb (rltb thresh (Rabs (t2 - t))) then Some (z2, None)
      else if rltb t1 t && rltb t t2 then Some ((z1 - z2) / (t1 - t2) * (t - t2) + z2, Some m)
      else find_fixed t T z (S m) k
  end.
(* One domain, Sim1D.cpp:626-690: the domain with its fixed point, and the new points. *)
Definition fix_one (t : R) (x : list R) (start : nat) (d : rdom) : rdom * list (R * list R) * Z :=
  let found := if g_flow d && g_free d then find_fixed t (value_at x start d offset_T) (zat d) 0 (np d - 1) else None in
  let d' := match found with Some (zf, _) => set_fixed d zf t | None => d end in
  let pts := flat_map (fun m =>
    (zat d m, row x start d m) ::
    match found with
    | Some (zf, Some k) =>
        if (m =? k)%nat then
          let f := (zf - zat d (S k)) / (zat d k - zat d (S k)) in
          [(zf, map (fun i => f * (value_at x start d i m - value_at x start d i (S m)) + value_at x start d i (S m)) (seq 0 (g_nv d)))]
        else []
    | _ => []
    end) (seq 0 (np d)) in
  (d', pts, match found with Some (_, Some _) => 1%Z | _ => 0%Z end).
Fixpoint fix_loop (t : R) (x : list R) (start : nat) (ds : list rdom) : list rdom * list (list (R * list R)) * Z :=
  match ds with
  | [] => ([], [], 0%Z)
  | d :: ds =>
      let '(d', p, k) := fix_one t x start d in
      let '(ds', ps, k') := fix_loop t x (start + g_nv d * np d) ds in
      (d' :: ds', p :: ps, (k + k')%Z)
  end.
(* Sim1D::setFixedTemperature, Sim1D.cpp:617-705. Every domain has at least one point. *)
Definition setFixedTemperature (t : R) (s : sim1) : outcome (Z * sim1) :=
  let '(ds, ps, k) := fix_loop t (s_x s) 0 (s_dom s) in
  omap (fun ds' => (k, S1 ds' (flatten ps) (s_xss s) (s_gridss s))) (regrid ds ps).

(* ---------------------------------------------------------------- *)
(** * The hybrid solver *)
Section Hybrid.
  (* The steady Newton solve on its i-th call (its result if it succeeds) and time stepping
     (None: it throws), as arbitrary functions of the state. *)
  Context (newton : nat -> sim1 -> option (list R)) (stepping : nat -> Z -> R -> sim1 -> option (R * list R)).
  Definition set_x (s : sim1) (x : list R) : sim1 := S1 (s_dom s) x (s_xss s) (s_gridss s).
  (* m_steps[istep], or the last one from then on, Sim1D.cpp:474-479. *)
  Definition steps_at (steps : list Z) (i : nat) : Z := nth i steps (last steps 0%Z).
  (* Sim1D::solve, Sim1D.cpp:410-509, without output: calls made, istep, dt. None: still
     running. An empty m_steps is undefined behaviour. *)
  Fixpoint hybrid (fuel : nat) (refine_grid : bool) (steps : list Z) (tstep tmax : R) (calls istep : nat) (dt : R) (s : sim1)
      : option (outcome (nat * sim1)) :=
    match fuel with
    | O => None
    | S fuel =>
        match steps with
        | [] => Some UB
        | _ =>
            match newton calls s with
            | Some x =>
                let s := set_x s x in
                if refine_grid then
                  match refine s with
                  | (Ok k, s') =>
                      if (0 <? k)%Z then hybrid fuel refine_grid steps tstep tmax (S calls) 0 tstep s'
                      else Some (Ok (S calls, s'))
                  | (Err, s') => Some Err
                  | (Exn, s') => Some Exn
                  | (UB, s') => Some UB
                  end
                else Some (Ok (S calls, s))
            | None =>
                match stepping calls (steps_at steps istep) dt s with
                | Some (dt', x) => hybrid fuel refine_grid steps tstep tmax (S calls) (S istep) (if rltb tmax dt' then tmax else dt') (set_x s x)
                | None => Some Err
                end
            end
        end
    end.
  Definition solve1 (fuel : nat) (refine_grid : bool) (steps : list Z) (tstep tmax : R) (s : sim1) : option (outcome (nat * sim1)) :=
    hybrid fuel refine_grid steps tstep tmax 0 0 tstep s.
End Hybrid.
