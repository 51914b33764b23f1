(* One-dimensional simulations: the numbering of unknowns of a list of domains, look-up of
   unknowns, the Jacobian bandwidth, and the evaluation of the Jacobian. *)
From Coq Require Import Reals ZArith String List Bool Arith.
From Verif Require Import Base.Outcome Base.Fp.
Import ListNotations.
Local Open Scope list_scope.
Local Open Scope nat_scope.

(* ---------------------------------------------------------------- *)
(** * Domains *)

(* Domain1D: m_id, m_nv, m_points, m_bw (None is -1, which bandwidth() turns into npos,
   Domain1D.h:98-119,598), m_name, m_iloc, m_jstart. *)
Record dom := Dom {
  d_id : string; d_nv : nat; d_np : nat; d_bw : option nat; d_names : list string;
  d_iloc : nat; d_jstart : nat
}.
(* Domain1D::size, Domain1D.h:399-401; index, Domain1D.h:335-337. *)
Definition d_size (d : dom) : nat := d_nv d * d_np d.
Definition d_index (d : dom) (n j : nat) : nat := d_nv d * j + n.
(* A decimal number, as fmt::format prints it. *)
Definition digit (n : nat) : string :=
  match n with
  | 0 => "0" | 1 => "1" | 2 => "2" | 3 => "3" | 4 => "4"
  | 5 => "5" | 6 => "6" | 7 => "7" | 8 => "8" | _ => "9"
  end%string.
Fixpoint decimal_from (fuel n : nat) (acc : string) : string :=
  match fuel with
  | 0 => acc
  | S fuel =>
      let acc' := (digit (n mod 10) ++ acc)%string in
      if n / 10 =? 0 then acc' else decimal_from fuel (n / 10) acc'
  end.
Definition decimal (n : nat) : string := decimal_from (S n) n "".
(* Domain1D::componentName, Domain1D.cpp:67-74; m_name has m_nv elements. *)
Definition d_componentName (d : dom) (n : nat) : outcome string :=
  match nth_error (d_names d) n with
  | None => UB
  | Some s => if String.eqb s "" then Ok ("component " ++ decimal n)%string else Ok s
  end.
(* Domain1D::locate, Domain1D.cpp:205-223, for a domain whose left neighbour ends at the
   given place; the recursion to the right is relocate. lastPoint() + 1 is
   m_jstart + m_points, also when that passes through npos. *)
Definition place (d : dom) (iloc jstart : nat) : dom :=
  Dom (d_id d) (d_nv d) (d_np d) (d_bw d) (d_names d) iloc jstart.
Fixpoint relocate (iloc jstart : nat) (l : list dom) : list dom :=
  match l with
  | [] => []
  | d :: l => place d iloc jstart :: relocate (iloc + d_size d) (jstart + d_np d) l
  end.
(* std::vector::resize of m_name with "". *)
Definition resize_names (n : nat) (l : list string) : list string := firstn n l ++ repeat ""%string (n - length l).
(* The change of a domain in Domain1D::resize, Domain1D.cpp:44-65, before locate(). *)
Definition d_resize (d : dom) (nv np : nat) : dom :=
  Dom (d_id d) nv np (d_bw d) (resize_names nv (d_names d)) (d_iloc d) (d_jstart d).

(* ---------------------------------------------------------------- *)
(** * OneDim *)

(* m_dom, and what resize() computes: m_nvars, m_loc, m_pts, m_size, m_bw. *)
Record od := OD {
  o_dom : list dom; o_nvars : list nat; o_loc : list nat; o_pts : nat; o_size : nat; o_bw : Z
}.
Definition npos : Z := (2 ^ 64 - 1)%Z.
Definition wrap (z : Z) : Z := (z mod 2 ^ 64)%Z.

(* The loop over domains in OneDim::resize, OneDim.cpp:176-216, from domain i on; lc is the
   next location, prev the domain before. *)
Record tables := Tab { t_nvars : list nat; t_loc : list nat; t_pts : nat; t_size : nat; t_bw : Z }.
Definition own_bw (d : dom) : Z :=
  match d_bw d with Some b => Z.of_nat b | None => (Z.max (2 * Z.of_nat (d_nv d)) 1 - 1)%Z end.
Definition link_bw (prev d : dom) : Z :=
  let bw2 := match d_bw prev with Some b => Z.of_nat b | None => Z.of_nat (d_nv prev) end in
  wrap (bw2 + (Z.of_nat (d_nv d) - 1)).
Fixpoint add_points (np nv lc : nat) : list nat :=
  match np with 0 => [] | S np => lc :: add_points np nv (lc + nv) end.
Definition add_domain_tables (t : tables) (lc : nat) (prev : option dom) (d : dom) : tables :=
  let bw := Z.max (t_bw t) (own_bw d) in
  Tab (t_nvars t ++ repeat (d_nv d) (d_np d)) (t_loc t ++ add_points (d_np d) (d_nv d) lc)
      (t_pts t + d_np d) (d_iloc d + d_size d)
      (match prev with Some p => Z.max bw (link_bw p d) | None => bw end).
Fixpoint tables_from (t : tables) (lc : nat) (prev : option dom) (l : list dom) : tables :=
  match l with
  | [] => t
  | d :: l => tables_from (add_domain_tables t lc prev d) (lc + d_np d * d_nv d) (Some d) l
  end.
(* m_size keeps its old value if there is no domain. *)
Definition resize (s : od) : od :=
  let t := tables_from (Tab [] [] 0 (o_size s) 0%Z) 0 None (o_dom s) in
  OD (o_dom s) (t_nvars t) (t_loc t) (t_pts t) (t_size t) (t_bw t).

(* OneDim::addDomain, OneDim.cpp:65-86 (Domain1D::append, linkLeft, Domain1D.h:428-448):
   the new domain is placed after the last one. *)
Definition addDomain (s : od) (d : dom) : od :=
  let pos := match rev (o_dom s) with
             | [] => (0, 0)
             | last :: _ => (d_iloc last + d_size last, d_jstart last + d_np last)
             end in
  resize (OD (o_dom s ++ [place d (fst pos) (snd pos)]) (o_nvars s) (o_loc s) (o_pts s) (o_size s) (o_bw s)).

(* Domain1D::resize of domain n of the simulation: locate() moves it and all to its right. *)
Fixpoint relocate_at (n nv np : nat) (iloc jstart : nat) (l : list dom) : list dom :=
  match l, n with
  | [], _ => []
  | d :: l, S n => d :: relocate_at n nv np (d_iloc d + d_size d) (d_jstart d + d_np d) l
  | d :: l, O => relocate iloc jstart (d_resize d nv np :: l)
  end.
Definition domain_resize (s : od) (n nv np : nat) : od :=
  OD (relocate_at n nv np 0 0 (o_dom s)) (o_nvars s) (o_loc s) (o_pts s) (o_size s) (o_bw s).

(* OneDim::start, OneDim.h:107-115. *)
Definition start (d : dom) : nat := if d_nv d =? 0 then 0 else d_iloc d.
(* OneDim::component, OneDim.cpp:51-64: the search runs from the last domain; an empty list
   gives domain(npos); an integer division by zero is undefined behaviour. *)
Definition component (s : od) (i : nat) : outcome (string * nat * string) :=
  match find (fun d => start d <=? i) (rev (o_dom s)) with
  | None => UB
  | Some d =>
      let offset := i - start d in
      if d_nv d =? 0 then UB
      else let pt := offset / d_nv d in
           omap (fun nm => (d_id d, pt, nm)) (d_componentName d (offset - pt * d_nv d))
  end.
(* OneDim::pointDomain, OneDim.cpp:249-260: the position of the domain, None is a null
   pointer. *)
Definition pointDomain (s : od) (i : nat) : option nat :=
  option_map fst (find (fun p : nat * dom => d_iloc (snd p) <=? i) (rev (combine (seq 0 (length (o_dom s))) (o_dom s)))).
(* The search in MultiNewton::step for the row where factorisation failed,
   MultiNewton.cpp:186-202: domain id, component name, point. None: rethrown as it is. *)
Definition singular (s : od) (row : nat) : option (string * outcome string * nat) :=
  match find (fun d => (d_iloc d <=? row) && (row <? d_iloc d + d_nv d * d_np d)) (o_dom s) with
  | None => None
  | Some d =>
      let offset := row - d_iloc d in
      let pt := offset / d_nv d in
      Some (d_id d, d_componentName d (offset - pt * d_nv d), pt)
  end.
(* Sim1D::value and setValue, Sim1D.cpp:55-70: the index used; domain(n) is unchecked; the
   AssertThrowMsg is an error unless NDEBUG is defined. *)
Definition value_index (s : od) (n comp j : nat) : outcome nat :=
  match nth_error (o_dom s) n with
  | None => UB
  | Some d => let k := d_iloc d + d_index d comp j in if k <? o_size s then Ok k else Err
  end.

(* Calls: adding domains, changing the grid or components of one, and OneDim::resize. *)
Inductive lop := LAdd (d : dom) | LDomain (n nv np : nat) | LResize.
Definition lstep (s : od) (o : lop) : od :=
  match o with
  | LAdd d => addDomain s d
  | LDomain n nv np => domain_resize s n nv np
  | LResize => resize s
  end.
Definition od0 : od := OD [] [] [] 0 0 0%Z.
Definition lrun (ops : list lop) : od := fold_left lstep ops od0.

(* ---------------------------------------------------------------- *)
(** * The Jacobian *)
Section Jacobian.
  Local Open Scope R_scope.
  (* The residual: eval(j, x, r) with rdt = 0; None is j = npos, otherwise only the
     equations near point j need to be right. *)
  Context (F : option nat -> list R -> list R).
  (* m_jacobianRelPerturb, m_jacobianAbsPerturb, m_jacobianThreshold. *)
  Context (rel abs thresh : R).

  Fixpoint put (x : list R) (i : nat) (v : R) : list R :=
    match x, i with
    | [], _ => []
    | _ :: x, O => v :: x
    | a :: x, S i => a :: put x i v
    end.
  Definition at_ (x : list R) (i : nat) : R := nth i x 0.
  Definition step_of (xsave : R) : R :=
    let dx := Rabs xsave * rel + abs in if rltb xsave 0 then - dx else dx.
  (* Entries passed to setValue: row, column, value. *)
  Definition entry := (nat * nat * R)%type.
  (* One point i next to point j, OneDim.cpp:316-325. *)
  Definition block (s : od) (w1 w2 : list R) (ipt : nat) (rdx : R) (i : nat) : list entry :=
    let iloc := nth i (o_loc s) 0%nat in
    flat_map (fun m =>
      let delta := at_ w2 (m + iloc) - at_ w1 (m + iloc) in
      if orb (rltb thresh (Rabs delta)) (m + iloc =? ipt)%nat then [((m + iloc)%nat, ipt, delta * rdx)] else [])
      (seq 0 (nth i (o_nvars s) 0%nat)).
  Definition neighbours (s : od) (j : nat) : list nat :=
    filter (fun i => i <? o_pts s)%nat
      (match j with O => [] | S k => [k] end ++ [j; S j]).
  (* One unknown of point j: perturb, evaluate, store, restore; OneDim.cpp:302-329. *)
  Definition column (s : od) (w1 : list R) (j : nat) (st : list R * nat * list entry) : list R * nat * list entry :=
    match st with (x, ipt, out) =>
      let xsave := at_ x ipt in
      let x' := put x ipt (xsave + step_of xsave) in
      let rdx := 1 / (at_ x' ipt - xsave) in
      let w2 := F (Some j) x' in
      (put x' ipt xsave, S ipt, out ++ flat_map (block s w1 w2 ipt rdx) (neighbours s j))
    end.
  Fixpoint columns (s : od) (w1 : list R) (j nv : nat) (st : list R * nat * list entry) :=
    match nv with O => st | S nv => columns s w1 j nv (column s w1 j st) end.
  (* OneDim::evalJacobian, OneDim.cpp:292-337: the solution vector afterwards, and the
     values set, in order, in a matrix filled with zeros. *)
  Definition evalJacobian (s : od) (x : list R) : list R * list entry :=
    let w1 := F None x in
    let st := fold_left (fun st j => columns s w1 j (nth j (o_nvars s) 0%nat) st) (seq 0 (o_pts s)) (x, 0%nat, []) in
    match st with (x', _, out) => (x', out) end.
End Jacobian.
(* MultiJac: the matrix as a function of row and column, and m_ssdiag; reset leaves
   m_ssdiag. MultiJac.cpp:21-52. Positions outside the band are not stored (see C39): a
   value set there is lost. *)
Record jac := Jac { j_mat : nat -> nat -> R; j_diag : nat -> R }.
Definition in_band (bw : Z) (r c : nat) : bool := (Z.abs (Z.of_nat r - Z.of_nat c) <=? bw)%Z.
Definition j_reset (J : jac) : jac := Jac (fun _ _ => 0%R) (j_diag J).
Definition j_set (bw : Z) (J : jac) (e : nat * nat * R) : jac :=
  match e with (r, c, v) =>
    Jac (fun a b => if (a =? r) && (b =? c) && in_band bw r c then v else j_mat J a b)
        (fun a => if (r =? c) && (a =? r) then v else j_diag J a)
  end.
Definition j_transient (n : nat) (mask : nat -> R) (rdt : R) (J : jac) : jac :=
  Jac (fun a b => if (a =? b) && (a <? n) then (j_diag J a - mask a * rdt)%R else j_mat J a b) (j_diag J).
