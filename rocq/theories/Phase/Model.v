(** Model of the element and species tables of class Phase (src/thermo/Phase.cpp).

    Numbers are reals.  std::map members are partial functions from strings.  Not modelled: element
    entropies, atomic numbers and element types (stored alongside the weights, same index), the
    thermodynamic data carried by Species objects, and the state vectors m_y/m_ym that addSpecies extends
    (they are in Phase/CompModel.v). *)
From Coq Require Import Reals String Ascii List Bool Arith.
From Verif Require Import Base.Outcome Base.Vec.
Import ListNotations.
Open Scope R_scope.

(** boost::algorithm::to_lower_copy in the C locale (stringUtils.cpp:219-221). *)
Definition lower_char (c : ascii) : ascii :=
  let n := nat_of_ascii c in
  if (65 <=? n)%nat && (n <=? 90)%nat then ascii_of_nat (n + 32) else c.
Fixpoint to_lower (s : string) : string :=
  match s with
  | EmptyString => EmptyString
  | String c s' => String (lower_char c) (to_lower s')
  end.

(** The part of class Species that addSpecies reads (Species.h): name, composition (a
    map<string,double>, given as the list of its entries in iteration order), charge. *)
Record spec := mk_spec { sp_name : string; sp_comp : list (string * R); sp_charge : R }.

(** UndefElement::behavior, Phase.h. *)
Inductive undef := UIgnore | UAdd | UError.

(** Members of Phase: m_elementNames with m_atomicWeights (m_mm is their length), m_speciesNames
    (m_kk is its length), m_species, m_speciesIndices, m_speciesLower ([Some None] is an entry npos),
    m_speciesComp with its size, m_molwts, m_speciesCharge, m_nSpeciesLocks, m_caseSensitiveSpecies,
    m_undefinedElementBehavior. *)
Record tab := mk_tab {
  t_elems : list (string * R);
  t_names : list string;
  t_species : string -> option spec;
  t_index : string -> option nat;
  t_lower : string -> option (option nat);
  t_comp : vec; t_csize : nat;
  t_mw : list R;
  t_charge : list R;
  t_locks : nat;
  t_case : bool;
  t_undef : undef }.

Definition t_mm (t : tab) : nat := length (t_elems t).
Definition t_kk (t : tab) : nat := length (t_names t).

(** A newly constructed Phase (Phase.h:845-930). *)
Definition tab_init : tab :=
  mk_tab [] [] (fun _ => None) (fun _ => None) (fun _ => None) zeros 0 [] [] 0 false UAdd.

(** map[key] = value. *)
Definition mput {A} (f : string -> option A) (k : string) (a : A) : string -> option A :=
  fun s => if String.eqb s k then Some a else f s.

(** Phase::elementIndex, Phase.cpp:55-63. [None] is npos. *)
Fixpoint find_elem (l : list (string * R)) (s : string) : option nat :=
  match l with
  | [] => None
  | (e, _) :: l' => if String.eqb e s then Some 0%nat else option_map S (find_elem l' s)
  end.
Definition elementIndex (t : tab) (s : string) : option nat := find_elem (t_elems t) s.
(** Phase::elementName, Phase.cpp:49-53. *)
Definition elementName (t : tab) (m : nat) : outcome string :=
  match nth_error (t_elems t) m with Some (e, _) => Ok e | None => Err end.
(** Phase::atomicWeight, Phase.cpp:70-73 (no check: out of range is undefined). *)
Definition atomicWeight (t : tab) (m : nat) : outcome R :=
  match nth_error (t_elems t) m with Some (_, w) => Ok w | None => UB end.

(** Phase::findSpeciesLower, Phase.cpp:110-127. *)
Definition findSpeciesLower (t : tab) (s : string) : outcome (option nat) :=
  match t_lower t (to_lower s) with
  | None => Ok None
  | Some None => Err
  | Some (Some k) => Ok (Some k)
  end.
(** Phase::speciesIndex, Phase.cpp:129-140. *)
Definition speciesIndex (t : tab) (s : string) : outcome (option nat) :=
  match t_index t s with
  | Some k => Ok (Some k)
  | None => if negb (t_case t) then findSpeciesLower t s else Ok None
  end.
(** Phase::speciesName with checkSpeciesIndex, Phase.cpp:142-158. *)
Definition speciesName (t : tab) (k : nat) : outcome string :=
  match nth_error (t_names t) k with Some s => Ok s | None => Err end.
(** Phase::nAtoms, Phase.cpp:103-108. *)
Definition nAtoms (t : tab) (k m : nat) : outcome R :=
  if negb (m <? t_mm t)%nat then Err
  else if negb (k <? t_kk t)%nat then Err
  else Ok (t_comp t (t_mm t * k + m)%nat).
(** Phase::molecularWeight, Phase.cpp:383-387; Phase::charge, Phase.h:542-544. *)
Definition molecularWeight (t : tab) (k : nat) : outcome R :=
  if negb (k <? t_kk t)%nat then Err
  else match nth_error (t_mw t) k with Some w => Ok w | None => UB end.
Definition charge (t : tab) (k : nat) : outcome R :=
  match nth_error (t_charge t) k with Some w => Ok w | None => UB end.
(** Phase::species(size_t), Phase.cpp:884-888. *)
Definition speciesAt (t : tab) (k : nat) : outcome spec :=
  match nth_error (t_names t) k with
  | None => Err
  | Some s => match t_species t s with Some sp => Ok sp | None => Exn end
  end.

Section WithDatabase.
  (** getElementWeight (Elements.cpp:251-273): the built-in table of atomic weights; [None]: throws. *)
  Variable db : string -> option R.

  (** The re-layout of m_speciesComp when the number of elements grows, Phase.cpp:684-695. *)
  Definition relayout (kk mm : nat) (old c : vec) : vec :=
    fold_left (fun c k =>
      upd (fold_left (fun c m => upd c (k * mm + m)%nat (old (k * (mm - 1) + m)%nat)) (seq 0 (mm - 1)) c)
          (k * mm + (mm - 1))%nat 0)
      (seq 0 kk) c.

  Definition set_elems t e c n :=
    mk_tab e (t_names t) (t_species t) (t_index t) (t_lower t) c n (t_mw t) (t_charge t)
           (t_locks t) (t_case t) (t_undef t).

  (** Phase::addElement, Phase.cpp:635-699. *)
  Definition addElement (t : tab) (sym : string) (weight : R) : outcome nat * tab :=
    let w := if Req_EM_T weight 0
             then match db sym with Some v => Some v | None => Some weight end
             else if Req_EM_T weight (-12345) then db sym else Some weight in
    match w with
    | None => (Err, t)
    | Some w =>
        match find_elem (t_elems t) sym with
        | Some m =>
            match nth_error (t_elems t) m with
            | Some (_, w') => if Req_EM_T w' w then (Ok m, t) else (Err, t)
            | None => (UB, t)
            end
        | None =>
            let e := t_elems t ++ [(sym, w)] in
            let mm := length e in
            let c := if (0 <? t_kk t)%nat
                     then let n := (t_kk t * mm)%nat in
                          let resized := fun i => if (i <? t_csize t)%nat then t_comp t i else 0 in
                          (relayout (t_kk t) mm (t_comp t) resized, n)
                     else (t_comp t, t_csize t) in
            (Ok (mm - 1)%nat, set_elems t e (fst c) (snd c))
        end
    end.

  (** The loop over the composition in addSpecies, Phase.cpp:716-740: [comp] is the local vector, of
      size nElements(). *)
  Inductive loopres := LThrow | LIgnore | LDone (comp : vec).
  Fixpoint comp_loop (t : tab) (l : list (string * R)) (comp : vec) : loopres * tab :=
    match l with
    | [] => (LDone comp, t)
    | (e, st) :: l' =>
        match elementIndex t e with
        | Some m => comp_loop t l' (upd comp m st)
        | None =>
            match t_undef t with
            | UIgnore => (LIgnore, t)
            | UError => (LThrow, t)
            | UAdd =>
                match addElement t e (-12345) with
                | (Ok _, t1) =>
                    match elementIndex t1 e with
                    | Some m => comp_loop t1 l' (upd comp m st)
                    | None => (LThrow, t1)
                    end
                | (_, t1) => (LThrow, t1)
                end
            end
        end
    end.

  (** The charge / element E treatment, Phase.cpp:742-766. *)
  Definition charge_step (t : tab) (ch : R) (comp : vec) : option vec * tab :=
    if Req_EM_T ch 0 then (Some comp, t)
    else match elementIndex t "E" with
         | Some ei =>
             let ecomp := comp ei in
             if Rlt_dec (1 / 1000) (Rabs (ch + ecomp))
             then if Req_EM_T ecomp 0 then (Some (upd comp ei (- ch)), t) else (None, t)
             else (Some comp, t)
         | None =>
             match addElement t "E" (545 / 1000000) with
             | (Ok _, t1) => (Some (upd comp (t_mm t1 - 1)%nat (- ch)), t1)
             | (_, t1) => (None, t1)
             end
         end.

  Definition Tiny : R := 1 / IZR (10 ^ 20).  (* ct_defs.h:173 *)

  (** Sum over the elements, Phase.cpp:768-771. *)
  Fixpoint weight_loop (l : list (string * R)) (m : nat) (comp : vec) (wt : R) : R :=
    match l with
    | [] => wt
    | (_, aw) :: l' => weight_loop l' (S m) comp (wt + comp m * aw)
    end.

  (** ne times m_speciesComp.push_back(comp[m]), Phase.cpp:783-785. *)
  Fixpoint push_comp (c : vec) (size m n : nat) (comp : vec) : vec :=
    match n with
    | O => c
    | S n' => push_comp (upd c size (comp m)) (S size) (S m) n' comp
    end.

  (** Phase::addSpecies, Phase.cpp:701-812. The state returned with an exception or with [false] keeps
      the elements added on the way. *)
  Definition addSpecies (t : tab) (sp : spec) : outcome bool * tab :=
    if (0 <? t_locks t)%nat then (Err, t)
    else match t_species t (sp_name sp) with
    | Some _ => (Err, t)
    | None =>
        match comp_loop t (sp_comp sp) zeros with
        | (LThrow, t1) => (Err, t1)
        | (LIgnore, t1) => (Ok false, t1)
        | (LDone comp, t1) =>
            match charge_step t1 (sp_charge sp) comp with
            | (None, t2) => (Err, t2)
            | (Some comp, t2) =>
                let ne := t_mm t2 in
                let wt := Rmax (weight_loop (t_elems t2) 0 comp 0) Tiny in
                let kk := t_kk t2 in
                let nl := to_lower (sp_name sp) in
                (Ok true,
                 mk_tab (t_elems t2)
                        (t_names t2 ++ [sp_name sp])
                        (mput (t_species t2) (sp_name sp) sp)
                        (mput (t_index t2) (sp_name sp) kk)
                        (mput (t_lower t2) nl
                              (match t_lower t2 nl with None => Some kk | Some _ => None end))
                        (push_comp (t_comp t2) (t_csize t2) 0 ne comp) (t_csize t2 + ne)
                        (t_mw t2 ++ [wt])
                        (t_charge t2 ++ [sp_charge sp])
                        (t_locks t2) (t_case t2) (t_undef t2))
            end
        end
    end.

  (** Phase::addSpeciesAlias, Phase.cpp:831-845. *)
  Definition addSpeciesAlias (t : tab) (name alias : string) : outcome unit * tab :=
    match speciesIndex t alias with
    | Ok None =>
        match speciesIndex t name with
        | Ok (Some k) =>
            (Ok tt, mk_tab (t_elems t) (t_names t) (t_species t) (mput (t_index t) alias k) (t_lower t)
                           (t_comp t) (t_csize t) (t_mw t) (t_charge t) (t_locks t) (t_case t) (t_undef t))
        | _ => (Err, t)
        end
    | _ => (Err, t)
    end.

  (** operator== on map<string,double>. *)
  Fixpoint comp_eqb (a b : list (string * R)) : bool :=
    match a, b with
    | [], [] => true
    | (x, u) :: a', (y, v) :: b' =>
        String.eqb x y && (if Req_EM_T u v then true else false) && comp_eqb a' b'
    | _, _ => false
    end.
  (** Phase::modifySpecies, Phase.cpp:814-829. *)
  Definition modifySpecies (t : tab) (k : nat) (sp : spec) : outcome unit * tab :=
    match nth_error (t_names t) k with
    | None => (Err, t)
    | Some nm =>
        if negb (String.eqb nm (sp_name sp)) then (Err, t)
        else match t_species t (sp_name sp) with
        | None => (UB, t)
        | Some old =>
            if negb (comp_eqb (sp_comp sp) (sp_comp old)) then (Err, t)
            else (Ok tt, mk_tab (t_elems t) (t_names t) (mput (t_species t) (sp_name sp) sp) (t_index t)
                    (t_lower t) (t_comp t) (t_csize t) (t_mw t) (t_charge t) (t_locks t) (t_case t) (t_undef t))
        end
    end.

  Definition set_flags t locks cs ud :=
    mk_tab (t_elems t) (t_names t) (t_species t) (t_index t) (t_lower t) (t_comp t) (t_csize t)
           (t_mw t) (t_charge t) locks cs ud.

  (** Phase::addSpeciesLock (Phase.h:721-723), removeSpeciesLock (Phase.cpp:847-854),
      setCaseSensitiveSpecies (Phase.h:789-791), ignoreUndefinedElements and friends
      (Phase.cpp:890-900). *)
  Inductive top :=
  | AddElement (sym : string) (w : R)
  | AddSpecies (sp : spec)
  | AddAlias (name alias : string)
  | Modify (k : nat) (sp : spec)
  | Lock | Unlock
  | SetCase (b : bool)
  | SetUndef (u : undef).

  Definition tstep (t : tab) (o : top) : tab :=
    match o with
    | AddElement s w => snd (addElement t s w)
    | AddSpecies sp => snd (addSpecies t sp)
    | AddAlias n a => snd (addSpeciesAlias t n a)
    | Modify k sp => snd (modifySpecies t k sp)
    | Lock => set_flags t (S (t_locks t)) (t_case t) (t_undef t)
    | Unlock => match t_locks t with
                | O => t
                | S n => set_flags t n (t_case t) (t_undef t)
                end
    | SetCase b => set_flags t (t_locks t) b (t_undef t)
    | SetUndef u => set_flags t (t_locks t) (t_case t) u
    end.
  Definition trun (t : tab) (ops : list top) : tab := fold_left tstep ops t.
End WithDatabase.

(** Phase::elementalMassFraction, Phase.cpp:547-556, and elementalMoleFraction, 558-574, for a vector of
    mass (resp. mole) fractions; the bounds checks are those of nAtoms. *)
Definition elementalMassFraction (t : tab) (y : vec) (m : nat) : R :=
  fold_left (fun z k => z + t_comp t (t_mm t * k + m)%nat * snd (nth m (t_elems t) (EmptyString, 0))
                            / nth k (t_mw t) 0 * y k) (seq 0 (t_kk t)) 0.
Definition elementalMoleFraction (t : tab) (x : vec) (m : nat) : R :=
  let denom := fold_left (fun d k =>
     d + fold_left (fun a j => a + t_comp t (t_mm t * k + j)%nat) (seq 0 (t_mm t)) 0 * x k)
     (seq 0 (t_kk t)) 0 in
  let num := fold_left (fun d k => d + t_comp t (t_mm t * k + m)%nat * x k) (seq 0 (t_kk t)) 0 in
  num / denom.
