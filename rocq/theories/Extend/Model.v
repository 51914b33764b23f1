(* Delegator (methods overridden from an extension language) and Factory. *)
From Coq Require Import String List Bool.
From Verif Require Import Base.Outcome.
Import ListNotations.
Local Open Scope string_scope.

(* std::map / std::unordered_map operator[] assignment, and lookup. *)
Section Maps.
  Context {K X : Type} (eqb : K -> K -> bool).
  Fixpoint mput (k : K) (x : X) (m : list (K * X)) : list (K * X) :=
    match m with
    | [] => [(k, x)]
    | (k', x') :: m' => if eqb k k' then (k, x) :: m' else (k', x') :: mput k x m'
    end.
  Fixpoint mget (k : K) (m : list (K * X)) : option X :=
    match m with
    | [] => None
    | (k', x) :: m' => if eqb k k' then Some x else mget k m'
    end.
End Maps.

(* ---------------------------------------------------------------- *)
(** * include/cantera/base/Delegator.h *)

(* The signatures of delegated methods, Delegator.h:523-545: one map each. *)
Inductive vsig := S_v | S_v_b | S_v_d | S_v_AMr | S_v_cAMr_cUSr | S_v_csr_vp | S_v_dp
                | S_v_d_dp | S_v_d_dp_dp | S_v_dp_dp_dp.
Inductive rsig := S_d_vp | S_s_sz | S_sz_csr.
Definition vsig_eqb (a b : vsig) : bool :=
  match a, b with
  | S_v, S_v | S_v_b, S_v_b | S_v_d, S_v_d | S_v_AMr, S_v_AMr | S_v_cAMr_cUSr, S_v_cAMr_cUSr
  | S_v_csr_vp, S_v_csr_vp | S_v_dp, S_v_dp | S_v_d_dp, S_v_d_dp | S_v_d_dp_dp, S_v_d_dp_dp
  | S_v_dp_dp_dp, S_v_dp_dp_dp => true
  | _, _ => false
  end.
Definition rsig_eqb (a b : rsig) : bool :=
  match a, b with S_d_vp, S_d_vp | S_s_sz, S_s_sz | S_sz_csr, S_sz_csr => true | _, _ => false end.
Definition vkey_eqb (a b : vsig * string) := vsig_eqb (fst a) (fst b) && String.eqb (snd a) (snd b).
Definition rkey_eqb (a b : rsig * string) := rsig_eqb (fst a) (fst b) && String.eqb (snd a) (snd b).

Section Delegator.
  (* The world the functions act on, their arguments, and returned values with +
     (double, std::string and size_t). *)
  Context {W A V : Type} (vadd : V -> V -> V).

  (* A C++ call: it may throw, and changes the world in any case. *)
  Notation comp X := (W -> outcome X * W).
  Definition ret {X} (x : X) : comp X := fun w => (Ok x, w).
  Definition raise {X} (e : outcome X) : comp X := fun w => (e, w).
  Definition bind {X Y} (c : comp X) (k : X -> comp Y) : comp Y := fun w =>
    match c w with
    | (Ok x, w') => k x w'
    | (Err, w') => (Err, w')
    | (Exn, w') => (Exn, w')
    | (UB, w') => (UB, w')
    end.

  (* function<void(Args...)>; function<ReturnType(Args...)>, None when empty;
     function<int(ReturnType&, Args...)>: the value if the result is non-zero. *)
  Notation vfun := (A -> comp unit).
  Notation rfun := (A -> comp V).
  Notation ofun := (A -> comp (option V)).

  (* The maps m_funcs_v..., m_funcs_d_vp... and m_base_...; the pointers in
     m_funcs_* are the members of the derived class, one for each name. *)
  Record deleg := Deleg {
    d_v : list ((vsig * string) * vfun);
    d_r : list ((rsig * string) * rfun);
    d_base : list ((rsig * string) * option rfun)
  }.
  Definition deleg0 : deleg := Deleg [] [] [].

  (* Calling a std::function: an empty one throws std::bad_function_call. *)
  Definition callf (f : option rfun) : rfun :=
    fun a => match f with Some f => f a | None => raise Exn end.

  (* install for methods without result, Delegator.h:306-400. *)
  Definition install_v (s : vsig) (name : string) (f : vfun) (d : deleg) : deleg :=
    Deleg (mput vkey_eqb (s, name) f (d_v d)) (d_r d) (d_base d).

  (* install for methods with a result, Delegator.h:402-428: the overload for
     double(void* ) does not store the base implementation. *)
  Definition install_r (s : rsig) (name : string) (f : rfun) (d : deleg) : deleg :=
    Deleg (d_v d) (mput rkey_eqb (s, name) f (d_r d))
      (match s with
       | S_d_vp => d_base d
       | _ => mput rkey_eqb (s, name) (Some f) (d_base d)
       end).

  (* makeDelegate without result, Delegator.h:430-458. *)
  Definition makeDelegate_v (f : vfun) (when : string) (base : vfun) : outcome vfun :=
    if String.eqb when "before" then Ok (fun a => bind (f a) (fun _ => base a))
    else if String.eqb when "after" then Ok (fun a => bind (base a) (fun _ => f a))
    else if String.eqb when "replace" then Ok f
    else Err.

  (* makeDelegate with result, Delegator.h:460-508. *)
  Definition makeDelegate_r (f : ofun) (when : string) (base : option rfun) : outcome rfun :=
    if String.eqb when "before" then
      Ok (fun a => bind (f a) (fun r => match r with Some v => ret v | None => callf base a end))
    else if String.eqb when "after" then
      Ok (fun a => bind (callf base a) (fun r1 =>
            bind (f a) (fun r => match r with Some r2 => ret (vadd r1 r2) | None => ret r1 end)))
    else if String.eqb when "replace" then
      Ok (fun a => bind (f a) (fun r => match r with Some v => ret v | None => raise Err end))
    else Err.

  (* setDelegate, Delegator.h:118-251 (without result). *)
  Definition setDelegate_v (s : vsig) (name : string) (f : vfun) (when : string) (d : deleg)
      : outcome unit * deleg :=
    match mget vkey_eqb (s, name) (d_v d) with
    | None => (Err, d)                                       (* NotImplementedError *)
    | Some base =>
        match makeDelegate_v f when base with
        | Ok g => (Ok tt, Deleg (mput vkey_eqb (s, name) g (d_v d)) (d_r d) (d_base d))
        | Err => (Err, d)
        | Exn => (Exn, d)
        | UB => (UB, d)
        end
    end.

  (* setDelegate, Delegator.h:253-287 (with result): m_base_*[name] creates an
     empty function if there is none. *)
  Definition setDelegate_r (s : rsig) (name : string) (f : ofun) (when : string) (d : deleg)
      : outcome unit * deleg :=
    match mget rkey_eqb (s, name) (d_r d) with
    | None => (Err, d)
    | Some _ =>
        let '(base, bases) := match mget rkey_eqb (s, name) (d_base d) with
          | Some b => (b, d_base d)
          | None => (None, mput rkey_eqb (s, name) None (d_base d))
          end in
        match makeDelegate_r f when base with
        | Ok g => (Ok tt, Deleg (d_v d) (mput rkey_eqb (s, name) g (d_r d)) bases)
        | Err => (Err, Deleg (d_v d) (d_r d) bases)
        | Exn => (Exn, Deleg (d_v d) (d_r d) bases)
        | UB => (UB, Deleg (d_v d) (d_r d) bases)
        end
    end.

  (* The overridden methods of the derived classes call the stored function, for
     example ReactorDelegator.h:105-165. *)
  Definition call_v (s : vsig) (name : string) (d : deleg) : vfun := fun a =>
    match mget vkey_eqb (s, name) (d_v d) with Some f => f a | None => raise UB end.
  Definition call_r (s : rsig) (name : string) (d : deleg) : rfun := fun a =>
    match mget rkey_eqb (s, name) (d_r d) with Some f => f a | None => raise UB end.

  (* The methods installed by ReactorDelegator, ReactorDelegator.h:62-97, and by
     ReactionRateDelegator, ReactionRateDelegator.cpp:43-60; base classes' behaviour
     is arbitrary. *)
  Definition reactor_v : list (vsig * string) :=
    [(S_v_d, "initialize"); (S_v, "syncState"); (S_v_dp, "getState"); (S_v_dp, "updateState");
     (S_v_dp, "updateSurfaceState"); (S_v_dp, "getSurfaceInitialConditions");
     (S_v_b, "updateConnected"); (S_v_d_dp_dp, "eval"); (S_v_d, "evalWalls");
     (S_v_dp_dp_dp, "evalSurfaces")].
  Definition reactor_r : list (rsig * string) :=
    [(S_s_sz, "componentName"); (S_sz_csr, "componentIndex"); (S_sz_csr, "speciesIndex")].
  Definition rate_v : list (vsig * string) :=
    [(S_v_cAMr_cUSr, "setParameters"); (S_v_AMr, "getParameters"); (S_v_csr_vp, "validate")].
  Definition rate_r : list (rsig * string) := [(S_d_vp, "evalFromStruct")].

  Definition construct (vs : list (vsig * string)) (rs : list (rsig * string))
      (bv : vsig * string -> vfun) (br : rsig * string -> rfun) : deleg :=
    fold_left (fun d k => install_r (fst k) (snd k) (br k) d) rs
      (fold_left (fun d k => install_v (fst k) (snd k) (bv k) d) vs deleg0).

  (* Calls of setDelegate made on an object. *)
  Inductive dop :=
  | SetV (s : vsig) (name : string) (f : vfun) (when : string)
  | SetR (s : rsig) (name : string) (f : ofun) (when : string).
  Definition dstep (d : deleg) (o : dop) : deleg :=
    match o with
    | SetV s n f w => snd (setDelegate_v s n f w d)
    | SetR s n f w => snd (setDelegate_r s n f w d)
    end.
End Delegator.
Arguments dop : clear implicits.
Arguments deleg : clear implicits.

(* ---------------------------------------------------------------- *)
(** * include/cantera/base/FactoryBase.h *)

Section Factory.
  (* Construction functions. *)
  Context {C : Type}.
  Record fact := Fact {
    f_creators : list (string * C);
    f_synonyms : list (string * string);
    f_deprecated : list (string * string)
  }.
  Definition fact0 : fact := Fact [] [] [].
  Notation get := (mget String.eqb).
  Notation put := (mput String.eqb).

  (* reg, FactoryBase.h:78-80. *)
  Definition reg (name : string) (f : C) (s : fact) : fact :=
    Fact (put name f (f_creators s)) (f_synonyms s) (f_deprecated s).
  (* addAlias, FactoryBase.h:83-89. *)
  Definition addAlias (original alias : string) (s : fact) : outcome unit * fact :=
    match get original (f_creators s) with
    | None => (Err, s)
    | Some _ => (Ok tt, Fact (f_creators s) (put alias original (f_synonyms s)) (f_deprecated s))
    end.
  (* addDeprecatedAlias, FactoryBase.h:114-121. *)
  Definition addDeprecatedAlias (original alias : string) (s : fact) : outcome unit * fact :=
    match get original (f_creators s) with
    | None => (Err, s)
    | Some _ => (Ok tt, Fact (f_creators s) (f_synonyms s) (put alias original (f_deprecated s)))
    end.
  (* canonicalize, FactoryBase.h:92-105; true: a deprecation warning is issued. *)
  Definition canonicalize (name : string) (s : fact) : outcome (string * bool) :=
    match get name (f_creators s) with
    | Some _ => Ok (name, false)
    | None =>
      match get name (f_synonyms s) with
      | Some o => Ok (o, false)
      | None =>
        match get name (f_deprecated s) with
        | Some o => Ok (o, true)
        | None => Err
        end
      end
    end.
  (* exists, FactoryBase.h:108-110. *)
  Definition fexists (name : string) (s : fact) : bool :=
    match get name (f_creators s), get name (f_synonyms s) with
    | None, None => false
    | _, _ => true
    end.
  (* create, FactoryBase.h:73-75: the construction function that is called;
     map::at throws std::out_of_range. *)
  Definition create (name : string) (s : fact) : outcome C :=
    obind (canonicalize name s) (fun '(n, _) =>
      match get n (f_creators s) with Some f => Ok f | None => Exn end).

  Inductive fop :=
  | Reg (name : string) (f : C)
  | Alias (original alias : string)
  | DepAlias (original alias : string).
  Definition fstep (s : fact) (o : fop) : fact :=
    match o with
    | Reg n f => reg n f s
    | Alias o a => snd (addAlias o a s)
    | DepAlias o a => snd (addDeprecatedAlias o a s)
    end.
  Definition frun (h : list fop) : fact := fold_left fstep h fact0.
End Factory.
Arguments fact : clear implicits.
Arguments fop : clear implicits.
