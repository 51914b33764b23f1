(* What delegates and factories are documented to do, as functions of the history of
   calls. *)
From Coq Require Import String List Bool.
From Verif Require Import Base.Outcome Extend.Model.
Import ListNotations.
Local Open Scope string_scope.
Local Open Scope list_scope.

Section Delegator.
  Context {W A V : Type} (vadd : V -> V -> V).
  Notation comp X := (W -> outcome X * W).
  Notation vfun := (A -> comp unit).
  Notation rfun := (A -> comp V).
  Notation ofun := (A -> comp (option V)).

  (* The documented values of 'when'. *)
  Definition valid_when (w : string) : Prop := w = "before" \/ w = "after" \/ w = "replace".

  (* The functions run by a method without result, in order: a 'before' delegate goes
     to the front, an 'after' delegate to the back, a 'replace' delegate displaces
     everything. Anything else is rejected. *)
  Definition enter (l : list vfun) (f : vfun) (w : string) : list vfun :=
    if String.eqb w "before" then f :: l
    else if String.eqb w "after" then l ++ [f]
    else if String.eqb w "replace" then [f]
    else l.
  Fixpoint order (k : vsig * string) (ops : list (dop W A V)) (l : list vfun) : list vfun :=
    match ops with
    | [] => l
    | SetV s n f w :: ops' => order k ops' (if vkey_eqb (s, n) k then enter l f w else l)
    | SetR _ _ _ _ :: ops' => order k ops' l
    end.
  (* Running functions one after the other; an exception ends the sequence. *)
  Fixpoint run_all (l : list vfun) (a : A) (w : W) : outcome unit * W :=
    match l with
    | [] => (Ok tt, w)
    | f :: l' => match f a w with (Ok _, w') => run_all l' a w' | r => r end
    end.

  (* The delegate in force for a method with a result: the latest one with a valid
     'when'. *)
  Fixpoint latest (k : rsig * string) (ops : list (dop W A V)) (cur : option (string * ofun))
      : option (string * ofun) :=
    match ops with
    | [] => cur
    | SetR s n f w :: ops' =>
        latest k ops'
          (if rkey_eqb (s, n) k && (String.eqb w "before" || String.eqb w "after" || String.eqb w "replace")
           then Some (w, f) else cur)
    | SetV _ _ _ _ :: ops' => latest k ops' cur
    end.

  (* The same failure, whatever the type of the missing result. *)
  Inductive same_failure {X Y} : outcome X -> outcome Y -> Prop :=
  | SF_err : same_failure Err Err
  | SF_exn : same_failure Exn Exn
  | SF_ub : same_failure UB UB.

  (* The outcome of a method with original implementation base, called in world w. *)
  Inductive result_of (base : rfun) (a : A) (w : W) : option (string * ofun) -> outcome V * W -> Prop :=
  | RO_none : result_of base a w None (base a w)
  | RO_before_value f v w' : f a w = (Ok (Some v), w') ->
      result_of base a w (Some ("before", f)) (Ok v, w')
  | RO_before_novalue f w' : f a w = (Ok None, w') ->
      result_of base a w (Some ("before", f)) (base a w')
  | RO_after_sum f v1 v2 w1 w2 : base a w = (Ok v1, w1) -> f a w1 = (Ok (Some v2), w2) ->
      result_of base a w (Some ("after", f)) (Ok (vadd v1 v2), w2)
  | RO_after_base f v1 w1 w2 : base a w = (Ok v1, w1) -> f a w1 = (Ok None, w2) ->
      result_of base a w (Some ("after", f)) (Ok v1, w2)
  | RO_replace f v w' : f a w = (Ok (Some v), w') ->
      result_of base a w (Some ("replace", f)) (Ok v, w')
  | RO_replace_novalue f w' : f a w = (Ok None, w') ->
      result_of base a w (Some ("replace", f)) (Err, w')
  (* exceptions pass through *)
  | RO_throws when f e e' w' : when = "before" \/ when = "replace" -> f a w = (e, w') ->
      same_failure e e' -> result_of base a w (Some (when, f)) (e', w')
  | RO_base_throws f e e' w' : base a w = (e, w') -> same_failure e e' ->
      result_of base a w (Some ("after", f)) (e', w')
  | RO_after_throws f v e e' w1 w' : base a w = (Ok v, w1) -> f a w1 = (e, w') ->
      same_failure e e' -> result_of base a w (Some ("after", f)) (e', w').
End Delegator.

Section Factory.
  Context {C : Type}.

  (* The latest construction function registered under a name. *)
  Fixpoint registered (n : string) (h : list (fop C)) (cur : option C) : option C :=
    match h with
    | [] => cur
    | Reg n' f :: h' => registered n h' (if String.eqb n' n then Some f else cur)
    | _ :: h' => registered n h' cur
    end.
  (* The latest type an alias was accepted for: the type has to be registered when the
     alias is added. *)
  Definition alias_target (dep : bool) (n : string) (h : list (fop C)) (o : string) : Prop :=
    exists h1 h2, h = h1 ++ (if dep then DepAlias o n else Alias o n) :: h2 /\
      registered o h1 None <> None /\
      forall h3 o' h4, h2 = h3 ++ (if dep then DepAlias o' n else Alias o' n) :: h4 ->
        registered o' (h1 ++ (if dep then DepAlias o n else Alias o n) :: h3) None = None.
  Definition no_alias (dep : bool) (n : string) (h : list (fop C)) : Prop :=
    forall h1 o h2, h = h1 ++ (if dep then DepAlias o n else Alias o n) :: h2 ->
      registered o h1 None = None.

  (* What creating by name means after the history h. *)
  Inductive creates (h : list (fop C)) (n : string) : outcome C -> Prop :=
  | CR_own f : registered n h None = Some f -> creates h n (Ok f)
  | CR_alias o f : registered n h None = None -> alias_target false n h o ->
      registered o h None = Some f -> creates h n (Ok f)
  | CR_deprecated o f : registered n h None = None -> no_alias false n h -> alias_target true n h o ->
      registered o h None = Some f -> creates h n (Ok f)
  | CR_unknown : registered n h None = None -> no_alias false n h -> no_alias true n h ->
      creates h n Err.
End Factory.
