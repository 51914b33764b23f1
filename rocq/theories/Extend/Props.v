(* Theorems about delegated methods (C33) and factories (C34). *)
From Coq Require Import String List Bool Lia.
From Verif Require Import Base.Outcome Extend.Model Extend.Spec Extend.Proofs.
Import ListNotations.
Local Open Scope string_scope.
Local Open Scope list_scope.

(** * C33: delegates run in the documented order *)

Section C33.
  Context {W A V : Type} (vadd : V -> V -> V).
  Notation comp X := (W -> outcome X * W).
  Notation vfun := (A -> comp unit).
  Notation rfun := (A -> comp V).
  Notation ofun := (A -> comp (option V)).

  (* An extensible reactor or rate: the methods vs (without result) and rs (with one)
     are delegatable, bv and br are the original implementations. *)
  Context (vs : list (vsig * string)) (rs : list (rsig * string))
          (bv : vsig * string -> vfun) (br : rsig * string -> rfun).
  Notation object ops := (fold_left (dstep vadd) ops (construct vs rs bv br)).

  (* A method without result runs the original method and the delegates in the order
     described by the calls of setDelegate made for it, and nothing else. *)
Theorem C33_order ops s n a w :
    In (s, n) vs ->
    call_v s n (object ops) a w = run_all (order (s, n) ops [bv (s, n)]) a w.
  Proof.
    intros Hin. pose proof (construct_v vs rs bv br (s, n)) as E.
    replace (existsb (vkey_eqb (s, n)) vs) with true in E.
    2:{ symmetry. apply existsb_exists. exists (s, n). split; [exact Hin|].
        destruct (vkey_spec (s, n) (s, n)); congruence. }
    destruct (runs_ops vadd ops _ (s, n) _ [bv (s, n)] E (run_single _)) as (g & G & R).
    unfold call_v. rewrite G. apply R.
  Qed.

  (* A method with a result combines the original method with the delegate set last. *)
Theorem C33_result ops s n a w :
    In (s, n) rs -> s <> S_d_vp ->
    result_of vadd (br (s, n)) a w (latest (s, n) ops None) (call_r s n (object ops) a w).
  Proof.
    intros Hin Hs. destruct (construct_r vs rs bv br (s, n)) as [E B].
    assert (X : existsb (rkey_eqb (s, n)) rs = true).
    { apply existsb_exists. exists (s, n). split; [exact Hin|].
      destruct (rkey_spec (s, n) (s, n)); congruence. }
    rewrite X in E, B.
    assert (B' : base_of (construct vs rs bv br) (s, n) = Some (br (s, n))).
    { rewrite B. destruct s; [congruence|reflexivity|reflexivity]. }
    destruct (acts_ops vadd ops _ (s, n) _ None E) as (g & G & R).
    { intros b Hb. congruence. }
    unfold call_r. rewrite G. rewrite B' in R. apply acts_result; [|exact R].
    intros w' f' L. apply (latest_when ops (s, n) None w' f' L). discriminate.
  Qed.

  (* setDelegate is accepted exactly for delegatable methods with their signature and
     for the three values of 'when'. *)
Theorem C33_accepted ops s n f when :
    fst (setDelegate_v s n f when (object ops)) = Ok tt <-> In (s, n) vs /\ valid_when when.
  Proof.
    pose proof (has_v_ops vadd ops (construct vs rs bv br) (s, n)) as H.
    unfold has_v in H. rewrite construct_v in H. unfold setDelegate_v.
    assert (X : existsb (vkey_eqb (s, n)) vs = true <-> In (s, n) vs).
    { rewrite existsb_exists. split.
      - intros (k & K1 & K2). destruct (vkey_spec (s, n) k) as [<-|]; [exact K1|discriminate].
      - intros K. exists (s, n). split; [exact K|]. destruct (vkey_spec (s, n) (s, n)); congruence. }
    rewrite <- X. unfold valid_when, makeDelegate_v.
    destruct (existsb (vkey_eqb (s, n)) vs), (mget vkey_eqb (s, n) (d_v (object ops))); try discriminate H.
    - destruct (String.eqb_spec when "before"); cbn [fst]; [split; auto|].
      destruct (String.eqb_spec when "after"); cbn [fst]; [split; auto|].
      destruct (String.eqb_spec when "replace"); cbn [fst]; [split; auto|].
      split; [discriminate|]. intros [_ Q]. tauto.
    - split; [discriminate|]. intros [Q _]. discriminate.
  Qed.
Theorem C33_accepted_result ops s n f when :
    fst (setDelegate_r vadd s n f when (object ops)) = Ok tt <-> In (s, n) rs /\ valid_when when.
  Proof.
    pose proof (has_r_ops vadd ops (construct vs rs bv br) (s, n)) as H.
    unfold has_r in H. rewrite (proj1 (construct_r _ _ _ _ _)) in H. unfold setDelegate_r.
    assert (X : existsb (rkey_eqb (s, n)) rs = true <-> In (s, n) rs).
    { rewrite existsb_exists. split.
      - intros (k & K1 & K2). destruct (rkey_spec (s, n) k) as [<-|]; [exact K1|discriminate].
      - intros K. exists (s, n). split; [exact K|]. destruct (rkey_spec (s, n) (s, n)); congruence. }
    rewrite <- X. unfold valid_when.
    destruct (existsb (rkey_eqb (s, n)) rs), (mget rkey_eqb (s, n) (d_r (object ops))); try discriminate H.
    - destruct (mget rkey_eqb (s, n) (d_base (object ops))) as [b|]; unfold makeDelegate_r.
      + destruct (String.eqb_spec when "before"); cbn [fst]; [split; auto|].
        destruct (String.eqb_spec when "after"); cbn [fst]; [split; auto|].
        destruct (String.eqb_spec when "replace"); cbn [fst]; [split; auto|].
        split; [discriminate|]. intros [_ Q]. tauto.
      + destruct (String.eqb_spec when "before"); cbn [fst]; [split; auto|].
        destruct (String.eqb_spec when "after"); cbn [fst]; [split; auto|].
        destruct (String.eqb_spec when "replace"); cbn [fst]; [split; auto|].
        split; [discriminate|]. intros [_ Q]. tauto.
    - split; [discriminate|]. intros [Q _]. discriminate.
  Qed.

  (* Otherwise it throws a CanteraError and every method keeps doing what it did. *)
Theorem C33_rejected ops s n f when :
    fst (setDelegate_v s n f when (object ops)) <> Ok tt ->
    fst (setDelegate_v s n f when (object ops)) = Err /\
    (forall s' n' a w, call_v s' n' (snd (setDelegate_v s n f when (object ops))) a w =
                       call_v s' n' (object ops) a w) /\
    (forall s' n' a w, call_r s' n' (snd (setDelegate_v s n f when (object ops))) a w =
                       call_r s' n' (object ops) a w).
  Proof.
    unfold setDelegate_v. destruct (mget vkey_eqb (s, n) (d_v (object ops))) as [g|]; [|auto].
    destruct (make_v_err f when g) as [[g' G]|[G _]]; rewrite G; cbn [fst snd]; [congruence|auto].
  Qed.
Theorem C33_rejected_result ops s n f when :
    fst (setDelegate_r vadd s n f when (object ops)) <> Ok tt ->
    fst (setDelegate_r vadd s n f when (object ops)) = Err /\
    (forall s' n' a w, call_v s' n' (snd (setDelegate_r vadd s n f when (object ops))) a w =
                       call_v s' n' (object ops) a w) /\
    (forall s' n' a w, call_r s' n' (snd (setDelegate_r vadd s n f when (object ops))) a w =
                       call_r s' n' (object ops) a w).
  Proof.
    unfold setDelegate_r. destruct (mget rkey_eqb (s, n) (d_r (object ops))) as [g|]; [|auto].
    destruct (mget rkey_eqb (s, n) (d_base (object ops))) as [b|].
    - destruct (make_r_valid vadd f when b) as [(g' & G & _)|[G _]]; rewrite G; cbn [fst snd]; [congruence|auto].
    - destruct (make_r_valid vadd f when None) as [(g' & G & _)|[G _]]; rewrite G; cbn [fst snd]; [congruence|auto].
  Qed.

  (* Methods of signature double(void* ): replacing works. *)
Theorem C33_result_double ops n a w when f :
    In (S_d_vp, n) rs -> latest (S_d_vp, n) ops None = Some (when, f) -> when = "replace" ->
    result_of vadd (br (S_d_vp, n)) a w (Some (when, f)) (call_r S_d_vp n (object ops) a w).
  Proof.
    intros Hin L ->. destruct (construct_r vs rs bv br (S_d_vp, n)) as [E B].
    assert (X : existsb (rkey_eqb (S_d_vp, n)) rs = true).
    { apply existsb_exists. exists (S_d_vp, n). split; [exact Hin|].
      destruct (rkey_spec (S_d_vp, n) (S_d_vp, n)); congruence. }
    rewrite X in E, B.
    cbn [fst] in B.
    destruct (acts_ops vadd ops _ (S_d_vp, n) _ None E) as (g & G & R).
    { intros b Hb. congruence. }
    unfold call_r. rewrite G. rewrite L in R. apply (acts_result vadd g (br (S_d_vp, n))); [|].
    - intros w' f' X1. injection X1 as <- <-. right. right. reflexivity.
    - cbn [acts] in R |- *. rewrite B in R. cbn in R |- *. exact R.
  Qed.
End C33.
Print Assumptions C33_order.
Print Assumptions C33_result.
Print Assumptions C33_accepted.
Print Assumptions C33_accepted_result.
Print Assumptions C33_rejected.
Print Assumptions C33_rejected_result.
Print Assumptions C33_result_double.

(* The methods of extensible reactors and rates. *)
Example C33_ex (bv : vsig * string -> unit -> list string -> outcome unit * list string) br :
  let log x : unit -> list string -> outcome unit * list string := fun _ w => (Ok tt, w ++ [x]) in
  let bv := fun k : vsig * string => log (snd k) in
  let ops := [SetV S_v_d "initialize" (log "b1") "before"; SetV S_v_d "initialize" (log "a") "after";
              SetV S_v_d "evalWalls" (log "r") "replace"; SetV S_v_d "initialize" (log "b2") "before";
              SetV S_v "initialize" (log "x") "before"; SetV S_v_d "initialize" (log "y") "instead"] in
  let d := fold_left (dstep Nat.add) ops (construct reactor_v reactor_r bv br) in
  call_v S_v_d "initialize" d tt [] = (Ok tt, ["b2"; "b1"; "initialize"; "a"]) /\
  call_v S_v_d "evalWalls" d tt [] = (Ok tt, ["r"]).
Proof. cbn. split; reflexivity. Qed.
Example C33_ex_result (bv : vsig * string -> unit -> unit -> outcome unit * unit) :
  let br := fun k : rsig * string => fun (_ : unit) (w : unit) => (Ok 40, w) in
  let two : unit -> unit -> outcome (option nat) * unit := fun _ w => (Ok (Some 2), w) in
  let none : unit -> unit -> outcome (option nat) * unit := fun _ w => (Ok None, w) in
  let obj ops := fold_left (dstep Nat.add) ops (construct reactor_v reactor_r bv br) in
  let get ops := fst (call_r S_sz_csr "speciesIndex" (obj ops) tt tt) in
  get [SetR S_sz_csr "speciesIndex" two "after"] = Ok 42 /\
  get [SetR S_sz_csr "speciesIndex" two "before"] = Ok 2 /\
  get [SetR S_sz_csr "speciesIndex" none "before"] = Ok 40 /\
  get [SetR S_sz_csr "speciesIndex" none "replace"] = Err /\
  get [SetR S_sz_csr "speciesIndex" two "after"; SetR S_sz_csr "speciesIndex" none "before"] = Ok 40.
Proof. cbn. repeat split. Qed.

(* Methods of signature double(void* ) lose their original implementation: an 'after'
   delegate never runs, and a 'before' delegate without result ends in
   std::bad_function_call. *)
Theorem C33_double_refuted (f : unit -> unit -> outcome (option nat) * unit) bv :
  let br := fun (k : rsig * string) (_ : unit) (w : unit) => (Ok 1, w) in
  let obj when f := fold_left (dstep Nat.add) [SetR S_d_vp "evalFromStruct" f when]
                      (construct rate_v rate_r bv br) in
  call_r S_d_vp "evalFromStruct" (obj "after" f) tt tt = (Exn, tt) /\
  call_r S_d_vp "evalFromStruct" (obj "before" (fun _ w => (Ok None, w))) tt tt = (Exn, tt).
Proof. cbn. split; reflexivity. Qed.
Print Assumptions C33_double_refuted.

(* For methods with a result a second delegate displaces the first. *)
Theorem C33_result_stacking_refuted (bv : vsig * string -> unit -> unit -> outcome unit * unit) :
  let br := fun (k : rsig * string) (_ : unit) (w : unit) => (Ok 40, w) in
  let add x : unit -> unit -> outcome (option nat) * unit := fun _ w => (Ok (Some x), w) in
  fst (call_r S_sz_csr "speciesIndex"
    (fold_left (dstep Nat.add) [SetR S_sz_csr "speciesIndex" (add 1) "after";
                                SetR S_sz_csr "speciesIndex" (add 2) "after"]
       (construct reactor_v reactor_r bv br)) tt tt) = Ok 42.
Proof. reflexivity. Qed.

(** * C34: factories resolve names deterministically *)

(* create is what the history of registrations says, and only that. *)
Theorem C34_create {C} (h : list (fop C)) n r : create n (frun h) = r <-> creates h n r.
Proof.
  split.
  - intros <-. apply create_creates.
  - intros H. apply (creates_unique h n); [apply create_creates|exact H].
Qed.
Print Assumptions C34_create.

(* A name resolves to a construction function or is rejected with CanteraError:
   looking up the resolved name never fails. *)
Theorem C34_total {C} (h : list (fop C)) n : create n (frun h) = Err \/ exists f, create n (frun h) = Ok f.
Proof. destruct (create_creates h n); [right|right|right|left; reflexivity]; eexists; reflexivity. Qed.
Print Assumptions C34_total.

(* Adding an alias is accepted exactly if the type is registered. *)
Theorem C34_alias_accepted {C} (h : list (fop C)) o a :
  (fst (addAlias o a (frun h)) = Ok tt <-> registered o h None <> None) /\
  (fst (addDeprecatedAlias o a (frun h)) = Ok tt <-> registered o h None <> None).
Proof.
  unfold addAlias, addDeprecatedAlias. rewrite !creators_registered.
  destruct (registered o h None); cbn; split; split; intros; try congruence; try discriminate.
Qed.

(* Registering or aliasing one name changes no other name, except aliases of it. *)
Theorem C34_frame {C} (h : list (fop C)) n f m :
  m <> n -> ~ alias_target false m h n -> ~ alias_target true m h n ->
  create m (frun (h ++ [Reg n f])) = create m (frun h).
Proof.
  intros Hm H1 H2. rewrite frun_snoc. cbn [fstep]. unfold create, canonicalize, reg.
  cbn [f_creators f_synonyms f_deprecated]. rewrite sget.
  destruct (String.eqb_spec m n) as [|_]; [contradiction|].
  destruct (mget String.eqb m (f_creators (frun h))) as [c|] eqn:E.
  { cbn [obind]. rewrite sget. destruct (String.eqb_spec m n); [contradiction|reflexivity]. }
  destruct (mget String.eqb m (f_synonyms (frun h))) as [o|] eqn:E2.
  { cbn [obind]. rewrite sget. destruct (String.eqb_spec o n) as [->|]; [|reflexivity].
    exfalso. apply H1. apply (amap_some false). exact E2. }
  destruct (mget String.eqb m (f_deprecated (frun h))) as [o|] eqn:E3; [|reflexivity].
  cbn [obind]. rewrite sget. destruct (String.eqb_spec o n) as [->|]; [|reflexivity].
  exfalso. apply H2. apply (amap_some true). exact E3.
Qed.
Theorem C34_frame_alias {C} (h : list (fop C)) o a m :
  m <> a -> create m (frun (h ++ [Alias o a])) = create m (frun h) /\
            create m (frun (h ++ [DepAlias o a])) = create m (frun h).
Proof.
  intros Hm. rewrite !frun_snoc. cbn [fstep]. unfold addAlias, addDeprecatedAlias.
  destruct (mget String.eqb o (f_creators (frun h))); cbn [snd]; [|split; reflexivity].
  unfold create, canonicalize. cbn [f_creators f_synonyms f_deprecated]. rewrite !sget.
  destruct (String.eqb_spec m a); [contradiction|]. split; reflexivity.
Qed.
Print Assumptions C34_frame.
Print Assumptions C34_frame_alias.

(* exists(name) implies that creation succeeds ... *)
Theorem C34_exists {C} (h : list (fop C)) n :
  fexists n (frun h) = true -> exists f, create n (frun h) = Ok f.
Proof.
  intros H. destruct (C34_total h n) as [E|E]; [|exact E]. exfalso.
  unfold fexists in H. unfold create, canonicalize in E.
  destruct (mget String.eqb n (f_creators (frun h))) as [c|] eqn:E1; [cbn in E; rewrite E1 in E; discriminate|].
  destruct (mget String.eqb n (f_synonyms (frun h))) as [o|] eqn:E2; [|discriminate].
  cbn [obind] in E. destruct (mget String.eqb o (f_creators (frun h))); discriminate.
Qed.
Print Assumptions C34_exists.
(* ... and a name that can be created exists, unless it was only declared as a deprecated name ... *)
Theorem C34_created_exists {C} (h : list (fop C)) n f : create n (frun h) = Ok f ->
  (forall o, ~ In (DepAlias o n) h) -> fexists n (frun h) = true.
Proof.
  intros E N. unfold fexists. unfold create, canonicalize in E.
  destruct (mget String.eqb n (f_creators (frun h))) as [c|] eqn:E1; [reflexivity|].
  destruct (mget String.eqb n (f_synonyms (frun h))) as [o|] eqn:E2; [reflexivity|].
  destruct (mget String.eqb n (f_deprecated (frun h))) as [o|] eqn:E3; [|discriminate].
  destruct (amap_some true h n o E3) as (h1 & h2 & Eh & _). destruct (N o). rewrite Eh. apply in_or_app. right. left. reflexivity.
Qed.
Print Assumptions C34_created_exists.
Example C34_created_ex : create "ideal" (frun [Reg "gas" 1; Alias "gas" "ideal"]) = Ok 1 /\
  (forall o, ~ In (DepAlias o "ideal") [Reg "gas" 1; Alias "gas" "ideal"]) /\
  fexists "ideal" (frun [Reg "gas" 1; Alias "gas" "ideal"]) = true.
Proof. split; [reflexivity|]. split; [|reflexivity]. intros o [H|[H|[]]]; discriminate. Qed.
(* ... as deprecated names can be created and do not "exist". *)
Theorem C34_exists_refuted :
  create "old" (frun [Reg "new" 7; DepAlias "new" "old"]) = Ok 7 /\
  fexists "old" (frun [Reg "new" 7; DepAlias "new" "old"]) = false.
Proof. split; reflexivity. Qed.
Print Assumptions C34_exists_refuted.

Example C34_ex :
  let h := [Alias "gas" "ideal"; Reg "gas" 1; Alias "gas" "ideal"; Reg "surf" 2; Alias "surf" "ideal";
            DepAlias "gas" "Gas"; Reg "gas" 3] in
  creates h "ideal" (Ok 2) /\ create "Gas" (frun h) = Ok 3 /\ create "Ideal" (frun h) = Err /\
  alias_target false "ideal" h "surf".
Proof.
  split; [apply C34_create; reflexivity|]. split; [reflexivity|]. split; [reflexivity|].
  apply (amap_some false). reflexivity.
Qed.
