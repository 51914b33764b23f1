(* The numbering of the unknowns of a reactor network. *)
From Coq Require Import Reals Lra Lia ZArith String List Arith Bool.
From Verif Require Import Base.Outcome Base.Fp Strings.Model Phase.Model Phase.Spec Phase.Props ZeroD.NetModel ZeroD.IndexModel ZeroD.IndexSpec ZeroD.IndexProofs.
Import ListNotations.
Local Open Scope string_scope.
Local Open Scope list_scope.
Local Open Scope nat_scope.

Lemma lengths_names s : map (@length string) (map names (in_rx s)) = map (fun x => length (names x)) (in_rx s).
Proof. apply map_map. Qed.
Lemma offset_names s r : offset s r = list_sum (map (@length string) (firstn r (map names (in_rx s)))).
Proof. unfold offset. rewrite firstn_map, map_map. reflexivity. Qed.
Lemma initialised_in s r x : consistent s -> nth_error (in_rx s) r = Some x -> initialised x.
Proof. intros (F & _) H. rewrite Forall_forall in F. apply F. eapply nth_error_In. exact H. Qed.

(** C30. Every reactor of a network that was initialized and then used numbers its unknowns as
    documented: [componentName] is the k-th documented name for every k below the number of
    unknowns, and is refused for every other k. *)
Theorem C30_components ops1 ops2 s r x : used ops1 ops2 s -> nth_error (in_rx s) r = Some x ->
  x_nv x = length (names x) /\
  forall k, componentName x k = match nth_error (names x) k with Some nm => Ok nm | None => Err end.
Proof.
  intros U H. pose proof (initialised_in s r x (used_consistent _ _ _ U) H) as I.
  split; [apply I|]. intros k. apply componentName_nth. exact I.
Qed.
Print Assumptions C30_components.

(** The positions of the network's state vector are split between the reactors: every position
    belongs to exactly one unknown of exactly one reactor. *)
Theorem C30_partition ops1 ops2 s i : used ops1 ops2 s -> i < in_nv s ->
  exists r x k, (nth_error (in_rx s) r = Some x /\ k < x_nv x /\ i = offset s r + k) /\
    forall r' x' k', nth_error (in_rx s) r' = Some x' -> k' < x_nv x' -> i = offset s r' + k' -> r' = r /\ x' = x /\ k' = k.
Proof.
  intros U Hi. pose proof (used_consistent _ _ _ U) as C. pose proof C as (F & _ & V & _).
  assert (L : length (concat (map names (in_rx s))) = in_nv s).
  { rewrite V, (nv_names _ F), concat_len, map_map. reflexivity. }
  destruct (concat_find (map names (in_rx s)) i) as (r & v & k & H1 & H2 & H3); [lia|].
  rewrite nth_error_map in H1. destruct (nth_error (in_rx s) r) as [x|] eqn:E; [|discriminate]. injection H1 as <-.
  exists r, x, k. pose proof (initialised_in s r x C E) as [_ Nx].
  split; [rewrite offset_names; repeat split; [exact E|lia|exact H3]|].
  intros r' x' k' E' L' Ei. pose proof (initialised_in s r' x' C E') as [_ Nx']. rewrite offset_names in Ei.
  destruct (sum_unique (map names (in_rx s)) r' r (names x') (names x) k' k) as [-> ->].
  - rewrite nth_error_map, E'. reflexivity.
  - rewrite nth_error_map, E. reflexivity.
  - lia.
  - exact H2.
  - lia.
  - split; [reflexivity|]. split; [congruence|reflexivity].
Qed.
Print Assumptions C30_partition.

(** The network's [componentName] is the list of "reactor: component", in that order. *)
Theorem C30_net_names ops1 ops2 s : used ops1 ops2 s ->
  in_nv s = length (net_names s) /\
  forall i, net_componentName s i = match nth_error (net_names s) i with Some nm => Ok nm | None => Err end.
Proof.
  intros U. pose proof (used_consistent _ _ _ U) as C. split; [symmetry; apply net_names_length; exact C|].
  intros i. apply net_name_nth. apply C.
Qed.
Print Assumptions C30_net_names.

(** Names and positions are inverse to one another when the names can be told apart: the index
    of the k-th name is k, in the reactor and (shifted by where the reactor starts) in the network. *)
Theorem C30_index ops1 ops2 s r x k nm : used ops1 ops2 s -> nth_error (in_rx s) r = Some x ->
  Forall made (phases x) -> clear x -> nth_error (names x) k = Some nm ->
  componentIndex x nm = Ok (Some k) /\
  ((Z.of_nat (in_nv s) < 2 ^ 64)%Z -> in_init s = true ->
   globalComponentIndex s nm r = (Ok (Z.of_nat (offset s r + k)), s) /\
   net_componentName s (offset s r + k) = Ok (x_name x ++ ": " ++ nm)%string).
Proof.
  intros U H M Cl N. pose proof (componentIndex_nth x k nm M Cl N) as E. split; [exact E|]. intros B I.
  pose proof (used_consistent _ _ _ U) as C. assert (R : r < length (in_rx s)) by (apply nth_error_Some; congruence).
  pose proof (initialised_in s r x C H) as [_ Nv].
  assert (K : k < length (names x)) by (apply nth_error_Some; congruence).
  split.
  - unfold globalComponentIndex, ensure. rewrite I, (consistent_start s r C R), H, E. cbn [omap obind to_size].
    f_equal. f_equal. rewrite <- Nat2Z.inj_add. apply Z.mod_small. unfold size_mod. split; [lia|].
    pose proof (offset_end (in_rx s) r x H) as O. fold (offset s r) in O.
    destruct C as (F & _ & V & _). rewrite (nv_names _ F) in V. rewrite <- V in O. lia.
  - unfold net_componentName. rewrite net_name_nth by apply C.
    pose proof (concat_pos (map (fun x => map (fun c => (x_name x ++ ": " ++ c)%string) (names x)) (in_rx s)) r
                  (map (fun c => (x_name x ++ ": " ++ c)%string) (names x)) k) as P.
    rewrite nth_error_map, H, map_length, nth_error_map, N, firstn_map, map_map in P. cbn [option_map] in P.
    specialize (P eq_refl K). unfold offset.
    erewrite (map_ext (fun x => length (names x))); [rewrite P; reflexivity|]. intros y. symmetry. apply map_length.
Qed.
Print Assumptions C30_index.

(** An index that is found is one of the reactor's own positions. *)
Theorem C30_found ops1 ops2 s r x nm k : used ops1 ops2 s -> nth_error (in_rx s) r = Some x ->
  Forall made (phases x) -> componentIndex x nm = Ok (Some k) -> k < x_nv x /\ offset s r + k < in_nv s.
Proof.
  intros U H M E. pose proof (used_consistent _ _ _ U) as C. pose proof (initialised_in s r x C H) as [_ Nv].
  pose proof (componentIndex_range x nm k M E) as L. split; [lia|].
  pose proof (offset_end (in_rx s) r x H) as O. fold (offset s r) in O.
  destruct C as (F & _ & V & _). rewrite (nv_names _ F) in V. rewrite <- V in O. lia.
Qed.
Print Assumptions C30_found.

(** When is a string unknown to a phase: it is not a species name nor an alias, not even up to case. *)
Theorem C30_unknown db h nm : Forall wf_op h -> (forall n, ~ In (AddAlias n nm) h) ->
  (forall n, In n (t_names (phase_after db h)) -> to_lower n <> to_lower nm) -> unknown (phase_after db h) nm.
Proof.
  intros W A N. unfold unknown. rewrite (C08_inexact_lookup db h nm W).
  - destruct (t_case _); [reflexivity|]. destruct (same_lower (t_names (phase_after db h)) nm) as [|a l] eqn:E; [reflexivity|].
    exfalso. assert (I : In a (same_lower (t_names (phase_after db h)) nm)) by (rewrite E; left; reflexivity).
    apply same_lower_sound in I. destruct I as (n & I1 & I2). apply nth_error_In in I1. exact (N n I1 I2).
  - intros k Hk. unfold speciesName in Hk. destruct (nth_error _ k) as [n|] eqn:E; [|discriminate]. injection Hk as ->.
    apply nth_error_In in E. exact (N nm E eq_refl).
  - exact A.
Qed.
Print Assumptions C30_unknown.

(** The parts handed to the reactors cover the state vector without gap or overlap. *)
Theorem C30_slices {A} ops1 ops2 s (y : list A) : used ops1 ops2 s -> length y = in_nv s ->
  exists parts, length parts = length (in_rx s) /\ (forall r p, nth_error parts r = Some p -> part_of s y r = Ok p) /\ concat parts = y.
Proof.
  intros U L. pose proof (used_consistent _ _ _ U) as C. pose proof C as (F & S & V & _).
  assert (G : forall l (y : list A), length y = list_sum (map x_nv l) -> exists parts, length parts = length l /\ concat parts = y /\
    forall r x, nth_error l r = Some x -> nth_error parts r = Some (firstn (x_nv x) (skipn (list_sum (map x_nv (firstn r l))) y)) /\
       list_sum (map x_nv (firstn r l)) + x_nv x <= length y).
  { clear. induction l as [|x l IH]; intros y H.
    - exists []. destruct y; [|discriminate]. split; [reflexivity|]. split; [reflexivity|]. intros [|r] x E; discriminate.
    - change (length y = x_nv x + list_sum (map x_nv l)) in H. destruct (IH (skipn (x_nv x) y)) as (ps & P1 & P2 & P3).
      { rewrite skipn_length. lia. }
      exists (firstn (x_nv x) y :: ps). split; [cbn; lia|]. split; [cbn [concat]; rewrite P2; apply firstn_skipn|].
      intros [|r] x0 E.
      + injection E as <-. split; [reflexivity|]. cbn. lia.
      + cbn [nth_error] in *. destruct (P3 r x0 E) as [Q1 Q2]. rewrite Q1. rewrite skipn_length in Q2.
        change (list_sum (map x_nv (firstn (S r) (x :: l)))) with (x_nv x + list_sum (map x_nv (firstn r l))). split; [|lia].
        f_equal. f_equal. clear. revert y. generalize (list_sum (map x_nv (firstn r l))). induction (x_nv x) as [|a IHa]; intros b y; [reflexivity|].
        destruct y; [cbn; destruct b; reflexivity|]. cbn [skipn Nat.add]. apply IHa. }
  destruct (G (in_rx s) y) as (ps & P1 & P2 & P3); [lia|].
  assert (Q : forall r p, nth_error ps r = Some p -> part_of s y r = Ok p).
  { intros r p H. assert (R : r < length (in_rx s)) by (rewrite <- P1; apply nth_error_Some; congruence).
    unfold part_of. destruct (nth_error (in_rx s) r) as [x|] eqn:E; [|apply nth_error_None in E; lia].
    rewrite S, starts_nth by exact R. cbn [Nat.add]. destruct (P3 r x E) as [Q1 Q2]. rewrite (proj2 (Nat.leb_le _ _) Q2). congruence. }
  exists ps. split; [exact P1|split; [exact Q|exact P2]].
Qed.
Print Assumptions C30_slices.

(** [setAdvanceLimit] of a component sets the limit in force for exactly that unknown, whatever
    limits were set before; every other unknown keeps its own. *)
Theorem C30_limits ops1 ops2 s r nm v s' a : used ops1 ops2 s -> Forall no_limit ops1 -> length a = in_nv s ->
  setAdvanceLimit s r nm v = (Ok tt, s') ->
  exists x k, nth_error (in_rx s) r = Some x /\ componentIndex x nm = Ok (Some k) /\
    length (net_limits s' a) = in_nv s /\
    forall i, limit_at (net_limits s' a) i =
              if Nat.eqb i (offset s r + k) then (if Rlt_dec 0 v then Some v else None) else limit_at (net_limits s a) i.
Proof.
  intros U NL La H. pose proof (used_consistent _ _ _ U) as C. pose proof (used_limits _ _ _ U NL) as L.
  destruct (setAdvanceLimit_ok s r nm v s' C H) as (x & k & x' & Ex & Ek & Lk & El & ->).
  exists x, k. split; [exact Ex|]. split; [exact Ek|].
  destruct (setLimit_keeps x k v x' El) as (K1 & K2 & K3 & K4).
  assert (Nm : names x' = names x) by (unfold names; rewrite K2, K3; reflexivity).
  assert (C' : consistent (set_rx s r x')) by (eapply set_rx_consistent; eassumption).
  assert (L' : Forall lim_ok (in_rx (set_rx s r x'))) by (cbn [in_rx set_rx]; apply lput_Forall; [exact L|eapply setLimit_lim; exact El]).
  rewrite (net_limits_concat s a C L La), (net_limits_concat (set_rx s r x') a C' L' La).
  assert (Len : forall l, Forall lim_ok l -> map (@length R) (map getLimits l) = map x_nv l).
  { clear. intros l F. induction F as [|y l Hy F IH]; [reflexivity|]. cbn [map]. rewrite IH, getLimits_length by exact Hy. reflexivity. }
  split. { rewrite concat_len, (Len _ L'). symmetry. apply C'. }
  assert (Off : offset s r = list_sum (map (@length R) (firstn r (map getLimits (in_rx s))))).
  { rewrite firstn_map, Len by (rewrite <- (firstn_skipn r (in_rx s)) in L; apply Forall_app in L; apply L).
    unfold offset. f_equal. symmetry. apply nv_names. destruct C as (F & _). rewrite <- (firstn_skipn r (in_rx s)) in F. apply Forall_app in F. apply F. }
  rewrite Off. cbn [in_rx set_rx].
  assert (Lx : lim_ok x) by (rewrite Forall_forall in L; apply L; eapply nth_error_In; exact Ex).
  assert (Ll : length (getLimits x') = length (getLimits x)).
  { rewrite !getLimits_length; [exact K1|exact Lx|eapply setLimit_lim; exact El]. }
  pose proof (fun j => setLimit_effect x k v x' j Lx El) as Eff. rewrite <- (getLimits_length x Lx) in Lk.
  clear -Ex Eff Ll Lk. revert r Ex. generalize (in_rx s) as l. induction l as [|y l IH]; intros [|r] Ex i; cbn [nth_error] in Ex; try discriminate.
  - injection Ex as ->. cbn [lput map concat firstn list_sum fold_right Nat.add]. specialize (Eff i). revert Eff. unfold limit_at.
    destruct (Nat.lt_ge_cases i (length (getLimits x))) as [Hi|Hi].
    + rewrite !nth_error_app1 by lia. rewrite (Nat.eqb_sym k i). tauto.
    + intros _. rewrite !nth_error_app2 by lia. rewrite Ll. destruct (Nat.eqb_spec i k); [lia|reflexivity].
  - cbn [lput map concat firstn]. change (list_sum (length (getLimits y) :: map (@length R) (firstn r (map getLimits l))))
      with (length (getLimits y) + list_sum (map (@length R) (firstn r (map getLimits l)))).
    destruct (Nat.lt_ge_cases i (length (getLimits y))) as [Hi|Hi].
    + unfold limit_at. rewrite !nth_error_app1 by lia. destruct (Nat.eqb_spec i (length (getLimits y) + list_sum (map (@length R) (firstn r (map getLimits l))) + k)); [lia|reflexivity].
    + specialize (IH r Ex (i - length (getLimits y))). unfold limit_at in *. rewrite !nth_error_app2 by lia. rewrite IH.
      destruct (Nat.eqb_spec (i - length (getLimits y)) (list_sum (map (@length R) (firstn r (map getLimits l))) + k));
      destruct (Nat.eqb_spec i (length (getLimits y) + list_sum (map (@length R) (firstn r (map getLimits l))) + k)); try lia; reflexivity.
Qed.
Print Assumptions C30_limits.

(** Setting all limits of a reactor at once puts exactly the positive ones among its own unknowns in
    force, whatever was set before; the array may be longer than the reactor. *)
Theorem C30_all_limits x l : x_nv x <= length l ->
  exists x', setLimits x l = Ok x' /\ (x_lim x' = [] \/ length (x_lim x') = x_nv x) /\
    forall k, limit_at (getLimits x') k = if Nat.ltb k (x_nv x) then limit_at l k else None.
Proof.
  intros L. unfold setLimits. rewrite (proj2 (Nat.leb_le _ _) L). eexists. split; [reflexivity|].
  cbn [x_set_lim x_lim]. unfold shrink. split.
  { destruct (any_limit _); [right; rewrite firstn_length; lia|left; reflexivity]. }
  intros k. assert (F : limit_at (firstn (x_nv x) l) k = if Nat.ltb k (x_nv x) then limit_at l k else None).
  { unfold limit_at. destruct (Nat.ltb_spec k (x_nv x)) as [H|H].
    - rewrite <- (firstn_skipn (x_nv x) l) at 2. rewrite nth_error_app1 by (rewrite firstn_length; lia). reflexivity.
    - rewrite (proj2 (nth_error_None _ _)) by (rewrite firstn_length; lia). reflexivity. }
  rewrite <- F. unfold getLimits, hasLimits. cbn [x_lim x_nv x_set_lim].
  destruct (any_limit (firstn (x_nv x) l)) eqn:A.
  - destruct (firstn (x_nv x) l) eqn:E; [discriminate A|reflexivity].
  - assert (N : forall a, limit_at (repeat (-1)%R a) k = None).
    { intros a. unfold limit_at. destruct (nth_error (repeat (-1)%R a) k) as [v|] eqn:E; [|reflexivity].
      apply nth_error_In, repeat_spec in E. subst v. destruct (Rlt_dec 0 (-1)); [lra|reflexivity]. }
    rewrite N. unfold limit_at. destruct (nth_error (firstn (x_nv x) l) k) as [v|] eqn:E; [|reflexivity].
    destruct (Rlt_dec 0 v) as [P|P]; [|reflexivity]. exfalso. apply nth_error_In in E.
    assert (any_limit (firstn (x_nv x) l) = true); [|congruence].
    apply existsb_exists. exists v. split; [exact E|apply rltb_true; exact P].
Qed.
Print Assumptions C30_all_limits.

(** After [setTolerances] the next query numbers the network again, whatever was added before: the
    numbering is the documented one also for reactors and surfaces added after initialization. *)
Theorem C30_renumbered ops nm r s : s = irun (ops ++ [ISetTol; IQuery nm r]) -> in_rx (irun ops) <> [] ->
  in_nv s = length (net_names s) /\
  (forall i, net_componentName s i = match nth_error (net_names s) i with Some n => Ok n | None => Err end) /\
  forall q x, nth_error (in_rx s) q = Some x -> nth_error (in_start s) q = Some (offset s q).
Proof.
  intros -> N. unfold irun. rewrite fold_left_app. cbn [fold_left]. fold (irun ops).
  set (t := istep (irun ops) ISetTol).
  assert (K : kinds_ok t) by (apply istep_kinds, irun_kinds).
  assert (C : consistent (istep t (IQuery nm r))).
  { change (istep t (IQuery nm r)) with (snd (globalComponentIndex t nm r)).
    pose proof (query_state t nm r) as Q. change (snd (globalComponentIndex t nm r) = if in_init t then t else snd (initialize t)) in Q.
    rewrite Q. cbn [t in_init istep]. apply initialize_consistent; [exact K|exact N]. }
  split; [symmetry; apply net_names_length; exact C|]. split; [intros i; apply net_name_nth; apply C|].
  intros q x E. apply consistent_start; [exact C|]. apply nth_error_Some. congruence.
Qed.
Print Assumptions C30_renumbered.

(* ---------------------------------------------------------------- *)
(** * A gas of two species, a surface of one *)
Definition nodb (s : string) : option R := None.
Definition gas_ops : list top := [AddSpecies (mk_spec "H2" [] 0%R); AddSpecies (mk_spec "O2" [] 0%R)].
Definition surf_ops : list top := [AddSpecies (mk_spec "PT(S)" [] 0%R)].
Definition gasT : tab := phase_after nodb gas_ops.
Definition surfT : tab := phase_after nodb surf_ops.
Lemma gas_made : made gasT.
Proof. exists nodb, gas_ops. split; [repeat constructor|reflexivity]. Qed.
Lemma surf_made : made surfT.
Proof. exists nodb, surf_ops. split; [repeat constructor|reflexivity]. Qed.
Lemma gas_names : t_names gasT = ["H2"; "O2"].
Proof.
  unfold gasT, phase_after, trun, gas_ops. cbn [fold_left tstep]. unfold addSpecies at 2. cbn. unfold charge_step.
  destruct (Req_EM_T 0 0); [|exfalso; lra]. cbn. unfold addSpecies. cbn. unfold charge_step. destruct (Req_EM_T 0 0); [|exfalso; lra]. reflexivity.
Qed.
Lemma surf_names : t_names surfT = ["PT(S)"].
Proof.
  unfold surfT, phase_after, trun, surf_ops. cbn [fold_left tstep]. unfold addSpecies. cbn. unfold charge_step.
  destruct (Req_EM_T 0 0); [|exfalso; lra]. reflexivity.
Qed.
Lemma gas_unknown nm : (to_lower nm <> "h2") -> (to_lower nm <> "o2") -> unknown gasT nm.
Proof.
  intros A B. apply C30_unknown; [repeat constructor|intros n [H|[H|H]]; try discriminate; destruct H|].
  fold gasT. rewrite gas_names. intros n [<-|[<-|[]]] E; [apply A|apply B]; rewrite <- E; reflexivity.
Qed.
Lemma surf_unknown nm : (to_lower nm <> "pt(s)") -> unknown surfT nm.
Proof.
  intros A. apply C30_unknown; [repeat constructor|intros n [H|H]; try discriminate; destruct H|].
  fold surfT. rewrite surf_names. intros n [<-|[]] E; apply A; rewrite <- E; reflexivity.
Qed.
Definition demo1 : list iop := [IAdd KIdealGas "r1" gasT [surfT]; IAdd KConstPMole "r2" gasT []].
Definition demo2 : list iop := [IQuery "H2" 0; ILimit 0 "O2" (1 / 2)%R].
Definition demo : inet := irun (demo1 ++ IInit :: demo2).
Example demo_used : used demo1 demo2 demo.
Proof. split; [reflexivity|]. split; [repeat constructor|]. cbn. discriminate. Qed.
Example demo_no_limit : Forall no_limit demo1.
Proof. repeat constructor. Qed.
Definition rx1 (nv : nat) : rx := Rx KIdealGas "r1" gasT [surfT] nv [].
Example demo_clear : clear (rx1 6) /\ Forall made (phases (rx1 6)).
Proof.
  split; [split|].
  - intros t nm [<-|[<-|[]]] [<-|[<-|[<-|[]]]]; (apply gas_unknown || apply surf_unknown); vm_compute; discriminate.
  - cbn [phases rx1 x_gas x_surf apart]. split; [|split; [intros t' nm []|exact I]]. intros t' nm [<-|[]] H. rewrite surf_names in H.
    destruct H as [<-|[]]. apply gas_unknown; vm_compute; discriminate.
  - repeat constructor; [apply gas_made|apply surf_made].
Qed.
Lemma gas_kk : t_kk gasT = 2. Proof. unfold t_kk. rewrite gas_names. reflexivity. Qed.
Lemma surf_kk : t_kk surfT = 1. Proof. unfold t_kk. rewrite surf_names. reflexivity. Qed.
Definition demo_init : inet := irun (demo1 ++ [IInit]).
Example demo_rx : in_rx demo_init = [rx1 6; Rx KConstPMole "r2" gasT [] 3 []] /\ in_nv demo_init = 9 /\ in_start demo_init = [0; 6; 9].
Proof.
  unfold demo_init, irun, demo1. cbn [app fold_left istep inet0 in_rx in_start in_nv in_init initialize snd map].
  unfold x_initialize. cbn [x_gas x_surf x_kind map list_sum fold_right x_set_nv x_name x_lim x_nv starts].
  rewrite gas_kk, surf_kk. repeat split.
Qed.
Example demo_init_used : used demo1 [] demo_init.
Proof. split; [reflexivity|]. split; [constructor|]. cbn. discriminate. Qed.
Example demo_names : net_names demo_init =
  ["r1: mass"; "r1: volume"; "r1: temperature"; "r1: H2"; "r1: O2"; "r1: PT(S)"; "r2: enthalpy"; "r2: H2"; "r2: O2"].
Proof.
  unfold net_names. rewrite (proj1 demo_rx).
  unfold rx1, names, phases. cbn [map concat x_kind x_gas x_surf x_name variables app]. rewrite gas_names, surf_names. reflexivity.
Qed.
(** The limit of O2 in the first reactor is in force at position 4 of the network. *)
Example demo_limits : exists x s', nth_error (in_rx demo_init) 0 = Some x /\ componentIndex x "O2" = Ok (Some 4) /\
  setAdvanceLimit demo_init 0 "O2" (1 / 2)%R = (Ok tt, s').
Proof.
  assert (E : componentIndex (rx1 6) "O2" = Ok (Some 4)).
  { apply componentIndex_nth; [apply demo_clear|apply demo_clear|]. unfold names, phases, rx1. cbn [x_kind x_gas x_surf variables map concat].
    rewrite gas_names, surf_names. reflexivity. }
  exists (rx1 6). eexists. split; [rewrite (proj1 demo_rx); reflexivity|]. split; [exact E|].
  unfold setAdvanceLimit. rewrite (proj1 demo_rx). cbn [nth_error]. rewrite E. cbn [x_nv rx1 Nat.eqb Nat.ltb Nat.leb].
  unfold setLimit_at. cbn [x_nv rx1 Nat.ltb Nat.leb]. reflexivity.
Qed.

Example demo_all_limits : x_nv (rx1 6) <= length [1; 2; 3; 4; 5; 6; 7]%R.
Proof. cbn. lia. Qed.
Example demo_renumbered : in_rx (irun (demo1 ++ [IInit; IAdd KConstPMole "r3" gasT []])) <> [].
Proof. cbn. discriminate. Qed.

(* ---------------------------------------------------------------- *)
(** * What does not hold *)

(** A component the reactor does not know: for the first reactor the index is "not found", but for
    every later reactor it is the last position of the previous reactor. *)
Theorem C30_unknown_component_refuted : exists ops1 s r nm,
  used ops1 [] s /\ fst (globalComponentIndex s nm 0) = Ok npos /\
  (forall x, nth_error (in_rx s) r = Some x -> componentIndex x nm = Ok None) /\
  exists i, fst (globalComponentIndex s nm r) = Ok (Z.of_nat i) /\ i < in_nv s /\
            net_componentName s i = Ok "r1: PT(S)".
Proof.
  exists demo1, demo_init, 1, "nosuch". destruct demo_rx as (R & V & S).
  assert (U : forall k n nv, componentIndex (Rx k n gasT [] nv []) "nosuch" = Ok (fixed_index k "nosuch")).
  { intros. unfold componentIndex, x_speciesIndex. cbn [x_gas x_surf x_kind]. rewrite gas_unknown by (vm_compute; discriminate). reflexivity. }
  assert (U1 : componentIndex (rx1 6) "nosuch" = Ok None).
  { unfold componentIndex, x_speciesIndex, rx1. cbn [x_gas x_surf x_kind]. rewrite gas_unknown by (vm_compute; discriminate). cbn [obind surf_index].
    rewrite surf_unknown by (vm_compute; discriminate). reflexivity. }
  assert (I : in_init demo_init = true) by reflexivity.
  split; [apply demo_init_used|]. split; [|split].
  - unfold globalComponentIndex, ensure. rewrite I, R, S. cbn [nth_error fst]. rewrite U1. reflexivity.
  - intros x. rewrite R. cbn [nth_error]. intros H. injection H as <-. apply U.
  - exists 5. split; [|split].
    + unfold globalComponentIndex, ensure. rewrite I, R, S. cbn [nth_error fst]. rewrite U. reflexivity.
    + rewrite V. lia.
    + destruct (C30_net_names _ _ _ demo_init_used) as [_ N]. rewrite N, demo_names. reflexivity.
Qed.
Print Assumptions C30_unknown_component_refuted.

(** Two surfaces of one reactor with the same phase: the species of the second have the name but
    not the index. *)
Theorem C30_twice_refuted : exists ops1 s x, used ops1 [] s /\ nth_error (in_rx s) 0 = Some x /\
  componentName x 5 = Ok "PT(S)" /\ componentName x 6 = Ok "PT(S)" /\ componentIndex x "PT(S)" = Ok (Some 5).
Proof.
  exists [IAdd KIdealGas "r1" gasT [surfT; surfT]]. eexists. exists (Rx KIdealGas "r1" gasT [surfT; surfT] 7 []).
  assert (U : used [IAdd KIdealGas "r1" gasT [surfT; surfT]] [] (irun ([IAdd KIdealGas "r1" gasT [surfT; surfT]] ++ [IInit]))).
  { split; [reflexivity|]. split; [constructor|]. cbn. discriminate. }
  split; [exact U|].
  assert (N : nth_error (in_rx (irun ([IAdd KIdealGas "r1" gasT [surfT; surfT]] ++ [IInit]))) 0 = Some (Rx KIdealGas "r1" gasT [surfT; surfT] 7 [])).
  { unfold irun. cbn [app fold_left istep inet0 in_rx in_start in_nv in_init initialize snd map].
    unfold x_initialize. cbn [x_gas x_surf x_kind map list_sum fold_right x_set_nv x_name x_lim x_nv starts].
    rewrite gas_kk, surf_kk. reflexivity. }
  split; [exact N|]. destruct (C30_components _ _ _ _ _ U N) as [_ K].
  rewrite !K. unfold names, phases. cbn [x_kind x_gas x_surf variables map concat].
  rewrite gas_names, surf_names. cbn [app nth_error]. repeat split.
  unfold componentIndex, x_speciesIndex. cbn [x_gas x_surf x_kind]. rewrite gas_unknown by (vm_compute; discriminate). cbn [obind surf_index].
  rewrite (made_lookup surfT surf_made 0 "PT(S)") by (rewrite surf_names; reflexivity). cbn [obind]. rewrite gas_kk. reflexivity.
Qed.
Print Assumptions C30_twice_refuted.

(** A reactor added after the network was initialized is not numbered, and nothing refuses to
    answer: its first variable gets an index outside the state vector. *)
Theorem C30_late_reactor_refuted : exists s i, s = irun (demo1 ++ [IInit; IAdd KConstPMole "r3" gasT []]) /\
  fst (globalComponentIndex s "enthalpy" 2) = Ok (Z.of_nat i) /\ in_nv s <= i.
Proof.
  exists (irun (demo1 ++ [IInit; IAdd KConstPMole "r3" gasT []])), 9. split; [reflexivity|].
  replace (irun (demo1 ++ [IInit; IAdd KConstPMole "r3" gasT []])) with (istep demo_init (IAdd KConstPMole "r3" gasT [])) by reflexivity.
  destruct demo_rx as (R & V & S). cbn [istep]. unfold globalComponentIndex, ensure. cbn [in_init in_nv in_rx in_start].
  rewrite R, V, S. split; [|lia]. change (in_init demo_init) with true. cbn [in_start in_rx app nth_error fst].
  unfold componentIndex, x_speciesIndex. cbn [x_gas x_surf x_kind]. rewrite gas_unknown by (vm_compute; discriminate). reflexivity.
Qed.
Print Assumptions C30_late_reactor_refuted.

(** A surface added after the network was initialized: the check of [setAdvanceLimit] lets the
    index one past the end through, and the limit is written outside the array. *)
Theorem C30_late_surface_refuted : exists s, s = irun (demo1 ++ [IInit; ISurf 1 surfT]) /\
  fst (setAdvanceLimit s 1 "PT(S)" 1%R) = UB.
Proof.
  eexists. split; [reflexivity|].
  replace (irun (demo1 ++ [IInit; ISurf 1 surfT])) with (istep demo_init (ISurf 1 surfT)) by reflexivity.
  destruct demo_rx as (R & V & S). cbn [istep]. rewrite R. cbn [nth_error]. unfold setAdvanceLimit, set_rx. cbn [in_rx]. rewrite R. cbn [lput nth_error].
  unfold componentIndex, x_speciesIndex, x_add_surf. cbn [x_gas x_surf x_kind app x_nv x_name x_lim]. rewrite gas_unknown by (vm_compute; discriminate). cbn [obind surf_index].
  rewrite (made_lookup surfT surf_made 0 "PT(S)") by (rewrite surf_names; reflexivity). cbn [obind first_species]. rewrite gas_kk. reflexivity.
Qed.
Print Assumptions C30_late_surface_refuted.
