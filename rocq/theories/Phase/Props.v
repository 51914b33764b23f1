(** The species and element tables of a phase: names and indices (C08), atom counts and molecular
    weights (C09), elemental fractions (C47) and species locks (C48). *)
From Coq Require Import Reals Lra Lia String List Bool Arith.
From Verif Require Import Base.Outcome Base.RSum Base.Vec Phase.Model Phase.Spec Phase.Proofs.
Import ListNotations.
Open Scope R_scope.

(** The phase after a sequence of calls on a new one. *)
Definition phase_after (db : string -> option R) (ops : list top) : tab := trun db tab_init ops.

Lemma phase_after_inv db ops : Forall wf_op ops -> inv (phase_after db ops).
Proof. intros W. exact (proj1 (trun_inv db ops tab_init inv_init W)). Qed.

(** ** C08 *)
Theorem C08_species_name_index db ops : Forall wf_op ops -> let t := phase_after db ops in
  (forall k, (k < t_kk t)%nat -> exists s, speciesName t k = Ok s /\ speciesIndex t s = Ok (Some k)) /\
  (forall k, (t_kk t <= k)%nat -> speciesName t k = Err) /\
  (forall j k s, speciesName t j = Ok s -> speciesName t k = Ok s -> j = k) /\
  (forall s k, speciesIndex t s = Ok (Some k) -> (k < t_kk t)%nat).
Proof.
  intros W t. pose proof (phase_after_inv db ops W) as I. fold t in I.
  split; [|split; [|split]].
  - intros k Hk. unfold speciesName. destruct (nth_error (t_names t) k) as [s|] eqn:E.
    + exists s. split; auto. unfold speciesIndex. now rewrite (i_idx _ I _ _ E).
    + apply nth_error_None in E. unfold t_kk in Hk. lia.
  - intros k Hk. unfold speciesName. now rewrite (proj2 (nth_error_None (t_names t) k)).
  - intros j k s. unfold speciesName. destruct (nth_error (t_names t) j) eqn:Ej; [|discriminate].
    destruct (nth_error (t_names t) k) eqn:Ek; [|discriminate]. intros H1 H2. injection H1 as ->. injection H2 as ->.
    apply (i_idx _ I) in Ej, Ek. congruence.
  - intros s k. now apply speciesIndex_lt.
Qed.
Print Assumptions C08_species_name_index.

Theorem C08_element_name_index db ops : Forall wf_op ops -> let t := phase_after db ops in
  (forall m s, elementName t m = Ok s <-> elementIndex t s = Some m) /\
  (forall m, (m < t_mm t)%nat <-> exists s, elementName t m = Ok s).
Proof.
  intros W t. pose proof (phase_after_inv db ops W) as I. fold t in I. unfold elementName, elementIndex. split.
  - intros m s. split.
    + destruct (nth_error (t_elems t) m) as [[e w]|] eqn:E; [|discriminate]. intros H. injection H as ->.
      eapply find_elem_nth; eauto. apply I.
    + intros H. apply find_elem_some in H. destruct H as (w&H). now rewrite H.
  - intros m. unfold t_mm. rewrite <- nth_error_Some. split.
    + destruct (nth_error (t_elems t) m) as [[e w]|]; [eauto|congruence].
    + intros (s&H). destruct (nth_error (t_elems t) m); [discriminate|discriminate].
Qed.
Print Assumptions C08_element_name_index.

(** Adding to a phase never renumbers what is already in it. *)
Theorem C08_indices_stable db ops1 ops2 : Forall wf_op ops1 -> Forall wf_op ops2 ->
  let t1 := phase_after db ops1 in let t2 := phase_after db (ops1 ++ ops2) in
  (forall k s, speciesName t1 k = Ok s -> speciesName t2 k = Ok s /\ speciesIndex t2 s = Ok (Some k)) /\
  (forall m s, elementName t1 m = Ok s -> elementName t2 m = Ok s /\ elementIndex t2 s = Some m).
Proof.
  intros W1 W2 t1 t2.
  assert (t2 = trun db t1 ops2) as E2 by (unfold t2, t1, phase_after, trun; apply fold_left_app).
  pose proof (phase_after_inv db ops1 W1) as I1. fold t1 in I1.
  destruct (trun_inv db ops2 t1 I1 W2) as (I2&G). rewrite <- E2 in I2, G. destruct G as [(le&Ge) (ln&Gn) _ _ _].
  unfold speciesName, elementName, elementIndex. split.
  - intros k s H. destruct (nth_error (t_names t1) k) eqn:E; [|discriminate]. injection H as ->.
    assert (nth_error (t_names t2) k = Some s) as E'.
    { rewrite Gn, nth_error_app1; auto. apply nth_error_Some. congruence. }
    rewrite E'. split; auto. unfold speciesIndex. now rewrite (i_idx _ I2 _ _ E').
  - intros m s H. destruct (nth_error (t_elems t1) m) as [[e w]|] eqn:E; [|discriminate]. injection H as ->.
    assert (nth_error (t_elems t2) m = Some (s, w)) as E'.
    { rewrite Ge, nth_error_app1; auto. apply nth_error_Some. congruence. }
    rewrite E'. split; auto. eapply find_elem_nth; eauto. apply I2.
Qed.
Print Assumptions C08_indices_stable.

(** A string that is neither the name of a species nor ever given as an alias is found only if names
    are not case sensitive and it agrees with exactly one name up to case; two such names are an error. *)
Theorem C08_inexact_lookup db ops s : Forall wf_op ops -> let t := phase_after db ops in
  (forall k, speciesName t k <> Ok s) -> (forall n, ~ In (AddAlias n s) ops) ->
  speciesIndex t s =
    if t_case t then Ok None
    else match same_lower (t_names t) s with
         | [] => Ok None
         | [k] => Ok (Some k)
         | _ => Err
         end.
Proof.
  intros W t Hn Ha. pose proof (phase_after_inv db ops W) as I. fold t in I.
  assert (t_index t s = None) as E.
  { destruct (t_index t s) eqn:E; auto. exfalso.
    destruct (trun_known db ops tab_init s) as [A|[(m&A)|(A&_)]].
    - fold (phase_after db ops). fold t. congruence.
    - fold (phase_after db ops) in A. fold t in A. apply In_nth_error in A. destruct A as (k&Hk).
      apply (Hn k). unfold speciesName. now rewrite Hk.
    - eapply Ha; eauto.
    - simpl in A. congruence. }
  unfold speciesIndex. rewrite E. destruct (t_case t); simpl; auto.
  unfold findSpeciesLower. rewrite (i_low _ I). destruct (same_lower (t_names t) s) as [|a [|b l]]; reflexivity.
Qed.
Print Assumptions C08_inexact_lookup.

(** [same_lower] is what it says. *)
Lemma same_lower_sound names s : forall k,
  In k (same_lower names s) <-> exists n, nth_error names k = Some n /\ to_lower n = to_lower s.
Proof.
  intros k. unfold same_lower.
  enough (forall i, In k (same_lower_from i names s) <-> (i <= k)%nat /\ exists n, nth_error names (k - i) = Some n /\ to_lower n = to_lower s) as G.
  { rewrite G, Nat.sub_0_r. split; [tauto|]. intros; split; [lia|auto]. }
  induction names as [|a l IH]; intros i; simpl.
  - split; [tauto|]. intros (_&n&H&_). destruct (k - i)%nat; discriminate.
  - assert (In k (same_lower_from (S i) l s) <-> (S i <= k)%nat /\ exists n, nth_error l (k - S i) = Some n /\ to_lower n = to_lower s) as IH' by apply IH.
    assert (forall n, (S i <= k)%nat -> nth_error (a :: l) (k - i) = Some n <-> nth_error l (k - S i) = Some n) as Sh.
    { intros n Hk. replace (k - i)%nat with (S (k - S i)) by lia. reflexivity. }
    destruct (String.eqb_spec (to_lower a) (to_lower s)) as [E|E]; simpl; rewrite IH'; split.
    + intros [<-|(Hk&n&H1&H2)].
      * split; auto. exists a. rewrite Nat.sub_diag. auto.
      * split; [lia|]. exists n. split; auto. now apply Sh.
    + intros (Hk&n&H1&H2). destruct (Nat.eq_dec i k); [auto|right]. split; [lia|]. exists n. split; auto. apply Sh in H1; auto. lia.
    + intros (Hk&n&H1&H2). split; [lia|]. exists n. split; auto. now apply Sh.
    + intros (Hk&n&H1&H2). destruct (Nat.eq_dec i k).
      * subst. rewrite Nat.sub_diag in H1. simpl in H1. congruence.
      * split; [lia|]. exists n. split; auto. apply Sh in H1; auto. lia.
Qed.
Print Assumptions same_lower_sound.

(** An alias names the species it was given for, as long as no species of that name is added. *)
Theorem C08_alias db ops1 ops2 name alias : Forall wf_op ops1 -> Forall wf_op ops2 ->
  let t1 := phase_after db ops1 in
  fst (addSpeciesAlias t1 name alias) = Ok tt ->
  (forall sp, In (AddSpecies sp) ops2 -> sp_name sp <> alias) ->
  exists k, speciesIndex t1 name = Ok (Some k) /\
    speciesIndex (phase_after db (ops1 ++ AddAlias name alias :: ops2)) alias = Ok (Some k).
Proof.
  intros W1 W2 t1 H Hr. unfold addSpeciesAlias in H.
  destruct (speciesIndex t1 alias) as [[j|]| | |] eqn:Ea; try discriminate.
  destruct (speciesIndex t1 name) as [[k|]| | |] eqn:En; try discriminate.
  exists k. split; auto.
  assert (phase_after db (ops1 ++ AddAlias name alias :: ops2) = trun db (tstep db t1 (AddAlias name alias)) ops2) as ->.
  { unfold phase_after, trun. rewrite fold_left_app. reflexivity. }
  unfold speciesIndex. erewrite trun_index_stable; [reflexivity| |].
  - intros o Ho. destruct o; simpl; auto.
  - simpl. unfold addSpeciesAlias. rewrite Ea, En. cbn. unfold mput. now rewrite String.eqb_refl.
Qed.
Print Assumptions C08_alias.

(** FALSE in the code: an alias keeps its meaning whatever is added later.  addSpecies looks only for
    another species of the same name, so a species whose name is an existing alias is accepted and
    takes the alias over. *)
Theorem C08_alias_kept_refuted : exists db ops name alias sp k k',
  Forall wf_op ops /\
  let t := phase_after db ops in
  fst (addSpeciesAlias t name alias) = Ok tt /\
  let t1 := snd (addSpeciesAlias t name alias) in
  speciesIndex t1 alias = Ok (Some k) /\
  fst (addSpecies db t1 sp) = Ok true /\
  speciesIndex (snd (addSpecies db t1 sp)) alias = Ok (Some k') /\ k' <> k.
Proof.
  exists (fun _ => Some 1), [AddSpecies (mk_spec "O2" [("O"%string, 2)] 0)], "O2"%string, "oxygen"%string,
    (mk_spec "oxygen" [("O"%string, 1)] 0), 0%nat, 1%nat.
  split; [repeat constructor; simpl; tauto|].
  assert (forall b : bool, (if Req_EM_T 0 0 then true else b) = true) as Z by (intros; destruct (Req_EM_T 0 0); [auto|lra]).
  cbv zeta. unfold phase_after, trun, tstep, fold_left, addSpecies. cbn.
  unfold addElement. destruct (Req_EM_T (-12345) 0); [exfalso; lra|]. destruct (Req_EM_T (-12345) (-12345)); [|exfalso; lra].
  cbn. unfold charge_step. cbn. destruct (Req_EM_T 0 0); [|exfalso; lra]. cbn.
  repeat split; auto.
Qed.
Print Assumptions C08_alias_kept_refuted.

(** ** C09 *)
Theorem C09_atoms db ops : Forall wf_op ops -> let t := phase_after db ops in
  forall k m, (k < t_kk t)%nat -> (m < t_mm t)%nat ->
    exists sp e n ch, speciesAt t k = Ok sp /\ elementName t m = Ok e /\ nAtoms t k m = Ok n /\ charge t k = Ok ch /\
      atoms_ok (sp_comp sp) ch e n.
Proof.
  intros W t k m Hk Hm. pose proof (phase_after_inv db ops W) as I. fold t in I.
  destruct (nth_error (t_names t) k) as [nm|] eqn:Ek; [|apply nth_error_None in Ek; unfold t_kk in Hk; lia].
  destruct (nth_error (t_elems t) m) as [[e w]|] eqn:Em; [|apply nth_error_None in Em; unfold t_mm in Hm; lia].
  destruct (i_sp _ I _ _ Ek) as (sp&Esp&_).
  exists sp, e, (t_comp t (t_mm t * k + m)%nat), (nth k (t_charge t) 0).
  unfold speciesAt, elementName, nAtoms, charge. rewrite Ek, Esp, Em.
  rewrite (proj2 (Nat.ltb_lt m (t_mm t)) Hm), (proj2 (Nat.ltb_lt k (t_kk t)) Hk). simpl negb. cbv iota.
  rewrite (nth_error_nth' _ 0) by (rewrite (i_lch _ I); auto).
  repeat (split; [reflexivity|]). eapply i_atoms; eauto.
Qed.
Print Assumptions C09_atoms.

Theorem C09_molecular_weight db ops : Forall wf_op ops -> let t := phase_after db ops in
  forall k, (k < t_kk t)%nat -> exists n a : nat -> R,
    (forall m, (m < t_mm t)%nat -> nAtoms t k m = Ok (n m) /\ atomicWeight t m = Ok (a m)) /\
    molecularWeight t k = Ok (Rmax (sum_n (fun m => n m * a m) (t_mm t)) (1 / 10 ^ 20)).
Proof.
  intros W t k Hk. pose proof (phase_after_inv db ops W) as I. fold t in I.
  exists (fun m => t_comp t (t_mm t * k + m)%nat), (aw (t_elems t)). split.
  - intros m Hm. unfold nAtoms, atomicWeight, aw.
    rewrite (proj2 (Nat.ltb_lt m (t_mm t)) Hm), (proj2 (Nat.ltb_lt k (t_kk t)) Hk). split; auto.
    rewrite (nth_error_nth' _ (EmptyString, 0) Hm). now destruct (nth m (t_elems t) (EmptyString, 0)).
  - unfold molecularWeight. rewrite (proj2 (Nat.ltb_lt k (t_kk t)) Hk). simpl negb. cbv iota.
    rewrite (nth_error_nth' _ 0) by (rewrite (i_lmw _ I); auto). rewrite (i_mw _ I) by auto. f_equal. f_equal.
    unfold Tiny. rewrite pow_IZR. reflexivity.
Qed.
Print Assumptions C09_molecular_weight.

(** What was reported stays reported. *)
Theorem C09_stable db ops1 ops2 : Forall wf_op ops1 -> Forall wf_op ops2 ->
  let t1 := phase_after db ops1 in let t2 := phase_after db (ops1 ++ ops2) in
  (forall k m n, nAtoms t1 k m = Ok n -> nAtoms t2 k m = Ok n) /\
  (forall k w, molecularWeight t1 k = Ok w -> molecularWeight t2 k = Ok w) /\
  (forall k c, charge t1 k = Ok c -> charge t2 k = Ok c) /\
  (forall m w, atomicWeight t1 m = Ok w -> atomicWeight t2 m = Ok w).
Proof.
  intros W1 W2 t1 t2.
  assert (t2 = trun db t1 ops2) as E2 by (unfold t2, t1, phase_after, trun; apply fold_left_app).
  pose proof (phase_after_inv db ops1 W1) as I1. fold t1 in I1.
  destruct (trun_inv db ops2 t1 I1 W2) as (I2&G). rewrite <- E2 in I2, G.
  destruct G as [(le&Ge) (ln&Gn) (lw&Gw) (lc&Gc) GC].
  assert (t_mm t1 <= t_mm t2)%nat as Lm by (unfold t_mm; rewrite Ge, app_length; lia).
  assert (t_kk t1 <= t_kk t2)%nat as Lk by (unfold t_kk; rewrite Gn, app_length; lia).
  split; [|split; [|split]].
  - intros k m n. unfold nAtoms. destruct (Nat.ltb_spec m (t_mm t1)); simpl; [|discriminate].
    destruct (Nat.ltb_spec k (t_kk t1)); simpl; [|discriminate]. intros Hn. injection Hn as <-.
    rewrite (proj2 (Nat.ltb_lt m (t_mm t2))) by lia. rewrite (proj2 (Nat.ltb_lt k (t_kk t2))) by lia. simpl.
    f_equal. apply GC; auto.
  - intros k w. unfold molecularWeight. destruct (Nat.ltb_spec k (t_kk t1)); simpl; [|discriminate].
    rewrite (proj2 (Nat.ltb_lt k (t_kk t2))) by lia. simpl. rewrite Gw, nth_error_app1; auto. rewrite (i_lmw _ I1). auto.
  - intros k c. unfold charge. destruct (nth_error (t_charge t1) k) eqn:E; [|discriminate].
    rewrite Gc, nth_error_app1 by (apply nth_error_Some; congruence). now rewrite E.
  - intros m w. unfold atomicWeight. destruct (nth_error (t_elems t1) m) eqn:E; [|discriminate].
    rewrite Ge, nth_error_app1 by (apply nth_error_Some; congruence). now rewrite E.
Qed.
Print Assumptions C09_stable.

(** A species that was accepted is the one reported, with its charge, for ever after (unless its data are
    replaced by modifySpecies). *)
Lemma trun_no_modify db ops nm sp : no_modify ops -> forall t, inv t -> Forall wf_op ops ->
  t_species t nm = Some sp -> t_species (trun db t ops) nm = Some sp.
Proof.
  induction ops as [|o ops IH]; intros Hm t I W H; simpl; auto.
  inversion W as [|? ? Wo W']; subst.
  apply IH; [intros k0 sp0 Hin; apply (Hm k0 sp0); now right|exact (proj1 (tstep_inv db t o I Wo))|auto|].
  destruct o as [s w|sp'|n a|j sp'| | |b|u]; simpl; auto.
  - destruct (addElement_flags db t s w) as (_&_&E&_). now rewrite E.
  - pose proof (addSpecies_maps db t sp') as M. cbv zeta in M.
    destruct M as ([(_&_&E)|(Eo&_&_&E&_)]&_); rewrite E; auto. unfold mput.
    destruct (String.eqb_spec nm (sp_name sp')) as [En|]; auto. subst.
    exfalso. unfold addSpecies in Eo. destruct (0 <? t_locks t)%nat; [discriminate|]. rewrite H in Eo. discriminate.
  - unfold addSpeciesAlias. destruct (speciesIndex t a) as [[i|]| | |]; auto. destruct (speciesIndex t n) as [[i|]| | |]; auto.
  - exfalso. eapply Hm. left. reflexivity.
  - destruct (t_locks t); auto.
Qed.

Theorem C09_added_species db ops1 sp ops2 : Forall wf_op ops1 -> wf_op (AddSpecies sp) -> Forall wf_op ops2 ->
  no_modify ops2 ->
  let t1 := phase_after db ops1 in
  fst (addSpecies db t1 sp) = Ok true ->
  let t2 := phase_after db (ops1 ++ AddSpecies sp :: ops2) in
  speciesName t2 (t_kk t1) = Ok (sp_name sp) /\ speciesAt t2 (t_kk t1) = Ok sp /\ charge t2 (t_kk t1) = Ok (sp_charge sp).
Proof.
  intros W1 Wsp W2 Hm t1 Ho t2.
  assert (t2 = trun db (snd (addSpecies db t1 sp)) ops2) as E2.
  { unfold t2, t1, phase_after, trun. rewrite fold_left_app. reflexivity. }
  pose proof (phase_after_inv db ops1 W1) as I1. fold t1 in I1.
  destruct (addSpecies_inv db t1 sp I1 Wsp) as (I2&_).
  destruct (trun_inv db ops2 _ I2 W2) as (I3&G). rewrite <- E2 in I3, G.
  pose proof (addSpecies_maps db t1 sp) as M. cbv zeta in M. destruct M as (M&_).
  set (ta := snd (addSpecies db t1 sp)) in *.
  assert (t_names ta = t_names t1 ++ [sp_name sp] /\ t_species ta = mput (t_species t1) (sp_name sp) sp /\ t_charge ta = t_charge t1 ++ [sp_charge sp]) as (N&S&C).
  { destruct M as [(A&B&C)|(_&_&A&B&C)]; [|auto]. exfalso.
    assert (t_names ta = t_names t1 ++ [sp_name sp]) as F.
    { clear - Ho I1 Wsp. unfold ta, addSpecies in *. destruct (0 <? t_locks t1)%nat; [discriminate|].
      destruct (t_species t1 (sp_name sp)); [discriminate|].
      pose proof (comp_loop_spec db (sp_comp sp) t1 zeros I1 Wsp) as (Ia&Xa&_).
      destruct (comp_loop db t1 (sp_comp sp) zeros) as [[| |comp] tc]; try discriminate.
      pose proof (charge_step_spec db tc (sp_charge sp) comp Ia) as (Ib&Xb&_).
      destruct (charge_step db tc (sp_charge sp) comp) as [[c2|] tb]; try discriminate. simpl in *.
      rewrite (x_names _ _ Xb), (x_names _ _ Xa). reflexivity. }
    rewrite B in F. apply (f_equal (@length _)) in F. rewrite app_length in F. simpl in F. lia. }
  destruct G as [_ (ln&Gn) _ (lc&Gc) _].
  assert (nth_error (t_names t2) (t_kk t1) = Some (sp_name sp)) as En.
  { rewrite Gn, N, <- app_assoc. unfold t_kk. rewrite nth_error_app2, Nat.sub_diag by lia. reflexivity. }
  unfold speciesName, speciesAt, charge. rewrite En. split; auto. split.
  - assert (t_species t2 (sp_name sp) = Some sp) as ->; [|reflexivity].
    rewrite E2. apply trun_no_modify; auto. rewrite S. unfold mput. now rewrite String.eqb_refl.
  - rewrite Gc, C, <- app_assoc, <- (i_lch _ I1). rewrite nth_error_app2, Nat.sub_diag by lia. reflexivity.
Qed.
Print Assumptions C09_added_species.

(** FALSE in the code: species(k).charge is charge(k).  modifySpecies compares names and compositions
    only. *)
Theorem C09_modify_charge_refuted : exists db ops k sp c,
  Forall wf_op ops /\ let t := phase_after db ops in
  speciesAt t k = Ok sp /\ charge t k = Ok c /\ sp_charge sp <> c.
Proof.
  exists (fun _ => Some 1), [AddSpecies (mk_spec "A" [("O"%string, 2)] 0); Modify 0 (mk_spec "A" [("O"%string, 2)] 1)], 0%nat,
    (mk_spec "A" [("O"%string, 2)] 1), 0.
  split; [repeat constructor; simpl; tauto|].
  cbv zeta. unfold phase_after, trun, tstep, fold_left, addSpecies. cbn.
  unfold addElement. destruct (Req_EM_T (-12345) 0); [exfalso; lra|]. destruct (Req_EM_T (-12345) (-12345)); [|exfalso; lra].
  cbn. unfold charge_step. cbn. destruct (Req_EM_T 0 0); [|exfalso; lra]. cbn.
  unfold modifySpecies. cbn. unfold mput. cbn. destruct (Req_EM_T 2 2); [|exfalso; lra]. cbn.
  split; auto.
Qed.
Print Assumptions C09_modify_charge_refuted.

(** ** C47: elemental fractions *)
Lemma fold_sum (f : nat -> R) n : forall z, fold_left (fun z k => z + f k) (seq 0 n) z = z + sum_n f n.
Proof.
  induction n as [|n IH]; intros z; [rewrite sum_n_0; simpl; lra|].
  rewrite seq_S, fold_left_app. simpl. rewrite IH. rewrite sum_n_S. lra.
Qed.
Lemma sum_n_swap (f : nat -> nat -> R) a b :
  sum_n (fun i => sum_n (fun j => f i j) b) a = sum_n (fun j => sum_n (fun i => f i j) a) b.
Proof.
  induction a as [|a IH].
  - rewrite sum_n_0. symmetry. induction b; [apply sum_n_0|]. rewrite sum_n_S, IHb, sum_n_0. lra.
  - rewrite sum_n_S, IH. clear IH.
    rewrite (sum_n_ext (fun j => sum_n (fun i => f i j) (S a)) (fun j => sum_n (fun i => f i j) a + f a j)).
    + induction b as [|b IHb]; [rewrite !sum_n_0; lra|].
      rewrite (sum_n_S _ b), (sum_n_S (fun j => f a j) b), (sum_n_S (fun j => _ + _) b), <- IHb. lra.
    + intros j _. exact (sum_n_S (fun i => f i j) a).
Qed.
Lemma sum_n_scal_l' c (f : nat -> R) n : sum_n (fun i => c * f i) n = c * sum_n f n.
Proof. induction n as [|n IH]; [rewrite !sum_n_0; lra|]. rewrite !sum_n_S, IH. lra. Qed.

(** The elemental mass fractions of a mixture whose mass fractions sum to one sum to one, if every
    species has some mass (at least the floor 1e-20 on molecular weights). *)
Theorem C47_elemental_mass_fractions db ops (y : vec) : Forall wf_op ops -> let t := phase_after db ops in
  sum_n y (t_kk t) = 1 ->
  (forall k n a, (k < t_kk t)%nat ->
     (forall m, (m < t_mm t)%nat -> nAtoms t k m = Ok (n m) /\ atomicWeight t m = Ok (a m)) ->
     1 / 10 ^ 20 <= sum_n (fun m => n m * a m) (t_mm t)) ->
  sum_n (elementalMassFraction t y) (t_mm t) = 1.
Proof.
  intros W t Hy Hw. pose proof (phase_after_inv db ops W) as I. fold t in I.
  rewrite <- Hy. unfold elementalMassFraction.
  rewrite (sum_n_ext _ (fun m => sum_n (fun k => t_comp t (t_mm t * k + m)%nat * aw (t_elems t) m / nth k (t_mw t) 0 * y k) (t_kk t))).
  2:{ intros m Hm. rewrite fold_sum. rewrite Rplus_0_l. reflexivity. }
  rewrite sum_n_swap. apply sum_n_ext. intros k Hk.
  assert (Tiny = 1 / 10 ^ 20) as ET by (unfold Tiny; rewrite pow_IZR; reflexivity).
  assert (Tiny <= sum_n (fun m => t_comp t (t_mm t * k + m)%nat * aw (t_elems t) m) (t_mm t)) as Lw.
  { rewrite ET. apply (Hw k); auto. intros m Hm. unfold nAtoms, atomicWeight, aw.
    rewrite (proj2 (Nat.ltb_lt m (t_mm t)) Hm), (proj2 (Nat.ltb_lt k (t_kk t)) Hk). split; auto.
    rewrite (nth_error_nth' _ (EmptyString, 0) Hm). now destruct (nth m (t_elems t) (EmptyString, 0)). }
  assert (0 < Tiny) as PT.
  { rewrite ET. unfold Rdiv. rewrite Rmult_1_l. apply Rinv_0_lt_compat. apply pow_lt. lra. }
  rewrite (i_mw _ I) by auto. rewrite Rmax_left by exact Lw.
  set (S := sum_n (fun m => t_comp t (t_mm t * k + m)%nat * aw (t_elems t) m) (t_mm t)) in *.
  transitivity (sum_n (fun m => (y k / S) * (t_comp t (t_mm t * k + m)%nat * aw (t_elems t) m)) (t_mm t)).
  - apply sum_n_ext. intros m Hm. field. lra.
  - rewrite sum_n_scal_l'. fold S. field. lra.
Qed.
Print Assumptions C47_elemental_mass_fractions.

Theorem C47_elemental_mole_fractions db ops (x : vec) : Forall wf_op ops -> let t := phase_after db ops in
  (exists k n, (k < t_kk t)%nat /\ 0 < x k /\ (forall m, (m < t_mm t)%nat -> nAtoms t k m = Ok (n m)) /\
     0 < sum_n n (t_mm t)) ->
  (forall k m n, nAtoms t k m = Ok n -> 0 <= n) ->
  (forall k, 0 <= x k) ->
  sum_n (elementalMoleFraction t x) (t_mm t) = 1.
Proof.
  intros W t (k0&n0&Hk0&Hx0&Hn0&Hp0) Hnn Hx.
  set (N := fun k => sum_n (fun m => t_comp t (t_mm t * k + m)%nat) (t_mm t)).
  assert (forall k m, (k < t_kk t)%nat -> (m < t_mm t)%nat -> nAtoms t k m = Ok (t_comp t (t_mm t * k + m)%nat)) as HA.
  { intros k m Hk Hm. unfold nAtoms.
    now rewrite (proj2 (Nat.ltb_lt m (t_mm t)) Hm), (proj2 (Nat.ltb_lt k (t_kk t)) Hk). }
  assert (forall n f, (forall i, (i < n)%nat -> 0 <= f i) -> 0 <= sum_n f n) as NN.
  { induction n as [|n IH]; intros f Hf; [rewrite sum_n_0; lra|]. rewrite sum_n_S.
    assert (0 <= f n) by (apply Hf; lia). assert (0 <= sum_n f n) by (apply IH; intros; apply Hf; lia). lra. }
  assert (forall n f i, (i < n)%nat -> (forall j, (j < n)%nat -> 0 <= f j) -> f i <= sum_n f n) as LE.
  { induction n as [|n IH]; intros f i Hi Hf; [lia|]. rewrite sum_n_S. destruct (Nat.eq_dec i n).
    - subst. assert (0 <= sum_n f n) by (apply NN; intros; apply Hf; lia). lra.
    - assert (f i <= sum_n f n) by (apply IH; [lia|intros; apply Hf; lia]). assert (0 <= f n) by (apply Hf; lia). lra. }
  set (D := sum_n (fun k => N k * x k) (t_kk t)).
  assert (N k0 = sum_n n0 (t_mm t)) as EN.
  { apply sum_n_ext. intros m Hm. specialize (Hn0 m Hm). rewrite HA in Hn0 by auto. now injection Hn0. }
  assert (forall k, (k < t_kk t)%nat -> 0 <= N k) as HN.
  { intros k Hk. apply NN. intros m Hm. eapply Hnn. apply HA; auto. }
  assert (0 < D) as PD.
  { apply Rlt_le_trans with (N k0 * x k0); [rewrite EN; nra|]. unfold D.
    apply (LE (t_kk t) (fun k => N k * x k) k0 Hk0). intros j Hj. apply Rmult_le_pos; auto. }
  rewrite (sum_n_ext _ (fun m => / D * sum_n (fun k => t_comp t (t_mm t * k + m)%nat * x k) (t_kk t))).
  - rewrite sum_n_scal_l'. rewrite sum_n_swap.
    rewrite (sum_n_ext _ (fun k => N k * x k)).
    + fold D. field. lra.
    + intros k Hk. rewrite (sum_n_ext _ (fun m => x k * t_comp t (t_mm t * k + m)%nat)) by (intros; lra).
      rewrite sum_n_scal_l'. fold (N k). lra.
  - intros m Hm. unfold elementalMoleFraction. cbv zeta.
    assert (forall z, fold_left (fun d k => d + fold_left (fun a j => a + t_comp t (t_mm t * k + j)%nat) (seq 0 (t_mm t)) 0 * x k) (seq 0 (t_kk t)) z = z + D) as ->.
    { intros z. rewrite (fold_sum (fun k => fold_left (fun a j => a + t_comp t (t_mm t * k + j)%nat) (seq 0 (t_mm t)) 0 * x k)).
      f_equal. apply sum_n_ext. intros k Hk. f_equal. rewrite fold_sum. unfold N. lra. }
    rewrite fold_sum. rewrite !Rplus_0_l. unfold Rdiv. lra.
Qed.
Print Assumptions C47_elemental_mole_fractions.

(** ** C48: locks *)
Lemma trun_locks db ops : forall t, t_locks (trun db t ops) = lock_depth (t_locks t) ops.
Proof.
  induction ops as [|o ops IH]; intros t; simpl; auto. rewrite IH.
  destruct o as [s w|sp|n a|j sp| | |b|u]; simpl; auto.
  - destruct (addElement_flags db t s w) as (_&_&_&_&E&_). now rewrite E.
  - pose proof (addSpecies_maps db t sp) as M. cbv zeta in M. destruct M as (_&E&_). now rewrite E.
  - unfold addSpeciesAlias. destruct (speciesIndex t a) as [[i|]| | |]; auto. destruct (speciesIndex t n) as [[i|]| | |]; auto.
  - unfold modifySpecies. destruct (nth_error _ _); auto. destruct (negb _); auto. destruct (t_species _ _); auto. destruct (negb _); auto.
  - destruct (t_locks t) eqn:E; simpl; rewrite ?E; auto.
Qed.

(** While a lock is held no call changes the species list, and addSpecies is refused without effect. *)
Theorem C48_locked_species_fixed db ops1 ops2 : Forall wf_op ops1 -> Forall wf_op ops2 ->
  (forall n, (0 < lock_depth 0 (ops1 ++ firstn n ops2))%nat) ->
  let t1 := phase_after db ops1 in let t2 := phase_after db (ops1 ++ ops2) in
  (forall k, speciesName t2 k = speciesName t1 k) /\ t_kk t2 = t_kk t1 /\
  forall sp, addSpecies db t2 sp = (Err, t2).
Proof.
  intros W1 W2 HL t1 t2.
  assert (forall ops t, (forall n, (0 < lock_depth (t_locks t) (firstn n ops))%nat) -> t_names (trun db t ops) = t_names t) as G.
  { clear. induction ops as [|o ops IH]; intros t H; simpl; auto.
    assert (t_names (tstep db t o) = t_names t) as E.
    { destruct o as [s w|sp|n a|j sp| | |b|u]; simpl; auto.
      - destruct (addElement_flags db t s w) as (_&E&_). now rewrite E.
      - specialize (H 0%nat). simpl in H. unfold addSpecies. rewrite (proj2 (Nat.ltb_lt _ _) H). reflexivity.
      - unfold addSpeciesAlias. destruct (speciesIndex t a) as [[i|]| | |]; auto. destruct (speciesIndex t n) as [[i|]| | |]; auto.
      - unfold modifySpecies. destruct (nth_error _ _); auto. destruct (negb _); auto. destruct (t_species _ _); auto. destruct (negb _); auto.
      - destruct (t_locks t); auto. }
    rewrite <- E. apply IH. intros n. specialize (H (S n)). simpl firstn in H.
    pose proof (trun_locks db [o] t) as L. simpl in L. rewrite L.
    destruct o; simpl in *; auto. }
  assert (t2 = trun db t1 ops2) as E2 by (unfold t2, t1, phase_after, trun; apply fold_left_app).
  assert (forall n, (0 < lock_depth (t_locks t1) (firstn n ops2))%nat) as HL1.
  { assert (forall a b n, lock_depth n (a ++ b) = lock_depth (lock_depth n a) b) as LA.
    { induction a as [|o a IH]; intros b n; simpl; auto. destruct o; apply IH. }
    intros n. specialize (HL n). unfold t1, phase_after. rewrite trun_locks. rewrite LA in HL. exact HL. }
  pose proof (G ops2 t1 HL1) as EN. rewrite <- E2 in EN.
  split; [|split].
  - intros k. unfold speciesName. now rewrite EN.
  - unfold t_kk. now rewrite EN.
  - intros sp. unfold addSpecies. rewrite (proj2 (Nat.ltb_lt _ _)); [reflexivity|].
    rewrite E2, trun_locks. specialize (HL1 (length ops2)). now rewrite firstn_all in HL1.
Qed.
Print Assumptions C48_locked_species_fixed.

(** Without locks, a neutral species with a new name, made of elements the phase has, is accepted. *)
Theorem C48_unlocked_accepts db ops sp : Forall wf_op ops -> wf_op (AddSpecies sp) ->
  lock_depth 0 ops = 0%nat -> let t := phase_after db ops in
  (forall k, speciesName t k <> Ok (sp_name sp)) ->
  (forall e, In e (map fst (sp_comp sp)) -> exists m, elementName t m = Ok e) ->
  sp_charge sp = 0 ->
  fst (addSpecies db t sp) = Ok true /\
  speciesName (snd (addSpecies db t sp)) (t_kk t) = Ok (sp_name sp).
Proof.
  intros W Wsp HL t Hn He Hc. pose proof (phase_after_inv db ops W) as I. fold t in I.
  assert (fst (addSpecies db t sp) = Ok true) as A.
  { unfold addSpecies. assert (t_locks t = 0%nat) as -> by (unfold t, phase_after; rewrite trun_locks; auto).
    simpl. destruct (t_species t (sp_name sp)) as [x|] eqn:E.
    - exfalso. apply (i_spn _ I) in E. apply In_nth_error in E. destruct E as (k&Hk). apply (Hn k). unfold speciesName. now rewrite Hk.
    - assert (forall l c, (forall e, In e (map fst l) -> exists m, elementName t m = Ok e) ->
        exists c', comp_loop db t l c = (LDone c', t)) as CL.
      { clear - I. induction l as [|[e st] l IH]; intros c H; simpl; [eauto|].
        destruct (H e (or_introl eq_refl)) as (m&Hm). unfold elementName in Hm.
        destruct (nth_error (t_elems t) m) as [[e' w]|] eqn:E; [|discriminate]. injection Hm as ->.
        unfold elementIndex. rewrite (find_elem_nth _ _ _ _ (i_elems _ I) E). apply IH. intros e0 H0. apply H. now right. }
      destruct (CL (sp_comp sp) zeros He) as (c'&Ec). rewrite Ec. unfold charge_step. rewrite Hc.
      destruct (Req_EM_T 0 0); [|exfalso; lra]. reflexivity. }
  split; auto.
  destruct (C09_added_species db ops sp [] W Wsp (Forall_nil _)) as (B&_); auto.
  { intros k s H. inversion H. }
  unfold phase_after, trun in B. rewrite fold_left_app in B. exact B.
Qed.
Print Assumptions C48_unlocked_accepts.

(** ** The hypotheses are met: H2, O2, then a cation (which brings in the element E) and an alias. *)
Definition ex_db (s : string) : option R :=
  if String.eqb s "H" then Some 1 else if String.eqb s "O" then Some 16 else None.
Definition ex_ops : list top :=
  [AddElement "H" 0; AddSpecies (mk_spec "H2" [("H"%string, 2)] 0); AddSpecies (mk_spec "O2" [("O"%string, 2)] 0);
   AddSpecies (mk_spec "H2O+" [("H"%string, 2); ("O"%string, 1)] 1); AddAlias "O2" "oxygen"; Lock].
Example ex_wf : Forall wf_op ex_ops.
Proof. unfold ex_ops. repeat constructor; simpl; intuition discriminate. Qed.
Example ex_tab : let t := phase_after ex_db ex_ops in
  t_names t = ["H2"%string; "O2"%string; "H2O+"%string] /\ map fst (t_elems t) = ["H"%string; "O"%string; "E"%string] /\
  nAtoms t 0 0 = Ok 2 /\ nAtoms t 0 1 = Ok 0 /\ nAtoms t 2 0 = Ok 2 /\ nAtoms t 2 1 = Ok 1 /\ nAtoms t 2 2 = Ok (-(1)) /\
  speciesIndex t "oxygen" = Ok (Some 1%nat) /\ speciesIndex t "h2o+" = Ok (Some 2%nat) /\ t_locks t = 1%nat.
Proof.
  cbv zeta. unfold phase_after, trun, tstep, ex_ops, fold_left.
  assert (addElement ex_db tab_init "H" 0 = (Ok 0%nat, set_elems tab_init [("H"%string, 1)] zeros 0)) as E1.
  { unfold addElement. destruct (Req_EM_T 0 0); [|exfalso; lra]. reflexivity. }
  rewrite E1. cbn [snd].
  unfold addSpecies at 3. cbn. unfold charge_step. cbn. destruct (Req_EM_T 0 0); [|exfalso; lra]. cbn.
  unfold addSpecies at 2. cbn. unfold addElement. destruct (Req_EM_T (-12345) 0); [exfalso; lra|].
  destruct (Req_EM_T (-12345) (-12345)); [|exfalso; lra]. cbn. unfold charge_step. cbn. destruct (Req_EM_T 0 0); [|exfalso; lra]. cbn.
  unfold addSpecies. cbn. unfold charge_step. cbn. destruct (Req_EM_T 1 0); [exfalso; lra|]. cbn.
  unfold addElement. destruct (Req_EM_T (545/1000000) 0); [exfalso; lra|]. destruct (Req_EM_T (545/1000000) (-12345)); [exfalso; lra|].
  cbn. repeat split; reflexivity.
Qed.
