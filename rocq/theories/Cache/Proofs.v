From Coq Require Import Reals ZArith List Bool Arith Lia Lra.
From Verif Require Import Base.Fp Base.Outcome Base.Map2 Cache.Model Cache.Spec.
Import ListNotations.
Local Open Scope R_scope.
Local Open Scope list_scope.

#[local] Arguments good_T _ : simpl never.
#[local] Arguments feqb _ _ : simpl never.
#[local] Arguments fadd _ _ : simpl never.
#[local] Arguments shift : simpl never.

Lemma feqb_eq a b : feqb a b = true -> a = b.
Proof. destruct a, b; unfold feqb; try discriminate; auto. intros H. apply reqb_true in H. congruence. Qed.
Lemma feqb_sym a b : feqb a b = feqb b a.
Proof.
  destruct a, b; unfold feqb; auto. destruct (reqb r r0) eqn:E, (reqb r0 r) eqn:F; auto.
  - apply reqb_true in E. apply reqb_false in F. congruence.
  - apply reqb_true in F. apply reqb_false in E. congruence.
Qed.
Lemma feqb_num a b : feqb a b = true -> a <> NaN.
Proof. destruct a; unfold feqb; congruence. Qed.
Lemma feqb_refl a : a <> NaN -> feqb a a = true.
Proof. destruct a; unfold feqb; auto; try congruence. intros _. apply reqb_true. reflexivity. Qed.
Lemma feqb_fin a b : feqb (Fin a) (Fin b) = true <-> a = b.
Proof. unfold feqb. apply reqb_true. Qed.

(* ---------------------------------------------------------------- *)
Section Values.
Context {S A : Type} (dflt : A) (keysof : nat -> S -> keys) (compute : nat -> S -> outcome A).

Lemma oruns_state h : forall o, fst (oruns dflt keysof compute o h) = last_state (fst o) h.
Proof.
  induction h as [|e h IH]; intros o; cbn; auto. rewrite IH. unfold last_state. cbn.
  destruct e; cbn; auto. destruct (memo _ _ _ _ _); reflexivity.
Qed.
Lemma oruns_app h1 : forall o h2, oruns dflt keysof compute o (h1 ++ h2) = oruns dflt keysof compute (oruns dflt keysof compute o h1) h2.
Proof. induction h1; intros; cbn; auto. Qed.

(* The entry c agrees with some earlier evaluation at a state of the list, or was never used. *)
Definition entry_ok (vs : list S) (id : nat) (c : cval A) : Prop :=
  (forall s', validate c (keysof id s') = (true, c) -> exists s, In s vs /\ keys_eq (keysof id s) (keysof id s') = true /\ compute id s = Ok (val c)).

Lemma validate_hit (c : cval A) k : fst (validate c k) = true -> validate c k = (true, c).
Proof. destruct k; unfold validate; match goal with |- context [if ?b then _ else _] => destruct b end; cbn; congruence. Qed.
Lemma validate_miss (c : cval A) k : fst (validate c k) = false -> forall (v : A) k', shape k = shape k' ->
  let c' := snd (validate c k) in
  validate (CV (k1 c') (k2 c') (kn c') v) k' = (true, CV (k1 c') (k2 c') (kn c') v) -> keys_eq k k' = true.
Proof.
  intros H v k' E. destruct k; unfold validate in H |- *; cbn in H |- *;
    match goal with |- context [if ?b then (true, c) else _] => destruct b end; cbn in H; try discriminate;
    destruct k'; try discriminate; cbn; match goal with |- context [if ?b then _ else _] => destruct b eqn:F end;
    intros X; congruence.
Qed.
Lemma fresh_miss k : counter_ok k -> forall v : A, fst (validate (cval0 v) k) = false.
Proof.
  intros H v. destruct k; cbn; auto. destruct n; cbn; auto. cbn in H. destruct (Pos.eqb_spec 2147483648 p); cbn; auto. subst. exfalso. apply H. reflexivity.
Qed.
Lemma getEntry_set m d id c id' : getEntry (setEntry (A := A) m id c) d id' = if Nat.eqb id' id then c else getEntry m d id'.
Proof. unfold getEntry, setEntry. destruct (Nat.eqb id' id); auto. Qed.

Definition cache_ok (vs : list S) (m : cache A) : Prop := forall id, entry_ok vs id (getEntry m dflt id).

Lemma entry_mono vs vs' id c : incl vs vs' -> entry_ok vs id c -> entry_ok vs' id c.
Proof. intros I H s' V. destruct (H s' V) as (s & i & r). exists s. split; auto. Qed.

Context (same_shape : forall id s s', shape (keysof id s) = shape (keysof id s'))
        (counters : forall id s, counter_ok (keysof id s)).

Lemma memo_ok vs m id s v :
  cache_ok vs m -> In s vs -> compute id s = Ok v ->
  (forall i s s', In s vs -> In s' vs -> keys_eq (keysof i s) (keysof i s') = true -> compute i s = compute i s') ->
  fst (memo m dflt id (keysof id s) (compute id s)) = Ok v /\ cache_ok vs (snd (memo m dflt id (keysof id s) (compute id s))).
Proof.
  intros OK I E F. unfold memo. destruct (validate (getEntry m dflt id) (keysof id s)) as [hit c] eqn:V.
  destruct hit.
  - pose proof (validate_hit (getEntry m dflt id) (keysof id s)) as Q. rewrite V in Q. specialize (Q eq_refl).
    injection Q as ->. split.
    + cbn. destruct (OK id s V) as (s0 & I0 & K0 & C0). rewrite (F id s0 s I0 I K0) in C0. congruence.
    + cbn. intros i. rewrite getEntry_set. destruct (Nat.eqb_spec i id); subst; auto.
  - rewrite E. cbn. split; auto. intros i. rewrite getEntry_set. destruct (Nat.eqb_spec i id) as [->|]; auto.
    intros s' V'. exists s. split; auto.
    pose proof (validate_miss (getEntry m dflt id) (keysof id s)) as Q. rewrite V in Q. specialize (Q eq_refl v (keysof id s') (same_shape id s s')). cbn in Q.
    split; auto.
Qed.

Lemma oruns_ok vs h : forall s m,
  cache_ok vs m -> incl (states s h) vs -> no_clear h ->
  (forall i s s', In s vs -> In s' vs -> keys_eq (keysof i s) (keysof i s') = true -> compute i s = compute i s') ->
  (forall i s', In (i, s') (reads s h) -> exists v, compute i s' = Ok v) ->
  cache_ok vs (snd (oruns dflt keysof compute (s, m) h)) /\ In (fst (oruns dflt keysof compute (s, m) h)) vs.
Proof.
  induction h as [|e h IH]; intros s m OK I N F R; cbn.
  - split; auto. apply I. left; auto.
  - destruct e as [s'| |id]; cbn.
    + apply IH; auto.
      * intros x X. apply I. right. exact X.
      * intros X. apply N. right. exact X.
    + exfalso. apply N. left; reflexivity.
    + destruct (R id s (or_introl eq_refl)) as [v Ev].
      assert (Is : In s vs). { apply I. cbn. clear. revert s. induction h as [|[]]; intros; cbn; auto. }
      destruct (memo_ok vs m id s v OK Is Ev F) as [_ OK'].
      destruct (memo m dflt id (keysof id s) (compute id s)) as [r m'] eqn:E. cbn. apply IH; auto.
      * intros X. apply N. right. exact X.
      * intros i s' X. apply R. right. exact X.
Qed.

Lemma empty_ok vs : cache_ok vs empty.
Proof.
  intros id s' V. exfalso. unfold getEntry, empty in V.
  pose proof (fresh_miss (keysof id s') (counters id s') dflt) as Q. rewrite V in Q. discriminate.
Qed.
Lemma read_fresh h1 h2 s0 m0 id v :
  let s1 := last_state s0 h1 in
  no_clear h2 ->
  (forall i s s', In s (states s1 h2) -> In s' (states s1 h2) -> keys_eq (keysof i s) (keysof i s') = true -> compute i s = compute i s') ->
  (forall i s', In (i, s') (reads s1 h2) -> exists v, compute i s' = Ok v) ->
  let o := oruns dflt keysof compute (s0, m0) (h1 ++ EClear :: h2) in
  compute id (last_state s1 h2) = Ok v ->
  fst (ostep dflt keysof compute o (ERead id)) = Some (Ok v).
Proof.
  intros s1 N F R o E.
  assert (Ho : o = oruns dflt keysof compute (s1, empty) h2).
  { unfold o. rewrite oruns_app. cbn. unfold clear. rewrite oruns_state. reflexivity. }
  rewrite Ho. clear Ho o.
  destruct (oruns_ok (states s1 h2) h2 s1 empty (empty_ok _) (incl_refl _) N F R) as [OK I].
  pose proof (oruns_state h2 (s1, empty)) as L. cbn [fst] in L. cbn. rewrite L in *.
  destruct (memo_ok _ _ id _ v OK I E F) as [X _].
  match goal with |- context [memo ?a ?b ?c ?d ?e] => destruct (memo a b c d e) end. cbn in X |- *. congruence.
Qed.
End Values.

(* ---------------------------------------------------------------- *)
Section Phases.
Context {D : Type} (eval : D -> fp -> nat -> R * R * R).

Lemma fadd_shift a x : fadd (fadd a (Fin x)) (Fin x) = fadd a (Fin (x + x)).
Proof. destruct a; unfold fadd; auto. f_equal. lra. Qed.

(* Ideal gas. *)
Definition g_ok (s : gas D) : Prop :=
  g_key s <> NaN -> g_v s = eval (g_d s) (g_key s) /\ g_g s = fun k => gibbs3 (eval (g_d s) (g_key s) k).
Lemma g_step_ok s o : g_ok s -> g_ok (g_step eval s o).
Proof.
  intros H. destruct o; cbn.
  - destruct (good_T t); exact H.
  - intros X. cbn in X. congruence.
  - unfold g_update. destruct (negb _); auto. intros _. cbn. auto.
Qed.
Lemma g_run_ok h : forall s, g_ok s -> g_ok (fold_left (g_step eval) h s).
Proof. induction h; intros; cbn; auto using g_step_ok. Qed.
Lemma g_run_T h : forall s, g_T (fold_left (g_step eval) h s) = T_after (g_T s) h.
Proof.
  induction h as [|o h IH]; intros s; cbn; auto. rewrite IH. f_equal. unfold T_after. cbn. f_equal.
  destruct o; cbn; auto; [destruct (good_T t) | unfold g_update; destruct (negb _)]; auto.
Qed.
Lemma g_run_D h : forall s, g_d (fold_left (g_step eval) h s) = D_after (g_d s) h.
Proof.
  induction h as [|o h IH]; intros s; cbn; auto. rewrite IH. unfold D_after. cbn. f_equal.
  destruct o; cbn; auto; [destruct (good_T t) | unfold g_update; destruct (negb _)]; auto.
Qed.
Lemma g_update_fresh s : g_ok s ->
  g_v (g_update eval s) = eval (g_d s) (g_T s) /\ g_g (g_update eval s) = fun k => gibbs3 (eval (g_d s) (g_T s) k).
Proof.
  intros H. unfold g_update. destruct (feqb (g_key s) (g_T s)) eqn:E; cbn; auto.
  pose proof (feqb_num _ _ E). apply feqb_eq in E. rewrite <- E. auto.
Qed.

(* Plasma: the electron's entry, and everything else as in the gas. *)
Definition p_ok (e : nat) (s : plasma D) : Prop :=
  (g_key (p_gas s) <> NaN -> forall k, k <> e -> g_v (p_gas s) k = eval (g_d (p_gas s)) (g_key (p_gas s)) k /\
                                        g_g (p_gas s) k = gibbs3 (g_v (p_gas s) k)) /\
  (p_k1 s <> NaN -> p_k2 s <> NaN -> p_k1 s = g_key (p_gas s) /\ g_v (p_gas s) e = eval (g_d (p_gas s)) (p_k2 s) e).
Lemma p_step_ok e s o : p_ok e s -> p_ok e (p_step eval e s o).
Proof.
  intros [H1 H2]. destruct o; cbn.
  - destruct (good_T t); split; cbn; auto.
  - split; cbn; auto.
  - split; cbn; congruence.
  - unfold p_update, g_update. destruct (feqb (g_key (p_gas s)) (g_T (p_gas s))) eqn:E; cbn.
    + pose proof (feqb_num _ _ E) as N. pose proof (feqb_eq _ _ E) as E'.
      destruct (negb (feqb (p_k1 s) (g_T (p_gas s))) || negb (feqb (p_k2 s) (p_Te s))) eqn:F; split; cbn.
      * intros _ k K. unfold set_at. destruct (Nat.eqb_spec k e); [contradiction|]. auto.
      * intros A B. split; auto. unfold set_at. rewrite Nat.eqb_refl. reflexivity.
      * intros _ k K. unfold set_at. destruct (Nat.eqb_spec k e); [contradiction|]. auto.
      * intros A B. auto.
    + destruct (negb (feqb (p_k1 s) (g_T (p_gas s))) || negb (feqb (p_k2 s) (p_Te s))) eqn:F; split; cbn.
      * intros _ k K. unfold set_at. destruct (Nat.eqb_spec k e); [contradiction|]. auto.
      * intros A B. split; auto. unfold set_at. rewrite Nat.eqb_refl. reflexivity.
      * intros _ k K. unfold set_at. destruct (Nat.eqb_spec k e); [contradiction|]. auto.
      * intros A B. exfalso. apply orb_false_iff in F. destruct F as [F _]. apply negb_false_iff, feqb_eq in F.
        destruct (H2 A B) as [Q _]. rewrite Q in F. rewrite F in E. rewrite feqb_refl in E; [discriminate|].
        rewrite <- F, <- Q. auto.
Qed.
Lemma p_run_ok e h : forall s, p_ok e s -> p_ok e (fold_left (p_step eval e) h s).
Proof. induction h; intros; cbn; auto using p_step_ok. Qed.
Lemma p_run_obs e h : forall s, let s' := fold_left (p_step eval e) h s in
  g_T (p_gas s') = lT_after (g_T (p_gas s)) h /\ g_d (p_gas s') = lD_after (g_d (p_gas s)) h /\ p_Te s' = lTe_after (p_Te s) h.
Proof.
  induction h as [|o h IH]; intros s; cbn; auto.
  destruct (IH (p_step eval e s o)) as (A & B & C). rewrite A, B, C. clear.
  unfold lT_after, lD_after, lTe_after. cbn.
  destruct o; cbn; auto; [destruct (good_T t) | unfold g_update; destruct (negb _); cbn]; auto.
Qed.
Lemma p_update_fresh e s : p_ok e s -> g_T (p_gas s) <> NaN -> p_Te s <> NaN ->
  let g := p_gas (p_update eval e s) in
  (forall k, k <> e -> g_v g k = eval (g_d (p_gas s)) (g_T (p_gas s)) k) /\
  g_v g e = eval (g_d (p_gas s)) (p_Te s) e /\ (forall k, g_g g k = gibbs3 (g_v g k)).
Proof.
  intros OK NT NTe. pose proof (p_step_ok e s LRead OK) as [H1 H2]. cbn [p_step] in H1, H2.
  assert (X : g_key (p_gas (p_update eval e s)) = g_T (p_gas s) /\ p_k1 (p_update eval e s) = g_T (p_gas s) /\ p_k2 (p_update eval e s) = p_Te s
              /\ g_d (p_gas (p_update eval e s)) = g_d (p_gas s) /\ g_g (p_gas (p_update eval e s)) e = gibbs3 (g_v (p_gas (p_update eval e s)) e)).
  { unfold p_update, g_update. destruct (feqb (g_key (p_gas s)) (g_T (p_gas s))) eqn:E; cbn;
      destruct (negb (feqb (p_k1 s) (g_T (p_gas s))) || negb (feqb (p_k2 s) (p_Te s))) eqn:F; cbn; unfold set_at; rewrite ?Nat.eqb_refl;
      try (apply orb_false_iff in F; destruct F as [F F']; apply negb_false_iff, feqb_eq in F; apply negb_false_iff, feqb_eq in F');
      try apply feqb_eq in E; auto. }
  destruct X as (X1 & X2 & X3 & X4 & X5). rewrite X1, X2, X3, X4 in *. cbn.
  repeat split.
  - intros k K. apply H1; auto.
  - apply H2; auto.
  - intros k. destruct (Nat.eq_dec k e) as [->|K]; auto. apply H1; auto.
Qed.

(* m_tlast. *)
Definition shifted (n : nat) (t : fp) : fp := Nat.iter n (fun x => fadd x (Fin shift)) t.
Lemma shifted_fin n t : shifted n (Fin t) = Fin (t + INR n * shift).
Proof.
  induction n; [cbn; f_equal; lra|]. change (shifted (S n) (Fin t)) with (fadd (shifted n (Fin t)) (Fin shift)).
  rewrite IHn, S_INR. unfold fadd. f_equal. lra.
Qed.
Lemma shifted_step n t : fadd (shifted n t) (Fin shift) = shifted (S n) t.
Proof. reflexivity. Qed.
Lemma shifted_shift n t : shifted n (fadd t (Fin shift)) = shifted (S n) t.
Proof. induction n; auto. rewrite <- (shifted_step n (fadd t _)), IHn. reflexivity. Qed.
Lemma t_run_obs h : forall s, let s' := fold_left (t_step eval) h s in t_T s' = T_after (t_T s) h /\ t_d s' = D_after (t_d s) h.
Proof.
  induction h as [|o h IH]; intros s; cbn; auto. destruct (IH (t_step eval s o)) as (A & B). rewrite A, B. clear.
  unfold T_after, D_after. cbn. destruct o; cbn; auto; [destruct (good_T t) | unfold t_update; destruct (negb _); cbn]; auto.
Qed.
Lemma t_run_noread h : forall s, no_read h -> let s' := fold_left (t_step eval) h s in
  t_last s' = shifted (changes h) (t_last s) /\ t_v s' = t_v s.
Proof.
  induction h as [|o h IH]; intros s N; cbn; auto. inversion_clear N. destruct (IH (t_step eval s o) H0) as (A & B). rewrite A, B.
  destruct o; cbn; try congruence.
  - destruct (good_T t); auto.
  - split; auto. apply shifted_shift.
Qed.
Lemma t_read_exact h1 h2 d : no_read h2 ->
  let h := h1 ++ PRead :: h2 in
  let s := fold_left (t_step eval) h (t_init d) in
  let T0 := T_after (Fin (1 / 1000)) h1 in let T := T_after (Fin (1 / 1000)) h in
  T0 <> NaN ->
  t_v (t_update eval s) =
    if feqb (shifted (changes h2) T0) T then t_v (t_update eval (fold_left (t_step eval) h1 (t_init d))) else eval (D_after d h) T.
Proof.
  intros N h s T0 T NN.
  destruct (t_run_obs h (t_init d)) as [A B]. fold s in A, B. cbn in A, B. fold T in A.
  set (s1 := t_update eval (fold_left (t_step eval) h1 (t_init d))).
  assert (L : t_last s1 = T0).
  { unfold s1, t_update. destruct (t_run_obs h1 (t_init d)) as [A1 _]. cbn in A1. fold T0 in A1. rewrite A1.
    destruct (feqb (t_last (fold_left (t_step eval) h1 (t_init d))) T0) eqn:E; cbn; auto. apply feqb_eq in E. auto. }
  assert (Q : s = fold_left (t_step eval) h2 s1). { unfold s, h. rewrite fold_left_app. reflexivity. }
  destruct (t_run_noread h2 s1 N) as [P1 P2]. rewrite <- Q in P1, P2. rewrite L in P1.
  unfold t_update at 1. rewrite P1, A. destruct (feqb (shifted (changes h2) T0) T); cbn; auto. rewrite B. reflexivity.
Qed.

Lemma changes_0 h d0 : changes h = 0%nat -> D_after (D := D) d0 h = d0.
Proof.
  unfold changes, D_after. revert d0. induction h as [|o h IH]; intros; cbn; auto. destruct o; cbn in *; auto; discriminate.
Qed.

(* Coverage-dependent surface phase. *)
Context {C : Type} (covdep : fp -> C -> nat -> R * R * R).
Definition is_refread (o : cop D C) : bool := match o with CReadRef => true | _ => false end.
Definition c_ok (s : cphase D C) : Prop :=
  (c_numlast s <= c_num s)%Z /\ (c_numlast s = c_num s -> c_cov s = covdep (t_last (c_t s)) (c_comp s)).
Lemma t_update_last s : t_last (t_update eval s) = t_T s.
Proof. unfold t_update. destruct (feqb (t_last s) (t_T s)) eqn:E; cbn; auto. apply feqb_eq; auto. Qed.
Lemma c_update_cov_fresh s : c_ok s -> c_cov (c_update eval covdep s) = covdep (t_T (c_t s)) (c_comp s).
Proof.
  intros [H1 H2]. unfold c_update, c_update_cov. destruct (Z.eqb_spec (c_numlast s) (c_num s)); cbn; auto.
  destruct (feqb (t_last (c_t s)) (t_T (c_t s))) eqn:E; cbn; auto. rewrite (H2 e). apply feqb_eq in E. rewrite E. reflexivity.
Qed.
Lemma c_step_ok s o : is_refread o = false -> c_ok s -> c_ok (c_step eval covdep s o).
Proof.
  intros N H. pose proof (c_update_cov_fresh s H) as F. destruct H as [H1 H2]. destruct o; cbn; try discriminate.
  - destruct (good_T t); split; cbn; auto.
  - split; cbn; lia.
  - split; cbn; lia.
  - assert (Q : c_numlast (c_update eval covdep s) = c_num s /\ c_num (c_update eval covdep s) = c_num s
              /\ t_last (c_t (c_update eval covdep s)) = t_T (c_t s) /\ c_comp (c_update eval covdep s) = c_comp s).
    { unfold c_update, c_update_cov. destruct (Z.eqb_spec (c_numlast s) (c_num s)); cbn; [|rewrite t_update_last; auto].
      destruct (feqb _ _); cbn; rewrite t_update_last; auto. }
    destruct Q as (Q1 & Q2 & Q3 & Q4). split; rewrite ?Q1, ?Q2, ?Q3, ?Q4; [lia|auto].
Qed.
Lemma c_run_ok h : forall s, Forall (fun o => is_refread o = false) h -> c_ok s -> c_ok (fold_left (c_step eval covdep) h s).
Proof. induction h; intros s F OK; cbn; auto. inversion_clear F. auto using c_step_ok. Qed.
Definition ref_part (o : cop D C) : list (pop D) :=
  match o with CT t => [PT t] | CComp _ => [] | CData d => [PData d] | CReadRef => [PRead] | CRead => [PRead] end.
Lemma c_run_t h : forall s, c_t (fold_left (c_step eval covdep) h s) = fold_left (t_step eval) (flat_map ref_part h) (c_t s).
Proof.
  induction h as [|o h IH]; intros s; cbn; auto. rewrite IH, fold_left_app. f_equal.
  destruct o; cbn; auto. unfold c_update, c_update_cov. destruct (_ || _); reflexivity.
Qed.
Lemma c_run_obs h : forall s, let s' := fold_left (c_step eval covdep) h s in
  t_T (c_t s') = cT_after (t_T (c_t s)) h /\ t_d (c_t s') = cD_after (t_d (c_t s)) h /\ c_comp s' = cC_after (c_comp s) h.
Proof.
  induction h as [|o h IH]; intros s; cbn; auto. destruct (IH (c_step eval covdep s o)) as (A & B & E). rewrite A, B, E. clear.
  unfold cT_after, cD_after, cC_after. cbn. destruct o; cbn; auto.
  - destruct (good_T t); auto.
  - unfold t_update; destruct (negb _); auto.
  - unfold c_update, c_update_cov. destruct (_ || _); cbn; unfold t_update; destruct (negb _); auto.
Qed.

(* Variable-pressure standard states. *)
Context (evals : D -> fp -> fp -> nat -> R * R * R).
Definition v_inv (s : vphase D) : Prop :=
  (exists t, v_T s = Fin t) /\
  exists T0 T0' n, v_tlast s = Fin (T0 + INR n * shift) /\ v_Tss s = Fin (T0' + INR n * shift_ss) /\
    ((T0' = T0 /\ (n = 0%nat -> v_ss s = evals (v_d s) (Fin T0) (v_Pss s))) \/ (T0 = 0 /\ T0' = -1)).
Lemma v_update_fresh s : v_inv s -> v_ss (v_update eval evals s) = evals (v_d s) (v_T s) (v_P s).
Proof.
  intros [[t Et] (T0 & T0' & n & E1 & E2 & H)]. unfold v_update. rewrite E1, E2, Et.
  destruct (feqb (Fin t) (Fin (T0' + INR n * shift_ss))) eqn:A; cbn; auto.
  destruct (feqb (Fin t) (Fin (T0 + INR n * shift))) eqn:B; cbn; auto.
  destruct (feqb (v_P s) (v_Pss s)) eqn:E; cbn; auto.
  apply feqb_fin in A. apply feqb_fin in B. apply feqb_eq in E. pose proof (pos_INR n) as PN. unfold shift, shift_ss in A, B.
  destruct H as [[-> H]|[-> ->]].
  - assert (n = 0%nat). { destruct n; auto. exfalso. pose proof (lt_0_INR (S n) ltac:(lia)). lra. }
    subst n. rewrite H; auto. rewrite E. f_equal. f_equal. change (INR 0) with 0 in A. lra.
  - exfalso. lra.
Qed.
Lemma v_step_inv s o : match o with VT PInf => False | _ => True end -> v_inv s -> v_inv (v_step eval evals s o).
Proof.
  intros F I. pose proof I as [[t0 Et] (T0 & T0' & n & E1 & E2 & H)]. destruct o; cbn.
  - destruct (good_T t) eqn:G; auto. split; [|exists T0, T0', n; cbn; auto]. cbn. destruct t; try discriminate; eauto. contradiction.
  - split; [eauto|]. exists T0, T0', n. cbn. auto.
  - split; [eauto|]. exists T0, T0', (S n). cbn [v_invalidate v_tlast v_Tss v_ss v_d v_Pss]. rewrite E1, E2, S_INR. unfold fadd.
    split; [f_equal; lra|]. split; [f_equal; lra|]. destruct H as [[H _]|H]; auto. left. split; auto. discriminate.
  - pose proof (v_update_fresh s I) as FR. unfold v_update in *.
    destruct (negb (feqb (v_T s) (v_Tss s)) || negb (feqb (v_T s) (v_tlast s)) || negb (feqb (v_P s) (v_Pss s))) eqn:B; auto.
    split; [cbn; eauto|]. exists t0, t0, 0%nat. cbn. rewrite Et. change (INR 0) with 0. rewrite !Rmult_0_l, !Rplus_0_r. auto.
Qed.
Lemma v_run_inv h : forall s, finite_Ts h -> v_inv s -> v_inv (fold_left (v_step eval evals) h s).
Proof. induction h; intros s F OK; cbn; auto. inversion_clear F. auto using v_step_inv. Qed.
Lemma v_run_obs h : forall s, let s' := fold_left (v_step eval evals) h s in
  v_T s' = vT_after (v_T s) h /\ v_d s' = vD_after (v_d s) h /\ v_P s' = vP_after (v_P s) h.
Proof.
  induction h as [|o h IH]; intros s; cbn; auto. destruct (IH (v_step eval evals s o)) as (A & B & E). rewrite A, B, E. clear.
  unfold vT_after, vD_after, vP_after. cbn. destruct o; cbn; auto.
  - destruct (good_T t); auto.
  - unfold v_update; destruct (_ || _); auto.
Qed.
Lemma v_run_noread h : forall s, vno_read h -> let s' := fold_left (v_step eval evals) h s in
  v_tlast s' = shifted (vchanges h) (v_tlast s) /\ v_ref s' = v_ref s.
Proof.
  induction h as [|o h IH]; intros s N; cbn; auto. inversion_clear N. destruct (IH (v_step eval evals s o) H0) as (A & B). rewrite A, B.
  destruct o; cbn; try congruence; auto.
  - destruct (good_T t); auto.
  - split; auto. apply shifted_shift.
Qed.
Lemma v_update_tlast s : v_tlast (v_update eval evals s) = v_T s.
Proof.
  unfold v_update. destruct (feqb (v_T s) (v_tlast s)) eqn:E; cbn; destruct (feqb (v_T s) (v_Tss s)); cbn; auto.
  destruct (feqb (v_P s) _); cbn; auto. apply feqb_eq in E; auto.
Qed.
Lemma v_ref_exact h1 h2 d : vno_read h2 ->
  let h := h1 ++ VRead :: h2 in
  let s := fold_left (v_step eval evals) h (v_init d) in
  let T0 := vT_after (Fin (1 / 1000)) h1 in let T := vT_after (Fin (1 / 1000)) h in
  v_ref (v_update eval evals s) =
    if feqb T (shifted (vchanges h2) T0) then v_ref (v_update eval evals (fold_left (v_step eval evals) h1 (v_init d))) else eval (vD_after d h) T.
Proof.
  intros N h s T0 T.
  destruct (v_run_obs h (v_init d)) as (A & B & _). fold s in A, B. cbn in A, B. fold T in A.
  set (s1 := v_update eval evals (fold_left (v_step eval evals) h1 (v_init d))).
  assert (L : v_tlast s1 = T0).
  { unfold s1. rewrite v_update_tlast. destruct (v_run_obs h1 (v_init d)) as (A1 & _). exact A1. }
  assert (Q : s = fold_left (v_step eval evals) h2 s1). { unfold s, h. rewrite fold_left_app. reflexivity. }
  destruct (v_run_noread h2 s1 N) as [P1 P2]. rewrite <- Q in P1, P2. rewrite L in P1.
  unfold v_update at 1. rewrite P1, A. destruct (feqb T (shifted (vchanges h2) T0)) eqn:F; cbn.
  - destruct (_ || _); cbn; auto.
  - rewrite orb_true_r. cbn. rewrite B. reflexivity.
Qed.
End Phases.

(* ---------------------------------------------------------------- *)
Section Hmw.
Context (adebye : fp -> fp -> outcome R).
Lemma h_const_inv a s o : h_A s = Some a -> h_water s = false ->
  match o with HSet _ => False | _ => True end -> h_A (h_step adebye s o) = Some a /\ h_water (h_step adebye s o) = false.
Proof.
  intros A B O. destruct o; cbn; try contradiction; auto. unfold h_read. destruct (validate _ _) as [[] c]; cbn; auto. rewrite B. cbn. auto.
Qed.
Definition h_good (s : hmw) : Prop :=
  h_water s = true /\ forall T P, fst (validate (h_c s) (KDD T P)) = true -> exists a, h_A s = Some a /\ adebye T P = Ok a.
Lemma h_water_read s T P : h_good s -> fst (h_read adebye s T P) = adebye T P.
Proof.
  intros [W H]. unfold h_read. specialize (H T P). destruct (validate (h_c s) (KDD T P)) as [[] c]; cbn in *.
  - destruct (H eq_refl) as (a & -> & ->). reflexivity.
  - rewrite W. destruct (adebye T P); reflexivity.
Qed.
Lemma h_water_step s o : h_good s ->
  match o with HSet _ => False | HClear => True | HRead T P => exists a, adebye T P = Ok a end -> h_good (h_step adebye s o).
Proof.
  intros [W H] O. destruct o as [|  |T P]; cbn; try contradiction.
  - split; auto. intros T P X. discriminate.
  - destruct O as [a Ea]. unfold h_read. specialize (H T P) as HTP. unfold validate in *.
    destruct (feqb (k1 (h_c s)) T && feqb (k2 (h_c s)) P) eqn:V; cbn; [split; auto|].
    rewrite W, Ea. cbn. split; auto. cbn. intros T' P' X.
    destruct (feqb T T') eqn:E; cbn in X; try discriminate. destruct (feqb P P') eqn:F; try discriminate.
    apply feqb_eq in E. apply feqb_eq in F. subst. eauto.
Qed.
End Hmw.
