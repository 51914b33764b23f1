From Coq Require Import Reals Lra ZArith Lia String List Bool Arith.
From Verif Require Import Base.Outcome Base.Fp Phase.Model Phase.Spec Phase.Props ZeroD.NetModel
  ZeroD.IndexModel ZeroD.IndexSpec.
Import ListNotations.
Local Open Scope string_scope.
Local Open Scope list_scope.
Local Open Scope nat_scope.

Lemma concat_len {A} (l : list (list A)) : length (concat l) = list_sum (map (@length A) l).
Proof. induction l as [|a l IH]; cbn; [reflexivity|]. rewrite app_length, IH. reflexivity. Qed.
Lemma names_kk x : length (concat (map t_names (phases x))) = t_kk (x_gas x) + list_sum (map t_kk (x_surf x)).
Proof. rewrite concat_len. cbn. rewrite map_map. reflexivity. Qed.
Lemma variables_first k : length (variables k) = first_species k.
Proof. destruct k; reflexivity. Qed.

(* Invariants: m_nv agrees with the phases, m_start with m_nv. *)
Definition initialised (x : rx) : Prop := x_kind x <> KReservoir /\ x_nv x = length (names x).
Lemma x_initialize_ok x : x_kind x <> KReservoir -> initialised (x_initialize x).
Proof.
  intros H. split; [exact H|]. unfold names. rewrite app_length. change (phases (x_initialize x)) with (phases x).
  rewrite names_kk. change (x_kind (x_initialize x)) with (x_kind x). unfold x_initialize. cbn [x_nv x_set_nv].
  destruct (x_kind x); cbn [variables length]; try lia. congruence.
Qed.
Definition consistent (s : inet) : Prop :=
  Forall initialised (in_rx s) /\ in_start s = 0 :: starts 0 (in_rx s) /\ in_nv s = list_sum (map x_nv (in_rx s)) /\ in_rx s <> [].
Definition kinds_ok (s : inet) : Prop := Forall (fun x => x_kind x <> KReservoir) (in_rx s).

Lemma lput_map {A B} (f : A -> B) l i v : (forall a, nth_error l i = Some a -> f v = f a) -> map f (lput l i v) = map f l.
Proof.
  revert i. induction l as [|a l IH]; intros i H; [reflexivity|]. destruct i as [|i]; cbn.
  - rewrite (H a eq_refl). reflexivity.
  - rewrite IH; [reflexivity|]. intros b Hb. apply H. exact Hb.
Qed.
Lemma lput_Forall {A} (P : A -> Prop) l i v : Forall P l -> P v -> Forall P (lput l i v).
Proof. revert i. induction l as [|a l IH]; intros i H V; [constructor|]. inversion H; subst. destruct i; constructor; auto. Qed.
Lemma lput_length {A} (l : list A) i v : length (lput l i v) = length l.
Proof. revert i. induction l; intros [|i]; cbn; auto. Qed.
Lemma lput_nth {A} (l : list A) i v j : nth_error (lput l i v) j = if Nat.eqb i j then (match nth_error l j with Some _ => Some v | None => None end) else nth_error l j.
Proof.
  revert i j. induction l as [|a l IH]; intros i j; cbn; [destruct (i =? j), j; reflexivity|].
  destruct i as [|i], j as [|j]; cbn; try reflexivity. rewrite IH. reflexivity.
Qed.
Lemma starts_ext l l' : map x_nv l = map x_nv l' -> forall n, starts n l = starts n l'.
Proof.
  revert l'. induction l as [|x l IH]; intros [|x' l'] H n; cbn in *; try discriminate; [reflexivity|].
  injection H as H1 H2. rewrite H1. rewrite (IH l' H2). reflexivity.
Qed.

Lemma initialize_consistent s : kinds_ok s -> in_rx s <> [] -> consistent (snd (initialize s)).
Proof.
  intros K N. unfold initialize. destruct (in_rx s) as [|x l] eqn:E; [congruence|].
  cbn [snd]. unfold consistent. cbn [in_rx in_start in_nv].
  split; [|split; [reflexivity|split; [reflexivity|cbn; discriminate]]].
  unfold kinds_ok in K. rewrite E in K. clear E N. induction K as [|y m Hy K IH]; cbn; constructor; [apply x_initialize_ok; exact Hy|exact IH].
Qed.
Lemma kinds_initialize s : kinds_ok s -> kinds_ok (snd (initialize s)).
Proof.
  unfold kinds_ok, initialize. destruct (in_rx s) as [|x l] eqn:E; cbn [snd in_rx]; [constructor|].
  intros K. rewrite Forall_map. exact K.
Qed.
Lemma set_rx_consistent s r x x' : consistent s -> nth_error (in_rx s) r = Some x ->
  x_nv x' = x_nv x -> x_kind x' = x_kind x -> names x' = names x -> consistent (set_rx s r x').
Proof.
  intros (F & S & V & N) E E1 E2 E3.
  assert (M : map x_nv (lput (in_rx s) r x') = map x_nv (in_rx s)).
  { apply lput_map. intros a Ha. rewrite E in Ha. injection Ha as <-. exact E1. }
  unfold consistent, set_rx. cbn [in_rx in_start in_nv].
  split; [|split; [|split]].
  - apply lput_Forall; [exact F|]. rewrite Forall_forall in F. destruct (F x (nth_error_In _ _ E)) as [A B].
    split; [rewrite E2; exact A|rewrite E1, E3; exact B].
  - rewrite S. rewrite (starts_ext _ _ M). reflexivity.
  - rewrite V, M. reflexivity.
  - intros C. apply (f_equal (@length rx)) in C. rewrite lput_length in C. cbn in C. destruct (in_rx s); [congruence|discriminate].
Qed.
Lemma setLimit_keeps x k v x' : setLimit_at x k v = Ok x' -> x_nv x' = x_nv x /\ x_kind x' = x_kind x /\ phases x' = phases x /\ x_name x' = x_name x.
Proof. unfold setLimit_at. destruct (_ <? _); [|discriminate]. intros H. injection H as <-. repeat split. Qed.

Lemma limit_consistent s r nm v : kinds_ok s -> consistent s -> consistent (snd (setAdvanceLimit s r nm v)).
Proof.
  intros K C. unfold setAdvanceLimit. destruct (nth_error (in_rx s) r) as [x|] eqn:E; [|exact C].
  assert (W : forall s k, consistent s -> consistent (snd (match nth_error (in_rx s) r with
     | Some x => match setLimit_at x k v with Ok x' => (Ok tt, set_rx s r x') | _ => (@UB unit, s) end
     | None => (UB, s) end))).
  { intros s1 k C1. destruct (nth_error (in_rx s1) r) as [y|] eqn:Ey; [|exact C1].
    destruct (setLimit_at y k v) as [y'| | |] eqn:El; cbn [snd]; try exact C1.
    destruct (setLimit_keeps _ _ _ _ El) as (A1 & A2 & A3 & _).
    apply (set_rx_consistent s1 r y y' C1 Ey A1 A2). unfold names. rewrite A2, A3. reflexivity. }
  destruct (componentIndex x nm) as [[k|]| | |]; try exact C.
  destruct (x_nv x =? 0).
  - pose proof (initialize_consistent s K (proj2 (proj2 (proj2 C)))) as I.
    destruct (initialize s) as [[| | |] s1]; cbn [snd] in *; try exact I. apply W. exact I.
  - destruct (x_nv x <? k); [exact C|]. specialize (W s k C). rewrite E in W. exact W.
Qed.
Lemma limit_kinds s r nm v : kinds_ok s -> kinds_ok (snd (setAdvanceLimit s r nm v)).
Proof.
  intros K. unfold setAdvanceLimit. destruct (nth_error (in_rx s) r) as [x|] eqn:E; [|exact K].
  assert (W : forall s k, kinds_ok s -> kinds_ok (snd (match nth_error (in_rx s) r with
     | Some x => match setLimit_at x k v with Ok x' => (Ok tt, set_rx s r x') | _ => (@UB unit, s) end
     | None => (UB, s) end))).
  { intros s1 k C1. destruct (nth_error (in_rx s1) r) as [y|] eqn:Ey; [|exact C1].
    destruct (setLimit_at y k v) as [y'| | |] eqn:El; cbn [snd]; try exact C1.
    destruct (setLimit_keeps _ _ _ _ El) as (A1 & A2 & A3 & _). unfold kinds_ok in *. cbn [in_rx set_rx].
    apply lput_Forall; [exact C1|]. rewrite A2. rewrite Forall_forall in C1. apply C1. eapply nth_error_In. exact Ey. }
  destruct (componentIndex x nm) as [[k|]| | |]; try exact K.
  destruct (x_nv x =? 0).
  - pose proof (kinds_initialize s K) as I.
    destruct (initialize s) as [[| | |] s1]; cbn [snd] in *; try exact I. apply W. exact I.
  - destruct (x_nv x <? k); [exact K|]. specialize (W s k K). rewrite E in W. exact W.
Qed.
Lemma query_state s nm r : snd (globalComponentIndex s nm r) = if in_init s then s else snd (initialize s).
Proof.
  unfold globalComponentIndex, ensure. destruct (in_init s); [reflexivity|].
  destruct (initialize s) as [[| | |] s1]; reflexivity.
Qed.
Lemma istep_kinds s o : kinds_ok s -> kinds_ok (istep s o).
Proof.
  intros K. destruct o as [k n g ss|r t| | |r nm v|nm r]; cbn [istep].
  - destruct k; try exact K; unfold kinds_ok; cbn [in_rx]; apply Forall_app; (split; [exact K|]); repeat constructor; discriminate.
  - destruct (nth_error (in_rx s) r) as [x|] eqn:E; [|exact K]. unfold kinds_ok, set_rx. cbn [in_rx].
    apply lput_Forall; [exact K|]. unfold kinds_ok in K. rewrite Forall_forall in K. apply (K x). eapply nth_error_In. exact E.
  - apply kinds_initialize. exact K.
  - exact K.
  - apply limit_kinds. exact K.
  - rewrite query_state. destruct (in_init s); [exact K|apply kinds_initialize; exact K].
Qed.
Lemma irun_kinds ops : kinds_ok (irun ops).
Proof.
  unfold irun. assert (G : forall s, kinds_ok s -> kinds_ok (fold_left istep ops s)).
  { induction ops as [|o l IH]; intros s K; [exact K|]. apply IH. apply istep_kinds. exact K. }
  apply G. constructor.
Qed.
Lemma istep_consistent s o : settled_op o -> kinds_ok s -> consistent s -> consistent (istep s o).
Proof.
  intros So K C. destruct o as [k n g ss|r t| | |r nm v|nm r]; cbn [istep]; try destruct So.
  - apply initialize_consistent; [exact K|apply C].
  - exact C.
  - apply limit_consistent; assumption.
  - rewrite query_state. destruct (in_init s); [exact C|apply initialize_consistent; [exact K|apply C]].
Qed.
Lemma used_consistent ops1 ops2 s : used ops1 ops2 s -> consistent s.
Proof.
  intros (-> & F & N). unfold irun. rewrite fold_left_app. cbn [fold_left]. fold (irun ops1).
  assert (C : consistent (istep (irun ops1) IInit)) by (apply initialize_consistent; [apply irun_kinds|exact N]).
  assert (K : kinds_ok (istep (irun ops1) IInit)) by (apply istep_kinds, irun_kinds).
  revert C K. generalize (istep (irun ops1) IInit). induction F as [|o l So F IH]; intros s C K; [exact C|].
  cbn [fold_left]. apply IH; [apply istep_consistent; assumption|apply istep_kinds; exact K].
Qed.

(* ---------------------------------------------------------------- *)
(* Names *)
Lemma surf_name_nth ss : forall k, surf_name ss k = match nth_error (concat (map t_names ss)) k with Some nm => Ok nm | None => Err end.
Proof.
  induction ss as [|t ss IH]; intros k; cbn [surf_name map concat]; [destruct k; reflexivity|].
  destruct (k <? t_kk t) eqn:E.
  - apply Nat.ltb_lt in E. unfold speciesName. rewrite nth_error_app1 by exact E. reflexivity.
  - apply Nat.ltb_ge in E. rewrite IH, nth_error_app2 by exact E. reflexivity.
Qed.
Lemma species_name_nth x k : species_name x k = match nth_error (concat (map t_names (phases x))) k with Some nm => Ok nm | None => Err end.
Proof. exact (surf_name_nth (phases x) k). Qed.
Lemma ranged_nth x f k : x_nv x = length (names x) -> f = length (variables (x_kind x)) -> f <= k ->
  ranged_name x f k = match nth_error (names x) k with Some nm => Ok nm | None => Err end.
Proof.
  intros V -> L. unfold ranged_name. rewrite (proj2 (Nat.leb_le _ _) L). cbn [andb]. unfold names at 1.
  rewrite nth_error_app2 by exact L. rewrite <- species_name_nth.
  destruct (k <? x_nv x) eqn:E; [reflexivity|]. apply Nat.ltb_ge in E. rewrite species_name_nth.
  rewrite (proj2 (nth_error_None _ _)); [reflexivity|]. rewrite V in E. unfold names in E. rewrite app_length in E. lia.
Qed.
Lemma componentName_nth x k : initialised x ->
  componentName x k = match nth_error (names x) k with Some nm => Ok nm | None => Err end.
Proof.
  intros [K V]. unfold componentName, name_Reactor, name_ConstP, name_Mole.
  pose proof (ranged_nth x (length (variables (x_kind x))) k V eq_refl) as R. unfold names. unfold names in R.
  destruct (x_kind x) eqn:E; cbn [variables length app] in *; try congruence;
    destruct k as [|[|[|k]]]; cbn [nth_error] in *; try reflexivity; apply R; lia.
Qed.

(* Indices *)
Lemma made_lookup t : made t -> forall k nm, nth_error (t_names t) k = Some nm -> speciesIndex t nm = Ok (Some k).
Proof.
  intros (db & h & W & ->) k nm H. destruct (C08_species_name_index db h W) as (A & _ & _ & _).
  destruct (A k) as (s & S1 & S2). { apply nth_error_Some. congruence. }
  unfold speciesName in S1. rewrite H in S1. injection S1 as <-. exact S2.
Qed.
Lemma made_range t : made t -> forall k nm, speciesIndex t nm = Ok (Some k) -> k < t_kk t.
Proof. intros (db & h & W & ->) k nm H. destruct (C08_species_name_index db h W) as (_ & _ & _ & A). eapply A. exact H. Qed.

Lemma surf_index_nth ss nm : forall off k, Forall made ss -> apart ss ->
  nth_error (concat (map t_names ss)) k = Some nm -> surf_index off ss nm = Ok (Some (k + off)).
Proof.
  induction ss as [|t ss IH]; intros off k M A H; cbn [map concat surf_index] in *; [destruct k; discriminate|].
  inversion M as [|? ? M1 M2]; subst. destruct A as [A1 A2].
  destruct (Nat.lt_ge_cases k (length (t_names t))) as [L|L].
  - rewrite nth_error_app1 in H by exact L. rewrite (made_lookup t M1 k nm H). reflexivity.
  - rewrite nth_error_app2 in H by exact L.
    assert (U : unknown t nm).
    { apply nth_error_In in H. apply in_concat in H. destruct H as (l & Hl & Hn). apply in_map_iff in Hl.
      destruct Hl as (t' & <- & Ht). exact (A1 t' nm Ht Hn). }
    unfold unknown in U. rewrite U. cbn [obind]. rewrite (IH (off + t_kk t) (k - length (t_names t)) M2 A2 H).
    f_equal. f_equal. unfold t_kk. lia.
Qed.
Lemma surf_index_unknown ss nm : forall off, (forall t, In t ss -> unknown t nm) -> surf_index off ss nm = Ok None.
Proof.
  induction ss as [|t ss IH]; intros off H; cbn [surf_index]; [reflexivity|].
  assert (U : unknown t nm) by (apply H; left; reflexivity). unfold unknown in U. rewrite U. cbn [obind]. apply IH. intros; apply H; right; assumption.
Qed.
Lemma surf_index_range ss nm : forall off k, Forall made ss -> surf_index off ss nm = Ok (Some k) ->
  off <= k < off + length (concat (map t_names ss)).
Proof.
  induction ss as [|t ss IH]; intros off k M H; cbn [surf_index map concat] in *; [discriminate|].
  inversion M as [|? ? M1 M2]; subst. rewrite app_length.
  destruct (speciesIndex t nm) as [[j|]| | |] eqn:E; cbn [obind] in H; try discriminate.
  - injection H as <-. pose proof (made_range t M1 j nm E). unfold t_kk in *. lia.
  - apply IH in H; [|exact M2]. unfold t_kk in *. lia.
Qed.
Lemma x_speciesIndex_phases x nm : x_speciesIndex x nm = surf_index 0 (phases x) nm.
Proof.
  unfold x_speciesIndex, phases. cbn [surf_index]. destruct (speciesIndex (x_gas x) nm) as [[k|]| | |]; try reflexivity.
  cbn [obind]. rewrite Nat.add_0_r. reflexivity.
Qed.
Lemma fixed_nth k nm i : nth_error (variables k) i = Some nm -> fixed_index k nm = Some i.
Proof.
  intros H. destruct k; cbn [variables] in H; destruct i as [|[|[|i]]]; cbn [nth_error] in H; try discriminate;
    try (injection H as <-; reflexivity); destruct i; discriminate.
Qed.
Lemma componentIndex_nth x k nm : Forall made (phases x) -> clear x -> nth_error (names x) k = Some nm ->
  componentIndex x nm = Ok (Some k).
Proof.
  intros M [C1 C2] H. unfold componentIndex. rewrite x_speciesIndex_phases. unfold names in H.
  destruct (Nat.lt_ge_cases k (length (variables (x_kind x)))) as [L|L].
  - rewrite nth_error_app1 in H by exact L. rewrite surf_index_unknown.
    2:{ intros t Ht. apply (C1 t nm Ht). eapply nth_error_In. exact H. }
    cbn [obind]. rewrite (fixed_nth _ _ _ H). reflexivity.
  - rewrite nth_error_app2 in H by exact L. rewrite (surf_index_nth _ _ 0 _ M C2 H). cbn [obind].
    f_equal. f_equal. rewrite <- variables_first. lia.
Qed.
Lemma fixed_range k nm i : fixed_index k nm = Some i -> i < length (variables k).
Proof.
  unfold fixed_index. destruct k; cbn [variables length];
    repeat (match goal with |- context [if ?b then _ else _] => destruct b end; [intros H; injection H as <-; lia|]); discriminate.
Qed.
Lemma componentIndex_range x nm k : Forall made (phases x) -> componentIndex x nm = Ok (Some k) -> k < length (names x).
Proof.
  intros M H. unfold componentIndex in H. rewrite x_speciesIndex_phases in H. unfold names. rewrite app_length.
  destruct (surf_index 0 (phases x) nm) as [[j|]| | |] eqn:E; cbn [obind] in H; try discriminate.
  - injection H as <-. apply surf_index_range in E; [|exact M]. rewrite <- variables_first. lia.
  - injection H as H. apply fixed_range in H. lia.
Qed.

(* ---------------------------------------------------------------- *)
(* The network's vector *)
Lemma starts_nth l : forall n r, r < length l -> nth_error (n :: starts n l) r = Some (n + list_sum (map x_nv (firstn r l))).
Proof.
  induction l as [|x l IH]; intros n r H; [cbn in H; lia|]. destruct r as [|r].
  - cbn. f_equal. lia.
  - cbn [starts nth_error]. cbn in H. change (match r with 0 => Some (n + x_nv x) | S n0 => nth_error (starts (n + x_nv x) l) n0 end)
      with (nth_error ((n + x_nv x) :: starts (n + x_nv x) l) r). rewrite (IH (n + x_nv x) r) by lia. cbn [firstn map list_sum fold_right]. f_equal. unfold list_sum. lia.
Qed.
Lemma nv_names l : Forall initialised l -> map x_nv l = map (fun x => length (names x)) l.
Proof. intros F. induction F as [|x l [_ E] F IH]; cbn; [reflexivity|]. rewrite E, IH. reflexivity. Qed.
Lemma consistent_start s r : consistent s -> r < length (in_rx s) -> nth_error (in_start s) r = Some (offset s r).
Proof.
  intros (F & S & _ & _) H. rewrite S, starts_nth by exact H. unfold offset. f_equal. cbn [Nat.add].
  f_equal. apply nv_names. rewrite <- (firstn_skipn r (in_rx s)) in F. apply Forall_app in F. apply F.
Qed.
Lemma net_name_nth l : Forall initialised l -> forall i,
  net_name l i = match nth_error (concat (map (fun x => map (fun c => (x_name x ++ ": " ++ c)%string) (names x)) l)) i with
                 | Some nm => Ok nm | None => Err end.
Proof.
  intros F. induction F as [|x l I F IH]; intros i; cbn [net_name map concat]; [destruct i; reflexivity|].
  destruct I as [K V]. rewrite V. destruct (i <? length (names x)) eqn:E.
  - apply Nat.ltb_lt in E. rewrite nth_error_app1 by (rewrite map_length; exact E). rewrite nth_error_map.
    rewrite componentName_nth by (split; assumption). destruct (nth_error (names x) i) eqn:En; [reflexivity|].
    apply nth_error_None in En. lia.
  - apply Nat.ltb_ge in E. rewrite IH, nth_error_app2 by (rewrite map_length; exact E). rewrite map_length. reflexivity.
Qed.
Lemma net_names_length s : consistent s -> length (net_names s) = in_nv s.
Proof.
  intros (F & _ & V & _). rewrite V, (nv_names _ F). unfold net_names. rewrite concat_len, map_map. f_equal.
  apply map_ext. intros x. apply map_length.
Qed.
Lemma offset_end l : forall r x, nth_error l r = Some x ->
  list_sum (map (fun x => length (names x)) (firstn r l)) + length (names x) <= list_sum (map (fun x => length (names x)) l).
Proof.
  induction l as [|y l IH]; intros [|r] x H; cbn in *; try discriminate.
  - injection H as ->. lia.
  - apply IH in H. unfold list_sum in *. lia.
Qed.

(* ---------------------------------------------------------------- *)
(* Limits *)
Definition lim_ok (x : rx) : Prop := x_lim x = [] \/ length (x_lim x) = x_nv x.
Lemma getLimits_length x : lim_ok x -> length (getLimits x) = x_nv x.
Proof.
  unfold lim_ok, getLimits, hasLimits. destruct (x_lim x) as [|a l]; intros H; [apply repeat_length|].
  destruct H as [H|H]; [discriminate|exact H].
Qed.
Lemma put_list_eq {A} (l : list A) : forall a off, off + length l <= length a ->
  put_list a off l = firstn off a ++ l ++ skipn (off + length l) a.
Proof.
  induction l as [|v l IH]; intros a off H; cbn [put_list length app] in *.
  - rewrite Nat.add_0_r. symmetry. apply firstn_skipn.
  - rewrite IH by (rewrite lput_length; lia).
    assert (E : forall off (a : list A), off < length a -> firstn (S off) (lput a off v) = firstn off a ++ [v] /\
                (forall m, S off <= m -> skipn m (lput a off v) = skipn m a)).
    { clear. induction off as [|off IH]; intros [|b a] H; cbn in H; try lia.
      - split; [reflexivity|]. intros [|m] Hm; [lia|reflexivity].
      - destruct (IH a) as [A1 A2]; [lia|]. split.
        + cbn [lput]. rewrite !firstn_cons. rewrite A1. reflexivity.
        + intros [|m] Hm; [lia|]. cbn. apply A2. lia. }
    destruct (E off a) as [E1 E2]; [lia|]. rewrite E1, E2 by lia.
    rewrite <- app_assoc. cbn [app]. f_equal. f_equal. f_equal. f_equal. lia.
Qed.
Lemma limits_concat l : Forall lim_ok l -> forall n pre rest, length pre = n -> length rest = list_sum (map x_nv l) ->
  fold_left (fun a p => put_list a (fst p) (getLimits (snd p))) (combine (n :: starts n l) l) (pre ++ rest) =
  pre ++ concat (map getLimits l).
Proof.
  intros F. induction F as [|x l Hx F IH]; intros n pre rest Hp Hr.
  - cbn in *. destruct rest; [reflexivity|discriminate].
  - cbn [starts combine fold_left fst snd map concat]. cbn [map list_sum fold_right] in Hr. change (fold_right Init.Nat.add 0 (map x_nv l)) with (list_sum (map x_nv l)) in Hr.
    rewrite put_list_eq by (rewrite app_length, getLimits_length by exact Hx; lia).
    rewrite getLimits_length by exact Hx.
    rewrite firstn_app, firstn_all2 by lia. replace (n - length pre) with 0 by lia. cbn [firstn]. rewrite app_nil_r.
    rewrite skipn_app, (skipn_all2 pre) by lia. cbn [app]. rewrite app_assoc.
    rewrite (IH (n + x_nv x) (pre ++ getLimits x)).
    + rewrite <- app_assoc. reflexivity.
    + rewrite app_length, getLimits_length by exact Hx. lia.
    + rewrite skipn_length. lia.
Qed.
Lemma net_limits_concat s a : consistent s -> Forall lim_ok (in_rx s) -> length a = in_nv s ->
  net_limits s a = concat (map getLimits (in_rx s)).
Proof.
  intros (_ & S & V & _) F H. unfold net_limits. rewrite S.
  exact (limits_concat (in_rx s) F 0 [] a eq_refl (eq_trans H V)).
Qed.

Lemma shrink_length l n : length l = n -> shrink l = [] \/ length (shrink l) = n.
Proof. intros H. unfold shrink. destruct (any_limit l); [right; exact H|left; reflexivity]. Qed.
Lemma resize_length {A} n (v : A) l : length (resize n v l) = n.
Proof. unfold resize. rewrite app_length, repeat_length, firstn_length. lia. Qed.
Lemma setLimit_lim x k v x' : setLimit_at x k v = Ok x' -> lim_ok x'.
Proof.
  unfold setLimit_at. destruct (_ <? _); [|discriminate]. intros H. injection H as <-. unfold lim_ok. cbn [x_lim x_nv x_set_lim].
  apply shrink_length. rewrite lput_length. apply resize_length.
Qed.
Lemma x_initialize_same x : initialised x -> x_initialize x = x.
Proof.
  intros I. destruct (x_initialize_ok x (proj1 I)) as [_ V].
  assert (E : x_nv (x_initialize x) = x_nv x).
  { rewrite V. destruct I as [_ I]. rewrite I. reflexivity. }
  destruct x. unfold x_initialize in *; cbn in E |- *; rewrite E. reflexivity.
Qed.
Lemma initialize_same s : consistent s -> in_rx (snd (initialize s)) = in_rx s /\ consistent (snd (initialize s)).
Proof.
  intros C. assert (K : kinds_ok s).
  { destruct C as (F & _). unfold kinds_ok. eapply Forall_impl; [|exact F]. intros x H. apply H. }
  split; [|apply initialize_consistent; [exact K|apply C]].
  destruct C as (F & _ & _ & N). unfold initialize. destruct (in_rx s) as [|x l] eqn:E; [congruence|]. rewrite <- E in *. cbn [snd in_rx].
  clear -F. induction F as [|y m Hy F IH]; cbn; [reflexivity|]. rewrite x_initialize_same by exact Hy. rewrite IH. reflexivity.
Qed.
Lemma nv_pos x : initialised x -> 0 < x_nv x.
Proof. intros [K V]. rewrite V. unfold names. rewrite app_length, variables_first. destruct (x_kind x); cbn; try lia. congruence. Qed.
(* setAdvanceLimit on an initialized network. *)
Lemma setAdvanceLimit_ok s r nm v s' : consistent s -> setAdvanceLimit s r nm v = (Ok tt, s') ->
  exists x k x', nth_error (in_rx s) r = Some x /\ componentIndex x nm = Ok (Some k) /\ k < x_nv x /\
    setLimit_at x k v = Ok x' /\ s' = set_rx s r x'.
Proof.
  intros C H. unfold setAdvanceLimit in H. destruct (nth_error (in_rx s) r) as [x|] eqn:E; [|discriminate].
  assert (I : initialised x). { destruct C as (F & _). rewrite Forall_forall in F. apply F. eapply nth_error_In. exact E. }
  destruct (componentIndex x nm) as [[k|]| | |] eqn:Ek; try discriminate.
  pose proof (nv_pos x I) as P. destruct (x_nv x =? 0) eqn:E0; [apply Nat.eqb_eq in E0; lia|].
  destruct (x_nv x <? k); [discriminate|]. destruct (setLimit_at x k v) as [x'| | |] eqn:El; try discriminate.
  injection H as <-. exists x, k, x'. repeat split; try assumption.
  unfold setLimit_at in El. destruct (k <? x_nv x) eqn:Lk; [apply Nat.ltb_lt in Lk; exact Lk|discriminate].
Qed.
Lemma setAdvanceLimit_state s r nm v : consistent s ->
  in_rx (snd (setAdvanceLimit s r nm v)) = in_rx s \/
  exists x k x', nth_error (in_rx s) r = Some x /\ setLimit_at x k v = Ok x' /\ snd (setAdvanceLimit s r nm v) = set_rx s r x'.
Proof.
  intros C. unfold setAdvanceLimit. destruct (nth_error (in_rx s) r) as [x|] eqn:E; [|left; reflexivity].
  assert (I : initialised x). { destruct C as (F & _). rewrite Forall_forall in F. apply F. eapply nth_error_In. exact E. }
  destruct (componentIndex x nm) as [[k|]| | |] eqn:Ek; try (left; reflexivity).
  pose proof (nv_pos x I) as P. destruct (x_nv x =? 0) eqn:E0; [apply Nat.eqb_eq in E0; lia|].
  destruct (x_nv x <? k); [left; reflexivity|]. destruct (setLimit_at x k v) as [x'| | |] eqn:El; try (left; reflexivity).
  right. exists x, k, x'. repeat split. exact El.
Qed.
Lemma used_limits ops1 ops2 s : used ops1 ops2 s -> Forall no_limit ops1 -> Forall lim_ok (in_rx s).
Proof.
  intros (-> & F & N) NL. unfold irun. rewrite fold_left_app. cbn [fold_left]. fold (irun ops1).
  assert (L0 : Forall (fun x => x_lim x = []) (in_rx (irun ops1))).
  { clear F N. unfold irun. assert (G : forall s, Forall (fun x => x_lim x = []) (in_rx s) -> Forall (fun x => x_lim x = []) (in_rx (fold_left istep ops1 s))).
    { induction NL as [|o l Ho NL IH]; intros s L; [exact L|]. cbn [fold_left]. apply IH. clear IH.
      assert (Li : Forall (fun x => x_lim x = []) (in_rx (snd (initialize s)))).
      { unfold initialize. destruct (in_rx s) as [|x m] eqn:E; [constructor|]. cbn [snd in_rx]. rewrite Forall_map. exact L. }
      destruct o as [k n g ss|r t| | |r nm v|nm r]; cbn [istep]; try destruct Ho.
      - destruct k; try exact L; cbn [in_rx]; apply Forall_app; (split; [exact L|]); repeat constructor.
      - destruct (nth_error (in_rx s) r) as [x|] eqn:E; [|exact L]. unfold set_rx. cbn [in_rx].
        apply lput_Forall; [exact L|]. rewrite Forall_forall in L. cbn [x_lim x_add_surf]. apply L. eapply nth_error_In. exact E.
      - exact Li.
      - exact L.
      - rewrite query_state. destruct (in_init s); [exact L|exact Li]. }
    apply G. constructor. }
  assert (C : consistent (istep (irun ops1) IInit)) by (apply initialize_consistent; [apply irun_kinds|exact N]).
  assert (L : Forall lim_ok (in_rx (istep (irun ops1) IInit))).
  { cbn [istep]. unfold initialize. destruct (in_rx (irun ops1)) as [|x m] eqn:E; [constructor|]. cbn [snd in_rx]. rewrite Forall_map.
    eapply Forall_impl; [|exact L0]. intros y Hy. left. exact Hy. }
  revert C L. generalize (istep (irun ops1) IInit). clear -F. induction F as [|o l So F IH]; intros s C L; [exact L|].
  cbn [fold_left].
  assert (K : kinds_ok s). { destruct C as (F1 & _). unfold kinds_ok. eapply Forall_impl; [|exact F1]. intros x H. apply H. }
  apply IH; [apply istep_consistent; assumption|].
  destruct o as [k n g ss|r t| | |r nm v|nm r]; cbn [istep]; try destruct So.
  - rewrite (proj1 (initialize_same s C)). exact L.
  - exact L.
  - destruct (setAdvanceLimit_state s r nm v C) as [->|(x & k & x' & E & El & ->)]; [exact L|].
    cbn [in_rx set_rx]. apply lput_Forall; [exact L|]. eapply setLimit_lim. exact El.
  - rewrite query_state. destruct (in_init s); [exact L|]. rewrite (proj1 (initialize_same s C)). exact L.
Qed.

(* limit_at through shrink, getLimits, lput. *)
Lemma shrink_limit x l k : x_lim x = shrink l -> x_nv x = length l -> limit_at (getLimits x) k = limit_at l k.
Proof.
  intros H V. unfold getLimits, hasLimits. rewrite H, V. unfold shrink. destruct (any_limit l) eqn:E.
  - destruct l; [discriminate|reflexivity].
  - unfold limit_at.
    destruct (Nat.lt_ge_cases k (length l)) as [L|L].
    + rewrite nth_error_repeat by exact L. destruct (nth_error l k) as [v|] eqn:En; [|apply nth_error_None in En; lia].
      destruct (Rlt_dec 0 (-1)) as [B|_]; [lra|]. destruct (Rlt_dec 0 v) as [B|_]; [|reflexivity].
      exfalso. unfold any_limit in E. assert (T : existsb (rltb 0) l = true).
      { apply existsb_exists. exists v. split; [eapply nth_error_In; exact En|]. apply rltb_true. exact B. }
      congruence.
    + rewrite !(proj2 (nth_error_None _ _)); [reflexivity|exact L|rewrite repeat_length; exact L].
Qed.
Lemma resize_limit x k : lim_ok x -> limit_at (resize (x_nv x) (-1)%R (x_lim x)) k = limit_at (getLimits x) k.
Proof.
  intros H. unfold getLimits, hasLimits. destruct (x_lim x) as [|a l] eqn:E.
  - unfold resize. rewrite firstn_nil. cbn [app length]. rewrite Nat.sub_0_r. reflexivity.
  - destruct H as [H|H]; [congruence|]. rewrite E in H. unfold resize. rewrite firstn_all2 by lia.
    replace (x_nv x - length (a :: l)) with 0 by lia. cbn [repeat]. rewrite app_nil_r. reflexivity.
Qed.
Lemma setLimit_effect x k v x' j : lim_ok x -> setLimit_at x k v = Ok x' ->
  limit_at (getLimits x') j = if Nat.eqb k j then (if Rlt_dec 0 v then Some v else None) else limit_at (getLimits x) j.
Proof.
  intros L H. unfold setLimit_at in H. destruct (k <? x_nv x) eqn:Lk; [|discriminate]. apply Nat.ltb_lt in Lk. injection H as <-.
  rewrite (shrink_limit _ (lput (resize (x_nv x) (-1)%R (x_lim x)) k v)); [|reflexivity|rewrite lput_length, resize_length; reflexivity].
  rewrite <- resize_limit by exact L. unfold limit_at. rewrite lput_nth. destruct (Nat.eqb_spec k j) as [<-|N]; [|reflexivity].
  destruct (nth_error (resize (x_nv x) (-1)%R (x_lim x)) k) eqn:E; [reflexivity|].
  apply nth_error_None in E. rewrite resize_length in E. lia.
Qed.
(* Positions in a concatenation. *)
Lemma concat_pos {A} (l : list (list A)) : forall r v k, nth_error l r = Some v -> k < length v ->
  nth_error (concat l) (list_sum (map (@length A) (firstn r l)) + k) = nth_error v k.
Proof.
  induction l as [|u l IH]; intros [|r] v k H Hk; cbn [nth_error concat firstn map list_sum fold_right] in *; try discriminate.
  - injection H as ->. apply nth_error_app1. exact Hk.
  - rewrite nth_error_app2 by lia. rewrite <- (IH r v k H Hk). f_equal. unfold list_sum. lia.
Qed.
Lemma concat_find {A} (l : list (list A)) : forall i, i < length (concat l) ->
  exists r v k, nth_error l r = Some v /\ k < length v /\ i = list_sum (map (@length A) (firstn r l)) + k.
Proof.
  induction l as [|u l IH]; intros i H; cbn [concat] in H; [cbn in H; lia|]. rewrite app_length in H.
  destruct (Nat.lt_ge_cases i (length u)) as [L|L].
  - exists 0, u, i. split; [reflexivity|]. split; [exact L|reflexivity].
  - destruct (IH (i - length u)) as (r & v & k & H1 & H2 & H3); [lia|]. exists (S r), v, k.
    split; [exact H1|]. split; [exact H2|]. cbn [firstn map list_sum fold_right]. unfold list_sum in H3. lia.
Qed.
Lemma sum_unique {A} (l : list (list A)) : forall r1 r2 v1 v2 k1 k2, nth_error l r1 = Some v1 -> nth_error l r2 = Some v2 ->
  k1 < length v1 -> k2 < length v2 ->
  list_sum (map (@length A) (firstn r1 l)) + k1 = list_sum (map (@length A) (firstn r2 l)) + k2 -> r1 = r2 /\ k1 = k2.
Proof.
  induction l as [|u l IH]; intros [|r1] [|r2] v1 v2 k1 k2 H1 H2 L1 L2 E; cbn [nth_error firstn map list_sum fold_right] in *; try discriminate.
  - split; [reflexivity|exact E].
  - injection H1 as ->. change (k1 = length v1 + list_sum (map (@length A) (firstn r2 l)) + k2) in E. lia.
  - injection H2 as ->. change (length v2 + list_sum (map (@length A) (firstn r1 l)) + k1 = k2) in E. lia.
  - change (length u + list_sum (map (@length A) (firstn r1 l)) + k1 = length u + list_sum (map (@length A) (firstn r2 l)) + k2) in E.
    destruct (IH r1 r2 v1 v2 k1 k2 H1 H2 L1 L2) as [-> ->]; [lia|]. split; reflexivity.
Qed.
