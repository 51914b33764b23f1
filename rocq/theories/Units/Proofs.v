(** Lemmas about units and unit strings. *)
From Coq Require Import Reals Lra ZArith Lia String Ascii List Bool Arith FunctionalExtensionality.
From Verif Require Import Base.Outcome Base.Fp Strings.Model Strings.Spec Strings.Proofs Strings.CompProofs Units.Model Units.Spec.
Import ListNotations.
Open Scope R_scope.

(** * Algebra *)
Lemma cpow_pos x y : 0 < x -> cpow x y = Rpower x y.
Proof. intros H. unfold cpow. destruct (Rlt_dec 0 x); [auto|contradiction]. Qed.
Lemma cpow_gt x y : 0 < x -> 0 < cpow x y.
Proof. intros H. rewrite cpow_pos by auto. apply exp_pos. Qed.
Lemma Int_part_IZR z : Int_part (IZR z) = z.
Proof.
  unfold Int_part. assert (up (IZR z) = (z + 1)%Z); [|lia]. symmetry. apply tech_up; rewrite plus_IZR; simpl; lra.
Qed.
Lemma cpow_0 x : cpow x 0 = 1.
Proof.
  unfold cpow. destruct (Rlt_dec 0 x); [now apply Rpower_O|].
  change 0 with (IZR 0). rewrite Int_part_IZR. assert (reqb (IZR 0) (IZR 0) = true) as -> by (now apply reqb_true). reflexivity.
Qed.
Lemma cpow_1 x : cpow x 1 = x.
Proof.
  unfold cpow. destruct (Rlt_dec 0 x); [now apply Rpower_1|].
  change 1 with (IZR 1). rewrite Int_part_IZR. assert (reqb (IZR 1) (IZR 1) = true) as -> by (now apply reqb_true).
  unfold powerRZ. simpl. ring.
Qed.
Lemma cpow_inv x y : 0 < x -> cpow x y * cpow x (- y) = 1.
Proof. intros H. rewrite !cpow_pos by auto. rewrite <- Rpower_plus, Rplus_opp_r. now apply Rpower_O. Qed.

Lemma make_fac f d : fac (make f d) = f.
Proof. unfold make. destruct (_ && _); [reflexivity|]. destruct (_ && _); reflexivity. Qed.
Lemma make_dim f d : dim (make f d) = d.
Proof. unfold make. destruct (_ && _); [reflexivity|]. destruct (_ && _); reflexivity. Qed.
Lemma convertible_iff u v : convertible u v = true <-> same_dims u v.
Proof.
  unfold convertible, same_dims. rewrite forallb_forall. split.
  - intros H b. apply reqb_true. apply H. destruct b; simpl; tauto.
  - intros H b _. apply reqb_true. auto.
Qed.
Lemma convertible_false u v : convertible u v = false <-> ~ same_dims u v.
Proof. rewrite <- convertible_iff. destruct (convertible u v); split; intros; try congruence. Qed.

(** the pseudo-dimensions under powers *)
Definition plike (d : base -> R) : Prop :=
  d Mass <> 0 /\ d Length = - d Mass /\ d Time = -2 * d Mass /\ d Temperature = 0 /\ d Current = 0 /\ d Quantity = 0.
Definition elike (d : base -> R) : Prop :=
  d Mass <> 0 /\ d Length = 2 * d Mass /\ d Time = -2 * d Mass /\ d Temperature = 0 /\ d Current = 0 /\ d Quantity = 0.
Lemma conds m l t a b c l' t' : negb (reqb m 0) && reqb l l' && reqb t t' && reqb a 0 && reqb b 0 && reqb c 0 = true <->
  m <> 0 /\ l = l' /\ t = t' /\ a = 0 /\ b = 0 /\ c = 0.
Proof. rewrite !andb_true_iff, negb_true_iff, reqb_false, !reqb_true. tauto. Qed.
Lemma make_cases f d :
  (plike d /\ make f d = mkU f d (d Mass) 0) \/ (~ plike d /\ elike d /\ make f d = mkU f d 0 (d Mass)) \/
  (~ plike d /\ ~ elike d /\ make f d = mkU f d 0 0).
Proof.
  unfold make. cbv zeta.
  destruct (negb (reqb (d Mass) 0) && reqb (d Length) (- d Mass) && _ && _ && _ && _) eqn:E1.
  - left. apply conds in E1. split; auto.
  - assert (~ plike d) as N by (intros H; apply conds in H; congruence).
    destruct (negb (reqb (d Mass) 0) && reqb (d Length) (2 * d Mass) && _ && _ && _ && _) eqn:E2.
    + right. left. apply conds in E2. auto.
    + right. right. split; auto. split; auto. intros H. apply conds in H. congruence.
Qed.
Lemma plike_scale d e : e <> 0 -> plike (fun b => d b * e) <-> plike d.
Proof.
  intros He. unfold plike. cbv beta. split; intros (A&B&C&D&E&F).
  - split; [intros Z; apply A; rewrite Z; ring|]. repeat split; apply (Rmult_eq_reg_r e); auto; lra.
  - split; [now apply Rmult_integral_contrapositive_currified|]. rewrite B, C, D, E, F. repeat split; ring.
Qed.
Lemma elike_scale d e : e <> 0 -> elike (fun b => d b * e) <-> elike d.
Proof.
  intros He. unfold elike. cbv beta. split; intros (A&B&C&D&E&F).
  - split; [intros Z; apply A; rewrite Z; ring|]. repeat split; apply (Rmult_eq_reg_r e); auto; lra.
  - split; [now apply Rmult_integral_contrapositive_currified|]. rewrite B, C, D, E, F. repeat split; ring.
Qed.
(** [u] looks like what the constructor makes of its dimensions *)
Definition pure (u : units) : Prop := pdim u = pdim (make 1 (dim u)) /\ edim u = edim (make 1 (dim u)).
Lemma make_pure f d : pure (make f d).
Proof.
  unfold pure. rewrite make_dim.
  destruct (make_cases f d) as [(A&->)|[(A&B&->)|(A&B&->)]]; destruct (make_cases 1 d) as [(A'&->)|[(A'&B'&->)|(A'&B'&->)]]; tauto.
Qed.
Lemma scale_pure k u : pure u -> pure (scale k u).
Proof. auto. Qed.
Lemma upow_pseudo u e : pure u -> pdim (upow u e) = pdim u * e /\ edim (upow u e) = edim u * e.
Proof.
  intros (P&E). rewrite P, E. unfold upow.
  destruct (Req_EM_T e 0) as [->|He].
  - rewrite !Rmult_0_r. destruct (make_cases (cpow (fac u) 0) (fun b => dim u b * 0)) as [((A&_)&->)|[(A&(B&_)&->)|(A&B&->)]]; simpl; auto;
      exfalso; lra.
  - destruct (make_cases (cpow (fac u) e) (fun b => dim u b * e)) as [(A&->)|[(A&B&->)|(A&B&->)]];
    destruct (make_cases 1 (dim u)) as [(A'&->)|[(A'&B'&->)|(A'&B'&->)]]; simpl; rewrite ?(plike_scale _ _ He) in *; rewrite ?(elike_scale _ _ He) in *;
      try tauto; split; ring.
Qed.

(** * The tables *)
Lemma lookup_in {A B} (eqb : A -> A -> bool) k (l : list (A * B)) v :
  lookup eqb k l = Some v -> exists a, In (a, v) l.
Proof.
  induction l as [|[a b] l IH]; simpl; [discriminate|]. destruct (eqb a k); intros H.
  - injection H as ->. exists a. auto.
  - destruct (IH H) as (a'&Ha). exists a'. auto.
Qed.
Lemma Avogadro_pos : 0 < Avogadro.
Proof. unfold Avogadro. apply Rmult_lt_0_compat; [lra|apply powerRZ_lt; lra]. Qed.
Lemma GasConstant_pos : 0 < GasConstant.
Proof. unfold GasConstant, Boltzmann. apply Rmult_lt_0_compat; [apply Avogadro_pos|]. apply Rmult_lt_0_compat; [lra|apply powerRZ_lt; lra]. Qed.
Lemma ElectronCharge_pos : 0 < ElectronCharge.
Proof. unfold ElectronCharge. apply Rmult_lt_0_compat; [lra|apply powerRZ_lt; lra]. Qed.
Lemma table_ok : Forall (fun p => 0 < fac (snd p) /\ pure (snd p)) knownUnits.
Proof.
  pose proof Avogadro_pos. pose proof ElectronCharge_pos.
  unfold knownUnits. repeat (apply Forall_cons; [cbn [snd]; split; [unfold num; rewrite make_fac|apply make_pure]|]); [..|apply Forall_nil];
    try lra; try (apply powerRZ_lt; lra); unfold OneAtm; try lra.
  apply Rmult_lt_0_compat; [lra|]. now apply Rinv_0_lt_compat.
Qed.
Lemma known_ok n u : known n = Some u -> 0 < fac u /\ pure u.
Proof.
  intros H. apply lookup_in in H. destruct H as (a&H). pose proof table_ok as T. rewrite Forall_forall in T. apply (T (a, u) H).
Qed.
Lemma prefix_pos c k : prefix c = Some k -> 0 < k.
Proof. unfold prefix. destruct (lookup _ _ _); simpl; [|discriminate]. intros H. injection H as <-. apply powerRZ_lt. lra. Qed.
Lemma symbol_ok n u : unit_symbol n u -> 0 < fac u /\ pure u.
Proof.
  intros [m v H|c m k v H1 H2 H3]; [now apply (known_ok m)|]. destruct (known_ok _ _ H3) as (A&B). split; auto. simpl.
  apply Rmult_lt_0_compat; auto. eapply prefix_pos; eauto.
Qed.
Lemma unit_of_symbol n u : unit_of n = Ok u <-> unit_symbol n u.
Proof.
  unfold unit_of. split.
  - destruct (known n) as [v|] eqn:E.
    + intros H. injection H as ->. now constructor.
    + destruct n as [|c n]; [discriminate|]. destruct (prefix c) as [k|] eqn:Ek; [|discriminate].
      destruct (known n) as [v|] eqn:Ev; [|discriminate]. intros H. injection H as <-. now constructor.
  - intros [m v H|c m k v H1 H2 H3]; [now rewrite H|]. rewrite H1, H2, H3. reflexivity.
Qed.
Lemma unit_of_cases n : (exists u, unit_of n = Ok u) \/ unit_of n = Err.
Proof.
  unfold unit_of. destruct (known n) as [v|] eqn:E; [eauto|]. destruct n as [|c n]; [discriminate|].
  destruct (prefix c), (known n); eauto.
Qed.

(** * The loop *)
Definition no_ops (g : text) : Prop := Forall (fun c => is_op c = false) g.
Definition op_head (tl : text) : Prop := match tl with [] => True | c :: _ => is_op c = true end.
Definition gparse (g : text) : outcome (text * R) :=
  match find_idx is_caret g with
  | None => Ok (trim g, 1)
  | Some i => obind (fpValueCheck (skipn (S i) g)) (fun e => Ok (trim (firstn i g), e))
  end.
Definition neg_at (pre : text) : bool := match rev pre with c :: _ => Ascii.eqb c "/" | [] => false end.

Lemma find_idx_app_l p a b : find_idx p (a ++ b) = match find_idx p a with Some i => Some i | None => option_map (Nat.add (length a)) (find_idx p b) end.
Proof.
  induction a as [|c a IH]; simpl; [destruct (find_idx p b); reflexivity|]. destruct (p c); auto. rewrite IH.
  destruct (find_idx p a); auto. simpl. destruct (find_idx p b); reflexivity.
Qed.
Lemma neg_at_spec pre tl : (negb (length pre =? 0)%nat && match nth_error (pre ++ tl) (length pre - 1) with Some c => Ascii.eqb c "/" | None => false end) = neg_at pre.
Proof.
  unfold neg_at. destruct (rev pre) as [|c r] eqn:E.
  - apply (f_equal (@rev _)) in E. rewrite rev_involutive in E. subst. reflexivity.
  - apply (f_equal (@rev _)) in E. rewrite rev_involutive in E. simpl in E. subst. rewrite app_length. simpl.
    replace (length (rev r) + 1 =? 0)%nat with false by (symmetry; apply Nat.eqb_neq; lia). simpl.
    rewrite nth_error_app1 by (rewrite app_length; simpl; lia). rewrite nth_error_app2 by lia.
    replace (length (rev r) + 1 - 1 - length (rev r))%nat with 0%nat by lia. reflexivity.
Qed.
Lemma substr_from pre tl : substr (pre ++ tl) (Some (length pre)) None = Ok tl.
Proof. unfold substr. rewrite app_length. destruct (Nat.ltb_spec (length pre + length tl) (length pre)); [lia|]. now rewrite skipn_len. Qed.

Lemma skipn_cons_S {A} i : forall (g : list A) c r, skipn i g = c :: r -> skipn (S i) g = r.
Proof.
  induction i as [|i IH]; intros g c r H; [simpl in H; subst; reflexivity|]. destruct g as [|d g]; [discriminate|].
  simpl in H. simpl. apply IH in H. exact H.
Qed.
Lemma step pre g tl u fuel : no_ops g -> op_head tl ->
  unit_loop (S fuel) (pre ++ g ++ tl) (length pre) u =
  obind (gparse g) (fun '(n, e0) => obind (unit_of n) (fun v =>
    let u' := mul u (upow v (if neg_at pre then - e0 else e0)) in
    match tl with [] => Ok u' | c :: t => unit_loop fuel ((pre ++ g ++ [c]) ++ t) (length (pre ++ g ++ [c])) u' end)).
Proof.
  intros Hg Htl. cbn [unit_loop]. rewrite (neg_at_spec pre (g ++ tl)).
  assert (find_from is_op (pre ++ g ++ tl) (Some (length pre)) = match tl with [] => None | _ => Some (length pre + length g)%nat end) as E1.
  { rewrite find_from_app, (find_idx_app is_op g tl) by exact Hg.
    destruct tl as [|c t]; [reflexivity|]. simpl in *. rewrite Htl. simpl. f_equal. lia. }
  rewrite E1.
  assert (find_from is_caret (pre ++ g ++ tl) (Some (length pre)) = match find_idx is_caret g with
     | Some i => Some (length pre + i)%nat | None => option_map (fun k => (length pre + (length g + k))%nat) (find_idx is_caret tl) end) as E2.
  { rewrite find_from_app, find_idx_app_l. destruct (find_idx is_caret g); [reflexivity|]. destruct (find_idx is_caret tl); reflexivity. }
  rewrite E2.
  assert (match tl with [] => Ok (mul u u) | c :: t => Ok u end = match tl with [] => Ok (mul u u) | c :: t => Ok u end) as _ by reflexivity.
  unfold gparse. destruct (find_idx is_caret g) as [i|] eqn:Ec.
  - pose proof (find_idx_lt _ _ _ Ec) as Hi.
    set (a := firstn i g). set (b := skipn (S i) g).
    assert (exists ch, g = a ++ ch :: b) as (ch&Egs).
    { unfold a, b. destruct (skipn i g) as [|ch r] eqn:Es.
      - exfalso. apply (f_equal (@length _)) in Es. rewrite skipn_length in Es. simpl in Es. lia.
      - exists ch. rewrite <- (firstn_skipn i g) at 1. rewrite Es. f_equal. f_equal.
        symmetry. eapply skipn_cons_S; eauto. }
    assert (length a = i) as Ha by (unfold a; rewrite firstn_length; lia).
    assert (pos_ltb (match tl with [] => None | _ => Some (length pre + length g)%nat end) (Some (length pre + i)%nat) = false) as ->.
    { destruct tl; simpl; auto. apply Nat.ltb_ge. lia. }
    assert (pos_min (Some (length pre + i)%nat) (match tl with [] => None | _ => Some (length pre + length g)%nat end) = Some (length pre + length a)%nat) as ->.
    { unfold pos_min. destruct tl; simpl; [f_equal; lia|]. destruct (Nat.ltb_spec (length pre + length g) (length pre + i)); [lia|f_equal; lia]. }
    assert (substr (pre ++ g ++ tl) (Some (length pre)) (pos_sub (Some (length pre + length a)%nat) (Some (length pre))) = Ok a) as ->.
    { rewrite Egs. rewrite <- app_assoc. apply substr_to. }
    assert (substr (pre ++ g ++ tl) (Some (S (length pre + i))) (pos_sub (match tl with [] => None | _ => Some (length pre + length g)%nat end) (Some (S (length pre + i)))) = Ok b) as ->.
    { replace (S (length pre + i)) with (length (pre ++ a ++ [ch])) by (rewrite !app_length; simpl; lia).
      rewrite Egs. replace (pre ++ (a ++ ch :: b) ++ tl) with ((pre ++ a ++ [ch]) ++ b ++ tl) by (rewrite <- !app_assoc; reflexivity).
      destruct tl as [|c t].
      - rewrite app_nil_r. cbn [pos_sub]. apply substr_from.
      - replace (length pre + length (a ++ ch :: b))%nat with (length (pre ++ a ++ [ch]) + length b)%nat by (rewrite !app_length; simpl; lia).
        apply substr_to. }
    cbn [obind]. fold a b. destruct (fpValueCheck b) as [e0| | |]; cbn [obind]; auto.
    destruct (unit_of (trim a)) as [v| | |]; cbn [obind]; auto. cbv zeta. destruct tl as [|c t]; auto.
    f_equal; [|rewrite !app_length; simpl; lia]. rewrite <- !app_assoc. reflexivity.
  - assert ((if pos_ltb (match tl with [] => None | _ => Some (length pre + length g)%nat end)
                  (option_map (fun k => (length pre + (length g + k))%nat) (find_idx is_caret tl)) then None
             else option_map (fun k => (length pre + (length g + k))%nat) (find_idx is_caret tl)) = None) as ->.
    { destruct tl as [|c t]; [reflexivity|]. destruct (find_idx is_caret (c :: t)) as [k|] eqn:Ek; [|reflexivity]. cbn [option_map pos_ltb].
      destruct k as [|k].
      - exfalso. simpl in Ek, Htl. unfold is_caret, is_op in *. destruct (Ascii.eqb_spec c "^") as [->|]; [discriminate|].
        destruct (find_idx _ t); discriminate.
      - destruct (Nat.ltb_spec (length pre + length g) (length pre + (length g + S k))); [reflexivity|lia]. }
    assert (substr (pre ++ g ++ tl) (Some (length pre)) (pos_sub (pos_min None (match tl with [] => None | _ => Some (length pre + length g)%nat end)) (Some (length pre))) = Ok g) as ->.
    { destruct tl as [|c t]; cbn [pos_min pos_ltb].
      - cbn [pos_sub]. rewrite app_nil_r. apply substr_from.
      - unfold pos_min. cbn [pos_ltb]. apply substr_to. }
    cbn [obind]. destruct (unit_of (trim g)) as [v| | |]; cbn [obind]; auto. cbv zeta. destruct tl as [|c t]; auto.
    f_equal; [|rewrite !app_length; simpl; lia]. rewrite <- !app_assoc. reflexivity.
Qed.

(** Splitting any text at its operators. *)
Lemma split_ops t : exists g tl, t = g ++ tl /\ no_ops g /\ op_head tl.
Proof.
  induction t as [|c t (g&tl&->&H1&H2)]; [exists [], []; repeat split; constructor|].
  destruct (is_op c) eqn:E; [exists [], (c :: g ++ tl); repeat split; auto; constructor|].
  exists (c :: g), tl. repeat split; auto. constructor; auto.
Qed.
Lemma loop_total fuel : forall pre t u, (length t < fuel)%nat ->
  (exists v, unit_loop fuel (pre ++ t) (length pre) u = Ok v) \/ unit_loop fuel (pre ++ t) (length pre) u = Err.
Proof.
  induction fuel as [|fuel IH]; intros pre t u Hf; [lia|]. destruct (split_ops t) as (g&tl&->&Hg&Htl).
  rewrite step by auto. unfold gparse. destruct (match find_idx is_caret g with None => _ | Some i => _ end) as [[n e0]| | |] eqn:E; cbn [obind].
  - destruct (unit_of_cases n) as [(v&->)| ->]; cbn [obind]; auto. cbv zeta. destruct tl as [|c t]; [left; eauto|]. apply IH.
    rewrite !app_length in Hf. simpl in Hf. lia.
  - auto.
  - exfalso. destruct (find_idx is_caret g); [|discriminate]. destruct (check_err (skipn (S n) g)) as [(v&Hv)|Hv]; rewrite Hv in E; discriminate.
  - exfalso. destruct (find_idx is_caret g); [|discriminate]. destruct (check_err (skipn (S n) g)) as [(v&Hv)|Hv]; rewrite Hv in E; discriminate.
Qed.

(** * Groups of the grammar *)
Definition lit_char (c : ascii) : Prop := is_op c = false /\ is_caret c = false.
Lemma op_iff c : is_op c = true <-> exists b, operator c b.
Proof.
  unfold is_op. rewrite orb_true_iff, !Ascii.eqb_eq. split.
  - intros [->| ->]; eexists; constructor.
  - intros (b&[]); auto.
Qed.
Lemma operator_neg c b : operator c b -> Ascii.eqb c "/" = b.
Proof. intros []; reflexivity. Qed.
Lemma white_lit s : white s -> Forall lit_char s.
Proof.
  apply Forall_impl. intros c H. apply isspace_iff in H. revert H. unfold lit_char. all_chars c; vm_compute; intuition discriminate.
Qed.
Lemma digit_lit c : isdigit c = true -> lit_char c.
Proof. unfold lit_char. all_chars c; vm_compute; intuition discriminate. Qed.
Lemma sign_lit c : is_sign c = true -> lit_char c.
Proof. unfold lit_char. all_chars c; vm_compute; intuition discriminate. Qed.
Lemma exp_lit c : is_expd c = true -> lit_char c.
Proof. unfold lit_char. all_chars c; vm_compute; intuition discriminate. Qed.
Lemma digits_lit l : all_digits l -> Forall lit_char l.
Proof. apply Forall_impl. apply digit_lit. Qed.
Lemma number_lit s v : number s v -> Forall lit_char s.
Proof.
  intros [sg sv m w f z e ev Hs Hm Hd Hne He]. apply Forall_app. split; [|apply Forall_app; split].
  - apply sign_iff in Hs. destruct Hs as [(->&_)|(c&->&Hc&_)]; [constructor|]. constructor; [now apply sign_lit|constructor].
  - destruct Hm as [w z0 Hw|w f z0 z' Hw Hf].
    + apply decimal_iff in Hw. apply digits_lit. tauto.
    + apply decimal_iff in Hw, Hf. apply Forall_app. split; [apply digits_lit; tauto|]. constructor; [split; reflexivity|apply digits_lit; tauto].
  - destruct He as [|c s0 sz ds z0 Hc Hsz Hz _]; [constructor|]. apply is_expd_iff in Hc. constructor; [now apply exp_lit|].
    apply Forall_app. split.
    + apply esign_iff in Hsz. destruct Hsz as [(->&_)|(c2&->&Hc2&_)]; [constructor|]. constructor; [now apply sign_lit|constructor].
    + apply decimal_iff in Hz. apply digits_lit. tauto.
Qed.
Lemma uname_lit n : uname n -> Forall lit_char n.
Proof.
  intros (H&_). eapply Forall_impl; [|exact H]. simpl. intros c Hc. unfold lit_char, is_op, is_caret.
  destruct (Ascii.eqb_spec c "*"), (Ascii.eqb_spec c "/"), (Ascii.eqb_spec c "^"); subst; auto; exfalso; tauto.
Qed.
Lemma uname_trim a n b : white a -> white b -> uname n -> trim (a ++ n ++ b) = n.
Proof.
  intros Ha Hb (_&H1&H2). apply trim_app; auto.
  - destruct n as [|c r]; simpl; auto. destruct (isspace c) eqn:E; auto. exfalso. apply (H1 c r); auto. constructor; [|constructor]. now apply isspace_iff.
  - destruct (rev n) as [|c r] eqn:Er; simpl; auto. destruct (isspace c) eqn:E; auto. exfalso.
    apply (H2 c (rev r)); [|constructor; [|constructor]; now apply isspace_iff].
    apply (f_equal (@rev _)) in Er. now rewrite rev_involutive in Er.
Qed.
Lemma lit_ops l : Forall lit_char l -> Forall (fun c => is_op c = false) l.
Proof. apply Forall_impl. unfold lit_char. tauto. Qed.
Lemma lit_caret l : Forall lit_char l -> Forall (fun c => is_caret c = false) l.
Proof. apply Forall_impl. unfold lit_char. tauto. Qed.
Lemma group_spec g n e : unit_group g n e -> no_ops g /\ gparse g = Ok (n, e).
Proof.
  intros [a n' b Ha Hb Hn|a n' b c lit d v Ha Hb Hn Hc Hl Hd].
  - assert (Forall lit_char (a ++ n' ++ b)) as F.
    { rewrite !Forall_app. split; [now apply white_lit|]. split; [now apply uname_lit|now apply white_lit]. }
    split; [now apply lit_ops|]. unfold gparse. rewrite find_idx_none by now apply lit_caret. now rewrite uname_trim.
  - assert (Forall lit_char (a ++ n' ++ b)) as F.
    { rewrite !Forall_app. split; [now apply white_lit|]. split; [now apply uname_lit|now apply white_lit]. }
    assert (Forall lit_char (c ++ lit ++ d)) as F2.
    { rewrite !Forall_app. split; [now apply white_lit|]. split; [now apply (number_lit _ v)|now apply white_lit]. }
    replace (a ++ n' ++ b ++ "^"%char :: c ++ lit ++ d) with ((a ++ n' ++ b) ++ "^"%char :: c ++ lit ++ d) by (rewrite <- !app_assoc; reflexivity).
    split.
    + apply Forall_app. split; [now apply lit_ops|]. constructor; [reflexivity|now apply lit_ops].
    + unfold gparse. rewrite find_idx_app by now apply lit_caret. simpl find_idx. cbn [option_map]. rewrite Nat.add_0_r.
      replace (skipn (S (length (a ++ n' ++ b))) ((a ++ n' ++ b) ++ "^"%char :: c ++ lit ++ d)) with (c ++ lit ++ d).
      2:{ replace (S (length (a ++ n' ++ b))) with (length ((a ++ n' ++ b) ++ ["^"%char])) by (rewrite !app_length; simpl; lia).
          replace ((a ++ n' ++ b) ++ "^"%char :: c ++ lit ++ d) with (((a ++ n' ++ b) ++ ["^"%char]) ++ c ++ lit ++ d) by (rewrite <- !app_assoc; reflexivity).
          now rewrite skipn_len. }
      rewrite (check_number c lit d v) by auto. cbn [obind]. rewrite firstn_app, firstn_all, Nat.sub_diag. cbn [firstn]. rewrite app_nil_r.
      now rewrite uname_trim.
Qed.

Definition times (u : units) (p : units * R) : units := mul u (upow (fst p) (snd p)).
Lemma neg_at_snoc pre c : neg_at (pre ++ [c]) = Ascii.eqb c "/".
Proof. unfold neg_at. rewrite rev_app_distr. reflexivity. Qed.
Lemma loop_groups neg t l : unit_groups neg t l -> forall us, Forall2 (fun p u => unit_symbol (fst p) u) l us ->
  forall pre u fuel, neg_at pre = neg -> (length t < fuel)%nat ->
  unit_loop fuel (pre ++ t) (length pre) u = Ok (fold_left times (combine us (map snd l)) u).
Proof.
  induction 1 as [neg g n e Hg|neg g n e c neg' t l Hg Hop Ht IH]; intros us F pre u fuel Hneg Hf.
  - inversion F as [|? v ? us' Hv F']; subst. inversion F'; subst. destruct (group_spec _ _ _ Hg) as (G1&G2).
    destruct fuel as [|fuel]; [lia|]. rewrite <- (app_nil_r g). rewrite step by (simpl; auto). rewrite G2. cbn [obind].
    apply unit_of_symbol in Hv. simpl in Hv. rewrite Hv. reflexivity.
  - inversion F as [|? v ? us' Hv F']; subst. destruct (group_spec _ _ _ Hg) as (G1&G2).
    destruct fuel as [|fuel]; [lia|]. rewrite step; auto.
    2:{ simpl. apply op_iff. eauto. }
    rewrite G2. cbn [obind]. apply unit_of_symbol in Hv. simpl in Hv. rewrite Hv. cbn [obind]. cbv zeta.
    rewrite (IH us' F' (pre ++ g ++ [c])); auto.
    + rewrite app_assoc, neg_at_snoc. now apply operator_neg.
    + rewrite app_length in Hf. simpl in Hf. lia.
Qed.
Lemma loop_unknown neg t l : unit_groups neg t l -> (exists n e, In (n, e) l /\ forall u, ~ unit_symbol n u) ->
  forall pre u fuel, (length t < fuel)%nat -> unit_loop fuel (pre ++ t) (length pre) u = Err.
Proof.
  assert (forall n, (forall u, ~ unit_symbol n u) -> unit_of n = Err) as U.
  { intros n Hn. destruct (unit_of_cases n) as [(v&Hv)|]; auto. apply unit_of_symbol in Hv. exfalso. now apply (Hn v). }
  induction 1 as [neg g n e Hg|neg g n e c neg' t l Hg Hop Ht IH]; intros (n0&e0&Hin&Hn0) pre u fuel Hf;
    destruct (group_spec _ _ _ Hg) as (G1&G2); (destruct fuel as [|fuel]; [lia|]).
  - destruct Hin as [Hin|[]]. injection Hin as -> _. rewrite <- (app_nil_r g). rewrite step by (simpl; auto). rewrite G2. cbn [obind].
    now rewrite (U n0).
  - rewrite step; auto; [|simpl; apply op_iff; eauto]. rewrite G2. cbn [obind].
    destruct (unit_of_cases n) as [(v&Hv)|Hv]; rewrite Hv; cbn [obind]; auto. cbv zeta. apply IH.
    + destruct Hin as [Hin|Hin]; [|eauto]. injection Hin as -> _. rewrite (U n0) in Hv by auto. discriminate.
    + rewrite app_length in Hf. simpl in Hf. lia.
Qed.

(** * The leading factor *)
Lemma digits_len_app ds r : all_digits ds -> no_digit_head r -> digits_len (ds ++ r) = length ds.
Proof.
  intros H Hr. induction H as [|c ds Hc H IH]; simpl; [|now rewrite Hc, IH]. destruct r as [|c r]; simpl in *; auto. now rewrite Hr.
Qed.
Lemma no_number_chars t : no_number_head t -> no_digit_head t /\ match t with [] => True | c :: _ => is_sign c = false /\ Ascii.eqb c "." = false end.
Proof.
  destruct t as [|c t]; simpl; auto. intros H. split; [|split].
  - revert H. all_chars c; vm_compute; intuition discriminate.
  - revert H. all_chars c; vm_compute; intuition discriminate.
  - revert H. all_chars c; vm_compute; intuition discriminate.
Qed.
Lemma factor_len_spec f fv t : factor_text f fv -> no_number_head t ->
  factor_len (f ++ t) = length f /\ (if (0 <? length f)%nat then fpValueCheck f else Ok 1) = Ok fv.
Proof.
  intros Hf Ht. destruct (no_number_chars _ Ht) as (T1&T2). destruct Hf as [|sg sv m w fr z Hs Hm Hz Hne].
  - split; [|reflexivity]. cbn [app length]. unfold factor_len. destruct t as [|c t]; [reflexivity|]. destruct T2 as (T2&T3). rewrite T2.
    cbn [skipn]. assert (digits_len (c :: t) = 0%nat) as -> by (simpl in *; now rewrite T1). simpl Nat.ltb. cbv iota. now rewrite T3.
  - assert (0 < length (sg ++ m))%nat as L.
    { rewrite app_length. destruct Hm as [w z0|w fr z0 z1]; [|rewrite app_length; simpl; lia]. rewrite app_nil_r in Hne. destruct w; [congruence|simpl; lia]. }
    split.
    + unfold factor_len.
      assert (exists k, (match (sg ++ m) ++ t with c :: _ => if is_sign c then 1%nat else 0%nat | [] => 0%nat end) = k /\ skipn k ((sg ++ m) ++ t) = m ++ t /\ k = length sg) as (k&->&->&->).
      { apply sign_iff in Hs. destruct Hs as [(->&_)|(c&->&Hc&_)].
        - exists 0%nat. cbn [app length skipn]. split; [|auto]. destruct Hm as [w z0 Hw|w fr z0 z1 Hw Hfr].
          + apply decimal_iff in Hw. destruct Hw as (Hw&_). rewrite app_nil_r in Hne. destruct w as [|c w]; [congruence|]. inversion Hw; subst.
            simpl. destruct (digit_class c) as (_&->&_); auto.
          + apply decimal_iff in Hw. destruct Hw as (Hw&_). destruct w as [|c w]; [reflexivity|]. inversion Hw; subst.
            simpl. destruct (digit_class c) as (_&->&_); auto.
        - exists 1%nat. simpl. rewrite Hc. auto. }
      destruct Hm as [w z0 Hw|w fr z0 z1 Hw Hfr].
      * apply decimal_iff in Hw. destruct Hw as (Hw&_). rewrite app_nil_r in Hne.
        rewrite digits_len_app by auto. assert (0 <? length w = true)%nat as -> by (apply Nat.ltb_lt; destruct w; [congruence|simpl; lia]).
        rewrite skipn_len. rewrite app_length. destruct t as [|c t]; [auto|]. destruct T2 as (_&->). auto.
      * apply decimal_iff in Hw, Hfr. destruct Hw as (Hw&_), Hfr as (Hfr&_).
        rewrite <- app_assoc. cbn [app]. rewrite digits_len_app by (auto; reflexivity). rewrite !app_length. simpl length.
        destruct (0 <? length w)%nat eqn:E.
        -- rewrite skipn_len. simpl Ascii.eqb. cbv iota. rewrite digits_len_app by auto. lia.
        -- apply Nat.ltb_ge in E. destruct w; [|simpl in E; lia]. cbn [app]. rewrite digits_len_app by auto.
           assert (0 <? length fr = true)%nat as -> by (apply Nat.ltb_lt; destruct fr; [simpl in Hne; congruence|simpl; lia]).
           simpl. lia.
    + apply Nat.ltb_lt in L. rewrite L.
      assert (number (sg ++ m ++ []) (sv * (IZR z * powerRZ 10 (0 - Z.of_nat (length fr))))) as N by (econstructor; eauto; constructor).
      rewrite app_nil_r in N. rewrite <- (app_nil_r (sg ++ m)). rewrite <- (app_nil_l ((sg ++ m) ++ [])).
      rewrite (check_number [] (sg ++ m) [] _ ltac:(constructor) ltac:(constructor) N). reflexivity.
Qed.
Lemma neg_at_factor f fv : factor_text f fv -> neg_at f = false.
Proof.
  intros Hf. unfold neg_at. destruct (rev f) as [|c r] eqn:E; auto.
  assert (In c f) as Hin by (rewrite in_rev, E; now left). clear E.
  assert (Forall lit_char f) as F.
  { destruct Hf as [|sg sv m w fr z Hs Hm Hz Hne]; [constructor|].
    rewrite <- (app_nil_r m). eapply number_lit. econstructor; eauto; constructor. }
  rewrite Forall_forall in F. destruct (F c Hin) as (A&_). unfold is_op in A. apply orb_false_iff in A. tauto.
Qed.
Lemma parse_text_units t fv l us : unit_text t fv l -> Forall2 (fun p u => unit_symbol (fst p) u) l us ->
  Units t = Ok (fold_left times (combine us (map snd l)) (num fv)).
Proof.
  intros [f fv' t' l' Hf Hg Hh] F. unfold Units, parse_units. destruct (factor_len_spec f fv' t' Hf Hh) as (E1&E2). rewrite E1.
  rewrite firstn_app, firstn_all, Nat.sub_diag. cbn [firstn]. rewrite app_nil_r, E2. cbn [obind].
  rewrite (loop_groups false t' l' Hg us F f).
  - reflexivity.
  - eapply neg_at_factor; eauto.
  - rewrite app_length. lia.
Qed.
Lemma parse_unknown_units t fv l : unit_text t fv l -> (exists n e, In (n, e) l /\ forall u, ~ unit_symbol n u) -> Units t = Err.
Proof.
  intros [f fv' t' l' Hf Hg Hh] F. unfold Units, parse_units. destruct (factor_len_spec f fv' t' Hf Hh) as (E1&E2). rewrite E1.
  rewrite firstn_app, firstn_all, Nat.sub_diag. cbn [firstn]. rewrite app_nil_r, E2. cbn [obind].
  rewrite (loop_unknown false t' l' Hg F f); auto. rewrite app_length. lia.
Qed.

(** * Value of a parsed product *)
Lemma fold_times l : forall u, Forall (fun p => 0 < fac (fst p) /\ pure (fst p)) l ->
  fac (fold_left times l u) = fac u * prod_pow l /\
  (forall b, dim (fold_left times l u) b = dim u b + sum_dim (fun v => dim v b) l) /\
  pdim (fold_left times l u) = pdim u + sum_dim pdim l /\ edim (fold_left times l u) = edim u + sum_dim edim l.
Proof.
  induction l as [|[v e] l IH]; intros u H; cbn [fold_left prod_pow sum_dim].
  - repeat split; intros; ring.
  - inversion H as [|? ? (H1&H2) H3]; subst. simpl in H1, H2. destruct (IH (times u (v, e)) H3) as (A&B&C&D).
    destruct (upow_pseudo v e H2) as (P&E).
    split; [rewrite A; unfold times, mul; cbn [fac fst snd]; unfold upow; rewrite make_fac, cpow_pos by auto; ring|].
    split; [intros b; rewrite B; unfold times, mul; cbn [dim fst snd]; unfold upow; rewrite make_dim; ring|].
    split; [rewrite C|rewrite D]; unfold times, mul; cbn [pdim edim fst snd]; rewrite ?P, ?E; ring.
Qed.
Lemma num_vals f : fac (num f) = f /\ (forall b, dim (num f) b = 0) /\ pdim (num f) = 0 /\ edim (num f) = 0.
Proof.
  unfold num. rewrite make_fac, make_dim. split; auto. split; [intros []; reflexivity|].
  destruct (make_cases f (dims6 0 0 0 0 0 0)) as [((A&_)&_)|[(_&(A&_)&_)|(_&_&->)]]; auto; exfalso; apply A; reflexivity.
Qed.
Lemma symbols_ok l us : Forall2 (fun (p : text * R) u => unit_symbol (fst p) u) l us ->
  Forall (fun p => 0 < fac (fst p) /\ pure (fst p)) (combine us (map snd l)).
Proof.
  induction 1 as [|[n e] u l us H F IH]; simpl; constructor; auto. simpl in *. eapply symbol_ok; eauto.
Qed.
Lemma units_total t : (exists u, Units t = Ok u) \/ Units t = Err.
Proof.
  unfold Units, parse_units. set (n := factor_len t).
  assert ((exists f, (if (0 <? n)%nat then fpValueCheck (firstn n t) else Ok 1) = Ok f) \/ (if (0 <? n)%nat then fpValueCheck (firstn n t) else Ok 1) = Err) as [(f&->)| ->].
  { destruct (0 <? n)%nat; [|eauto]. apply check_err. }
  2: auto.
  cbn [obind].
  assert (n <= length t)%nat as Hn.
  { unfold n, factor_len. set (sg := match t with c :: _ => if is_sign c then 1%nat else 0%nat | [] => 0%nat end).
    assert (sg <= length t)%nat as Hsg by (unfold sg; destruct t; simpl; auto; destruct (is_sign a); lia).
    assert (forall s, digits_len s <= length s)%nat as D.
    { induction s as [|c s IH]; simpl; auto. destruct (isdigit c); lia. }
    pose proof (D (skipn sg t)) as D1. rewrite skipn_length in D1.
    destruct (0 <? digits_len (skipn sg t))%nat.
    - destruct (skipn (digits_len (skipn sg t)) (skipn sg t)) as [|c s2] eqn:E; [lia|].
      apply (f_equal (@length _)) in E. rewrite !skipn_length in E. simpl in E. pose proof (D s2). destruct (Ascii.eqb c "."); lia.
    - destruct (skipn sg t) as [|c s2] eqn:E; [lia|]. apply (f_equal (@length _)) in E. rewrite skipn_length in E. simpl in E.
      pose proof (D s2). destruct (Ascii.eqb c "." && _)%bool; lia. }
  assert (n = length (firstn n t)) as En by (rewrite firstn_length; lia).
  destruct (loop_total (S (length t)) (firstn n t) (skipn n t) (num f)) as [(v&Hv)|Hv].
  - rewrite skipn_length. lia.
  - left. exists v. rewrite firstn_skipn, <- En in Hv. rewrite Hv. reflexivity.
  - right. rewrite firstn_skipn, <- En in Hv. rewrite Hv. reflexivity.
Qed.
