From Coquelicot Require Import Coquelicot.
From Coq Require Import Reals ZArith List Bool Arith Lia Lra.
From Verif Require Import Base.Outcome Base.Fp SpThermo.Model SpThermo.Spec.
From Verif Require Units.Model.
Import ListNotations.
Local Open Scope list_scope.
Local Open Scope R_scope.

Lemma G_pos : 0 < GasConstant.
Proof.
  unfold Units.Model.GasConstant, Units.Model.Avogadro, Units.Model.Boltzmann.
  apply Rmult_lt_0_compat; (apply Rmult_lt_0_compat; [lra | apply powerRZ_lt; lra]).
Qed.
Lemma G_neq : GasConstant <> 0. Proof. generalize G_pos; lra. Qed.
Lemma T298_pos : 0 < T298. Proof. unfold T298; lra. Qed.

(* -------- locality of the choice of formula -------- *)
Lemma loc_pos : forall T, 0 < T -> locally T (fun x => 0 < x).
Proof. intros T H. apply (open_gt 0). exact H. Qed.
Lemma loc_rltb : forall b T, T <> b -> locally T (fun x => rltb b x = rltb b T).
Proof.
  intros b T H. destruct (Rlt_dec b T) as [L|L].
  - apply (filter_imp (fun x => b < x)).
    + intros x Hx. rewrite (proj2 (rltb_true b x) Hx), (proj2 (rltb_true b T) L). reflexivity.
    + apply open_gt. exact L.
  - apply (filter_imp (fun x => x < b)).
    + intros x Hx. rewrite (proj2 (rltb_false b x)), (proj2 (rltb_false b T)); [reflexivity| |]; lra.
    + apply open_lt. lra.
Qed.
Lemma loc_rltb2 : forall b T, T <> b -> locally T (fun x => rltb x b = rltb T b).
Proof.
  intros b T H. destruct (Rlt_dec b T) as [L|L].
  - apply (filter_imp (fun x => b < x)).
    + intros x Hx. rewrite (proj2 (rltb_false x b)), (proj2 (rltb_false T b)); [reflexivity| |]; lra.
    + apply open_gt. exact L.
  - apply (filter_imp (fun x => x < b)).
    + intros x Hx. rewrite (proj2 (rltb_true x b)), (proj2 (rltb_true T b)); [reflexivity| |]; lra.
    + apply open_lt. lra.
Qed.
Lemma loc_region : forall l T, ~ In T l -> locally T (fun x => find_region x l = find_region T l).
Proof.
  induction l as [|b l IH]; cbn; intros T H; [apply filter_forall; reflexivity|].
  apply (filter_imp (fun x => rltb x b = rltb T b /\ find_region x l = find_region T l)).
  - intros x [A B]. rewrite A, B. reflexivity.
  - apply filter_and; [apply loc_rltb2; intros E; apply H; left; auto | apply IH; intros E; apply H; right; auto].
Qed.
Lemma loc_interval : forall l T, ~ In T l -> locally T (fun x => find_interval x l = find_interval T l).
Proof.
  induction l as [|b l IH]; cbn; intros T H; [apply filter_forall; reflexivity|].
  apply (filter_imp (fun x => rltb b x = rltb b T /\ find_interval x l = find_interval T l)).
  - intros x [A B]. rewrite A, B. reflexivity.
  - apply filter_and; [apply loc_rltb; intros E; apply H; left; auto | apply IH; intros E; apply H; right; auto].
Qed.

(* -------- the formulas -------- *)
Ltac formula := cbn [fst snd]; unfold c_; cbn [nth].
Lemma nasa_h : forall c T, 0 < T -> is_derive (fun x => x * snd (fst (nasa_props c (nasa_tpoly x)))) T (fst (fst (nasa_props c (nasa_tpoly T)))).
Proof. intros. unfold nasa_props, nasa_tpoly. formula. auto_derive; [lra | field; lra]. Qed.
Lemma nasa_s : forall c T, 0 < T -> is_derive (fun x => snd (nasa_props c (nasa_tpoly x))) T (fst (fst (nasa_props c (nasa_tpoly T))) / T).
Proof. intros. unfold nasa_props, nasa_tpoly. formula. auto_derive; [lra | field; lra]. Qed.
Lemma shomate_h : forall c T, 0 < T -> is_derive (fun x => x * snd (fst (shomate_props c (shomate_tpoly x)))) T (fst (fst (shomate_props c (shomate_tpoly T)))).
Proof.
  intros. unfold shomate_props, shomate_tpoly. formula. auto_derive.
  - repeat split; try (apply Rmult_integral_contrapositive; split); try (apply Rmult_integral_contrapositive; split); lra.
  - field; lra.
Qed.
Lemma shomate_s : forall c T, 0 < T -> is_derive (fun x => snd (shomate_props c (shomate_tpoly x))) T (fst (fst (shomate_props c (shomate_tpoly T))) / T).
Proof.
  intros. unfold shomate_props, shomate_tpoly. formula. auto_derive.
  - repeat split; try lra; try (apply Rmult_integral_contrapositive; split; lra).
  - field; lra.
Qed.
Lemma nasa9_h : forall c T, 0 < T -> is_derive (fun x => x * snd (fst (nasa9_props c (nasa9_tpoly x)))) T (fst (fst (nasa9_props c (nasa9_tpoly T)))).
Proof. intros. unfold nasa9_props, nasa9_tpoly. formula. auto_derive; [repeat split; try lra | field; lra]. Qed.
Lemma nasa9_s : forall c T, 0 < T -> is_derive (fun x => snd (nasa9_props c (nasa9_tpoly x))) T (fst (fst (nasa9_props c (nasa9_tpoly T))) / T).
Proof. intros. unfold nasa9_props, nasa9_tpoly. formula. auto_derive; [repeat split; try lra | field; lra]. Qed.

(* A function that near T is given by one formula p. *)
Lemma by_formula : forall t T (p : R -> props), 0 < T ->
  locally T (fun x => update_temp t x = Ok (p x)) ->
  is_derive (fun x => x * snd (fst (p x))) T (fst (fst (p T))) ->
  is_derive (fun x => snd (p x)) T (fst (fst (p T)) / T) ->
  is_derive (h_R t) T (cp_R t T) /\ is_derive (s_R t) T (cp_R t T / T).
Proof.
  intros t T p P L H S.
  assert (E := locally_singleton _ _ L). unfold cp_R, value. rewrite E.
  split.
  - apply (is_derive_ext_loc (fun x => x * snd (fst (p x)))); [|exact H].
    revert L. apply filter_imp. intros x Hx. unfold h_R, h_RT, value. rewrite Hx. reflexivity.
  - apply (is_derive_ext_loc (fun x => snd (p x))); [|exact S].
    revert L. apply filter_imp. intros x Hx. unfold s_R, value. rewrite Hx. reflexivity.
Qed.

Lemma tt_temp : forall t t0 T, type_of t0 = type_of t -> update_tt t (tpoly t0 T) = update_temp t T.
Proof.
  intros [a b c k] [a' b' c' k'] T. unfold type_of, update_tt, update_temp, tpoly; cbn [t_kind].
  destruct k, k'; cbn [t_kind]; intros E; try discriminate E; try reflexivity;
    unfold shomate_tpoly; unfold c_ at 1; cbn [nth];
    replace (1000 * (/ 1000 * T)) with T by field; reflexivity.
Qed.

Definition wf9 (t : stit) : Prop := match t_kind t with KNasa9 rs => rs <> [] | _ => True end.
Lemma find_region_lt : forall T rs, rs <> [] -> (find_region T (map r_min (tl rs)) < length rs)%nat.
Proof.
  intros T [|r rs] H; [easy|]. cbn [tl length]. clear H.
  enough (find_region T (map r_min rs) <= length rs)%nat by lia.
  induction rs as [|a rs IH]; cbn; [lia|]. destruct (rltb T (r_min a)); lia.
Qed.
Lemma update_total : forall t T, wf9 t -> exists p, update_temp t T = Ok p.
Proof.
  intros [a b c k] T. unfold wf9, update_temp; cbn. destruct k; cbn; intros W; eauto.
  destruct (nth_error _ _) eqn:E; eauto. apply nth_error_None in E.
  exfalso. generalize (find_region_lt T regions W). lia.
Qed.

Lemma derivatives : forall t T, wf9 t -> 0 < T -> ~ In T (breaks t) -> (forall b, In b (breaks t) -> 0 < b) ->
  (match t_kind t with KMu0 m => (m_num m < length (m_t m))%nat | _ => True end) ->
  is_derive (h_R t) T (cp_R t T) /\ is_derive (s_R t) T (cp_R t T / T).
Proof.
  intros t T W P NB PB M.
  destruct t as [a b c k]. unfold breaks in *; cbn [t_kind] in *.
  destruct k as [p|p|mid low high|mid low high|cc|rs|m].
  - apply (by_formula _ _ (fun x => nasa_props (p7_c p) (nasa_tpoly x)) P); [apply filter_forall; reflexivity | apply nasa_h; auto | apply nasa_s; auto].
  - apply (by_formula _ _ (fun x => shomate_props (p7_c p) (shomate_tpoly x)) P); [apply filter_forall; reflexivity | apply shomate_h; auto | apply shomate_s; auto].
  - destruct (rltb mid T) eqn:E.
    + apply (by_formula _ _ (fun x => nasa_props (p7_c high) (nasa_tpoly x)) P); [| apply nasa_h; auto | apply nasa_s; auto].
      apply (filter_imp (fun x => rltb mid x = rltb mid T)); [|apply loc_rltb; intros A; apply NB; left; auto].
      intros x Hx. unfold update_temp; cbn [t_kind]. rewrite Hx, E. reflexivity.
    + apply (by_formula _ _ (fun x => nasa_props (p7_c low) (nasa_tpoly x)) P); [| apply nasa_h; auto | apply nasa_s; auto].
      apply (filter_imp (fun x => rltb mid x = rltb mid T)); [|apply loc_rltb; intros A; apply NB; left; auto].
      intros x Hx. unfold update_temp; cbn [t_kind]. rewrite Hx, E. reflexivity.
  - destruct (rltb mid T) eqn:E.
    + apply (by_formula _ _ (fun x => shomate_props (p7_c high) (shomate_tpoly x)) P); [| apply shomate_h; auto | apply shomate_s; auto].
      apply (filter_imp (fun x => rltb mid x = rltb mid T)); [|apply loc_rltb; intros A; apply NB; left; auto].
      intros x Hx. unfold update_temp; cbn [t_kind]. rewrite Hx, E. reflexivity.
    + apply (by_formula _ _ (fun x => shomate_props (p7_c low) (shomate_tpoly x)) P); [| apply shomate_h; auto | apply shomate_s; auto].
      apply (filter_imp (fun x => rltb mid x = rltb mid T)); [|apply loc_rltb; intros A; apply NB; left; auto].
      intros x Hx. unfold update_temp; cbn [t_kind]. rewrite Hx, E. reflexivity.
  - apply (by_formula _ _ (fun x => (cc_cp cc, 1 / x * (cc_h cc + (x - cc_t0 cc) * cc_cp cc), cc_s cc + cc_cp cc * (ln x - cc_logt0 cc))) P);
      [apply filter_forall; reflexivity | cbn [fst snd]; auto_derive; [lra | field; lra] | cbn [fst snd]; auto_derive; [lra | field; lra]].
  - destruct (nth_error rs (find_region T (map r_min (tl rs)))) as [r|] eqn:E.
    2:{ apply nth_error_None in E. generalize (find_region_lt T rs W). lia. }
    apply (by_formula _ _ (fun x => nasa9_props (r_c r) (nasa9_tpoly x)) P); [| apply nasa9_h; auto | apply nasa9_s; auto].
    apply (filter_imp (fun x => find_region x (map r_min (tl rs)) = find_region T (map r_min (tl rs)))); [|apply loc_region; auto].
    intros x Hx. unfold update_temp; cbn [t_kind]. rewrite Hx, E. reflexivity.
  - set (j := find_interval T (firstn (m_num m) (tl (m_t m)))).
    apply (by_formula _ _ (fun x => (c_ (m_cp m) j, (c_ (m_h m) j + (x - c_ (m_t m) j) * c_ (m_cp m) j) / x, c_ (m_s m) j + c_ (m_cp m) j * ln (x / c_ (m_t m) j))) P).
    + apply (filter_imp (fun x => find_interval x (firstn (m_num m) (tl (m_t m))) = j)).
      * intros x Hx. unfold update_temp; cbn [t_kind]. unfold mu0_props. rewrite Hx. reflexivity.
      * apply loc_interval. intros A. apply NB.
        assert (A' : In T (firstn (m_num m) (tl (m_t m)) ++ skipn (m_num m) (tl (m_t m)))) by (apply in_or_app; left; exact A).
        rewrite firstn_skipn in A'. destruct (m_t m); [destruct A' | right; exact A'].
    + cbn [fst snd]. auto_derive; [lra | field; lra].
    + assert (J : (j <= m_num m)%nat).
      { unfold j. assert (L : forall l x, (find_interval x l <= length l)%nat) by (induction l; intros; cbn; [lia | destruct (rltb a0 x); [specialize (IHl x); lia | lia]]).
        eapply Nat.le_trans; [apply L | rewrite firstn_length; lia]. }
      assert (Q : 0 < c_ (m_t m) j) by (apply PB; apply nth_In; lia).
      cbn [fst snd]. auto_derive; [repeat split; try lra; try (apply Rdiv_lt_0_compat; lra) | field; lra].
Qed.

(* -------- coefficients -------- *)
Definition wf7 (p : poly7) : Prop := length (p7_c p) = 7%nat.
Ltac seven H :=
  match type of H with
  | length ?l = 7%nat => destruct l as [|?a0 [|?a1 [|?a2 [|?a3 [|?a4 [|?a5 [|?a6 [|]]]]]]]]; try discriminate H
  end.
Lemma seg_length : forall c i n, (i + n <= length c)%nat -> length (seg c i n) = n.
Proof. intros. unfold seg. rewrite firstn_length, skipn_length. lia. Qed.
Lemma upd_length : forall l i v, length (upd l i v) = length l.
Proof. induction l; destruct i; cbn; intros; auto. Qed.

Definition wf (t : stit) : Prop :=
  match t_kind t with
  | KNasa1 p | KShomate1 p => wf7 p
  | KNasa2 _ a b | KShomate2 _ a b => wf7 a /\ wf7 b
  | KConst c => cc_logt0 c = ln (cc_t0 c) /\ cc_orig c = 0
  | KNasa9 rs => Forall (fun r => length (r_c r) = 9%nat) rs /\ regions_ok rs = true
  | KMu0 m => exists h0 pts, mu0_set [] h0 (map_of pts) = Ok m
  end.

Lemma poly7_of_wf : forall l, length l = 7%nat -> wf7 (poly7_of l).
Proof. auto. Qed.
Lemma shomate_of_wf : forall l, length l = 7%nat -> wf7 (shomate_of l).
Proof. intros. unfold wf7, shomate_of, poly7_of; cbn [p7_c]. rewrite map_length. auto. Qed.
Lemma regions_of_wf : forall n c, (11 * n <= length c)%nat -> Forall (fun r => length (r_c r) = 9%nat) (regions_of n c).
Proof.
  induction n; cbn [regions_of]; intros; constructor.
  - cbn [r_c]. apply seg_length. lia.
  - apply IHn. rewrite skipn_length. lia.
Qed.

Lemma need_ok : forall n c o t, need n c o = Ok t -> (n <= length c)%nat /\ o = Ok t.
Proof. unfold need. intros n c o t. destruct (Nat.leb_spec n (length c)); [auto | discriminate]. Qed.

(* What the factory makes. *)
Inductive product (ty : Z) (lo hi p : R) (c : list R) : stit -> Prop :=
| PNasa1 : ty = 256%Z -> (7 <= length c)%nat -> product ty lo hi p c (ST lo hi p (KNasa1 (poly7_of (seg c 0 7))))
| PShomate1 : ty = 128%Z -> (7 <= length c)%nat -> product ty lo hi p c (ST lo hi p (KShomate1 (shomate_of (seg c 0 7))))
| PConst : (ty = 1 \/ ty = 32)%Z -> (4 <= length c)%nat -> product ty lo hi p c (ST lo hi p (KConst (constcp_of (c_ c 0) (c_ c 1) (c_ c 2) (c_ c 3))))
| PMu0 m : ty = 64%Z -> (2 + 2 * cast (c_ c 0) <= length c)%nat ->
    mu0_set [] (c_ c 1) (map_of (pairs_of (cast (c_ c 0)) (skipn 2 c))) = Ok m -> product ty lo hi p c (ST lo hi p (KMu0 m))
| PShomate2 : ty = 8%Z -> (15 <= length c)%nat -> product ty lo hi p c (ST lo hi p (KShomate2 (c_ c 0) (shomate_of (seg c 1 7)) (shomate_of (seg c 8 7))))
| PNasa2 : ty = 4%Z -> (15 <= length c)%nat -> product ty lo hi p c (ST lo hi p (KNasa2 (c_ c 0) (poly7_of (seg c 8 7)) (poly7_of (seg c 1 7))))
| PNasa9 : ty = 513%Z -> (1 + 11 * cast (c_ c 0) <= length c)%nat -> regions_ok (regions_of (cast (c_ c 0)) (skipn 1 c)) = true ->
    product ty lo hi p c (ST lo hi p (KNasa9 (regions_of (cast (c_ c 0)) (skipn 1 c)))).
Lemma factory : forall ty lo hi p c t, new_stit ty lo hi p c = Ok t -> product ty lo hi p c t.
Proof.
  intros ty lo hi p c t. unfold new_stit.
  destruct (Z.eqb_spec ty 256); [intros H; apply need_ok in H as [L H]; injection H as <-; constructor; auto|].
  destruct (Z.eqb_spec ty 128); [intros H; apply need_ok in H as [L H]; injection H as <-; constructor; auto|].
  destruct ((ty =? 1)%Z || (ty =? 32)%Z)%bool eqn:E1.
  { intros H; apply need_ok in H as [L H]; injection H as <-; constructor; auto.
    apply orb_true_iff in E1. rewrite !Z.eqb_eq in E1. auto. }
  destruct (Z.eqb_spec ty 64).
  { intros H; apply need_ok in H as [L H]; apply need_ok in H as [L' H].
    destruct (mu0_set _ _ _) eqn:E; try discriminate H. injection H as <-. constructor; auto. }
  destruct (Z.eqb_spec ty 8); [intros H; apply need_ok in H as [L H]; injection H as <-; constructor; auto|].
  destruct (Z.eqb_spec ty 4); [intros H; apply need_ok in H as [L H]; injection H as <-; constructor; auto|].
  destruct (Z.eqb_spec ty 513); [|discriminate].
  intros H; apply need_ok in H as [L H]; apply need_ok in H as [L' H].
  destruct (regions_ok _) eqn:E; [|discriminate]. injection H as <-. constructor; auto.
Qed.
Lemma new_wf : forall ty lo hi p c t, new_stit ty lo hi p c = Ok t -> wf t.
Proof.
  intros ty lo hi p c t H. apply factory in H. destruct H; unfold wf; cbn [t_kind].
  - apply poly7_of_wf, seg_length; lia.
  - apply shomate_of_wf, seg_length; lia.
  - cbn. auto.
  - eauto.
  - split; apply shomate_of_wf, seg_length; lia.
  - split; apply poly7_of_wf, seg_length; lia.
  - split; auto. apply regions_of_wf. rewrite skipn_length. lia.
Qed.

(* -------- modifying the heat of formation -------- *)
Definition shifted (c c' : list R) (d : R) (f : list R -> R -> props) : Prop :=
  forall T, T <> 0 -> fst (fst (f c' T)) = fst (fst (f c T)) /\ snd (f c' T) = snd (f c T) /\
    T * snd (fst (f c' T)) = T * snd (fst (f c T)) + d.
Notation fn := (fun c T => nasa_props c (nasa_tpoly T)).
Notation fs := (fun c T => shomate_props c (shomate_tpoly T)).
Lemma nasa_hf_eq : forall c, nasa_hf c = GasConstant * (T298 * snd (fst (nasa_props c (nasa_tpoly T298)))).
Proof. intros. unfold nasa_hf, nasa_props. cbn [fst snd]. ring. Qed.
Lemma shomate_hf_eq : forall c, shomate_hf c = GasConstant * (T298 * snd (fst (shomate_props c (shomate_tpoly T298)))).
Proof. intros. unfold shomate_hf. ring. Qed.
Lemma nasa_upd : forall c d, length c = 7%nat -> shifted c (upd c 5 (c_ c 5 + d)) d fn.
Proof.
  intros c d L T N. seven L. unfold nasa_props, nasa_tpoly, c_. cbn [upd nth fst snd].
  repeat split; try reflexivity. field. exact N.
Qed.
Lemma shomate_upd : forall c d, length c = 7%nat -> shifted c (upd c 5 (c_ c 5 + d / 1000)) d fs.
Proof.
  intros c d L T N. seven L. unfold shomate_props, shomate_tpoly, c_. cbn [upd nth fst snd].
  repeat split; try reflexivity. field. exact N.
Qed.
Lemma nasa_mod : forall p d, wf7 p -> shifted (p7_c p) (p7_c (nasa_modify p (nasa_hf (p7_c p) + d))) (d / GasConstant) fn.
Proof.
  intros p d L. unfold nasa_modify; cbn [p7_c].
  replace (nasa_hf (p7_c p) + d - nasa_hf (p7_c p)) with d by ring. apply nasa_upd. exact L.
Qed.
Lemma shomate_mod : forall p d, wf7 p -> shifted (p7_c p) (p7_c (shomate_modify p (shomate_hf (p7_c p) + d))) (d / GasConstant) fs.
Proof.
  intros p d L. unfold shomate_modify; cbn [p7_c].
  replace (shomate_hf (p7_c p) + d - shomate_hf (p7_c p)) with d by ring.
  replace (d / (1000 * GasConstant)) with (d / GasConstant / 1000) by (field; apply G_neq).
  apply shomate_upd. exact L.
Qed.

Lemma report_eq : forall t h, reportHf298 t = Ok h -> h = GasConstant * h_R t T298.
Proof.
  intros [a b c k] h. unfold reportHf298, h_R, h_RT, value, update_temp; cbn [t_kind].
  destruct k; intros E; try discriminate E; injection E as <-; cbn [fst snd].
  - apply nasa_hf_eq.
  - apply shomate_hf_eq.
  - destruct (negb (rltb mid T298)); apply nasa_hf_eq.
  - destruct (negb (rltb mid T298)); apply shomate_hf_eq.
  - field. generalize T298_pos; lra.
Qed.

(* The effect of a change on all values. *)
Definition moved (t t' : stit) (d : R) : Prop :=
  forall T, T <> 0 -> cp_R t' T = cp_R t T /\ s_R t' T = s_R t T /\ h_R t' T = h_R t T + d.
Lemma modify_moved : forall t h t', wf t -> modifyHf298 t h = Ok t' ->
  exists h0, reportHf298 t = Ok h0 /\ moved t t' ((h - h0) / GasConstant).
Proof.
  intros [a b c k] h t' W. unfold wf in W; cbn [t_kind] in W. unfold modifyHf298, reportHf298; cbn [t_kind].
  destruct k; intros E; try discriminate E; injection E as <-; (eexists; split; [reflexivity|]).
  - intros T N. generalize (nasa_mod p (h - nasa_hf (p7_c p)) W T N).
    replace (nasa_hf (p7_c p) + (h - nasa_hf (p7_c p))) with h by ring.
    unfold cp_R, s_R, h_R, h_RT, value, update_temp, set_kind; cbn [t_kind]. auto.
  - intros T N. generalize (shomate_mod p (h - shomate_hf (p7_c p)) W T N).
    replace (shomate_hf (p7_c p) + (h - shomate_hf (p7_c p))) with h by ring.
    unfold cp_R, s_R, h_R, h_RT, value, update_temp, set_kind; cbn [t_kind]. auto.
  - destruct W as [W1 W2]. intros T N.
    unfold cp_R, s_R, h_R, h_RT, value, update_temp, set_kind; cbn [t_kind].
    destruct (negb (rltb mid T)); apply nasa_mod; auto.
  - destruct W as [W1 W2]. intros T N.
    unfold cp_R, s_R, h_R, h_RT, value, update_temp, set_kind; cbn [t_kind].
    destruct (negb (rltb mid T)); apply shomate_mod; auto.
  - intros T N. unfold cp_R, s_R, h_R, h_RT, value, update_temp, set_kind; cbn [t_kind cc_cp cc_h cc_s cc_t0 cc_logt0 fst snd].
    repeat split. field. split; [apply G_neq | exact N].
Qed.
Lemma modify_wf : forall t h t', wf t -> modifyHf298 t h = Ok t' -> wf t'.
Proof.
  intros [a b c k] h t' W. unfold wf in W; cbn [t_kind] in W. unfold modifyHf298; cbn [t_kind].
  destruct k; intros E; try discriminate E; injection E as <-; unfold wf, set_kind; cbn [t_kind];
    unfold wf7, nasa_modify, shomate_modify in *; cbn [p7_c cc_logt0 cc_t0 cc_orig]; rewrite ?upd_length; auto.
Qed.
Lemma reset_wf : forall t t', wf t -> resetHf298 t = Ok t' -> wf t'.
Proof.
  intros [a b c k] t' W. unfold wf in W; cbn [t_kind] in W. unfold resetHf298; cbn [t_kind].
  destruct k; intros E; try discriminate E; injection E as <-; unfold wf, set_kind; cbn [t_kind];
    unfold wf7, poly7_reset in *; cbn [p7_c cc_logt0 cc_t0 cc_orig]; rewrite ?upd_length; auto.
Qed.
Lemma changes_ind : forall (Q : stit -> Prop), (forall t c t', Q t -> change1 t c = Ok t' -> Q t') ->
  forall l t t', Q t -> changes t l = Ok t' -> Q t'.
Proof.
  intros Q S. induction l as [|c l IH]; cbn; intros t t' H E; [injection E as <-; auto|].
  destruct (change1 t c) eqn:C; try discriminate E. cbn in E. eauto.
Qed.
Lemma changes_wf : forall l t t', wf t -> changes t l = Ok t' -> wf t'.
Proof.
  apply changes_ind. intros t [h|] t' W E; [eapply modify_wf; eauto | eapply reset_wf; eauto].
Qed.
Lemma made_wf : forall ty lo hi p c l t, made ty lo hi p c l t -> wf t.
Proof. intros ty lo hi p c l t (t0 & N & C). eapply changes_wf; eauto. eapply new_wf; eauto. Qed.

(* -------- resetting -------- *)
Definition same7 (p q : poly7) : Prop := p7_orig q = p7_orig p /\ exists v, p7_c q = upd (p7_c p) 5 v.
Lemma upd_upd : forall l i v w, upd (upd l i v) i w = upd l i w.
Proof. induction l; destruct i; cbn; intros; f_equal; auto. Qed.
Lemma upd_same : forall l i, upd l i (c_ l i) = l.
Proof. unfold c_. induction l; destruct i; cbn; intros; f_equal; auto. Qed.
Lemma same7_refl : forall p, same7 p p.
Proof. intros p. split; auto. exists (c_ (p7_c p) 5). symmetry. apply upd_same. Qed.
Lemma same7_nasa : forall p q h, same7 p q -> same7 p (nasa_modify q h).
Proof. intros p q h [A [v B]]. split; [exact A|]. unfold nasa_modify; cbn [p7_c]. eexists. rewrite B, upd_upd. reflexivity. Qed.
Lemma same7_shomate : forall p q h, same7 p q -> same7 p (shomate_modify q h).
Proof. intros p q h [A [v B]]. split; [exact A|]. unfold shomate_modify; cbn [p7_c]. eexists. rewrite B, upd_upd. reflexivity. Qed.
Lemma same7_reset : forall p q, same7 p q -> same7 p (poly7_reset q).
Proof. intros p q [A [v B]]. split; [exact A|]. unfold poly7_reset; cbn [p7_c]. eexists. rewrite B, upd_upd. reflexivity. Qed.
Lemma reset_eq : forall l q, same7 (poly7_of l) q -> poly7_reset q = poly7_of l.
Proof.
  intros l q [A [v B]]. unfold poly7_reset. rewrite A, B, upd_upd. unfold poly7_of; cbn [p7_orig p7_c].
  rewrite upd_same. reflexivity.
Qed.
Definition same (t t' : stit) : Prop :=
  t_min t' = t_min t /\ t_max t' = t_max t /\ t_pref t' = t_pref t /\
  match t_kind t, t_kind t' with
  | KNasa1 p, KNasa1 q | KShomate1 p, KShomate1 q => same7 p q
  | KNasa2 m a b, KNasa2 m' a' b' | KShomate2 m a b, KShomate2 m' a' b' => m' = m /\ same7 a a' /\ same7 b b'
  | KConst c, KConst c' => cc_t0 c' = cc_t0 c /\ cc_cp c' = cc_cp c /\ cc_s c' = cc_s c
  | KNasa9 a, KNasa9 b => a = b
  | KMu0 a, KMu0 b => a = b
  | _, _ => False
  end.
Lemma same_refl : forall t, same t t.
Proof.
  intros t. unfold same. repeat (split; [reflexivity|]). destruct (t_kind t); auto using same7_refl.
Qed.
Lemma same_step : forall t0 t c t', same t0 t -> change1 t c = Ok t' -> same t0 t'.
Proof.
  intros [a b c k] [a' b' c' k'] [h|] t'; unfold same, change1, modifyHf298, resetHf298; cbn [t_kind t_min t_max t_pref];
    intros (E1 & E2 & E3 & E); destruct k, k'; try contradiction E; intros C; try discriminate C; injection C as <-;
    cbn [set_kind t_kind t_min t_max t_pref cc_t0 cc_cp cc_s]; repeat (split; [tauto|]); try tauto;
    auto using same7_nasa, same7_shomate, same7_reset;
    destruct E as (? & ? & ?); auto using same7_nasa, same7_shomate, same7_reset.
Qed.
Lemma made_same : forall t0 l t, changes t0 l = Ok t -> same t0 t.
Proof. intros t0 l t. apply (changes_ind (same t0)); [intros; eapply same_step; eauto | apply same_refl]. Qed.
