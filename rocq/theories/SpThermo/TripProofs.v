From Coq Require Import Reals ZArith List Bool Arith Lia Lra.
From Verif Require Import Base.Outcome Base.Fp SpThermo.Model SpThermo.Spec SpThermo.Proofs SpThermo.MuProofs.
Import ListNotations.
Local Open Scope list_scope.
Local Open Scope R_scope.

Lemma cast_INR : forall n, cast (INR n) = n.
Proof.
  intros n. unfold cast. rewrite INR_IZR_INZ.
  rewrite <- (tech_up (IZR (Z.of_nat n)) (Z.of_nat n + 1)); [rewrite Z.add_simpl_r, Nat2Z.id; reflexivity | |];
    rewrite plus_IZR; lra.
Qed.
Lemma shomate_back : forall l, map (fun a => a * 1000 / GasConstant) (map (fun a => a * GasConstant / 1000) l) = l.
Proof.
  intros l. rewrite map_map. rewrite <- (map_id l) at 2. apply map_ext. intros a. field. apply G_neq.
Qed.
Lemma shomate_forth : forall l, map (fun a => a * GasConstant / 1000) (map (fun a => a * 1000 / GasConstant) l) = l.
Proof.
  intros l. rewrite map_map. rewrite <- (map_id l) at 2. apply map_ext. intros a. field. apply G_neq.
Qed.
Lemma seg_app : forall a b c : list R, seg (a ++ b ++ c) (length a) (length b) = b.
Proof.
  intros. unfold seg. rewrite skipn_app, skipn_all, Nat.sub_diag. cbn [app skipn].
  rewrite firstn_app, firstn_all, Nat.sub_diag. cbn [firstn]. apply app_nil_r.
Qed.
Lemma seg_at : forall a b c n m, n = length a -> m = length b -> seg (a ++ b ++ c) n m = b.
Proof. intros; subst. apply seg_app. Qed.

Definition flat (rs : list region) : list R := flat_map (fun r => r_min r :: r_max r :: r_c r) rs.
Lemma regions_flat : forall rs, Forall (fun r => length (r_c r) = 9%nat) rs -> regions_of (length rs) (flat rs) = rs.
Proof.
  induction 1 as [|r rs L F IH]; [reflexivity|]. unfold flat in *. cbn [flat_map length regions_of].
  change (r_min r :: r_max r :: r_c r) with ([r_min r; r_max r] ++ r_c r). rewrite <- app_assoc.
  f_equal.
  - destruct r as [a b c]; cbn [r_min r_max r_c] in *. f_equal. apply seg_at; auto.
  - rewrite app_assoc. rewrite skipn_app. rewrite skipn_all2 by (rewrite app_length, L; cbn; lia).
    rewrite app_length, L. cbn [length app Nat.add Nat.sub skipn]. exact IH.
Qed.
Lemma flat_length : forall rs, Forall (fun r => length (r_c r) = 9%nat) rs -> length (flat rs) = (11 * length rs)%nat.
Proof.
  induction 1 as [|r rs L F IH]; [reflexivity|]. unfold flat in *. cbn [flat_map length]. rewrite app_length, IH. cbn [length]. lia.
Qed.
Definition flat2 (l : list (R * R)) : list R := flat_map (fun p => [fst p; snd p * GasConstant]) l.
Lemma pairs_flat : forall l, pairs_of (length l) (flat2 (map (fun p => (fst p, snd p / GasConstant)) l)) = l.
Proof.
  induction l as [|[a b] l IH]; [reflexivity|]. unfold flat2 in *. cbn [flat_map map length pairs_of fst snd app].
  f_equal; [|exact IH]. unfold c_; cbn [nth]. f_equal. field. apply G_neq.
Qed.
Lemma flat2_length : forall l, length (flat2 l) = (2 * length l)%nat.
Proof. induction l as [|a l IH]; [reflexivity|]. unfold flat2 in *. cbn [flat_map app length]. lia. Qed.
Lemma mu0_fields : forall h0 pts m, mu0_set [] h0 pts = Ok m ->
  m_num m = (length pts - 1)%nat /\ (2 <= length pts)%nat /\ m_H298 m = h0 / GasConstant /\
  combine (m_t m) (m_mu m) = map (fun p => (fst p, snd p / GasConstant)) pts /\ length (m_t m) = length pts.
Proof.
  intros h0 pts m. unfold mu0_set. destruct (Nat.ltb_spec (length pts) 2) as [|L]; [discriminate|].
  destruct (split298 _ _) as [[[before [T mu]] after]|]; [|discriminate].
  destruct (_ <=? _)%nat; [discriminate|]. intros E. injection E as <-. cbn [m_num m_H298 m_t m_mu app].
  repeat split; auto; [|rewrite !map_length; reflexivity].
  induction pts as [|p pts IH] in |- *; [reflexivity|]. cbn [map combine]. rewrite IH. reflexivity.
Qed.

Definition trip (t : stit) : Prop :=
  exists t', remade t = Ok t' /\ t_min t' = t_min t /\ t_max t' = t_max t /\ t_pref t' = t_pref t /\
    type_of t' = type_of t /\ (forall T, update_temp t' T = update_temp t T) /\ reportParameters t' = reportParameters t.
Lemma roundtrip : forall t, wf t -> (forall p, t_kind t <> KShomate1 p) -> trip t.
Proof.
  intros [lo hi pr k] W N. unfold wf in W; cbn [t_kind] in *. unfold trip, remade.
  destruct k as [p|p|mid low high|mid low high|cc|rs|m]; cbn [t_min t_max t_pref].
  - unfold wf7 in W. destruct p as [c o]; cbn [p7_c] in W. exists (ST lo hi pr (KNasa1 (poly7_of c))).
    seven W. repeat split.
  - exfalso. eapply N. reflexivity.
  - destruct W as [W1 W2]. unfold wf7 in W1, W2. destruct low as [l o], high as [l' o']; cbn [p7_c] in *.
    exists (ST lo hi pr (KNasa2 mid (poly7_of l) (poly7_of l'))). split; [|repeat split].
    seven W1. seven W2. reflexivity.
  - destruct W as [W1 W2]. unfold wf7 in W1, W2. destruct low as [l o], high as [l' o']; cbn [p7_c] in *.
    exists (ST lo hi pr (KShomate2 mid (poly7_of l) (poly7_of l'))). split; [|repeat split].
    unfold type_of, reportParameters, shomate_report; cbn [t_kind p7_c].
    set (x := map (fun a => a * GasConstant / 1000) l). set (y := map (fun a => a * GasConstant / 1000) l').
    assert (X : length x = 7%nat) by (unfold x; rewrite map_length; exact W1).
    assert (Y : length y = 7%nat) by (unfold y; rewrite map_length; exact W2).
    unfold new_stit; cbn [Z.eqb Pos.eqb orb]. unfold need.
    destruct (Nat.leb_spec 15 (length (mid :: x ++ y))) as [_|B]; [|cbn [length] in B; rewrite app_length in B; lia].
    f_equal. f_equal. unfold c_; cbn [nth].
    change (mid :: x ++ y) with ([mid] ++ x ++ y). rewrite (seg_at [mid] x y 1 7) by auto.
    replace ([mid] ++ x ++ y) with (([mid] ++ x) ++ y ++ []) by (rewrite app_nil_r, <- app_assoc; reflexivity).
    rewrite (seg_at ([mid] ++ x) y [] 8 7); [|rewrite app_length, X; reflexivity | auto].
    unfold shomate_of, x, y. rewrite !shomate_back. reflexivity.
  - destruct cc as [t0 cp h s lt o]; cbn [cc_logt0 cc_t0 cc_orig] in W. destruct W as [-> ->].
    exists (ST lo hi pr (KConst (CC t0 cp h s (ln t0) 0))). split; [|repeat split].
    unfold type_of, reportParameters, new_stit, need, constcp_of, c_; cbn [t_kind cc_t0 cc_cp cc_h cc_s Z.eqb Pos.eqb orb length Nat.leb nth].
    replace (cp * GasConstant / GasConstant) with cp by (field; apply G_neq).
    replace (h * GasConstant / GasConstant) with h by (field; apply G_neq).
    replace (s * GasConstant / GasConstant) with s by (field; apply G_neq). reflexivity.
  - destruct W as [F K]. exists (ST lo hi pr (KNasa9 rs)). split; [|repeat split].
    unfold type_of, reportParameters; cbn [t_kind]. fold (flat rs).
    unfold new_stit; cbn [Z.eqb Pos.eqb orb]. unfold c_; cbn [nth]. rewrite cast_INR.
    unfold need. rewrite (proj2 (Nat.leb_le 1 _)) by (cbn [length]; lia).
    rewrite (proj2 (Nat.leb_le (1 + 11 * length rs) _)) by (cbn [length]; rewrite flat_length by auto; lia).
    cbn [skipn]. rewrite regions_flat by auto. rewrite K. reflexivity.
  - destruct W as (h0 & pts & W). exists (ST lo hi pr (KMu0 m)). split; [|repeat split].
    destruct (mu0_fields _ _ _ W) as (A & B & C & D & _).
    unfold type_of, reportParameters; cbn [t_kind]. fold (flat2 (firstn (m_num m + 1) (combine (m_t m) (m_mu m)))).
    rewrite D, firstn_all2 by (rewrite map_length; lia).
    unfold new_stit; cbn [Z.eqb Pos.eqb orb]. unfold c_; cbn [nth]. rewrite cast_INR.
    unfold need. rewrite (proj2 (Nat.leb_le 1 _)) by (cbn [length]; lia).
    rewrite (proj2 (Nat.leb_le (2 + 2 * (m_num m + 1)) _)) by (cbn [length]; rewrite flat2_length, map_length; lia).
    cbn [skipn]. replace (m_num m + 1)%nat with (length (map_of pts)) by lia. rewrite pairs_flat.
    rewrite map_of_id by apply map_of_inc. rewrite C.
    replace (h0 / GasConstant * GasConstant) with h0 by (field; apply G_neq). rewrite W. reflexivity.
Qed.
Lemma count : forall t n, wf t -> nCoeffs t = Ok n -> length (reportParameters t) = n.
Proof.
  intros [lo hi pr k] n W. unfold wf in W; cbn [t_kind] in *. unfold nCoeffs, reportParameters; cbn [t_kind].
  destruct k as [p|p|mid low high|mid low high|cc|rs|m]; intros E; try discriminate E; injection E as <-.
  - destruct W as [A B]. unfold wf7 in *. cbn [length]. rewrite app_length. lia.
  - destruct W as [A B]. unfold wf7, shomate_report in *. cbn [length]. rewrite app_length, !map_length. lia.
  - reflexivity.
  - fold (flat rs). cbn [length]. rewrite flat_length by apply W. lia.
  - destruct W as (h0 & pts & W). destruct (mu0_fields _ _ _ W) as (A & B & C & D & _).
    fold (flat2 (firstn (m_num m + 1) (combine (m_t m) (m_mu m)))). cbn [length].
    rewrite flat2_length, D, firstn_all2, map_length by (rewrite map_length; lia). lia.
Qed.

(* -------- documented formulas -------- *)
Lemma nasa7_eq : forall c T, T <> 0 -> nasa7 c T =
  (fst (fst (nasa_props c (nasa_tpoly T))), T * snd (fst (nasa_props c (nasa_tpoly T))), snd (nasa_props c (nasa_tpoly T))).
Proof.
  intros. unfold nasa7, nasa_props, nasa_tpoly, c_. cbn [fst snd nth]. f_equal; [f_equal|]; field; auto.
Qed.
Lemma nasa9_eq : forall c T, T <> 0 -> nasa9 c T =
  (fst (fst (nasa9_props c (nasa9_tpoly T))), T * snd (fst (nasa9_props c (nasa9_tpoly T))), snd (nasa9_props c (nasa9_tpoly T))).
Proof.
  intros. unfold nasa9, nasa9_props, nasa9_tpoly, c_. cbn [fst snd nth]. f_equal; [f_equal|]; field; auto.
Qed.
Lemma nth_map0 : forall (f : R -> R) l i, f 0 = 0 -> nth i (map f l) 0 = f (nth i l 0).
Proof. intros. rewrite <- H at 1. apply map_nth. Qed.
Lemma nist_eq : forall c T, T <> 0 ->
  let v := shomate_props (map (fun a => a * 1000 / GasConstant) c) (shomate_tpoly T) in
  scale 1000 (1000 * 1000) 1000 (nist c T) = scale GasConstant GasConstant GasConstant (fst (fst v), T * snd (fst v), snd v).
Proof.
  intros c T N. unfold scale, nist, shomate_props, shomate_tpoly, c_.
  rewrite !nth_map0 by (field; apply G_neq). cbn [fst snd nth].
  replace (T / 1000) with (/ 1000 * T) by (field).
  f_equal; [f_equal|]; field; split; auto; apply G_neq.
Qed.
Lemma pick_eq : forall {A} mid T (x y : A), (if negb (rltb mid T) then x else y) = (if Rle_dec T mid then x else y).
Proof.
  intros. destruct (Rle_dec T mid) as [L|L].
  - rewrite (proj2 (rltb_false mid T) L). reflexivity.
  - rewrite (proj2 (rltb_true mid T)) by lra. reflexivity.
Qed.
Lemma values_eq : forall t T v, update_temp t T = Ok v -> values t T = (fst (fst v), T * snd (fst v), snd v).
Proof. intros t T v E. unfold values, cp_R, h_R, h_RT, s_R, value. rewrite E. reflexivity. Qed.

Lemma region_at : forall rs i r T, regions_ok rs = true -> nth_error rs i = Some r -> (i = 0%nat \/ r_min r <= T) ->
  (forall r', nth_error rs (S i) = Some r' -> T < r_min r') -> find_region T (map r_min (tl rs)) = i.
Proof.
  intros rs. destruct rs as [|r0 rs]; intros i r T K E LO HI; [destruct i; discriminate E|]. cbn [tl].
  revert r0 i r K E LO HI. induction rs as [|a rs IH]; intros r0 i r K E LO HI.
  - destruct i; [reflexivity|]. destruct i; discriminate E.
  - cbn [regions_ok] in K. apply andb_true_iff in K as [K1 K2]. apply andb_true_iff in K1 as [K0 K1].
    apply rltb_true in K0. cbn [map find_region]. destruct i as [|i].
    + rewrite (proj2 (rltb_true T (r_min a))); [reflexivity|]. apply HI. reflexivity.
    + cbn [nth_error] in E. assert (LE : r_min a <= T).
      { destruct LO as [LO|LO]; [discriminate|]. clear HI IH K0 K1. revert a i r K2 E LO.
        induction rs as [|b rs IHr]; intros a i r K2 E LO.
        - destruct i; [injection E as ->; exact LO | destruct i; discriminate E].
        - destruct i; [injection E as ->; exact LO|]. cbn [regions_ok] in K2.
          apply andb_true_iff in K2 as [K3 K4]. apply andb_true_iff in K3 as [K5 K6]. apply rltb_true in K5.
          specialize (IHr b i r). cbn [nth_error] in E. assert (r_min b <= T); [|lra].
          apply IHr; auto. }
      rewrite (proj2 (rltb_false T (r_min a)) LE). f_equal. apply (IH a i r); auto.
      * destruct LO as [LO|LO]; [discriminate | auto].
Qed.
