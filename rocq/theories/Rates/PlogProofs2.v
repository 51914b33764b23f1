(* P-log rates: consequences of the documented value, and the round trip of the
   table. *)
From Coq Require Import Reals List Lra Lia Bool Permutation Sorted.
From Verif Require Import Base.Outcome Base.Fp Base.RSum Rates.Model Rates.Spec
  Rates.PlogProofs.
Import ListNotations.
Local Open Scope R_scope.

Lemma spec_unique tab T P k1 k2 :
  plog_spec tab T P k1 -> plog_spec tab T P k2 -> k1 = k2.
Proof.
  intros H1 H2.
  destruct H1 as [p A1 A2 A3|p1 p2 A1 A2 A3 A4|p A1 A2 A3];
  destruct H2 as [q B1 B2 B3|q1 q2 B1 B2 B3 B4|q B1 B2 B3].
  - replace q with p by (apply Rle_antisym; auto). reflexivity.
  - specialize (A2 q1 B1). lra.
  - specialize (A2 q B1). lra.
  - specialize (B2 p1 A1). lra.
  - assert (p1 = q1).
    { destruct (A4 q1 B1), (B4 p1 A1); lra. }
    assert (p2 = q2).
    { destruct (A4 q2 B2), (B4 p2 A2); lra. }
    subst. reflexivity.
  - specialize (B2 p2 A2). lra.
  - specialize (B2 p A1). lra.
  - specialize (A2 q2 B2). lra.
  - replace q with p by (apply Rle_antisym; auto). reflexivity.
Qed.

Lemma interp_left a x p1 p2 : p1 <> p2 -> a + x * ((p1 - p1) / (p2 - p1)) = a.
Proof. intros H. field. lra. Qed.

Lemma spec_at tab T p k :
  good_table tab T -> listed tab p -> plog_spec tab T p k -> k = knot tab p T.
Proof.
  intros HG Hp Hs. assert (K := knot_pos tab p T HG Hp).
  inversion Hs as [q A1 A2 A3 Ek|p1 p2 A1 A2 A3 A4 Ek|q A1 A2 A3 Ek].
  - specialize (A2 p Hp). lra.
  - assert (p1 = p) by (destruct (A4 p Hp); lra). subst p1.
    replace (ln p - ln p) with 0 by ring. unfold Rdiv.
    rewrite Rmult_0_l, Rmult_0_r, Rplus_0_r, exp_ln by exact K. reflexivity.
  - specialize (A2 p Hp). replace q with p by lra. reflexivity.
Qed.

(* ---------------- neighbours in the table ---------------- *)

Lemma pred_ex tab P :
  (forall q, listed tab q -> P <= q) \/
  exists q, listed tab q /\ q < P /\ forall q', listed tab q' -> q' <= q \/ P <= q'.
Proof.
  induction tab as [|[x a] tab IH].
  - left. intros q [b []].
  - assert (L : forall q, listed ((x, a) :: tab) q <-> q = x \/ listed tab q).
    { intros q. split.
      - intros [b [E|E]]; [left; congruence|right; exists b; exact E].
      - intros [->|[b E]]; [exists a; left; reflexivity|exists b; right; exact E]. }
    destruct (Rlt_le_dec x P) as [X|X].
    + right. destruct IH as [IH|(q & Q1 & Q2 & Q3)].
      * exists x. split; [apply L; left; reflexivity|]. split; [exact X|].
        intros q' Hq. apply L in Hq as [->|Hq]; [left; lra|right; auto].
      * destruct (Rle_lt_dec x q) as [Y|Y].
        -- exists q. split; [apply L; right; exact Q1|]. split; [exact Q2|].
           intros q' Hq. apply L in Hq as [->|Hq]; [left; exact Y|auto].
        -- exists x. split; [apply L; left; reflexivity|]. split; [exact X|].
           intros q' Hq. apply L in Hq as [->|Hq]; [left; lra|].
           destruct (Q3 q' Hq); [left; lra|right; assumption].
    + destruct IH as [IH|(q & Q1 & Q2 & Q3)].
      * left. intros q Hq. apply L in Hq as [->|Hq]; auto.
      * right. exists q. split; [apply L; right; exact Q1|]. split; [exact Q2|].
        intros q' Hq. apply L in Hq as [->|Hq]; [right; exact X|auto].
Qed.

Lemma succ_ex tab P :
  (forall q, listed tab q -> q <= P) \/
  exists q, listed tab q /\ P < q /\ forall q', listed tab q' -> q' <= P \/ q <= q'.
Proof.
  induction tab as [|[x a] tab IH].
  - left. intros q [b []].
  - assert (L : forall q, listed ((x, a) :: tab) q <-> q = x \/ listed tab q).
    { intros q. split.
      - intros [b [E|E]]; [left; congruence|right; exists b; exact E].
      - intros [->|[b E]]; [exists a; left; reflexivity|exists b; right; exact E]. }
    destruct (Rlt_le_dec P x) as [X|X].
    + right. destruct IH as [IH|(q & Q1 & Q2 & Q3)].
      * exists x. split; [apply L; left; reflexivity|]. split; [exact X|].
        intros q' Hq. apply L in Hq as [->|Hq]; [right; lra|left; auto].
      * destruct (Rle_lt_dec q x) as [Y|Y].
        -- exists q. split; [apply L; right; exact Q1|]. split; [exact Q2|].
           intros q' Hq. apply L in Hq as [->|Hq]; [right; exact Y|auto].
        -- exists x. split; [apply L; left; reflexivity|]. split; [exact X|].
           intros q' Hq. apply L in Hq as [->|Hq]; [right; lra|].
           destruct (Q3 q' Hq); [left; assumption|right; lra].
    + destruct IH as [IH|(q & Q1 & Q2 & Q3)].
      * left. intros q Hq. apply L in Hq as [->|Hq]; auto.
      * right. exists q. split; [apply L; right; exact Q1|]. split; [exact Q2|].
        intros q' Hq. apply L in Hq as [->|Hq]; [left; exact X|auto].
Qed.

(* ---------------- continuity ---------------- *)

Definition interp (tab : list (R * arr)) (T p1 p2 P : R) : R :=
  exp (ln (knot tab p1 T) + (ln (knot tab p2 T) - ln (knot tab p1 T)) *
       ((ln P - ln p1) / (ln p2 - ln p1))).

Lemma interp_cont tab T p1 p2 P : 0 < P -> continuity_pt (interp tab T p1 p2) P.
Proof.
  intros HP. unfold interp.
  change (continuity_pt (comp exp (fun P => ln (knot tab p1 T) +
    (ln (knot tab p2 T) - ln (knot tab p1 T)) * ((ln P - ln p1) / (ln p2 - ln p1)))) P).
  apply continuity_pt_comp; [|apply derivable_continuous_pt, derivable_pt_exp].
  apply derivable_continuous_pt.
  exists (0 + (ln (knot tab p2 T) - ln (knot tab p1 T)) * (/ P * / (ln p2 - ln p1))).
  apply (derivable_pt_lim_plus (fun _ => ln (knot tab p1 T))
    (fun P => (ln (knot tab p2 T) - ln (knot tab p1 T)) * ((ln P - ln p1) / (ln p2 - ln p1)))).
  - apply derivable_pt_lim_const.
  - apply (derivable_pt_lim_scal (fun P => (ln P - ln p1) / (ln p2 - ln p1))).
    assert (D : derivable_pt_lim (fun P => / (ln p2 - ln p1) * (ln P - ln p1)) P
                  (/ (ln p2 - ln p1) * (/ P - 0))).
    { apply (derivable_pt_lim_scal (fun P => ln P - ln p1)).
      apply (derivable_pt_lim_minus ln (fun _ => ln p1)).
      - apply derivable_pt_lim_ln, HP.
      - apply derivable_pt_lim_const. }
    rewrite Rminus_0_r, Rmult_comm in D.
    intros eps Heps. destruct (D eps Heps) as [d Hd]. exists d. intros h H1 H2.
    replace ((ln (P + h) - ln p1) / (ln p2 - ln p1)) with
      (/ (ln p2 - ln p1) * (ln (P + h) - ln p1)) by (unfold Rdiv; ring).
    replace ((ln P - ln p1) / (ln p2 - ln p1)) with
      (/ (ln p2 - ln p1) * (ln P - ln p1)) by (unfold Rdiv; ring).
    apply Hd; assumption.
Qed.

Lemma glue (f fl fr : R -> R) p e :
  0 < e -> (forall x, p - e < x < p -> f x = fl x) ->
  (forall x, p <= x < p + e -> f x = fr x) ->
  continuity_pt fl p -> continuity_pt fr p -> fl p = fr p -> continuity_pt f p.
Proof.
  intros He Hl Hr Cl Cr E eps Heps.
  destruct (Cl eps Heps) as [a1 [A1 A2]]. destruct (Cr eps Heps) as [a2 [B1 B2]].
  exists (Rmin e (Rmin a1 a2)). split.
  { unfold Rmin. repeat destruct (Rle_dec _ _); lra. }
  intros x [D Hx]. simpl in *. unfold R_dist in *.
  assert (X1 : Rabs (x - p) < e /\ Rabs (x - p) < a1 /\ Rabs (x - p) < a2).
  { revert Hx. unfold Rmin. repeat destruct (Rle_dec _ _); intros; lra. }
  destruct X1 as (X1 & X2 & X3).
  assert (X4 : p - e < x < p + e) by (revert X1; unfold Rabs; destruct (Rcase_abs _); lra).
  rewrite (Hr p) by lra.
  destruct (Rlt_le_dec x p) as [L|L].
  - rewrite Hl by lra. rewrite <- E. apply (A2 x). split; [exact D|exact X2].
  - rewrite Hr by lra. apply (B2 x). split; [exact D|exact X3].
Qed.

Definition seg (tab : list (R * arr)) (T : R) (lo hi : option R) (P : R) : R :=
  match lo, hi with
  | None, Some p => knot tab p T
  | Some p, None => knot tab p T
  | Some p, Some q => interp tab T p q P
  | None, None => 0
  end.

Definition bracket (tab : list (R * arr)) (lo hi : option R) : Prop :=
  (lo <> None \/ hi <> None) /\
  (forall p, lo = Some p -> listed tab p) /\ (forall p, hi = Some p -> listed tab p) /\
  (forall q, listed tab q ->
     (exists p, lo = Some p /\ q <= p) \/ (exists p, hi = Some p /\ p <= q)).

Lemma seg_spec tab T lo hi P :
  bracket tab lo hi ->
  (forall p, lo = Some p -> p <= P) -> (forall p, hi = Some p -> P < p) ->
  plog_spec tab T P (seg tab T lo hi P).
Proof.
  intros (B0 & B1 & B2 & B3) Hl Hh. destruct lo as [p|], hi as [q|]; cbn [seg].
  - apply PS_between; [apply B1; reflexivity|apply B2; reflexivity| |].
    + split; [apply Hl; reflexivity|apply Hh; reflexivity].
    + intros r Hr. destruct (B3 r Hr) as [(x & E & H)|(x & E & H)]; injection E as <-; auto.
  - apply PS_above; [apply B1; reflexivity| |apply Hl; reflexivity].
    intros r Hr. destruct (B3 r Hr) as [(x & E & H)|(x & E & H)]; [injection E as <-; exact H|discriminate].
  - apply PS_below; [apply B2; reflexivity| |apply Hh; reflexivity].
    intros r Hr. destruct (B3 r Hr) as [(x & E & H)|(x & E & H)]; [discriminate|injection E as <-; exact H].
  - destruct B0 as [B0|B0]; congruence.
Qed.

Lemma seg_cont tab T lo hi P : 0 < P -> continuity_pt (seg tab T lo hi) P.
Proof.
  intros HP. unfold seg. destruct lo as [p|], hi as [q|].
  - apply interp_cont, HP.
  - apply continuity_pt_const. intros x y. reflexivity.
  - apply continuity_pt_const. intros x y. reflexivity.
  - apply continuity_pt_const. intros x y. reflexivity.
Qed.

Lemma spec_continuous tab T (f : R -> R) P :
  good_table tab T ->
  (forall x, in_double_range x -> plog_spec tab T x (f x)) ->
  in_double_range P -> continuity_pt f P.
Proof.
  intros HG Hf HP.
  assert (PP : 0 < P) by (destruct HP; pose proof (exp_pos (-1000)); lra).
  assert (U : forall lo hi x, bracket tab lo hi ->
    (forall p, lo = Some p -> p <= x) -> (forall p, hi = Some p -> x < p) ->
    in_double_range x -> f x = seg tab T lo hi x).
  { intros lo hi x B H1 H2 Hx. apply (spec_unique tab T x); [apply Hf, Hx|].
    apply seg_spec; assumption. }
  destruct HG as (Hne & Hrg & Hnn).
  assert (HG : good_table tab T) by (split; [exact Hne|split; assumption]).
  (* the neighbours of P *)
  assert (Pred : exists lo, (forall p, lo = Some p -> listed tab p /\ p < P) /\
    forall q, listed tab q -> (exists p, lo = Some p /\ q <= p) \/ P <= q).
  { destruct (pred_ex tab P) as [H|(q & Q1 & Q2 & Q3)].
    - exists None. split; [discriminate|]. intros q Hq. right. auto.
    - exists (Some q). split; [intros p E; injection E as <-; auto|].
      intros q' Hq. destruct (Q3 q' Hq) as [A|A]; [left; exists q; auto|right; exact A]. }
  assert (Succ : exists hi, (forall p, hi = Some p -> listed tab p /\ P < p) /\
    forall q, listed tab q -> (exists p, hi = Some p /\ p <= q) \/ q <= P).
  { destruct (succ_ex tab P) as [H|(q & Q1 & Q2 & Q3)].
    - exists None. split; [discriminate|]. intros q Hq. right. auto.
    - exists (Some q). split; [intros p E; injection E as <-; auto|].
      intros q' Hq. destruct (Q3 q' Hq) as [A|A]; [right; exact A|left; exists q; auto]. }
  destruct Pred as (lo & L1 & L2), Succ as (hi & H1 & H2).
  (* a radius that stays between the neighbours and in the range *)
  assert (Rad : exists e, 0 < e /\ (forall x, P - e < x < P + e -> in_double_range x) /\
    (forall p x, lo = Some p -> P - e < x -> p <= x) /\
    (forall p x, hi = Some p -> x < P + e -> x < p)).
  { destruct HP as [R1 R2].
    exists (Rmin (Rmin (P - exp (-1000)) (exp 1000 - P))
       (Rmin (match lo with Some p => P - p | None => 1 end)
             (match hi with Some p => p - P | None => 1 end))).
    set (a := match lo with Some p => P - p | None => 1 end).
    set (b := match hi with Some p => p - P | None => 1 end).
    assert (Ha : 0 < a) by (unfold a; destruct lo as [p|]; [destruct (L1 p eq_refl); lra|lra]).
    assert (Hb : 0 < b) by (unfold b; destruct hi as [p|]; [destruct (H1 p eq_refl); lra|lra]).
    set (c := Rmin (P - exp (-1000)) (exp 1000 - P)).
    assert (Hc : 0 < c /\ c <= P - exp (-1000) /\ c <= exp 1000 - P).
    { unfold c, Rmin. destruct (Rle_dec _ _); lra. }
    set (d := Rmin a b).
    assert (Hd : 0 < d /\ d <= a /\ d <= b) by (unfold d, Rmin; destruct (Rle_dec _ _); lra).
    set (e := Rmin c d).
    assert (He : 0 < e /\ e <= c /\ e <= d) by (unfold e, Rmin; destruct (Rle_dec _ _); lra).
    split; [lra|]. split; [|split].
    - intros x Hx. unfold in_double_range. lra.
    - intros p x E Hx. assert (a = P - p) by (unfold a; rewrite E; reflexivity). lra.
    - intros p x E Hx. assert (b = p - P) by (unfold b; rewrite E; reflexivity). lra. }
  destruct Rad as (e & E0 & E1 & E2 & E3).
  assert (Dec : listed tab P \/ ~ listed tab P).
  { clear. induction tab as [|[x a] t IH].
    - right. intros [b []].
    - destruct (Req_EM_T x P) as [->|N]; [left; exists a; left; reflexivity|].
      destruct IH as [[b Hb]|IH]; [left; exists b; right; exact Hb|].
      right. intros [b [Hb|Hb]]; [congruence|]. apply IH. exists b. exact Hb. }
  destruct Dec as [HL|HL].
  - assert (BL : bracket tab lo (Some P)).
    { split; [right; discriminate|]. split; [intros p E; apply L1, E|].
      split; [intros p E; injection E as <-; exact HL|].
      intros q Hq. destruct (L2 q Hq) as [A|A]; [left; exact A|right; exists P; auto]. }
    assert (BR : bracket tab (Some P) hi).
    { split; [left; discriminate|]. split; [intros p E; injection E as <-; exact HL|].
      split; [intros p E; apply H1, E|].
      intros q Hq. destruct (H2 q Hq) as [A|A]; [right; exact A|left; exists P; auto]. }
    assert (KP := knot_pos tab P T HG HL).
    apply (glue f (seg tab T lo (Some P)) (seg tab T (Some P) hi) P e E0).
    + intros x Hx. apply U; [exact BL| | |apply E1; lra].
      * intros p E. apply (E2 p x E). lra.
      * intros p E. injection E as <-. lra.
    + intros x Hx. apply U; [exact BR| | |apply E1; lra].
      * intros p E. injection E as <-. lra.
      * intros p E. apply (E3 p x E). lra.
    + apply seg_cont, PP.
    + apply seg_cont, PP.
    + assert (A : seg tab T lo (Some P) P = knot tab P T).
      { destruct lo as [p|]; [|reflexivity]. cbn [seg]. unfold interp.
        destruct (L1 p eq_refl) as [Lp Lt].
        assert (ln p < ln P).
        { apply ln_increasing; [|exact Lt]. destruct (Hrg p Lp). pose proof (exp_pos (-1000)). lra. }
        replace ((ln P - ln p) / (ln P - ln p)) with 1 by (field; lra).
        rewrite Rmult_1_r. replace (ln (knot tab p T) + (ln (knot tab P T) - ln (knot tab p T)))
          with (ln (knot tab P T)) by ring. apply exp_ln, KP. }
      assert (B : seg tab T (Some P) hi P = knot tab P T).
      { destruct hi as [p|]; [|reflexivity]. cbn [seg]. unfold interp.
        replace (ln P - ln P) with 0 by ring. unfold Rdiv.
        rewrite Rmult_0_l, Rmult_0_r, Rplus_0_r. apply exp_ln, KP. }
      rewrite A, B. reflexivity.
  - assert (B : bracket tab lo hi).
    { split.
      - destruct tab as [|[x a] t]; [congruence|].
        assert (Lx : listed ((x, a) :: t) x) by (exists a; left; reflexivity).
        destruct (L2 x Lx) as [(p & A & _)|A]; [left; congruence|].
        destruct (H2 x Lx) as [(p & A' & _)|A']; [right; congruence|].
        exfalso. apply HL. replace P with x by lra. exact Lx.
      - split; [intros p E; apply L1, E|]. split; [intros p E; apply H1, E|].
        intros q Hq. destruct (L2 q Hq) as [A|A]; [left; exact A|].
        destruct (H2 q Hq) as [A'|A']; [right; exact A'|].
        exfalso. apply HL. replace P with q by lra. exact Hq. }
    apply (glue f (seg tab T lo hi) (seg tab T lo hi) P e E0); try (apply seg_cont, PP).
    + intros x Hx. apply U; [exact B| | |apply E1; lra].
      * intros p E. apply (E2 p x E). lra.
      * intros p E. apply (E3 p x E). lra.
    + intros x Hx. apply U; [exact B| | |apply E1; lra].
      * intros p E. apply (E2 p x E). lra.
      * intros p E. apply (E3 p x E). lra.
    + reflexivity.
Qed.

(* ---------------- bounds ---------------- *)

Lemma interp_bounds tab T p1 p2 P :
  0 < knot tab p1 T -> 0 < knot tab p2 T -> 0 < p1 -> p1 < p2 -> p1 <= P <= p2 ->
  Rmin (knot tab p1 T) (knot tab p2 T) <= interp tab T p1 p2 P
  <= Rmax (knot tab p1 T) (knot tab p2 T).
Proof.
  intros K1 K2 H0 H1 H2. unfold interp.
  assert (A : ln p1 <= ln P) by (apply ln_le'; lra).
  assert (B : ln P <= ln p2) by (apply ln_le'; lra).
  assert (C : ln p1 < ln p2) by (apply ln_increasing; lra).
  set (t := (ln P - ln p1) / (ln p2 - ln p1)).
  assert (Ht : 0 <= t <= 1).
  { unfold t. split.
    - apply Rmult_le_pos; [lra|]. left. apply Rinv_0_lt_compat. lra.
    - apply (Rmult_le_reg_r (ln p2 - ln p1)); [lra|].
      unfold Rdiv. rewrite Rmult_assoc, Rinv_l by lra. lra. }
  set (a := ln (knot tab p1 T)). set (b := ln (knot tab p2 T)).
  assert (Ea : knot tab p1 T = exp a) by (symmetry; apply exp_ln, K1).
  assert (Eb : knot tab p2 T = exp b) by (symmetry; apply exp_ln, K2).
  rewrite Ea, Eb.
  assert (EI : forall x y, x <= y -> exp x <= exp y).
  { intros x y [H|H]; [left; apply exp_increasing, H|rewrite H; right; reflexivity]. }
  destruct (Rle_lt_dec a b) as [Q|Q].
  - rewrite Rmin_left, Rmax_right by (apply EI; exact Q).
    split; apply EI.
    + assert (0 <= (b - a) * t) by (apply Rmult_le_pos; lra). lra.
    + assert (0 <= (b - a) * (1 - t)) by (apply Rmult_le_pos; lra). lra.
  - rewrite Rmin_right, Rmax_left by (apply EI; lra).
    split; apply EI.
    + assert (0 <= (a - b) * (1 - t)) by (apply Rmult_le_pos; lra). lra.
    + assert (0 <= (a - b) * t) by (apply Rmult_le_pos; lra). lra.
Qed.

(* ---------------- getRates ---------------- *)

Lemma filter_insert p x l :
  mm_sorted l ->
  filter (feq p) (mm_insert x l) =
  filter (feq p) l ++ (if reqb (fst x) p then [x] else []).
Proof.
  unfold mm_sorted. induction l as [|y l IH]; intros Hs; cbn [mm_insert].
  - cbn [filter app]. unfold feq. destruct (reqb (fst x) p); reflexivity.
  - apply StronglySorted_inv in Hs as [Hs Hy].
    destruct (rltb (fst x) (fst y)) eqn:E.
    + apply rltb_true in E. cbn [filter]. unfold feq at 1.
      destruct (reqb (fst x) p) eqn:Ex.
      * apply reqb_true in Ex.
        assert (N : filter (feq p) (y :: l) = []).
        { apply filter_none. intros z [<-|Hz]; apply reqb_false; [lra|].
          rewrite Forall_forall in Hy. specialize (Hy z Hz). lra. }
        change (if feq p y then y :: filter (feq p) l else filter (feq p) l)
          with (filter (feq p) (y :: l)). rewrite N. reflexivity.
      * rewrite app_nil_r. reflexivity.
    + cbn [filter]. rewrite (IH Hs). destruct (feq p y); reflexivity.
Qed.

Lemma filter_fold_insert p l m :
  mm_sorted m ->
  filter (feq p) (fold_left (fun m x => mm_insert x m) l m) =
  filter (feq p) m ++ filter (feq p) l.
Proof.
  revert m. induction l as [|x l IH]; intros m Hm; cbn [fold_left].
  - cbn [filter]. rewrite app_nil_r. reflexivity.
  - rewrite IH by (apply mm_insert_sorted, Hm). rewrite filter_insert by exact Hm.
    rewrite <- app_assoc. f_equal. cbn [filter].
    change (feq p x) with (reqb (fst x) p). destruct (reqb (fst x) p); reflexivity.
Qed.

Lemma multimap_filter p l : filter (feq p) (multimap_of l) = filter (feq p) l.
Proof.
  unfold multimap_of. rewrite filter_fold_insert by constructor. reflexivity.
Qed.

(* One group: the entries at its pressure, inserted in order. *)
Lemma group_fold mm p i1 i2 acc :
  (i1 < i2 <= length mm)%nat ->
  (forall x, In x (slice i1 i2 mm) -> fst x = p) ->
  fold_left (fun acc i => match nth_error (map (fun x => Some (snd x)) mm) i with
                          | Some (Some a) => mm_insert (p, a) acc
                          | _ => acc
                          end) (seq i1 (i2 - i1)) acc =
  fold_left (fun m x => mm_insert x m) (slice i1 i2 mm) acc.
Proof.
  unfold slice. intros [H1 H2]. remember (i2 - i1)%nat as n eqn:En.
  assert (H3 : (i1 + n <= length mm)%nat) by lia. clear H1 H2 En i2.
  revert i1 acc H3. induction n as [|n IH]; intros i acc H Hp; [reflexivity|].
  cbn [seq fold_left]. rewrite nth_error_map.
  destruct (nth_error mm i) as [x|] eqn:E.
  2:{ apply nth_error_None in E. lia. }
  cbn [option_map].
  assert (S : skipn i mm = x :: skipn (S i) mm).
  { clear - E. revert mm E. induction i as [|i IH]; intros [|y l] E; try discriminate.
    - injection E as ->. reflexivity.
    - cbn [nth_error] in E. cbn [skipn]. rewrite (IH l E). reflexivity. }
  rewrite S in *. cbn [firstn fold_left] in *.
  assert (Ex : (p, snd x) = x).
  { rewrite <- (Hp x (or_introl eq_refl)). destruct x; reflexivity. }
  rewrite Ex. apply IH; [lia|]. intros z Hz. apply Hp. right. exact Hz.
Qed.

Lemma get_groups_spec mm ps e1000 acc :
  (forall e, In e ps -> fst e < 1000) -> fst e1000 = 1000 ->
  (forall e, In e ps -> exists p, 0 < p /\ fst e = ln p /\ group mm p (snd e)) ->
  ksorted ps -> mm_sorted acc ->
  exists res, get_groups (ps ++ [e1000]) (map (fun x => Some (snd x)) mm) acc = Ok res /\
    mm_sorted res /\
    forall p, 0 < p -> filter (feq p) res =
      filter (feq p) acc ++
      (if existsb (fun e => reqb (fst e) (ln p)) ps then filter (feq p) mm else []).
Proof.
  intros Hk E1 Hg. revert acc. induction ps as [|[k [i1 i2]] ps IH]; intros acc Hs Ha.
  - exists acc. cbn [app get_groups]. destruct e1000 as [k [j1 j2]]. cbn [fst] in E1. subst k.
    replace (rltb 1000 1000) with false by (symmetry; apply rltb_false; lra).
    split; [reflexivity|]. split; [exact Ha|]. intros p _. cbn [existsb]. rewrite app_nil_r. reflexivity.
  - cbn [app get_groups].
    assert (K := Hk _ (or_introl eq_refl)). cbn [fst] in K.
    replace (rltb k 1000) with true by (symmetry; apply rltb_true; exact K).
    destruct (Hg _ (or_introl eq_refl)) as (q & Q0 & Q1 & [Q2 Q3]). cbn [fst snd] in *.
    assert (Ek : exp k = q) by (rewrite Q1; apply exp_ln, Q0).
    rewrite Ek, group_fold; [|exact Q2|].
    2:{ intros x Hx. rewrite Q3 in Hx. apply filter_In in Hx as [_ Hx]. apply reqb_true, Hx. }
    rewrite Q3. apply StronglySorted_inv in Hs as [Hs Hlt].
    destruct (IH (fun e He => Hk e (or_intror He)) (fun e He => Hg e (or_intror He))
                 (fold_left (fun m x => mm_insert x m) (filter (feq q) mm) acc) Hs
                 (fold_insert_sorted _ _ Ha)) as (res & R1 & R2 & R3).
    exists res. split; [exact R1|]. split; [exact R2|].
    intros p Hp. rewrite (R3 p Hp), filter_fold_insert by exact Ha.
    rewrite <- app_assoc. f_equal. cbn [existsb fst].
    destruct (reqb k (ln p)) eqn:Ekp.
    + apply reqb_true in Ekp. cbn [orb].
      assert (Eqp : q = p) by (apply ln_inv; [exact Q0|exact Hp|congruence]). rewrite Eqp.
      replace (existsb (fun e => reqb (fst e) (ln p)) ps) with false.
      * rewrite app_nil_r. clear. induction mm as [|x mm IH]; [reflexivity|].
        cbn [filter]. destruct (feq p x) eqn:E; [|exact IH]. cbn [filter]. rewrite E, IH. reflexivity.
      * symmetry. apply not_true_is_false. intros H. apply existsb_exists in H as (e & He & H).
        apply reqb_true in H. rewrite Forall_forall in Hlt. specialize (Hlt e He).
        cbn [fst] in Hlt. lra.
    + cbn [orb]. apply reqb_false in Ekp.
      rewrite (filter_none (feq p) (filter (feq q) mm)); [reflexivity|].
      intros x Hx. apply filter_In in Hx as [_ Hx]. apply reqb_true in Hx.
      apply reqb_false. intros E. apply Ekp. congruence.
Qed.

Lemma getRates_spec tab :
  usable_table tab ->
  exists res, getRates (plog_of tab) = Ok res /\ mm_sorted res /\
    forall p, 0 < p -> filter (feq p) res = filter (feq p) tab.
Proof.
  intros Hu. destruct (plog_of_shape tab Hu) as (ps & E & H1 & H2 & H3).
  rewrite E. unfold getRates. cbn [pl_pressures pl_rates].
  destruct H2 as (G1 & G2 & G3).
  destruct (get_groups_spec (multimap_of tab) ps
     (1000, snd (last ps (0, (0, 0)%nat))) []) as (res & R1 & R2 & R3).
  - intros e He. apply H3, He.
  - reflexivity.
  - intros e He. destruct (G2 e He) as (p & P1 & P2 & P3). exists p.
    split; [|split; assumption]. apply (listed_pos (multimap_of tab)); [|exact P1].
    apply mm_range, Hu.
  - exact G1.
  - constructor.
  - exists res. split; [exact R1|]. split; [exact R2|].
    intros p Hp. rewrite (R3 p Hp). cbn [filter app].
    destruct (existsb (fun e => reqb (fst e) (ln p)) ps) eqn:Ex; [apply multimap_filter|].
    rewrite <- multimap_filter. symmetry. apply filter_none.
    intros x Hx. apply reqb_false. intros Ep.
    assert (L : listed (multimap_of tab) p) by (exists (snd x); rewrite <- Ep; destruct x; exact Hx).
    destruct (G3 p L) as (e & E1 & E2).
    assert (T : existsb (fun e => reqb (fst e) (ln p)) ps = true)
      by (apply existsb_exists; exists e; split; [exact E1|apply reqb_true; exact E2]).
    congruence.
Qed.
