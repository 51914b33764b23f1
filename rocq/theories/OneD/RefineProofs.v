(* Proofs about grid refinement. *)
From Coq Require Import Reals ZArith List Bool Arith Lra Lia.
From Verif Require Import Base.Outcome Base.Fp Base.Map2 OneD.RefineModel OneD.RefineSpec.
Import ListNotations.
Local Open Scope list_scope.
Local Open Scope nat_scope.

(* ---------------------------------------------------------------- *)
(** * How steps change the refiner *)
Definition ext (K Q I : nat -> Prop) (r r' : refiner) : Prop :=
  (forall j, f_keep r' j = KEEP <-> f_keep r j = KEEP \/ K j) /\
  (forall j, f_keep r' j = REMOVE <-> ~ K j /\ (f_keep r j = REMOVE \/ f_keep r j = UNSET /\ Q j)) /\
  (forall j, In j (f_ins r') <-> In j (f_ins r) \/ I j) /\
  (NoDup (f_ins r) -> NoDup (f_ins r')).
Definition none (_ : nat) : Prop := False.

Lemma ext_iff K Q I K' Q' I' r r' : ext K Q I r r' -> (forall j, K j <-> K' j) -> (forall j, Q j <-> Q' j) -> (forall j, I j <-> I' j) -> ext K' Q' I' r r'.
Proof.
  intros (A & B & C & D) EK EQ EI. repeat split; intros; try (apply D; assumption).
  - rewrite <- EK. apply A. assumption.
  - apply A. rewrite EK. assumption.
  - rewrite <- EK. apply B in H. tauto.
  - rewrite <- EQ. apply B in H. tauto.
  - apply B. rewrite EK, EQ. assumption.
  - rewrite <- EI. apply C. assumption.
  - apply C. rewrite EI. assumption.
Qed.
Lemma ext_refl r : ext none none none r r.
Proof. unfold ext, none. repeat split; intros; try tauto. Qed.
Lemma ext_trans K1 Q1 I1 K2 Q2 I2 r1 r2 r3 : ext K1 Q1 I1 r1 r2 -> ext K2 Q2 I2 r2 r3 ->
  ext (fun j => K1 j \/ K2 j) (fun j => Q1 j \/ Q2 j) (fun j => I1 j \/ I2 j) r1 r3.
Proof.
  intros (A1 & B1 & C1 & D1) (A2 & B2 & C2 & D2). split; [|split; [|split]].
  - intro j. rewrite A2, A1. tauto.
  - intro j. specialize (A1 j). specialize (B1 j). specialize (A2 j). specialize (B2 j).
    destruct (f_keep r1 j) eqn:E1, (f_keep r2 j) eqn:E2; intuition (try discriminate; auto).
  - intro j. rewrite C2, C1. tauto.
  - auto.
Qed.
Lemma ext_ins j r : ext none none (fun i => i = j) r (ins j r).
Proof.
  unfold ext, none, ins. cbn. split; [|split; [|split]]; try (intros; tauto).
  - intro i. destruct (existsb (Nat.eqb j) (f_ins r)) eqn:E.
    + apply existsb_exists in E. destruct E as (k & Hk & E). apply Nat.eqb_eq in E. subst k. split; [tauto|]. intros [H| ->]; auto.
    + cbn. split; intros [H|H]; auto.
  - intro N. destruct (existsb (Nat.eqb j) (f_ins r)) eqn:E; [exact N|]. constructor; [|exact N]. intro H.
    assert (existsb (Nat.eqb j) (f_ins r) = true) by (apply existsb_exists; exists j; split; [exact H|apply Nat.eqb_refl]). congruence.
Qed.
Lemma ext_keep j r : ext (fun i => i = j) none none r (mark j KEEP r).
Proof.
  unfold ext, none, mark. cbn. split; [|split; [|split]]; try (intros; tauto); intro i; destruct (Nat.eqb_spec i j) as [->|N]; try tauto.
  intuition discriminate.
Qed.
Lemma ext_remove j r : ext none (fun i => i = j) none r (if is_unset (f_keep r j) then mark j REMOVE r else r).
Proof.
  unfold ext, none. destruct (f_keep r j) eqn:E; cbn; (split; [|split; [|split]]); try (intros; tauto); intro i.
  - destruct (Nat.eqb_spec i j) as [->|N]; [rewrite E|]; intuition discriminate.
  - destruct (Nat.eqb_spec i j) as [->|N]; [rewrite E|]; intuition discriminate.
  - destruct (Nat.eq_dec i j) as [->|N]; [rewrite E|]; intuition discriminate.
  - destruct (Nat.eq_dec i j) as [->|N]; [rewrite E|]; intuition discriminate.
Qed.
Lemma ext_if (b : bool) K Q I r r' : ext K Q I r r' ->
  ext (fun j => b = true /\ K j) (fun j => b = true /\ Q j) (fun j => b = true /\ I j) r (if b then r' else r).
Proof.
  intro H. destruct b.
  - eapply ext_iff; [exact H| | |]; intro j; tauto.
  - eapply ext_iff; [apply ext_refl| | |]; intro j; unfold none; intuition discriminate.
Qed.
Lemma ext_if2 (b : bool) K Q I K' Q' I' r r1 r2 : ext K Q I r r1 -> ext K' Q' I' r r2 ->
  ext (fun j => b = true /\ K j \/ b = false /\ K' j) (fun j => b = true /\ Q j \/ b = false /\ Q' j) (fun j => b = true /\ I j \/ b = false /\ I' j) r (if b then r1 else r2).
Proof. intros H H'. destruct b; [eapply ext_iff; [exact H| | |]|eapply ext_iff; [exact H'| | |]]; intro j; intuition discriminate. Qed.
Lemma ext_fold (f : refiner -> nat -> refiner) K Q I : forall l,
  (forall a r, In a l -> ext (K a) (Q a) (I a) r (f r a)) ->
  forall r, ext (fun j => exists a, In a l /\ K a j) (fun j => exists a, In a l /\ Q a j) (fun j => exists a, In a l /\ I a j) r (fold_left f l r).
Proof.
  induction l as [|a l IH]; intros H r; cbn.
  - eapply ext_iff; [apply ext_refl| | |]; intro j; unfold none; (split; [tauto|]); intros (b & [] & _).
  - eapply ext_iff; [eapply ext_trans; [apply (H a r); left; reflexivity|apply IH; intros b r' Hb; apply H; right; exact Hb]| | |];
      intro j; (split; [intros [X|(b & Hb & X)]; eauto|intros (b & [->|Hb] & X); eauto]).
Qed.

(* ---------------------------------------------------------------- *)
(** * Smallest and largest *)
Local Open Scope R_scope.
Lemma minl_aux : forall l a, let m := fold_left (fun m v => if rltb v m then v else m) l a in In m (a :: l) /\ forall v, In v (a :: l) -> m <= v.
Proof.
  induction l as [|b l IH]; intros a; cbn.
  - split; [auto|]. intros v [->|[]]. lra.
  - destruct (IH (if rltb b a then b else a)) as (A & B). set (m := fold_left _ l _) in *. split.
    + destruct A as [A|A]; [|auto]. rewrite <- A. destruct (rltb b a); auto.
    + intros v Hv. assert (Hm : m <= a /\ m <= b).
      { specialize (B (if rltb b a then b else a) (or_introl eq_refl)). destruct (rltb b a) eqn:E; [apply rltb_true in E|apply rltb_false in E]; lra. }
      destruct Hv as [<-|[<-|Hv]]; [lra|lra|]. apply B. right. exact Hv.
Qed.
Lemma maxl_aux : forall l a, let m := fold_left (fun m v => if rltb m v then v else m) l a in In m (a :: l) /\ forall v, In v (a :: l) -> v <= m.
Proof.
  induction l as [|b l IH]; intros a; cbn.
  - split; [auto|]. intros v [->|[]]. lra.
  - destruct (IH (if rltb a b then b else a)) as (A & B). set (m := fold_left _ l _) in *. split.
    + destruct A as [A|A]; [|auto]. rewrite <- A. destruct (rltb a b); auto.
    + intros v Hv. assert (Hm : a <= m /\ b <= m).
      { specialize (B (if rltb a b then b else a) (or_introl eq_refl)). destruct (rltb a b) eqn:E; [apply rltb_true in E|apply rltb_false in E]; lra. }
      destruct Hv as [<-|[<-|Hv]]; [lra|lra|]. apply B. right. exact Hv.
Qed.
Lemma spans_minmax l : l <> [] -> spans l (minl l) (maxl l).
Proof.
  destruct l as [|a l]; [congruence|]. intros _. unfold spans, minl, maxl. cbn [hd tl]. destruct (minl_aux l a) as (A & B), (maxl_aux l a) as (C & D).
  split; [exact A|]. split; [exact C|]. intros v Hv. split; [apply B|apply D]; exact Hv.
Qed.
Lemma spans_unique l lo hi lo' hi' : spans l lo hi -> spans l lo' hi' -> lo = lo' /\ hi = hi'.
Proof.
  intros (A & B & C) (A' & B' & C'). pose proof (C lo' A'). pose proof (C hi' B'). pose proof (C' lo A). pose proof (C' hi B). lra.
Qed.
Lemma fmax_Rmax a b : fmax a b = Rmax a b.
Proof. unfold fmax, Rmax. destruct (Rle_dec a b), (rltb a b) eqn:E; [reflexivity|apply rltb_false in E; lra|apply rltb_true in E; lra|reflexivity]. Qed.

(* ---------------------------------------------------------------- *)
(** * The analysis *)
Section Analysis.
  Context (c : crit) (n nv : nat) (z : nat -> R) (val : nat -> nat -> R) (active : nat -> bool) (protected : R -> bool).
  Context (N2 : (2 <= n)%nat).
  Definition used i := (i < nv)%nat /\ active i = true.
  Definition special v := protected v = true.
  Notation chg := (change c n val used). Notation bnd := (bend c n z val used).

  Lemma dz_gap j : dz z j = gap z j.
  Proof. unfold dz, gap. rewrite Nat.add_1_r. reflexivity. Qed.
  Lemma slp_rate i j : slp z val i j = rate z val i j.
  Proof. unfold slp, rate. rewrite dz_gap, Nat.add_1_r. reflexivity. Qed.

  Lemma value_step_ext i M r j : let q := Rabs (val i (S j) - val i j) / (M + c_thresh c) in
    ext (fun k => c_prune c <= q /\ (k = j \/ k = S j)) (fun k => q < c_prune c /\ k = j)
        (fun k => k = j /\ 1 < q /\ 2 * c_gridmin c <= dz z j) r (value_step c z val i M r j).
  Proof.
    intro q. unfold value_step. fold q.
    set (b1 := rltb 1 q && negb (rltb (dz z j) (2 * c_gridmin c))).
    set (r1 := if b1 then ins j r else r).
    pose proof (ext_if b1 _ _ _ r _ (ext_ins j r)) as E1. fold r1 in E1.
    pose proof (ext_trans _ _ _ _ _ _ _ _ _ (ext_keep j r1) (ext_keep (S j) (mark j KEEP r1))) as E2.
    pose proof (ext_if2 (negb (rltb q (c_prune c))) _ _ _ _ _ _ _ _ _ E2 (ext_remove j r1)) as E3.
    eapply ext_iff; [eapply ext_trans; [exact E1|exact E3]| | |]; intro k; unfold none; cbn beta.
    - rewrite negb_true_iff, negb_false_iff, rltb_false. intuition.
    - rewrite negb_true_iff, negb_false_iff, rltb_true. intuition.
    - unfold b1. rewrite andb_true_iff, negb_true_iff, rltb_true, rltb_false. intuition lra.
  Qed.
  Lemma slope_step_ext i M r j : let q := Rabs (slp z val i (S j) - slp z val i j) / (M + c_thresh c / dz z j) in
    ext (fun k => c_prune c <= q /\ k = S j) (fun k => q < c_prune c /\ k = S j)
        (fun k => (k = j \/ k = S j) /\ 1 < q /\ 2 * c_gridmin c <= dz z j /\ 2 * c_gridmin c <= dz z (S j)) r (slope_step c z val i M r j).
  Proof.
    intro q. unfold slope_step. fold q.
    set (b1 := rltb 1 q && negb (rltb (dz z j) (2 * c_gridmin c)) && negb (rltb (dz z (S j)) (2 * c_gridmin c))).
    set (r1 := if b1 then ins (S j) (ins j r) else r).
    pose proof (ext_if b1 _ _ _ r _ (ext_trans _ _ _ _ _ _ _ _ _ (ext_ins j r) (ext_ins (S j) (ins j r)))) as E1. fold r1 in E1.
    pose proof (ext_if2 (negb (rltb q (c_prune c))) _ _ _ _ _ _ _ _ _ (ext_keep (S j) r1) (ext_remove (S j) r1)) as E3.
    eapply ext_iff; [eapply ext_trans; [exact E1|exact E3]| | |]; intro k; unfold none; cbn beta.
    - rewrite negb_true_iff, negb_false_iff, rltb_false. intuition.
    - rewrite negb_true_iff, negb_false_iff, rltb_true. intuition.
    - unfold b1. rewrite !andb_true_iff, !negb_true_iff, rltb_true, !rltb_false. intuition lra.
  Qed.

  Lemma map_nonempty {A B} (f : A -> B) l : l <> [] -> map f l <> [].
  Proof. destruct l; [congruence|discriminate]. Qed.
  Lemma component_ext i r : (i < nv)%nat ->
    ext (fun k => (exists j q, chg i j q /\ c_prune c <= q /\ (k = j \/ k = j + 1)%nat) \/ (exists j q, bnd i j q /\ c_prune c <= q /\ k = (j + 1)%nat))
        (fun k => (exists q, chg i k q /\ q < c_prune c) \/ (exists j q, bnd i j q /\ q < c_prune c /\ k = (j + 1)%nat))
        (fun k => (exists q, chg i k q /\ 1 < q /\ 2 * c_gridmin c <= gap z k) \/
                  (exists j q, bnd i j q /\ 1 < q /\ 2 * c_gridmin c <= gap z j /\ 2 * c_gridmin c <= gap z (j + 1) /\ (k = j \/ k = j + 1)%nat))
        r (component_step c n z val active r i).
  Proof.
    intro Hi. unfold component_step. destruct (active i) eqn:A.
    2:{ assert (U : ~ used i) by (intros (_ & U); congruence).
        eapply ext_iff; [apply ext_refl| | |]; intro k; unfold none; (split; [tauto|]).
        - intros [(j & q & (C & _) & _)|(j & q & (C & _) & _)]; tauto.
        - intros [(q & (C & _) & _)|(j & q & (C & _) & _)]; tauto.
        - intros [(q & (C & _) & _)|(j & q & (C & _) & _)]; tauto. }
    assert (U : used i) by (split; assumption).
    set (vals := map (val i) (seq 0 n)). set (slopes := map (slp z val i) (seq 0 (n - 1))).
    assert (Sv : spans vals (minl vals) (maxl vals)).
    { apply spans_minmax, map_nonempty. destruct n; [lia|discriminate]. }
    assert (Es : slopes = map (rate z val i) (seq 0 (n - 1))) by (apply map_ext; intro; apply slp_rate).
    assert (Ss : spans slopes (minl slopes) (maxl slopes)).
    { apply spans_minmax, map_nonempty. destruct n as [|[|m]]; [lia|lia|discriminate]. }
    set (lo := minl vals) in *. set (hi := maxl vals) in *. set (slo := minl slopes) in *. set (shi := maxl slopes) in *.
    assert (Cq : forall j q, chg i j q <-> (S j < n)%nat /\ varies (c_range c) lo hi /\ q = Rabs (val i (S j) - val i j) / (c_slope c * (hi - lo) + c_thresh c)).
    { intros j q. unfold change. rewrite Nat.add_1_r. fold vals. split.
      - intros (_ & Hj & lo' & hi' & Sp & V & E). destruct (spans_unique _ _ _ _ _ Sv Sp) as (<- & <-). auto.
      - intros (Hj & V & E). split; [exact U|]. split; [exact Hj|]. exists lo, hi. auto. }
    assert (Bq : forall j q, bnd i j q <-> (S (S j) < n)%nat /\ varies (c_range c) slo shi /\ q = Rabs (slp z val i (S j) - slp z val i j) / (c_curve c * (shi - slo) + c_thresh c / dz z j)).
    { intros j q. unfold bend. rewrite Nat.add_1_r. rewrite <- Es, <- !slp_rate, <- dz_gap. replace (j + 2)%nat with (S (S j)) by lia. split.
      - intros (_ & Hj & lo' & hi' & Sp & V & E). destruct (spans_unique _ _ _ _ _ Ss Sp) as (<- & <-). auto.
      - intros (Hj & V & E). split; [exact U|]. split; [exact Hj|]. exists slo, shi. auto. }
    rewrite !fmax_Rmax. cbv zeta.
    set (b1 := rltb (c_range c * Rmax (Rabs hi) (Rabs lo)) (hi - lo)). set (b2 := rltb (c_range c * Rmax (Rabs shi) (Rabs slo)) (shi - slo)).
    assert (B1 : b1 = true <-> varies (c_range c) lo hi) by (unfold b1, varies; rewrite rltb_true; lra).
    assert (B2 : b2 = true <-> varies (c_range c) slo shi) by (unfold b2, varies; rewrite rltb_true; lra).
    pose proof (ext_if b1 _ _ _ r _ (ext_fold (value_step c z val i (c_slope c * (hi - lo))) _ _ _ (seq 0 (n - 1)) (fun a r' _ => value_step_ext i (c_slope c * (hi - lo)) r' a) r)) as E1.
    match type of E1 with ext _ _ _ _ ?x => set (r1 := x) in * end.
    pose proof (ext_if b2 _ _ _ r1 _ (ext_fold (slope_step c z val i (c_curve c * (shi - slo))) _ _ _ (seq 0 (n - 2)) (fun a r' _ => slope_step_ext i (c_curve c * (shi - slo)) r' a) r1)) as E2.
    eapply ext_iff; [eapply ext_trans; [exact E1|exact E2]| | |]; intro k; cbn beta.
    - split.
      + intros [(V & j & Hj & G & D)|(V & j & Hj & G & D)]; [left|right]; apply in_seq in Hj; (eexists j, _; split; [first [apply Cq|apply Bq]; split; [lia|]; split; [tauto|reflexivity]|]; split; [exact G|lia]).
      + intros [(j & q & C & G & D)|(j & q & C & G & D)]; [left; apply Cq in C|right; apply Bq in C]; destruct C as (Hj & V & ->); (split; [tauto|]; exists j; split; [apply in_seq; lia|]; split; [exact G|lia]).
    - split.
      + intros [(V & j & Hj & G & D)|(V & j & Hj & G & D)]; [left|right]; apply in_seq in Hj.
        * subst k. eexists. split; [apply Cq; split; [lia|]; split; [tauto|reflexivity]|exact G].
        * eexists j, _. split; [apply Bq; split; [lia|]; split; [tauto|reflexivity]|]. split; [exact G|lia].
      + intros [(q & C & G)|(j & q & C & G & D)]; [left; apply Cq in C|right; apply Bq in C]; destruct C as (Hj & V & ->); (split; [tauto|]).
        * exists k. split; [apply in_seq; lia|]. auto.
        * exists j. split; [apply in_seq; lia|]. split; [exact G|lia].
    - split.
      + intros [(V & j & Hj & D & G)|(V & j & Hj & D & G)]; [left|right]; apply in_seq in Hj.
        * subst k. rewrite dz_gap in G. eexists. split; [apply Cq; split; [lia|]; split; [tauto|reflexivity]|exact G].
        * destruct G as (G1 & G2 & G3). rewrite dz_gap in G2. rewrite dz_gap in G3. rewrite <- Nat.add_1_r in G3. eexists j, _. split; [apply Bq; split; [lia|]; split; [tauto|reflexivity]|]. repeat split; try assumption. lia.
      + intros [(q & C & G)|(j & q & C & G & G2 & G3 & D)]; [left; apply Cq in C|right; apply Bq in C]; destruct C as (Hj & V & ->); (split; [tauto|]).
        * exists k. split; [apply in_seq; lia|]. rewrite <- !dz_gap in *. auto.
        * exists j. split; [apply in_seq; lia|]. split; [lia|]. rewrite Nat.add_1_r in G3. rewrite <- !dz_gap in *. auto.
  Qed.

  Lemma grid_ext j r : (1 <= j)%nat ->
    ext (fun k => c_ratio c * gap z (j - 1) < gap z j /\ (j - 1 <= k <= j + 2)%nat \/
                  c_ratio c * gap z j < gap z (j - 1) /\ (j <= k + 2 /\ k <= j + 1)%nat \/
                  k = j /\ (1 < j)%nat /\ c_ratio c * gap z (j - 2) < z (j + 1)%nat - z (j - 1)%nat \/
                  k = j /\ (j < n - 2)%nat /\ c_ratio c * gap z (j + 1) < z (j + 1)%nat - z (j - 1)%nat \/
                  k = j /\ special (z j))
        none
        (fun k => k = j /\ c_ratio c * gap z (j - 1) < gap z j \/ k = (j - 1)%nat /\ c_ratio c * gap z j < gap z (j - 1))
        r (grid_step c n z protected r j).
  Proof.
    intro Hj. unfold grid_step. cbv zeta. rewrite !dz_gap.
    match goal with |- ext _ _ _ _ (if _ then mark _ _ ?x else _) => set (r4 := x) end.
    match eval unfold r4 in r4 with (if _ then mark _ _ ?x else _) => set (r3 := x) in r4 end.
    match eval unfold r3 in r3 with (if _ then mark _ _ ?x else _) => set (r2 := x) in r3 end.
    match eval unfold r2 in r2 with (if ?b then _ else ?x) => set (r1 := x) in r2; set (b2 := b) in r2 end.
    set (b1 := rltb (c_ratio c * gap z (j - 1)) (gap z j)) in r1.
    assert (E1 : ext (fun k => b1 = true /\ (j - 1 <= k <= j + 2)%nat) none (fun k => b1 = true /\ k = j) r r1).
    { eapply ext_iff; [apply ext_if; eapply ext_trans; [apply ext_ins|eapply ext_trans; [apply ext_keep|eapply ext_trans; [apply ext_keep|eapply ext_trans; [apply ext_keep|apply ext_keep]]]]| | |]; intro k; unfold none; cbn beta; [|tauto|tauto].
      split; intros (B & H); (split; [exact B|]); lia. }
    assert (E2 : ext (fun k => b2 = true /\ (j <= k + 2 /\ k <= j + 1)%nat) none (fun k => b2 = true /\ k = (j - 1)%nat) r1 r2).
    { eapply ext_iff; [apply ext_if; eapply ext_trans; [apply ext_ins|eapply ext_trans; [apply (ext_if (2 <=? j)%nat); apply ext_keep|eapply ext_trans; [apply ext_keep|eapply ext_trans; [apply ext_keep|apply ext_keep]]]]| | |]; intro k; unfold none; cbn beta; [|tauto|tauto].
      rewrite Nat.leb_le. split; intros (B & H); (split; [exact B|]); lia. }
    pose proof (ext_if _ _ _ _ r2 _ (ext_keep j r2) : ext _ _ _ r2 r3) as E3.
    pose proof (ext_if _ _ _ _ r3 _ (ext_keep j r3) : ext _ _ _ r3 r4) as E4.
    pose proof (ext_if (protected (z j)) _ _ _ r4 _ (ext_keep j r4)) as E5.
    eapply ext_iff; [eapply ext_trans; [exact E1|eapply ext_trans; [exact E2|eapply ext_trans; [exact E3|eapply ext_trans; [exact E4|exact E5]]]]| | |]; intro k; unfold none; cbn beta; unfold b1, b2, special.
    - rewrite !andb_true_iff, !rltb_true, !Nat.ltb_lt. tauto.
    - tauto.
    - rewrite !rltb_true. tauto.
  Qed.

  (* Before neighbours are looked at. *)
  Definition marked : refiner :=
    fold_left (grid_step c n z protected) (seq 1 (n - 2)) (fold_left (component_step c n z val active) (seq 0 nv) (mark (n - 1) KEEP (mark 0 KEEP refiner0))).
  Notation Need := (needs c n z val used). Notation Req := (required c n z val used special). Notation Idle := (idle c n z val used).
  Lemma used_lt i : used i -> In i (seq 0 nv).
  Proof. intros (H & _). apply in_seq. lia. Qed.
  Lemma marked_ext : ext Req Idle Need refiner0 marked.
  Proof.
    unfold marked.
    pose proof (ext_trans _ _ _ _ _ _ _ _ _ (ext_keep 0 refiner0) (ext_keep (n - 1) (mark 0 KEEP refiner0))) as E1.
    match type of E1 with ext _ _ _ _ ?x => set (r1 := x) in * end.
    pose proof (ext_fold (component_step c n z val active) _ _ _ (seq 0 nv) (fun a r' Ha => component_ext a r' (proj2 (proj1 (in_seq _ _ _) Ha))) r1) as E2.
    match type of E2 with ext _ _ _ _ ?x => set (r2 := x) in * end.
    pose proof (ext_fold (grid_step c n z protected) _ _ _ (seq 1 (n - 2)) (fun a r' Ha => grid_ext a r' (proj1 (proj1 (in_seq _ _ _) Ha))) r2) as E3.
    eapply ext_iff; [eapply ext_trans; [exact E1|eapply ext_trans; [exact E2|exact E3]]| | |]; intro k; unfold none; cbn beta.
    - unfold required. split.
      + intros [[->| ->]|[(i & _ & [(j & q & H)|(j & q & H)])|(j & Hj & H)]].
        * left. reflexivity.
        * right. left. reflexivity.
        * right. right. left. exists i, j, q. exact H.
        * right. right. right. left. exists i, j, q. exact H.
        * apply in_seq in Hj. do 4 right. destruct H as [(H & D)|[(H & D)|[(-> & D & H)|[(-> & D & H)|(-> & H)]]]].
          -- left. exists j. repeat split; try assumption; lia.
          -- right. left. exists j. repeat split; try assumption; lia.
          -- right. right. left. repeat split; try assumption; lia.
          -- do 3 right. left. repeat split; try assumption; lia.
          -- do 4 right. repeat split; try assumption; lia.
      + intros [->|[->|[(i & j & q & H)|[(i & j & q & H)|[(j & A & B & H)|[(j & A & B & H)|[(A & B & H)|[(A & B & H)|(A & B & H)]]]]]]]].
        * left. left. reflexivity.
        * left. right. reflexivity.
        * right. left. exists i. split; [apply used_lt; apply H|]. left. exists j, q. exact H.
        * right. left. exists i. split; [apply used_lt; apply H|]. right. exists j, q. exact H.
        * right. right. exists j. split; [apply in_seq; lia|]. tauto.
        * right. right. exists j. split; [apply in_seq; lia|]. tauto.
        * right. right. exists k. split; [apply in_seq; lia|]. tauto.
        * right. right. exists k. split; [apply in_seq; lia|]. do 3 right. left. split; [reflexivity|]. split; [lia|exact H].
        * right. right. exists k. split; [apply in_seq; lia|]. tauto.
    - unfold idle. split.
      + intros [[[]|[]]|[(i & _ & [(q & H)|(j & q & H)])|(j & _ & [])]]; [left; exists i, q; exact H|right; exists i, j, q; exact H].
      + intros [(i & q & H)|(i & j & q & H)]; right; left; exists i; (split; [apply used_lt; apply H|]); [left|right]; eauto.
    - unfold needs. split.
      + intros [[[]|[]]|[(i & _ & [(q & H)|(j & q & H)])|(j & Hj & H)]].
        * left. exists i, q. exact H.
        * right. left. exists i, j, q. exact H.
        * apply in_seq in Hj. destruct H as [(-> & H)|(-> & H)]; do 2 right.
          -- left. repeat split; try assumption; lia.
          -- right. split; [lia|]. replace (j - 1 + 1)%nat with j by lia. exact H.
      + intros [(i & q & H)|[(i & j & q & H)|[(A & B & H)|(A & H)]]].
        * right. left. exists i. split; [apply used_lt; apply H|]. left. exists q. exact H.
        * right. left. exists i. split; [apply used_lt; apply H|]. right. exists j, q. exact H.
        * right. right. exists k. split; [apply in_seq; lia|]. auto.
        * right. right. exists (k + 1)%nat. split; [apply in_seq; lia|]. right. replace (k + 1 - 1)%nat with k by lia. auto.
  Qed.
  Lemma marked_remove j : f_keep marked j = REMOVE <-> Idle j /\ ~ Req j.
  Proof. destruct marked_ext as (_ & B & _). rewrite B. cbn. intuition discriminate. Qed.
  Lemma marked_ins j : In j (f_ins marked) <-> Need j.
  Proof. destruct marked_ext as (_ & _ & C & _). rewrite C. cbn. tauto. Qed.
  Lemma marked_nodup : NoDup (f_ins marked).
  Proof. destruct marked_ext as (_ & _ & _ & D). apply D. constructor. Qed.
  Lemma remove_range j : f_keep marked j = REMOVE -> (0 < j < n - 1)%nat.
  Proof.
    intro H. apply marked_remove in H. destruct H as (I & R). unfold required in R.
    assert (j <> 0 /\ j <> n - 1)%nat by tauto. destruct I as [(i & q & (_ & L & _) & _)|(i & k & q & (_ & L & _) & _ & ->)]; lia.
  Qed.

  (* Neighbours. *)
  Lemma adjacent_steps : forall k r, (forall j, f_keep r j = REMOVE -> (0 < j)%nat) ->
    let r' := fold_left adjacent_step (seq 2 k) r in
    f_ins r' = f_ins r /\
    (forall j, (j < 2 + k)%nat -> (f_keep r' j = REMOVE <-> f_keep r j = REMOVE /\ f_keep r' (j - 1) <> REMOVE)) /\
    (forall j, (2 + k <= j)%nat -> f_keep r' j = f_keep r j).
  Proof.
    induction k as [|k IH]; intros r H0; cbv zeta.
    - cbn [seq fold_left]. split; [reflexivity|]. split; [|auto]. intros j Hj. split; [|tauto]. intro E. split; [exact E|].
      pose proof (H0 _ E). assert (j = 1)%nat as -> by lia. intro Z. pose proof (H0 _ Z). cbn in *. lia.
    - rewrite seq_S, fold_left_app. cbn [fold_left]. destruct (IH r H0) as (A & B & C). set (r' := fold_left adjacent_step (seq 2 k) r) in *.
      unfold adjacent_step. replace (2 + k - 1)%nat with (1 + k)%nat by lia.
      destruct (is_remove (f_keep r' (2 + k)) && is_remove (f_keep r' (1 + k))) eqn:E.
      + apply andb_true_iff in E. destruct E as (E1 & E2). unfold mark. cbn [f_ins f_keep]. split; [exact A|]. split.
        * intros j Hj. destruct (Nat.eqb_spec j (2 + k)) as [->|N].
          -- destruct (Nat.eqb_spec (2 + k - 1) (2 + k)) as [X|_]; [lia|]. replace (2 + k - 1)%nat with (1 + k)%nat by lia.
             destruct (f_keep r' (1 + k)); try discriminate. split; [discriminate|tauto].
          -- destruct (Nat.eqb_spec (j - 1) (2 + k)) as [X|_]; [lia|]. apply B. lia.
        * intros j Hj. destruct (Nat.eqb_spec j (2 + k)) as [->|N]; [lia|]. apply C. lia.
      + split; [exact A|]. split; [|intros j Hj; apply C; lia]. intros j Hj. destruct (Nat.eq_dec j (2 + k)) as [->|N]; [|apply B; lia].
        rewrite (C (2 + k)%nat) in * by lia. replace (2 + k - 1)%nat with (1 + k)%nat by lia. apply andb_false_iff in E. destruct (f_keep r (2 + k)), (f_keep r' (1 + k)); cbn in E; destruct E; split; try tauto; try discriminate; try (intros (X & Y); discriminate); intros _; split; try reflexivity; discriminate.
  Qed.

  Notation res := (analysis c n nv z val active protected).
  Theorem analysis_ins j : newPointNeeded res j = true <-> Need j.
  Proof.
    unfold newPointNeeded, analysis. fold marked. destruct (adjacent_steps (n - 3) marked (fun j H => proj1 (remove_range j H))) as (A & _). rewrite A.
    rewrite existsb_exists, <- marked_ins. split.
    - intros (k & H & E). apply Nat.eqb_eq in E. subst. exact H.
    - intro H. exists j. split; [exact H|apply Nat.eqb_refl].
  Qed.
  Theorem analysis_keep j : keepPoint res j = false <-> Idle j /\ ~ Req j /\ keepPoint res (j - 1) = true.
  Proof.
    unfold keepPoint, analysis. fold marked. destruct (adjacent_steps (n - 3) marked (fun j H => proj1 (remove_range j H))) as (_ & B & C).
    set (r' := fold_left adjacent_step _ marked) in *.
    assert (X : f_keep r' j = REMOVE <-> f_keep marked j = REMOVE /\ f_keep r' (j - 1) <> REMOVE).
    { destruct (le_lt_dec (2 + (n - 3)) j) as [L|L]; [|apply B; exact L]. rewrite C by exact L. split; [|tauto]. intro E. pose proof (remove_range j E).
      split; [exact E|]. assert (n = 2 \/ j = n - 1)%nat by lia. lia. }
    rewrite marked_remove in X. destruct (f_keep r' j) eqn:E, (f_keep r' (j - 1)) eqn:F; cbn; intuition (try discriminate; try congruence).
  Qed.
  Theorem analysis_count : length (f_ins res) = length (f_ins marked) /\ NoDup (f_ins res).
  Proof.
    unfold analysis. fold marked. destruct (adjacent_steps (n - 3) marked (fun j H => proj1 (remove_range j H))) as (A & _). rewrite A.
    split; [reflexivity|apply marked_nodup].
  Qed.
End Analysis.

(* ---------------------------------------------------------------- *)
(** * From the analysis to the points *)
Definition pt_at (x : list R) (start : nat) (d : rdom) (j : nat) : pt := (zat d j, row x start d j).
Definition dpts (x : list R) (start : nat) (d : rdom) : list pt := map (pt_at x start d) (seq 0 (np d)).
Lemma points_dpts s n d : nth_error (s_dom s) n = Some d -> points s n = dpts (s_x s) (dstart (s_dom s) n) d.
Proof. intro H. unfold points. rewrite H. reflexivity. Qed.
Lemma mid_point x start d m : (/ 2 * (zat d m + zat d (S m)), mid_row x start d m) = midpoint (pt_at x start d m) (pt_at x start d (S m)).
Proof.
  unfold midpoint, pt_at, mid_row, row. cbn [fst snd]. f_equal; [unfold Rdiv; ring|].
  rewrite map2_map_l, map2_map_r. generalize (seq 0 (g_nv d)). induction l as [|i l IH]; cbn; [reflexivity|]. f_equal; [unfold Rdiv; ring|exact IH].
Qed.
Lemma new_refines (may_add : pt -> pt -> Prop) (may_drop : pt -> Prop) r x start d :
  (forall j, (S j < np d)%nat -> newPointNeeded r j = true -> may_add (pt_at x start d j) (pt_at x start d (S j))) ->
  (forall j, (j < np d)%nat -> keepPoint r j = false -> may_drop (pt_at x start d j)) ->
  (forall j, (j < np d)%nat -> keepPoint r j = false -> (0 < j)%nat /\ keepPoint r (j - 1) = true) -> keepPoint r (np d - 1) = true -> (0 < np d)%nat ->
  refines may_add may_drop (dpts x start d) (new_points r x start d).
Proof.
  intros Ha Hd Hk Hl Hn.
  assert (G : forall m k, (k + m + 1 = np d)%nat -> keepPoint r k = true ->
    refines may_add may_drop (map (pt_at x start d) (seq k (S m))) (flat_map (new_points_at r x start d) (seq k (S m)))).
  { induction m as [m IH] using lt_wf_ind. intros k E Kk.
    assert (Hm : forall m', m = S m' -> exists M, (M = [] \/ may_add (pt_at x start d k) (pt_at x start d (S k)) /\ M = [midpoint (pt_at x start d k) (pt_at x start d (S k))]) /\
      new_points_at r x start d k = pt_at x start d k :: M).
    { intros m' ->. unfold new_points_at. rewrite Kk. destruct (newPointNeeded r k) eqn:Nk.
      - rewrite (proj2 (Nat.ltb_lt _ _)) by lia. cbn [andb]. eexists. split; [right; split; [apply Ha; [lia|exact Nk]|reflexivity]|]. rewrite mid_point. reflexivity.
      - cbn [andb]. eexists. split; [left; reflexivity|reflexivity]. }
    destruct m as [|m].
    - cbn [seq map flat_map]. unfold new_points_at. rewrite Kk. rewrite (proj2 (Nat.ltb_ge _ _)) by lia. rewrite andb_false_r. constructor.
    - destruct (Hm m eq_refl) as (M & HM & EM). change (seq k (S (S m))) with (k :: seq (S k) (S m)). cbn [map flat_map]. rewrite EM. cbn [app].
      destruct (keepPoint r (S k)) eqn:K1.
      + change (map (pt_at x start d) (seq (S k) (S m))) with (pt_at x start d (S k) :: map (pt_at x start d) (seq (S (S k)) m)).
        apply rf_keep; [exact HM|]. apply (IH m); [lia|lia|exact K1].
      + destruct m as [|m].
        { exfalso. replace (np d - 1)%nat with (S k) in Hl by lia. congruence. }
        change (seq (S k) (S (S m))) with (S k :: seq (S (S k)) (S m)). cbn [map flat_map].
        unfold new_points_at at 1. rewrite K1. cbn [app].
        change (map (pt_at x start d) (seq (S (S k)) (S m))) with (pt_at x start d (S (S k)) :: map (pt_at x start d) (seq (S (S (S k))) m)).
        apply rf_drop; [exact HM|apply Hd; [lia|exact K1]|]. apply (IH m); [lia|lia|].
        destruct (keepPoint r (S (S k))) eqn:K2; [reflexivity|]. destruct (Hk (S (S k)) ltac:(lia) K2) as (_ & X). cbn in X. congruence. }
  unfold dpts, new_points. replace (np d) with (S (np d - 1)) by lia. apply G; [lia|].
  destruct (keepPoint r 0) eqn:K0; [reflexivity|]. destruct (Hk 0%nat Hn K0). lia.
Qed.

(* ---------------------------------------------------------------- *)
(** * What [refines] implies *)
Lemma last_app {A} (l m : list A) u : m <> [] -> last (l ++ m) u = last m u.
Proof.
  intro N. induction l as [|a l IH]; [reflexivity|]. cbn [app]. rewrite <- IH. destruct (l ++ m) eqn:E; [|reflexivity].
  apply app_eq_nil in E. tauto.
Qed.
Section Refines.
  Context (add : pt -> pt -> Prop) (drop : pt -> Prop).
  Lemma refines_mono (add' : pt -> pt -> Prop) (drop' : pt -> Prop) p p' : (forall a b, add a b -> add' a b) -> (forall b, drop b -> drop' b) ->
    refines add drop p p' -> refines add' drop' p p'.
  Proof. intros A B H. induction H; [constructor|apply rf_keep|apply rf_drop]; auto; destruct H as [H|(H & E)]; auto. Qed.
  Lemma refines_hd p p' : refines add drop p p' -> exists a t t', p = a :: t /\ p' = a :: t'.
  Proof. intro H. destruct H; eauto. Qed.
  Lemma refines_last p p' : refines add drop p p' -> forall u, last p' u = last p u.
  Proof.
    induction 1 as [a|a b p p' m M H IH|a b c p p' m M D H IH]; intro u; [reflexivity| |].
    - destruct (refines_hd _ _ H) as (x & t & t' & E & ->). rewrite app_comm_cons. rewrite last_app by discriminate. rewrite IH. reflexivity.
    - destruct (refines_hd _ _ H) as (x & t & t' & E & ->). rewrite app_comm_cons. rewrite last_app by discriminate. rewrite IH. reflexivity.
  Qed.
  Lemma refines_increasing p p' : refines add drop p p' -> increasing p -> increasing p'.
  Proof.
    induction 1 as [a|a b p p' m M H IH|a b c p p' m M D H IH]; intro I; [exact I| |].
    - cbn [increasing] in I. destruct I as (L & I). specialize (IH I). destruct (refines_hd _ _ H) as (x & t & t' & E & ->). injection E as -> ->.
      destruct M as [->|(_ & ->)]; cbn [app increasing]; [tauto|]. unfold midpoint. cbn [fst]. split; [lra|]. split; [lra|exact IH].
    - cbn [increasing] in I. destruct I as (L & L2 & I). specialize (IH I). destruct (refines_hd _ _ H) as (x & t & t' & E & ->). injection E as -> ->.
      destruct M as [->|(_ & ->)]; cbn [app increasing]; [split; [lra|exact IH]|]. unfold midpoint. cbn [fst]. split; [lra|]. split; [lra|exact IH].
  Qed.
  Lemma refines_spaced h g p p' : g <= h -> (forall a b, add a b -> 2 * g <= fst b - fst a) ->
    refines add drop p p' -> increasing p -> spaced h p -> spaced g p'.
  Proof.
    intros G A. induction 1 as [a|a b p p' m M H IH|a b c p p' m M D H IH]; intros I S0; [exact I| |].
    - cbn [increasing] in I. destruct I as (L & I). cbn [spaced] in S0. destruct S0 as (S0 & S1). specialize (IH I S1). destruct (refines_hd _ _ H) as (x & t & t' & E & ->). injection E as -> ->.
      destruct M as [->|(Ma & ->)]; cbn [app spaced]; [split; [lra|exact IH]|]. unfold midpoint. cbn [fst]. specialize (A _ _ Ma). split; [lra|]. split; [lra|exact IH].
    - cbn [increasing] in I. destruct I as (L & L2 & I). cbn [spaced] in S0. destruct S0 as (S0 & S1 & S2). specialize (IH I S2). destruct (refines_hd _ _ H) as (x & t & t' & E & ->). injection E as -> ->.
      destruct M as [->|(Ma & ->)]; cbn [app spaced]; [split; [lra|exact IH]|]. unfold midpoint. cbn [fst]. specialize (A _ _ Ma). split; [lra|]. split; [lra|exact IH].
  Qed.
  Lemma refines_points p p' : refines add drop p p' -> forall q, In q p' ->
    In q p \/ exists l1 a b l2, p = l1 ++ a :: b :: l2 /\ add a b /\ q = midpoint a b.
  Proof.
    induction 1 as [a|a b p p' m M H IH|a b c p p' m M D H IH]; intros q Hq; [left; exact Hq| |].
    - destruct Hq as [<-|Hq]; [left; left; reflexivity|]. apply in_app_or in Hq. destruct Hq as [Hq|Hq].
      + destruct M as [->|(Ma & ->)]; [destruct Hq|]. destruct Hq as [<-|[]]. right. exists [], a, b, p. auto.
      + destruct (IH q Hq) as [X|(l1 & u & v & l2 & -> & X)]; [left; right; exact X|]. right. exists (a :: l1), u, v, l2. auto.
    - destruct Hq as [<-|Hq]; [left; left; reflexivity|]. apply in_app_or in Hq. destruct Hq as [Hq|Hq].
      + destruct M as [->|(Ma & ->)]; [destruct Hq|]. destruct Hq as [<-|[]]. right. exists [], a, b, (c :: p). auto.
      + destruct (IH q Hq) as [X|(l1 & u & v & l2 & -> & X)]; [left; right; right; exact X|]. right. exists (a :: b :: l1), u, v, l2. auto.
  Qed.
  Lemma refines_kept p p' : refines add drop p p' -> forall q, In q p -> In q p' \/ drop q.
  Proof.
    induction 1 as [a|a b p p' m M H IH|a b c p p' m M D H IH]; intros q Hq; [left; exact Hq| |].
    - destruct Hq as [<-|Hq]; [left; left; reflexivity|]. destruct (IH q Hq) as [X|X]; [|auto]. left. right. apply in_or_app. auto.
    - destruct Hq as [<-|[<-|Hq]]; [left; left; reflexivity|auto|]. destruct (IH q Hq) as [X|X]; [|auto]. left. right. apply in_or_app. auto.
  Qed.
  Lemma refines_length p p' : refines add drop p p' -> (length p' <= 2 * length p - 1 /\ length p <= 2 * length p' - 1)%nat.
  Proof.
    induction 1 as [a|a b p p' m M H IH|a b c p p' m M D H IH]; [cbn; lia| |].
    - destruct (refines_hd _ _ H) as (x & t & t' & E & ->). cbn [length] in *. rewrite app_length in *. cbn [length] in *.
      assert (length m <= 1)%nat by (destruct M as [->|(_ & ->)]; cbn; lia). lia.
    - destruct (refines_hd _ _ H) as (x & t & t' & E & ->). cbn [length] in *. rewrite app_length in *. cbn [length] in *.
      assert (length m <= 1)%nat by (destruct M as [->|(_ & ->)]; cbn; lia). lia.
  Qed.
End Refines.

(* ---------------------------------------------------------------- *)
(** * One domain *)
Lemma increasing_gap : forall (l : list nat) (k : nat -> pt) j, increasing (map k l) -> (S j < length l)%nat -> forall u, fst (k (nth j l u)) < fst (k (nth (S j) l u)).
Proof.
  intros l k. induction l as [|a l IH]; intros j I H u; [cbn in H; lia|]. destruct l as [|b l]; [cbn in H; lia|].
  cbn [map increasing] in I. destruct I as (L & I). destruct j; [exact L|]. apply (IH j I). cbn in *. lia.
Qed.
Lemma spaced_gap h : forall (l : list nat) (k : nat -> pt) j, spaced h (map k l) -> (S j < length l)%nat -> forall u, h <= fst (k (nth (S j) l u)) - fst (k (nth j l u)).
Proof.
  intros l k. induction l as [|a l IH]; intros j I H u; [cbn in H; lia|]. destruct l as [|b l]; [cbn in H; lia|].
  cbn [map spaced] in I. destruct I as (L & I). destruct j; [exact L|]. apply (IH j I). cbn in *. lia.
Qed.
Lemma dpts_gap x start d j : increasing (dpts x start d) -> (S j < np d)%nat -> zat d j < zat d (S j).
Proof.
  intros I H. unfold dpts in I. pose proof (increasing_gap _ _ j I) as G. rewrite seq_length in G. specialize (G H 0%nat).
  rewrite !seq_nth in G by lia. exact G.
Qed.
Lemma dpts_spaced h x start d j : spaced h (dpts x start d) -> (S j < np d)%nat -> h <= zat d (S j) - zat d j.
Proof.
  intros I H. unfold dpts in I. pose proof (spaced_gap h _ _ j I) as G. rewrite seq_length in G. specialize (G H 0%nat).
  rewrite !seq_nth in G by lia. exact G.
Qed.
Lemma protects_special d v : protects d v = true <-> special_at d v.
Proof.
  unfold protects, special_at. rewrite orb_true_iff, andb_true_iff, reqb_true, existsb_exists. split.
  - intros [H|(y & H & E)]; [auto|]. apply reqb_true in E. subst. auto.
  - intros [H|H]; [auto|]. right. exists v. split; [exact H|]. apply reqb_true. reflexivity.
Qed.
Lemma ratio_nonneg a b : 0 < b -> 0 <= Rabs a / b.
Proof. intro H. apply Rmult_le_pos; [apply Rabs_pos|]. left. apply Rinv_0_lt_compat. exact H. Qed.


Section Domain.
  Context (d : rdom) (x : list R) (start : nat) (r : refiner).
  Context (An : analyze d x start = Ok r) (Inc : increasing (dpts x start d)) (Snd : sound (g_crit d)) (Np : (0 < np d)%nat) (Rf : f_keep (g_ref d) 0%nat <> REMOVE).
  Notation c := (g_crit d).
  Notation V := (value_at x start d).
  Notation U := (used (g_nv d) (g_active d)).
  Lemma an_cases : (np d < c_npmax c)%nat /\ ((np d = 1)%nat /\ r = g_ref d \/ (2 <= np d)%nat /\ r = analysis c (np d) (g_nv d) (zat d) V (g_active d) (protects d)).
  Proof.
    unfold analyze in An. destruct (Nat.leb_spec (c_npmax c) (np d)); [discriminate|]. split; [assumption|].
    destruct (Nat.leb_spec (np d) 1); injection An as <-; [left|right]; split; try lia; reflexivity.
  Qed.
  Lemma gap_pos j : (S j < np d)%nat -> 0 < gap (zat d) j.
  Proof. intro H. pose proof (dpts_gap x start d j Inc H). unfold gap. rewrite Nat.add_1_r. lra. Qed.
  Lemma change_nonneg i j q : change c (np d) V U i j q -> 0 <= q.
  Proof.
    intros (_ & _ & lo & hi & (_ & H & B) & _ & ->). apply ratio_nonneg. destruct Snd as (_ & S1 & _ & S2 & _). specialize (B hi H). nra.
  Qed.
  Lemma bend_nonneg i j q : bend c (np d) (zat d) V U i j q -> 0 <= q.
  Proof.
    intros (_ & L & lo & hi & (_ & H & B) & _ & ->). apply ratio_nonneg. destruct Snd as (_ & _ & S1 & S2 & _). specialize (B hi H).
    pose proof (gap_pos j ltac:(lia)) as G. assert (0 < c_thresh c / gap (zat d) j) by (apply Rmult_lt_0_compat; [exact S2|apply Rinv_0_lt_compat; exact G]). nra.
  Qed.
  Lemma keep_false j : keepPoint r j = false -> (0 < j)%nat /\ (j + 1 < np d)%nat /\ keepPoint r (j - 1) = true /\ 0 < c_prune c /\ ~ special_at d (zat d j) \/ (np d = 1)%nat /\ (0 < j)%nat.
  Proof.
    intro K. destruct an_cases as (_ & [(N1 & ->)|(N2 & E)]).
    - right. split; [exact N1|]. destruct j; [|lia]. unfold keepPoint in K. destruct (f_keep (g_ref d) 0); try discriminate. congruence.
    - left. rewrite E in K |- *. apply analysis_keep in K; [|exact N2]. destruct K as (I & R & K).
      assert (J : (j <> 0 /\ j <> np d - 1)%nat) by (unfold required in R; tauto).
      assert (L : (j + 1 < np d)%nat /\ 0 < c_prune c).
      { destruct I as [(i & q & C & G)|(i & k & q & C & G & ->)].
        - pose proof (change_nonneg _ _ _ C). destruct C as (_ & C & _). split; [lia|lra].
        - pose proof (bend_nonneg _ _ _ C). destruct C as (_ & C & _). split; [lia|lra]. }
      split; [lia|]. split; [lia|]. split; [exact K|]. split; [lra|]. intro Sp. apply R. unfold required. do 8 right. split; [lia|]. split; [lia|].
      unfold special. apply protects_special. exact Sp.
  Qed.
  Lemma need_spaced h j : spaced h (dpts x start d) -> (S j < np d)%nat -> newPointNeeded r j = true -> 2 * Rmin (c_gridmin c) h <= zat d (S j) - zat d j.
  Proof.
    intros Hs Hj K. destruct an_cases as (_ & [(N1 & ->)|(N2 & E)]); [lia|]. rewrite E in K. apply analysis_ins in K; [|exact N2].
    pose proof (Rmin_l (c_gridmin c) h). pose proof (Rmin_r (c_gridmin c) h). destruct Snd as (S0 & _).
    assert (Gj : gap (zat d) j = zat d (S j) - zat d j) by (unfold gap; rewrite Nat.add_1_r; reflexivity). rewrite <- Gj.
    destruct K as [(i & q & C & _ & G)|[(i & k & q & C & _ & G1 & G2 & [->| ->])|[(A & B & G)|(A & G)]]]; try lra.
    - pose proof (dpts_spaced h x start d (j - 1) Hs ltac:(lia)) as D. pose proof (gap_pos (j - 1) ltac:(lia)) as P.
      unfold gap in G at 1. unfold gap in P. replace (j - 1 + 1)%nat with j in G, P by lia. replace (S (j - 1)) with j in D by lia. nra.
    - pose proof (dpts_spaced h x start d (j + 1) Hs ltac:(lia)) as D. pose proof (gap_pos (j + 1) ltac:(lia)) as P.
      assert (Gk : gap (zat d) (j + 1) = zat d (S (j + 1)) - zat d (j + 1)%nat) by (unfold gap; rewrite Nat.add_1_r; reflexivity). nra.
  Qed.
  Lemma domain_refines h : spaced h (dpts x start d) ->
    refines (fun a b => 2 * Rmin (c_gridmin c) h <= fst b - fst a) (fun b => 0 < c_prune c /\ ~ special_at d (fst b)) (dpts x start d) (new_points r x start d).
  Proof.
    intro Hs. apply new_refines.
    - intros j Hj K. apply need_spaced; assumption.
    - intros j Hj K. destruct (keep_false j K) as [(_ & _ & _ & P & Sp)|(N1 & J)]; [split; assumption|lia].
    - intros j Hj K. destruct (keep_false j K) as [(J & _ & P & _)|(N1 & J)]; [auto|lia].
    - destruct (keepPoint r (np d - 1)) eqn:K; [reflexivity|]. destruct (keep_false _ K) as [(_ & A & _)|(N1 & A)]; lia.
    - exact Np.
  Qed.
End Domain.

(* ---------------------------------------------------------------- *)
(** * All domains *)
(* Start of domain n when the first starts at a given place. *)
Lemma dstart_cons d ds n : dstart (d :: ds) (S n) = (g_nv d * np d + dstart ds n)%nat.
Proof. reflexivity. Qed.
(* What the first loop of refine gives, as lists of the same length. *)
Inductive loop_ok (x : list R) : nat -> list rdom -> list rdom -> list (list pt) -> Z -> Z -> Prop :=
| lo_nil start : loop_ok x start [] [] [] 0 0
| lo_cons start d ds r ds' pts a b : analyze d x start = Ok r -> loop_ok x (start + g_nv d * np d) ds ds' pts a b ->
    loop_ok x start (d :: ds) (set_ref d r :: ds') (new_points r x start d :: pts) (added r d + a)%Z (discarded r d + b)%Z.
Lemma refine_loop_ok x : forall ds start ds' gs pts a b, refine_loop x start ds = (ds', gs, Some (pts, a, b)) ->
  loop_ok x start ds ds' pts a b /\ gs = map g_z ds.
Proof.
  induction ds as [|d ds IH]; intros start ds' gs pts a b H; cbn in H.
  - injection H as <- <- <- <- <-. split; [constructor|reflexivity].
  - destruct (analyze d x start) as [r| | |] eqn:A; try (injection H; discriminate).
    destruct (refine_loop x (start + g_nv d * np d) ds) as [[ds1 gs1] res] eqn:E. destruct res as [[[p1 a1] b1]|]; [|injection H; discriminate].
    injection H as <- <- <- <- <-. destruct (IH _ _ _ _ _ _ E) as (L & ->). split; [constructor; assumption|reflexivity].
Qed.
Lemma refine_loop_err x : forall ds start ds' gs, refine_loop x start ds = (ds', gs, None) ->
  (exists n d, nth_error ds n = Some d /\ (c_npmax (g_crit d) <= np d)%nat) /\ Forall2 (fun d d' => exists r, d' = set_ref d r) ds ds'.
Proof.
  induction ds as [|d ds IH]; intros start ds' gs H; cbn in H; [discriminate|].
  destruct (analyze d x start) as [r| | |] eqn:A.
  - destruct (refine_loop x (start + g_nv d * np d) ds) as [[ds1 gs1] res] eqn:E. destruct res as [[[p1 a1] b1]|]; [discriminate|].
    injection H as <- <-. destruct (IH _ _ _ E) as ((n & e & N & L) & F). split; [exists (S n), e; auto|]. constructor; [eauto|exact F].
  - injection H as <- <-. split.
    + exists 0%nat, d. split; [reflexivity|]. unfold analyze in A. destruct (Nat.leb_spec (c_npmax (g_crit d)) (np d)); [assumption|]. destruct (np d <=? 1)%nat; discriminate.
    + constructor; [exists (g_ref d); destruct d; reflexivity|]. clear. induction ds as [|d ds IH]; constructor; [exists (g_ref d); destruct d; reflexivity|exact IH].
  - unfold analyze in A. destruct (_ <=? _)%nat; [discriminate|]. destruct (np d <=? 1)%nat; discriminate.
  - unfold analyze in A. destruct (_ <=? _)%nat; [discriminate|]. destruct (np d <=? 1)%nat; discriminate.
Qed.
Lemma refine_loop_total x : forall ds start, (forall n d, nth_error ds n = Some d -> (np d < c_npmax (g_crit d))%nat) ->
  exists ds' gs q, refine_loop x start ds = (ds', gs, Some q).
Proof.
  induction ds as [|d ds IH]; intros start H; cbn; [eauto|]. assert (A : exists r, analyze d x start = Ok r).
  { unfold analyze. rewrite (proj2 (Nat.leb_gt _ _)) by (apply (H 0%nat); reflexivity). destruct (np d <=? 1)%nat; eauto. }
  destruct A as (r & ->). destruct (IH (start + g_nv d * np d)%nat (fun n => H (S n))) as (ds' & gs & ((p & a) & b) & ->). eauto.
Qed.

Lemma ordered_increasing : forall p, increasing p -> ordered (map fst p) = true.
Proof.
  induction p as [|a p IH]; intro I; [reflexivity|]. destruct p as [|b p]; [reflexivity|]. cbn [map ordered]. cbn [increasing] in I. destruct I as (L & I).
  rewrite (proj2 (rltb_true _ _) L). apply IH. exact I.
Qed.
(* A new grid for one domain. *)
Definition regridded (d : rdom) (p : list pt) : rdom := set_grid d (map fst p).
Lemma setup_ok d p : increasing p -> p <> [] -> ((length p <= 1)%nat -> g_z d = map fst p) ->
  (if (length p =? 0)%nat then Ok d else setupGrid d (map fst p)) = Ok (regridded d p).
Proof.
  intros I N S1. destruct (Nat.eqb_spec (length p) 0) as [E0|_]; [destruct p; [congruence|discriminate]|].
  unfold setupGrid, regridded. rewrite (ordered_increasing p I). destruct (g_flow d); [reflexivity|]. rewrite map_length.
  match goal with |- context [if ?b then _ else _] => destruct b eqn:E end; [reflexivity|]. apply Nat.ltb_ge in E. rewrite <- S1 by exact E. destruct d; reflexivity.
Qed.
Lemma regrid_ok : forall ds pts, Forall2 (fun d p => increasing p /\ p <> [] /\ ((length p <= 1)%nat -> g_z d = map fst p)) ds pts ->
  regrid ds pts = Ok (map2 regridded ds pts).
Proof.
  induction 1 as [|d p ds pts (I & N & S1) F IH]; [reflexivity|]. cbn [regrid map2]. rewrite (setup_ok d p I N S1). cbn. rewrite IH. reflexivity.
Qed.

(* The flattened points are found where the solution says. *)
Definition rows_of (nv : nat) (p : list pt) : Prop := forall q, In q p -> length (snd q) = nv.
Lemma flat_length nv : forall p, rows_of nv p -> length (flat_map snd p) = (nv * length p)%nat.
Proof.
  induction p as [|q p IH]; intro H; cbn; [lia|]. rewrite app_length, IH; [|intros q' Hq; apply H; right; exact Hq]. rewrite (H q (or_introl eq_refl)). lia.
Qed.
Lemma flat_nth nv : forall p rest j i u, rows_of nv p -> (j < length p)%nat -> (i < nv)%nat ->
  nth (j * nv + i) (flat_map snd p ++ rest) 0 = nth i (snd (nth j p u)) 0.
Proof.
  induction p as [|q p IH]; intros rest j i u H Hj Hi; cbn in Hj; [lia|]. cbn [flat_map]. rewrite <- app_assoc.
  assert (Lq : length (snd q) = nv) by (apply H; left; reflexivity). destruct j as [|j].
  - cbn [nth Nat.mul]. rewrite Nat.add_0_l. apply app_nth1. lia.
  - rewrite app_nth2 by (rewrite Lq; cbn; lia). rewrite Lq. replace (S j * nv + i - nv)%nat with (j * nv + i)%nat by (cbn; lia). cbn [nth].
    apply IH; [intros q' Hq; apply H; right; exact Hq|lia|exact Hi].
Qed.
Lemma map_nth_seq : forall (l : list R), map (fun i => nth i l 0) (seq 0 (length l)) = l.
Proof. induction l as [|a l IH]; [reflexivity|]. cbn [length seq map nth]. f_equal. rewrite <- seq_shift, map_map. exact IH. Qed.
Lemma dpts_of_flat nv : forall p pre rest d, rows_of nv p -> g_nv d = nv -> g_z d = map fst p ->
  dpts (pre ++ flat_map snd p ++ rest) (length pre) d = p.
Proof.
  intros p pre rest d H Hn Hz. unfold dpts, np. rewrite Hz, map_length.
  assert (E : forall j u, (j < length p)%nat -> pt_at (pre ++ flat_map snd p ++ rest) (length pre) d j = nth j p u).
  { intros j u Hj. unfold pt_at, zat, row, value_at. rewrite Hz, Hn. rewrite (nth_indep _ 0 (fst u)) by (rewrite map_length; exact Hj). rewrite map_nth.
    rewrite (surjective_pairing (nth j p u)) at 2. f_equal. rewrite <- (map_nth_seq (snd (nth j p u))). rewrite (H (nth j p u)) by (apply nth_In; exact Hj).
    apply map_ext_in. intros i Hi. apply in_seq in Hi. rewrite app_nth2 by lia. replace (length pre + (j * nv + i) - length pre)%nat with (j * nv + i)%nat by lia. apply flat_nth; [exact H|exact Hj|lia]. }
  destruct p as [|q p]; [reflexivity|]. set (l := q :: p) in *. assert (G : map (pt_at (pre ++ flat_map snd l ++ rest) (length pre) d) (seq 0 (length l)) = map (fun j => nth j l q) (seq 0 (length l))).
  { apply map_ext_in. intros j Hj. apply in_seq in Hj. apply E. lia. }
  rewrite G. clear. clearbody l. induction l as [|a l IH]; [reflexivity|]. cbn [length seq map nth]. f_equal. rewrite <- seq_shift, map_map. exact IH.
Qed.
Lemma dstart_app ds1 d ds2 : dstart (ds1 ++ d :: ds2) (length ds1) = dstart ds1 (length ds1).
Proof. induction ds1 as [|e ds1 IH]; [reflexivity|]. cbn [length]. rewrite <- app_comm_cons, !dstart_cons, IH. reflexivity. Qed.
Lemma flatten_length : forall ds pts, Forall2 (fun d p => rows_of (g_nv d) p) ds pts ->
  length (flatten pts) = dstart (map2 regridded ds pts) (length ds).
Proof.
  induction 1 as [|d p ds pts H F IH]; [reflexivity|]. unfold flatten in *. cbn [flat_map map2 length]. rewrite dstart_cons, app_length, IH, (flat_length _ _ H).
  unfold regridded, np. cbn. rewrite map_length. reflexivity.
Qed.
Lemma flatten_points : forall ds pts n p xss gss, Forall2 (fun d p => rows_of (g_nv d) p) ds pts -> nth_error pts n = Some p ->
  points (S1 (map2 regridded ds pts) (flatten pts) xss gss) n = p.
Proof.
  intros ds pts n p xss gss F N.
  assert (G : forall ds pts, Forall2 (fun d p => rows_of (g_nv d) p) ds pts -> forall n p pre, nth_error pts n = Some p ->
    exists d, nth_error (map2 regridded ds pts) n = Some d /\ dpts (pre ++ flatten pts) (length pre + dstart (map2 regridded ds pts) n) d = p).
  { clear. induction 1 as [|d p0 ds pts H F IH]; intros n p pre N; [destruct n; discriminate|]. destruct n as [|n].
    - injection N as <-. cbn [map2 nth_error]. eexists. split; [reflexivity|]. change (dstart (regridded d p0 :: map2 regridded ds pts) 0) with 0%nat. rewrite Nat.add_0_r.
      unfold flatten. cbn [flat_map]. apply (dpts_of_flat (g_nv d)); [exact H|reflexivity|reflexivity].
    - cbn [nth_error] in N. destruct (IH n p (pre ++ flat_map snd p0) N) as (e & E & P). exists e. split; [exact E|]. cbn [map2]. rewrite dstart_cons.
      unfold flatten. cbn [flat_map]. rewrite app_assoc. fold (flatten pts). etransitivity; [|exact P]. f_equal. rewrite app_length, (flat_length _ _ H).
      unfold regridded, np. cbn. rewrite map_length. lia. }
  destruct (G ds pts F n p [] N) as (d & E & P). unfold points. cbn [s_dom s_x]. rewrite E. exact P.
Qed.
Lemma new_points_rows r x start d : rows_of (g_nv d) (new_points r x start d).
Proof.
  intros q Hq. unfold new_points in Hq. apply in_flat_map in Hq. destruct Hq as (m & _ & Hq). unfold new_points_at in Hq. destruct (keepPoint r m); [|destruct Hq].
  destruct Hq as [<-|Hq]; [cbn; unfold row; rewrite map_length, seq_length; reflexivity|].
  destruct (newPointNeeded r m && (S m <? np d)%nat); [|destruct Hq]. destruct Hq as [<-|[]]. cbn. unfold mid_row. rewrite map_length, seq_length. reflexivity.
Qed.

Lemma spaced_le h h' : forall q, h' <= h -> spaced h q -> spaced h' q.
Proof.
  intros q M. induction q as [|u q IH]; [auto|]. destruct q as [|w q]; [auto|]. cbn [spaced]. intros (H1 & H2). split; [lra|apply IH; exact H2].
Qed.
(* Everything about the loop of a well-formed simulation. *)
Section Loop.
  Context (x : list R).
  Definition fine (start : nat) (d : rdom) : Prop := g_z d <> [] /\ increasing (dpts x start d) /\ sound (g_crit d) /\ f_keep (g_ref d) 0%nat <> REMOVE.
  Lemma np_pos d : g_z d <> [] -> (0 < np d)%nat.
  Proof. unfold np. destruct (g_z d); [congruence|cbn; lia]. Qed.
  Lemma loop_all : forall start ds ds' pts a b, loop_ok x start ds ds' pts a b ->
    (forall n d, nth_error ds n = Some d -> fine (start + dstart ds n) d) ->
    Forall2 (fun d p => increasing p /\ p <> [] /\ ((length p <= 1)%nat -> g_z d = map fst p)) ds' pts /\
    Forall2 (fun d p => rows_of (g_nv d) p) ds' pts.
  Proof.
    induction 1 as [start|start d ds r ds' pts a b An L IH]; intro Hf; [split; constructor|].
    destruct (Hf 0%nat d eq_refl) as (F1 & F2 & F3 & F4). change (dstart (d :: ds) 0) with 0%nat in F2. rewrite Nat.add_0_r in F2.
    destruct IH as (A & B).
    { intros n e N. specialize (Hf (S n) e N). rewrite dstart_cons in Hf. rewrite <- Nat.add_assoc. exact Hf. }
    pose proof (np_pos d F1) as Np.
    destruct (Rle_dec 0 0) as [_|X]; [|lra].
    assert (Sp : exists h, spaced h (dpts x start d)).
    { clear -F2. induction (dpts x start d) as [|p0 l IHl]; [exists 0; exact I|]. destruct l as [|p1 l]; [exists 0; exact I|]. cbn [increasing] in F2. destruct F2 as (Lt & F2).
      destruct (IHl F2) as (h & Hh). exists (Rmin h (fst p1 - fst p0)). cbn [spaced]. split; [apply Rmin_r|].
      apply (spaced_le h (Rmin h (fst p1 - fst p0)) (p1 :: l)); [apply Rmin_l|exact Hh]. }
    destruct Sp as (h & Sp). pose proof (domain_refines d x start r An F2 F3 Np F4 h Sp) as Rf.
    split; constructor; try assumption.
    - split; [eapply refines_increasing; [exact Rf|exact F2]|]. destruct (refines_hd _ _ _ _ Rf) as (q & t & t' & E & E'). split; [rewrite E'; discriminate|].
      intro Le. destruct (refines_length _ _ _ _ Rf) as (_ & L2). assert (L1 : (length (dpts x start d) <= 1)%nat) by lia.
      unfold dpts in L1. rewrite map_length, seq_length in L1. rewrite E'. assert (np d = 1)%nat by lia. rewrite E' in Le. destruct t' as [|u t']; [|cbn in Le; lia].
      assert (Ed : dpts x start d = [pt_at x start d 0]) by (unfold dpts; replace (np d) with 1%nat by lia; reflexivity).
      rewrite Ed in E. injection E as <- _. cbn. unfold np in H. unfold zat. destruct (g_z d) as [|v [|w l]]; cbn in H; try lia. reflexivity.
    - cbn. apply new_points_rows.
  Qed.
  Lemma loop_nth : forall start ds ds' pts a b, loop_ok x start ds ds' pts a b -> length ds' = length ds /\ length pts = length ds /\
    forall n d, nth_error ds n = Some d -> exists r, analyze d x (start + dstart ds n) = Ok r /\ nth_error ds' n = Some (set_ref d r) /\
      nth_error pts n = Some (new_points r x (start + dstart ds n) d).
  Proof.
    induction 1 as [start|start d ds r ds' pts a b An L (IH1 & IH2 & IH)]; [repeat split; intros [|n] d; discriminate|].
    split; [cbn; congruence|]. split; [cbn; congruence|]. intros [|n] e N.
    - injection N as <-. change (dstart (d :: ds) 0) with 0%nat. rewrite Nat.add_0_r. exists r. auto.
    - cbn [nth_error] in *. rewrite dstart_cons, Nat.add_assoc. apply IH. exact N.
  Qed.
  Lemma added_nonneg r d : (0 <= added r d)%Z.
  Proof. unfold added, nNewPoints, count. lia. Qed.
  Lemma discarded_nonneg r d : (0 <= discarded r d)%Z.
  Proof. unfold discarded, count. lia. Qed.
  Lemma loop_counts : forall start ds ds' pts a b, loop_ok x start ds ds' pts a b -> (0 <= a /\ 0 <= b)%Z /\
    (a = 0%Z /\ b = 0%Z -> forall n d r, nth_error ds n = Some d -> analyze d x (start + dstart ds n) = Ok r -> added r d = 0%Z /\ discarded r d = 0%Z).
  Proof.
    induction 1 as [start|start d ds r ds' pts a b An L ((P1 & P2) & IH)]; [split; [lia|]; intros _ [|n] d r N; discriminate|].
    pose proof (added_nonneg r d). pose proof (discarded_nonneg r d). split; [lia|]. intros (E1 & E2) [|n] e r' N A.
    - injection N as <-. change (dstart (d :: ds) 0) with 0%nat in A. rewrite Nat.add_0_r, An in A. injection A as <-. lia.
    - cbn [nth_error] in N. rewrite dstart_cons, Nat.add_assoc in A. apply (IH ltac:(lia) n e r' N A).
  Qed.
End Loop.

Lemma map2_nth_error {A B C} (f : A -> B -> C) : forall l m n, nth_error (map2 f l m) n =
  match nth_error l n, nth_error m n with Some a, Some b => Some (f a b) | _, _ => None end.
Proof. induction l as [|a l IH]; intros [|b m] [|n]; cbn; try reflexivity; try apply IH; destruct (nth_error l n); reflexivity. Qed.
Lemma map2_length_min {A B C} (f : A -> B -> C) : forall l m, length l = length m -> length (map2 f l m) = length l.
Proof. induction l as [|a l IH]; intros [|b m] E; try discriminate; cbn; [reflexivity|]. f_equal. apply IH. cbn in E. lia. Qed.

(* Nothing to do: the points are the old ones. *)
Lemma filter_none {A} (f : A -> bool) : forall l, length (filter f l) = 0%nat -> forall a, In a l -> f a = false.
Proof.
  induction l as [|b l IH]; intros H a Ha; [destruct Ha|]. cbn in H. destruct (f b) eqn:E; [discriminate|]. destruct Ha as [<-|Ha]; [exact E|]. apply IH; assumption.
Qed.
Lemma no_change r x start d : added r d = 0%Z -> discarded r d = 0%Z ->
  new_points r x start d = dpts x start d /\ f_ins r = [] /\ forall j, (j < np d)%nat -> keepPoint r j = true.
Proof.
  unfold added, discarded, nNewPoints, count. intros A D.
  assert (F : f_ins r = []) by (destruct (f_ins r); [reflexivity|cbn [length] in A; lia]).
  assert (K : forall j, (j < np d)%nat -> keepPoint r j = true).
  { intros j Hj. destruct (keepPoint r j) eqn:E; [reflexivity|]. pose proof (filter_none (fun m => negb (keepPoint r m)) (seq 0 (np d)) ltac:(lia) j ltac:(apply in_seq; lia)) as X.
    cbn in X. rewrite E in X. discriminate. }
  split; [|auto]. unfold new_points, dpts.
  assert (G : forall l, (forall j, In j l -> (j < np d)%nat) -> flat_map (new_points_at r x start d) l = map (pt_at x start d) l).
  { induction l as [|j l IH]; intro H; [reflexivity|]. cbn [flat_map map]. rewrite IH by (intros; apply H; right; assumption).
    unfold new_points_at. rewrite K by (apply H; left; reflexivity). unfold newPointNeeded. rewrite F. reflexivity. }
  apply G. intros j Hj. apply in_seq in Hj. lia.
Qed.
(* The points flattened are the solution. *)
Lemma chunk : forall nv (x : list R) start, (start + nv <= length x)%nat -> map (fun i => nth (start + i) x 0) (seq 0 nv) = firstn nv (skipn start x).
Proof.
  induction nv as [|nv IH]; intros x start H; [reflexivity|].
  rewrite seq_S, map_app. rewrite IH by lia. cbn [map Nat.add].
  replace (S nv) with (nv + 1)%nat by lia. rewrite <- (firstn_skipn nv (firstn (nv + 1) (skipn start x))).
  rewrite firstn_firstn, Nat.min_l by lia. f_equal. rewrite skipn_firstn_comm. replace (nv + 1 - nv)%nat with 1%nat by lia.
  assert (E : nth (start + nv) x 0 = nth 0 (skipn nv (skipn start x)) 0).
  { rewrite <- (firstn_skipn start x) at 1. rewrite app_nth2 by (rewrite firstn_length; lia). rewrite firstn_length, Nat.min_l by lia. replace (start + nv - start)%nat with nv by lia.
    rewrite <- (firstn_skipn nv (skipn start x)) at 1. rewrite app_nth2 by (rewrite firstn_length; lia). rewrite firstn_length, skipn_length, Nat.min_l by lia. f_equal. lia. }
  rewrite E. assert (L : (0 < length (skipn nv (skipn start x)))%nat) by (rewrite !skipn_length; lia).
  destruct (skipn nv (skipn start x)); [cbn in L; lia|reflexivity].
Qed.
Lemma firstn_add {A} : forall a b (l : list A), firstn (a + b) l = firstn a l ++ firstn b (skipn a l).
Proof. induction a as [|a IH]; intros b l; [reflexivity|]. destruct l as [|v l]; [rewrite !firstn_nil; reflexivity|]. cbn. f_equal. apply IH. Qed.
Lemma skipn_add {A} : forall a b (l : list A), skipn a (skipn b l) = skipn (b + a) l.
Proof. intros a b. revert a. induction b as [|b IH]; intros a l; [reflexivity|]. destruct l; [destruct a; reflexivity|]. apply IH. Qed.
Lemma dpts_flat x start d : (start + g_nv d * np d <= length x)%nat -> flat_map snd (dpts x start d) = firstn (g_nv d * np d) (skipn start x).
Proof.
  intro H. unfold dpts. assert (G : forall k m, (start + g_nv d * (k + m) <= length x)%nat ->
    flat_map snd (map (pt_at x start d) (seq k m)) = firstn (g_nv d * m) (skipn (start + g_nv d * k) x)).
  { intros k m. revert k. induction m as [|m IH]; intros k Hk; [rewrite Nat.mul_0_r; reflexivity|]. cbn [seq map flat_map]. rewrite IH by lia.
    replace (g_nv d * S m)%nat with (g_nv d + g_nv d * m)%nat by lia. rewrite firstn_add, skipn_add. f_equal; [|f_equal; f_equal; lia].
    unfold pt_at. cbn [snd]. unfold row, value_at. rewrite <- chunk by lia. apply map_ext. intro i. f_equal. lia. }
  rewrite (G 0%nat (np d)) by (cbn; lia). f_equal. f_equal. lia.
Qed.

(* ---------------------------------------------------------------- *)
(** * refine *)
Lemma wf_fine s : wellformed s -> forall n d, nth_error (s_dom s) n = Some d -> fine (s_x s) (0 + dstart (s_dom s) n) d.
Proof. intros (_ & W) n d N. destruct (W n d N) as (A & B & C & D). rewrite (points_dpts s n d N) in B. repeat split; try assumption; apply C. Qed.
Definition refined_sim (s s' : sim1) (ds : list rdom) (pts : list (list pt)) : Prop :=
  s' = S1 (map2 regridded ds pts) (flatten pts) (s_x s) (map g_z (s_dom s)) /\ Forall2 (fun d p => rows_of (g_nv d) p) ds pts.
Lemma refine_ok s k s' : wellformed s -> refine s = (Ok k, s') ->
  exists ds pts a b, loop_ok (s_x s) 0 (s_dom s) ds pts a b /\ refined_sim s s' ds pts /\
    k = (if negb (a =? 0)%Z || negb (- b =? 0)%Z then 1 else 0)%Z.
Proof.
  intros W H. unfold refine in H. destruct (refine_loop (s_x s) 0 (s_dom s)) as [[ds gs] res] eqn:E. destruct res as [[[pts a] b]|]; [|discriminate].
  destruct (refine_loop_ok _ _ _ _ _ _ _ _ E) as (L & ->). destruct (loop_all _ _ _ _ _ _ _ L (wf_fine s W)) as (F1 & F2).
  rewrite (regrid_ok _ _ F1) in H. injection H as <- <-. exists ds, pts, a, b. split; [exact L|]. split; [split; [reflexivity|exact F2]|reflexivity].
Qed.
Lemma refine_total s : wellformed s -> (forall n d, nth_error (s_dom s) n = Some d -> (np d < c_npmax (g_crit d))%nat) -> exists k s', refine s = (Ok k, s').
Proof.
  intros W H. unfold refine. destruct (refine_loop_total (s_x s) (s_dom s) 0 H) as (ds & gs & ((pts & a) & b) & E). rewrite E.
  destruct (refine_loop_ok _ _ _ _ _ _ _ _ E) as (L & ->). destruct (loop_all _ _ _ _ _ _ _ L (wf_fine s W)) as (F1 & F2).
  rewrite (regrid_ok _ _ F1). eauto.
Qed.
Lemma Forall2_nth {A B} (P : A -> B -> Prop) l m : Forall2 P l m -> forall n a, nth_error l n = Some a -> exists b, nth_error m n = Some b /\ P a b.
Proof. induction 1 as [|a b l m H F IH]; intros [|n] c N; try discriminate; [injection N as <-; exists b; auto|]. apply IH. exact N. Qed.
Lemma F2_length {A B} (P : A -> B -> Prop) l m : Forall2 P l m -> length l = length m.
Proof. induction 1; cbn; congruence. Qed.
Lemma setref_dstart : forall ds ds', Forall2 (fun d d' => exists r, d' = set_ref d r) ds ds' -> forall n, dstart ds' n = dstart ds n.
Proof. induction 1 as [|d d' ds ds' (r & ->) F IH]; intros [|n]; try reflexivity. rewrite !dstart_cons, IH. reflexivity. Qed.
Lemma refine_err s o s' : wellformed s -> refine s = (o, s') -> (forall k, o <> Ok k) ->
  o = Err /\ (exists n d, nth_error (s_dom s) n = Some d /\ (c_npmax (g_crit d) <= np d)%nat) /\ s_x s' = s_x s /\
  (forall n, points s' n = points s n) /\ Forall2 (fun d d' => exists r, d' = set_ref d r) (s_dom s) (s_dom s').
Proof.
  intros W H No. unfold refine in H. destruct (refine_loop (s_x s) 0 (s_dom s)) as [[ds gs] res] eqn:E. destruct res as [[[pts a] b]|].
  - destruct (refine_loop_ok _ _ _ _ _ _ _ _ E) as (L & ->). destruct (loop_all _ _ _ _ _ _ _ L (wf_fine s W)) as (F1 & F2).
    rewrite (regrid_ok _ _ F1) in H. injection H as <- <-. exfalso. eapply No. reflexivity.
  - injection H as <- <-. destruct (refine_loop_err _ _ _ _ _ E) as (X & F). split; [reflexivity|]. split; [exact X|]. split; [reflexivity|]. cbn [s_dom]. split; [|exact F].
    intro n. unfold points. cbn [s_dom s_x]. destruct (nth_error (s_dom s) n) as [d|] eqn:N.
    + destruct (Forall2_nth _ _ _ F n d N) as (d' & N' & r & ->). rewrite N', (setref_dstart _ _ F). reflexivity.
    + replace (nth_error ds n) with (@None rdom); [reflexivity|]. symmetry. apply nth_error_None. apply nth_error_None in N. rewrite <- (F2_length _ _ _ F). exact N.
Qed.
Lemma refine_domain s k s' n d : wellformed s -> refine s = (Ok k, s') -> nth_error (s_dom s) n = Some d ->
  exists r d', analyze d (s_x s) (dstart (s_dom s) n) = Ok r /\ nth_error (s_dom s') n = Some d' /\ points s' n = new_points r (s_x s) (dstart (s_dom s) n) d /\
    d' = set_grid (set_ref d r) (map fst (points s' n)).
Proof.
  intros W H N. destruct (refine_ok s k s' W H) as (ds & pts & a & b & L & (-> & F) & _). destruct (loop_nth _ _ _ _ _ _ _ L) as (_ & _ & Ln).
  destruct (Ln n d N) as (r & A & N1 & N2). cbn [Nat.add] in A, N2. exists r, (regridded (set_ref d r) (new_points r (s_x s) (dstart (s_dom s) n) d)).
  split; [exact A|]. split; [cbn [s_dom]; rewrite map2_nth_error, N1, N2; reflexivity|].
  rewrite (flatten_points ds pts n _ _ _ F N2). split; reflexivity.
Qed.
Lemma refine_shape s k s' : wellformed s -> refine s = (Ok k, s') -> length (s_dom s') = length (s_dom s) /\ length (s_x s') = dstart (s_dom s') (length (s_dom s')).
Proof.
  intros W H. destruct (refine_ok s k s' W H) as (ds & pts & a & b & L & (-> & F) & _). destruct (loop_nth _ _ _ _ _ _ _ L) as (L1 & L2 & _).
  cbn [s_dom s_x]. assert (Lm : length (map2 regridded ds pts) = length ds) by (apply map2_length_min; congruence). rewrite Lm. split; [exact L1|].
  apply flatten_length. exact F.
Qed.
Lemma keep0 d x start r : analyze d x start = Ok r -> f_keep (g_ref d) 0%nat <> REMOVE -> f_keep r 0%nat <> REMOVE.
Proof.
  unfold analyze. destruct (c_npmax (g_crit d) <=? np d)%nat; [discriminate|]. destruct (Nat.leb_spec (np d) 1); intro E; injection E as <-; [auto|]. intros _ K.
  assert (F : keepPoint (analysis (g_crit d) (np d) (g_nv d) (zat d) (value_at x start d) (g_active d) (protects d)) 0 = false) by (unfold keepPoint; rewrite K; reflexivity).
  apply analysis_keep in F; [|lia]. destruct F as (_ & F & _). apply F. left. reflexivity.
Qed.
Lemma increasing_fst : forall p q, map fst p = map fst q -> increasing p -> increasing q.
Proof.
  induction p as [|a p IH]; intros [|b q] E I; try discriminate; [exact I|]. injection E as E1 E2. destruct p as [|a' p], q as [|b' q]; try discriminate; [exact Logic.I|].
  cbn [increasing] in *. injection E2 as E2 E3. destruct I as (L & I). split; [rewrite <- E1, <- E2; exact L|]. apply (IH (b' :: q)); [cbn; congruence|exact I].
Qed.
Lemma spaced_ex : forall p, increasing p -> exists h, spaced h p.
Proof.
  induction p as [|p0 l IHl]; intro F2; [exists 0; exact I|]. destruct l as [|p1 l]; [exists 0; exact I|]. cbn [increasing] in F2. destruct F2 as (Lt & F2).
  destruct (IHl F2) as (h & Hh). exists (Rmin h (fst p1 - fst p0)). cbn [spaced]. split; [apply Rmin_r|].
  apply (spaced_le h (Rmin h (fst p1 - fst p0)) (p1 :: l)); [apply Rmin_l|exact Hh].
Qed.
Lemma refine_wf s k s' : wellformed s -> refine s = (Ok k, s') -> wellformed s'.
Proof.
  intros W H. destruct (refine_shape s k s' W H) as (Ln & Lx). split; [exact Lx|]. intros n d' N.
  destruct (nth_error (s_dom s) n) as [d|] eqn:Nd.
  2:{ apply nth_error_None in Nd. assert (n < length (s_dom s'))%nat by (apply nth_error_Some; congruence). lia. }
  destruct (refine_domain s k s' n d W H Nd) as (r & d'' & A & N' & P & E). rewrite N in N'. injection N' as <-.
  destruct W as (W0 & W). destruct (W n d Nd) as (W1 & W2 & W3 & W4). rewrite (points_dpts s n d Nd) in W2.
  destruct (spaced_ex _ W2) as (h & Sp). pose proof (domain_refines d _ _ r A W2 W3 (np_pos d W1) W4 h Sp) as Rf. rewrite <- P in Rf.
  destruct (refines_hd _ _ _ _ Rf) as (q & t & t' & _ & Et).
  rewrite E. cbn [g_z g_crit g_ref set_grid set_ref]. split; [rewrite Et; discriminate|]. split; [exact (refines_increasing _ _ _ _ Rf W2)|]. split; [exact W3|].
  eapply keep0; eassumption.
Qed.
(* No change at all. *)
Lemma loop_zero x : forall start ds ds' pts a b, loop_ok x start ds ds' pts a b -> a = 0%Z -> b = 0%Z ->
  (start + dstart ds (length ds) <= length x)%nat -> flatten pts = firstn (dstart ds (length ds)) (skipn start x) /\ map2 regridded ds' pts = ds'.
Proof.
  induction 1 as [start|start d ds r ds' pts a b An L IH]; intros Ea Eb Hx; [split; reflexivity|].
  pose proof (added_nonneg r d). pose proof (discarded_nonneg r d). destruct (loop_counts _ _ _ _ _ _ _ L) as ((P1 & P2) & _).
  destruct (no_change r x start d ltac:(lia) ltac:(lia)) as (E & _). cbn [length] in Hx |- *. rewrite dstart_cons in Hx |- *.
  destruct IH as (I1 & I2); [lia|lia|lia|]. split.
  - unfold flatten in *. cbn [flat_map]. rewrite E, I1, dpts_flat by lia. rewrite firstn_add, skipn_add. reflexivity.
  - cbn [map2]. rewrite I2. f_equal. rewrite E. unfold regridded.
    assert (Ez : map fst (dpts x start d) = g_z d).
    { unfold dpts, pt_at, np, zat. rewrite map_map. cbn [fst]. apply map_nth_seq. }
    rewrite Ez. destruct d; reflexivity.
Qed.
Lemma refine_zero s s' : wellformed s -> refine s = (Ok 0%Z, s') ->
  s_x s' = s_x s /\ (forall n, points s' n = points s n) /\
  (forall n d r, nth_error (s_dom s) n = Some d -> analyze d (s_x s) (dstart (s_dom s) n) = Ok r -> f_ins r = [] /\ forall j, (j < np d)%nat -> keepPoint r j = true).
Proof.
  intros W H. destruct (refine_ok s _ s' W H) as (ds & pts & a & b & L & (-> & F) & K).
  destruct (loop_counts _ _ _ _ _ _ _ L) as ((P1 & P2) & C). assert (E : a = 0%Z /\ b = 0%Z).
  { destruct (Z.eqb_spec a 0) as [Ea|Ea], (Z.eqb_spec (- b) 0) as [Eb|Eb]; cbn in K; try discriminate. lia. }
  destruct W as (W0 & W). destruct (loop_zero _ _ _ _ _ _ _ L (proj1 E) (proj2 E)) as (Z1 & Z2); [cbn; lia|]. cbn [skipn] in Z1. rewrite <- W0, firstn_all in Z1.
  cbn [s_x s_dom]. split; [exact Z1|]. split.
  - intro n. unfold points. cbn [s_dom s_x]. rewrite Z1, Z2. destruct (loop_nth _ _ _ _ _ _ _ L) as (L1 & _ & Ln). destruct (nth_error (s_dom s) n) as [d|] eqn:N.
    + destruct (Ln n d N) as (r & _ & N' & _). rewrite N'. cbn. 
      assert (Ds : forall start ds ds' pts a b, loop_ok (s_x s) start ds ds' pts a b -> forall n, dstart ds' n = dstart ds n).
      { clear. induction 1 as [|start d ds r ds' pts a b An L IH]; intros [|n]; try reflexivity. rewrite !dstart_cons, IH. reflexivity. }
      rewrite (Ds _ _ _ _ _ _ L). reflexivity.
    + replace (nth_error ds n) with (@None rdom); [reflexivity|]. symmetry. apply nth_error_None. apply nth_error_None in N. lia.
  - intros n d r N A. destruct (C E n d r N A) as (C1 & C2). destruct (no_change r (s_x s) (dstart (s_dom s) n) d C1 C2) as (_ & C3). exact C3.
Qed.
