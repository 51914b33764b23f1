(** Lemmas for C20: the loops. *)
From Coq Require Import Reals ZArith String List Bool Arith Lia Lra Permutation.
From Verif Require Import Base.Fp Base.Outcome Base.RSum Kinetics.DupModel Kinetics.DupSpec Kinetics.DupProofs.
Import ListNotations.
Local Open Scope R_scope.

(** ** Sums of keys *)
Lemma fold_zadd l a : fold_left Z.add l a = (a + fold_right Z.add 0 l)%Z.
Proof. revert a. induction l as [|x l IH]; intros a; cbn; [lia|]. rewrite IH. lia. Qed.
Lemma key_group names r : key names r = group names r.
Proof.
  unfold key, group. rewrite fold_zadd. rewrite Z.add_0_l. induction (d_react r ++ d_prod r) as [|e l IH]; [reflexivity|].
  cbn [map fold_right]. rewrite IH. reflexivity.
Qed.
Definition zsum {A} (f : A -> Z) (l : list A) : Z := fold_right (fun a z => (f a + z)%Z) 0%Z l.
Lemma zsum_app {A} (f : A -> Z) l m : zsum f (l ++ m) = (zsum f l + zsum f m)%Z.
Proof. unfold zsum. induction l as [|a l IH]; cbn [app fold_right]; [lia|]. rewrite IH. lia. Qed.
Lemma zsum_perm {A} (f : A -> Z) l m : Permutation l m -> zsum f l = zsum f m.
Proof. unfold zsum. induction 1; cbn [fold_right]; lia. Qed.
Lemma zsum_nonneg {A} (f : A -> Z) l : (forall a, In a l -> (0 <= f a)%Z) -> (0 <= zsum f l)%Z.
Proof. unfold zsum. induction l as [|a l IH]; intros H; cbn [fold_right]; [lia|]. specialize (IH (fun b Hb => H b (or_intror Hb))). specialize (H a (or_introl eq_refl)). lia. Qed.
Lemma zsum_incl {A} (f : A -> Z) l m : NoDup l -> (forall a, In a m -> (0 <= f a)%Z) -> incl l m -> (zsum f l <= zsum f m)%Z.
Proof.
  revert m. induction l as [|a l IH]; intros m ND NN I.
  - cbn [zsum fold_right]. now apply zsum_nonneg.
  - inversion ND; subst. destruct (in_split a m (I a (or_introl eq_refl))) as (m1 & m2 & ->).
    assert (zsum f l <= zsum f (m1 ++ m2))%Z.
    { apply IH; auto.
      - intros b Hb. apply NN. apply in_app_or in Hb as [Hb|Hb]; apply in_or_app; [left|right; right]; auto.
      - intros b Hb. assert (Hm := I b (or_intror Hb)). apply in_app_or in Hm as [Hm|[Hm|Hm]]; apply in_or_app; auto. subst; contradiction. }
    rewrite zsum_app in *. unfold zsum in *. cbn [fold_right] in *. lia.
Qed.
Definition wt (names : list string) (s : string) : Z := (place names s * (place names s + 1))%Z.
Lemma group_zsum names r : group names r = (zsum (wt names) (map fst (d_react r)) + zsum (wt names) (map fst (d_prod r)))%Z.
Proof.
  unfold group. rewrite <- zsum_app, <- map_app. induction (d_react r ++ d_prod r) as [|e l IH]; cbn; [reflexivity|]. rewrite IH. reflexivity.
Qed.
Lemma wt_nonneg names s : In s names -> (0 <= wt names s)%Z.
Proof. intros H. unfold wt. pose proof (place_nonneg names s H). nia. Qed.
(** A side contained in another with as large a sum contains all but the first species. *)
Lemma side_rest names l m s : NoDup l -> incl l m -> NoDup m -> (forall t, In t m -> In t names) ->
  (zsum (wt names) m <= zsum (wt names) l)%Z -> In s m -> ~ In s l -> Some s = hd_error names.
Proof.
  intros NL I NM K S Hs N. apply place_zero; [auto|].
  assert (zsum (wt names) (s :: l) <= zsum (wt names) m)%Z.
  { apply zsum_incl.
    - now constructor.
    - intros a Ha. apply wt_nonneg; auto.
    - intros a [<-|Ha]; auto. }
  unfold zsum in *. cbn [fold_right] in H. pose proof (wt_nonneg names s (K s Hs)). pose proof (place_nonneg names s (K s Hs)).
  assert (wt names s = 0)%Z by lia. unfold wt in *. nia.
Qed.

(** ** Efficiencies *)
Lemma efficiency_eff t s : efficiency t s = eff t s.
Proof.
  unfold efficiency, eff. induction (tb_eff t) as [|[n v] l IH]; [reflexivity|]. cbn.
  destruct (String.eqb n s); auto.
Qed.
Lemma set_eff_at t k v s : efficiency (set_eff t k v) s = if String.eqb k s then v else efficiency t s.
Proof.
  unfold efficiency, set_eff. cbn. induction (tb_eff t) as [|[n w] l IH]; cbn; [reflexivity|].
  destruct (String.eqb_spec n k) as [->|N]; cbn.
  - destruct (String.eqb k s); reflexivity.
  - rewrite IH. destruct (String.eqb_spec n s) as [->|N']; [|reflexivity].
    destruct (String.eqb_spec k s) as [->|]; [contradiction|reflexivity].
Qed.
Lemma overlap_iff names a b : overlap names a b = true <-> exists s, In s names /\ eff a s <> 0 /\ eff b s <> 0.
Proof.
  unfold overlap. rewrite existsb_exists. split; intros (s & H & E); exists s; (split; [auto|]).
  - apply nz_true in E. rewrite !efficiency_eff in E. split; intros Z; apply E; rewrite Z; ring.
  - apply nz_true. rewrite !efficiency_eff. destruct E. now apply Rmult_integral_contrapositive.
Qed.

(** ** How reactions change *)
Definition tb_evolves (t t' : option tbody) : Prop :=
  match t, t' with
  | None, None => True
  | Some t, Some t' => tb_name t' = tb_name t /\ (forall s, eff t' s = 0 \/ eff t' s = eff t s) /\
                       (tb_name t <> "M"%string -> t' = t)
  | _, _ => False
  end.
Record evolves (r r' : rxn) : Prop := EV {
  ev_react : d_react r' = d_react r; ev_prod : d_prod r' = d_prod r; ev_rev : d_rev r' = d_rev r;
  ev_type : d_type r' = d_type r; ev_rtype : d_rtype r' = d_rtype r; ev_eq : d_eq r' = d_eq r;
  ev_dup : d_dup r = true -> d_dup r' = true; ev_tb : tb_evolves (d_tb r) (d_tb r') }.
Lemma tb_evolves_refl t : tb_evolves t t.
Proof. destruct t; cbn; auto. Qed.
Lemma evolves_refl r : evolves r r.
Proof. split; auto using tb_evolves_refl. Qed.
Lemma tb_evolves_trans a b c : tb_evolves a b -> tb_evolves b c -> tb_evolves a c.
Proof.
  destruct a as [a|], b as [b|], c as [c|]; cbn; try tauto. intros (N1 & E1 & M1) (N2 & E2 & M2). split; [congruence|]. split.
  - intros s. destruct (E2 s) as [-> | ->]; auto.
  - intros H. rewrite M2 by congruence. auto.
Qed.
Lemma evolves_trans a b c : evolves a b -> evolves b c -> evolves a c.
Proof. intros A B. destruct A, B. split; try congruence; auto. eapply tb_evolves_trans; eauto. Qed.
Lemma evolves_dup r : evolves r (set_dup r).
Proof. split; cbn; auto using tb_evolves_refl. Qed.
Lemma evolves_eff r t k : d_tb r = Some t -> tb_name t = "M"%string -> evolves r (set_tb r (set_eff t k 0)).
Proof.
  intros E M. split; cbn; auto. rewrite E. cbn. split; [reflexivity|]. split; [|now intros].
  intros s. rewrite <- !efficiency_eff, set_eff_at. destruct (String.eqb k s); auto.
Qed.
Definition all_evolve (l l' : list rxn) : Prop :=
  List.length l' = List.length l /\
  forall j r, nth_error l j = Some r -> exists r', nth_error l' j = Some r' /\ evolves r r'.
Lemma all_evolve_refl l : all_evolve l l.
Proof. split; [reflexivity|]. eauto using evolves_refl. Qed.
Lemma all_evolve_trans a b c : all_evolve a b -> all_evolve b c -> all_evolve a c.
Proof.
  intros [L1 A] [L2 B]. split; [congruence|]. intros j r H. destruct (A j r H) as (r' & H' & E). destruct (B j r' H') as (r'' & H'' & E').
  eauto using evolves_trans.
Qed.
Lemma put_length {A} (l : list A) i v : List.length (put l i v) = List.length l.
Proof. revert i. induction l as [|a l IH]; intros [|i]; cbn; auto. Qed.
Lemma put_nth {A} (l : list A) i v j : nth_error (put l i v) j = if (j =? i)%nat then (if (i <? List.length l)%nat then Some v else None) else nth_error l j.
Proof.
  revert i j. induction l as [|a l IH]; intros i j.
  - cbn [put List.length]. destruct (j =? i)%nat; [|reflexivity]. rewrite (proj2 (Nat.ltb_ge i 0)) by lia. now destruct j.
  - destruct i as [|i], j as [|j]; cbn [put nth_error]; auto.
    rewrite IH. cbn [Nat.eqb List.length]. change (S i <? S (List.length l))%nat with (i <? List.length l)%nat. reflexivity.
Qed.
Lemma all_evolve_put l i r r' : nth_error l i = Some r -> evolves r r' -> all_evolve l (put l i r').
Proof.
  intros E V. split; [apply put_length|]. intros j q H. rewrite put_nth.
  destruct (Nat.eqb_spec j i) as [->|N]; [|eauto using evolves_refl].
  assert (i < List.length l)%nat by (apply nth_error_Some; congruence).
  rewrite (proj2 (Nat.ltb_lt _ _)) by auto. exists r'. split; [reflexivity|]. assert (q = r) by congruence. now subst.
Qed.

Section Loops.
Context (names : list string) (walk : list Z -> list Z) (W : walks walk) (h : handling) (te : bool).
Context (rs : list rxn) (PR : Forall (proper names) rs).

Local Notation genuine := (genuine names h rs).

Definition nets_ok (n : nat) (l : list nmap) : Prop :=
  List.length l = n /\ forall j r nm, nth_error rs j = Some r -> nth_error l j = Some nm ->
    at_ nm = at_ (net names r) /\ (forall z, In z (dom (net names r)) -> In z (dom nm)).
Record okst (n : nat) (s : dst) : Prop := OKST {
  k_rx : all_evolve rs (c_rx s); k_net : nets_ok n (c_net s);
  k_errs : forall p, In p (c_errs s) -> genuine (fst p) (snd p) }.

Lemma proper_nth j r : nth_error rs j = Some r -> proper names r.
Proof. intros H. rewrite Forall_forall in PR. apply PR. eapply nth_error_In; eauto. Qed.

Lemma agree_alike_same r o c : proper names r -> proper names o ->
  (forall k, agree c (at_ (net names r) k) (at_ (net names o) k)) -> same_direction c r o.
Proof.
  intros P Q H s. destruct (in_dec string_dec s names) as [I|N].
  - split.
    + specialize (H (-1 - place names s)%Z). rewrite !net_react in H by auto. destruct H as [H1 H2]. split; [lra|].
      intros E. replace (amount (d_react o) s / amount (d_react r) s) with (- amount (d_react o) s / - amount (d_react r) s) by (field; auto).
      apply H2. lra.
    + specialize (H (1 + place names s)%Z). rewrite !net_prod in H by auto. exact H.
  - destruct P as (P1 & P2 & _), Q as (Q1 & Q2 & _).
    split; unfold alike; rewrite !(amount_unknown names) by auto; (split; [tauto|intros E; lra]).
Qed.

Lemma agree_everywhere c r o (sg : Z) n1 n2 : proper names r -> proper names o -> sg = 1%Z ->
  (forall z, In z (dom (net names r)) -> In z (dom n1)) -> (forall z, In z (dom (net names o)) -> In z (dom n2)) ->
  (forall k, In k (dom n1) \/ In k (dom n2) -> agree c (at_ (net names r) k) (at_ (net names o) k)) ->
  forall k, agree c (at_ (net names r) k) (at_ (net names o) k).
Proof.
  intros P Q _ D1 D2 H k. destruct (in_dec Z.eq_dec k (dom n1)) as [I|N1]; [auto|]. destruct (in_dec Z.eq_dec k (dom n2)) as [I|N2]; [auto|].
  assert (Z1 : at_ (net names r) k = 0).
  { destruct (Req_dec (at_ (net names r) k) 0) as [|X]; auto. apply (net_nz names r P) in X. exfalso; auto. }
  assert (Z2 : at_ (net names o) k = 0).
  { destruct (Req_dec (at_ (net names o) k) 0) as [|X]; auto. apply (net_nz names o Q) in X. exfalso; auto. }
  rewrite Z1, Z2. split; [tauto|]. intros X. now contradict X.
Qed.

Lemma agree_alike_opposite r o c n1 n2 : proper names r -> proper names o -> group names r = group names o ->
  (forall z, In z (dom (net names r)) -> In z (dom n1)) -> (forall z, In z (dom (net names o)) -> In z (dom n2)) ->
  (forall k, In k (dom n1) \/ In k (dom n2) -> agree c (at_ (net names r) k) (at_ (net names o) (- k)%Z)) ->
  opposite (fun s => Some s <> hd_error names) (- c) r o.
Proof.
  intros P Q G D1 D2 H.
  assert (I1 : incl (map fst (d_react r)) (map fst (d_prod o))).
  { intros s Hs. pose proof (names_react names r P s Hs) as Ns.
    assert (Hd : In (-1 - place names s)%Z (dom (net names r))) by (apply net_dom; left; eauto).
    specialize (H _ (or_introl (D1 _ Hd))). replace (- (-1 - place names s))%Z with (1 + place names s)%Z in H by lia.
    apply (net_nz names r P) in Hd. rewrite net_prod in H by auto.
    apply (amount_nz names); [apply Q|]. intros Z0. apply Hd. now apply H. }
  assert (I2 : incl (map fst (d_prod r)) (map fst (d_react o))).
  { intros s Hs. pose proof (names_prod names r P s Hs) as Ns.
    assert (Hd : In (1 + place names s)%Z (dom (net names r))) by (apply net_dom; right; eauto).
    specialize (H _ (or_introl (D1 _ Hd))). replace (- (1 + place names s))%Z with (-1 - place names s)%Z in H by lia.
    apply (net_nz names r P) in Hd. rewrite (net_react names o Q) in H by auto.
    apply (amount_nz names); [apply Q|]. intros Z0. apply Hd. apply H. rewrite Z0. ring. }
  rewrite !group_zsum in G.
  pose proof (zsum_incl (wt names) _ _ (proj2 (proj1 P)) (fun a Ha => wt_nonneg names a (names_prod names o Q a Ha)) I1) as S1.
  pose proof (zsum_incl (wt names) _ _ (proj2 (proj1 (proj2 P))) (fun a Ha => wt_nonneg names a (names_react names o Q a Ha)) I2) as S2.
  assert (R1 : forall s, Some s <> hd_error names -> In s (map fst (d_prod o)) -> In s (map fst (d_react r))).
  { intros s Hs Ho. destruct (in_dec string_dec s (map fst (d_react r))) as [|N]; auto. exfalso. apply Hs.
    eapply (side_rest names (map fst (d_react r)) (map fst (d_prod o))); eauto; try apply P; try apply Q; try lia.
    intros t Ht. now apply (names_prod names o Q). }
  assert (R2 : forall s, Some s <> hd_error names -> In s (map fst (d_react o)) -> In s (map fst (d_prod r))).
  { intros s Hs Ho. destruct (in_dec string_dec s (map fst (d_prod r))) as [|N]; auto. exfalso. apply Hs.
    eapply (side_rest names (map fst (d_prod r)) (map fst (d_react o))); eauto; try apply P; try apply Q; try lia.
    intros t Ht. now apply (names_react names o Q). }
  intros s Hs. split.
  - destruct (in_dec string_dec s (map fst (d_react r))) as [I|N].
    + pose proof (names_react names r P s I) as Ns.
      assert (Hd : In (-1 - place names s)%Z (dom (net names r))) by (apply net_dom; left; eauto).
      specialize (H _ (or_introl (D1 _ Hd))). replace (- (-1 - place names s))%Z with (1 + place names s)%Z in H by lia.
      rewrite (net_react names r P), (net_prod names o Q) in H by auto. destruct H as [H1 H2]. split; [lra|].
      intros E. specialize (H2 ltac:(lra)). rewrite <- Rabs_Ropp.
      replace (- (amount (d_prod o) s / amount (d_react r) s - - c)) with (amount (d_prod o) s / - amount (d_react r) s - c) by (field; auto). exact H2.
    + unfold alike. rewrite (amount_none (d_react r)) by auto. rewrite (amount_none (d_prod o)) by auto. split; [tauto|]. intros E. now contradict E.
  - destruct (in_dec string_dec s (map fst (d_prod r))) as [I|N].
    + pose proof (names_prod names r P s I) as Ns.
      assert (Hd : In (1 + place names s)%Z (dom (net names r))) by (apply net_dom; right; eauto).
      specialize (H _ (or_introl (D1 _ Hd))). replace (- (1 + place names s))%Z with (-1 - place names s)%Z in H by lia.
      rewrite (net_prod names r P), (net_react names o Q) in H by auto. destruct H as [H1 H2]. split; [lra|].
      intros E. specialize (H2 ltac:(lra)). rewrite <- Rabs_Ropp.
      replace (- (amount (d_react o) s / amount (d_prod r) s - - c)) with (- amount (d_react o) s / amount (d_prod r) s - c) by (field; auto). exact H2.
    + unfold alike. rewrite (amount_none (d_prod r)) by auto. rewrite (amount_none (d_react o)) by auto. split; [tauto|]. intros E. now contradict E.
Qed.

(** The sign of the ratio tells the direction. *)
Lemma ratio_same_pos r o k1 : proper names r -> proper names o -> at_ (net names r) k1 <> 0 -> at_ (net names o) k1 <> 0 ->
  0 < at_ (net names o) k1 / at_ (net names r) k1.
Proof.
  intros P Q A B. apply (net_nz names r P) in A. apply (net_nz names o Q) in B.
  destruct (net_sign names r P k1 A) as [[S1 V1]|[S1 V1]], (net_sign names o Q k1 B) as [[S2 V2]|[S2 V2]]; try lia.
  - rewrite <- (Ropp_involutive (at_ (net names o) k1)), <- (Ropp_involutive (at_ (net names r) k1)).
    replace (- - at_ (net names o) k1 / - - at_ (net names r) k1) with ((- at_ (net names o) k1) / (- at_ (net names r) k1)) by (field; lra).
    apply Rdiv_lt_0_compat; lra.
  - apply Rdiv_lt_0_compat; lra.
Qed.
Lemma ratio_opposite_neg r o k1 : proper names r -> proper names o -> at_ (net names r) k1 <> 0 -> at_ (net names o) (- k1)%Z <> 0 ->
  at_ (net names o) (- k1)%Z / at_ (net names r) k1 < 0.
Proof.
  intros P Q A B. apply (net_nz names r P) in A. apply (net_nz names o Q) in B.
  destruct (net_sign names r P k1 A) as [[S1 V1]|[S1 V1]], (net_sign names o Q _ B) as [[S2 V2]|[S2 V2]]; try lia.
  - assert (0 < at_ (net names o) (- k1)%Z / - at_ (net names r) k1) by (apply Rdiv_lt_0_compat; lra).
    replace (at_ (net names o) (- k1)%Z / at_ (net names r) k1) with (- (at_ (net names o) (- k1)%Z / - at_ (net names r) k1)) by (field; lra). lra.
  - assert (0 < - at_ (net names o) (- k1)%Z / at_ (net names r) k1) by (apply Rdiv_lt_0_compat; lra).
    replace (at_ (net names o) (- k1)%Z / at_ (net names r) k1) with (- (- at_ (net names o) (- k1)%Z / at_ (net names r) k1)) by (field; lra). lra.
Qed.
End Loops.
