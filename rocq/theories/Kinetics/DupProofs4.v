(** Lemmas for C20: the outer loop, and which duplicates are found. *)
From Coq Require Import Reals ZArith String List Bool Arith Lia Lra Permutation.
From Verif Require Import Base.Fp Base.Outcome Base.RSum Kinetics.DupModel Kinetics.DupSpec Kinetics.DupProofs Kinetics.DupProofs2 Kinetics.DupProofs3.
Import ListNotations.
Local Open Scope R_scope.

Section Outer.
Context (names : list string) (walk : list Z -> list Z) (W : walks walk) (h : handling) (te : bool).
Context (rs : list rxn) (PR : Forall (proper names) rs).
Local Notation genuine := (genuine names h rs).
Local Notation good := (good names h rs).
Local Notation partner := (partner names rs).
Local Notation in_group := (in_group names rs).
Local Notation bounded := (bounded names rs).
Local Notation pair_step := (pair_step names walk h te).
Local Notation related_loop := (related_loop names walk h te).
Local Notation main_loop := (main_loop names walk h te).

Lemma evolves_net r r' : evolves r r' -> net names r' = net names r.
Proof. intros V. unfold net. now rewrite (ev_react _ _ V), (ev_prod _ _ V). Qed.
Lemma evolves_key r r' : evolves r r' -> key names r' = group names r.
Proof. intros V. rewrite key_group. unfold group. now rewrite (ev_react _ _ V), (ev_prod _ _ V). Qed.

Definition gis (g : Z) (j : nat) : bool := match nth_error rs j with Some q => Z.eqb (group names q) g | None => false end.
Lemma gis_in g j : gis g j = true <-> in_group g j.
Proof.
  unfold gis, DupProofs3.in_group. destruct (nth_error rs j) as [q|]; [|split; [discriminate|now intros (o & H & _)]].
  rewrite Z.eqb_eq. split; [eauto|]. intros (o & H & E). congruence.
Qed.
Definition related (g : Z) (i : nat) : list nat := filter (gis g) (seq 0 i).
Lemma related_in g i m : In m (related g i) <-> (m < i)%nat /\ in_group g m.
Proof. unfold related. rewrite filter_In, in_seq, gis_in. split; intros [A B]; split; auto; lia. Qed.
Lemma related_S g i : related g (S i) = related g i ++ (if gis g i then [i] else []).
Proof. unfold related. rewrite seq_S, filter_app. cbn. reflexivity. Qed.

Definition places (B g : Z) (n : nat) : Prop :=
  forall j q z, (j < n)%nat -> nth_error rs j = Some q -> group names q = g -> In z (dom (net names q)) -> (- B <= z <= B)%Z.
Record whole (i : nat) (s : dst) : Prop := WHOLE {
  w_good : good i s; w_sub : incl (c_unm s) (declared rs);
  w_gone : forall a b, (a < i)%nat -> (b < i)%nat -> partner a b -> ~ In a (c_unm s);
  w_why : passive h rs -> forall j, In j (declared rs) -> ~ In j (c_unm s) -> exists k, partner j k;
  w_bound : forall B g, places B g i -> bounded B g i s }.
Definition more (s : dst) (r : rxn) : dst := DST (c_rx s) (c_net s ++ [net names r]) (c_unm s) (c_errs s) (c_warn s).

Lemma partner_sym a b : partner a b -> partner b a.
Proof. intros (N & r & o & A & B & C & D & E). split; [auto|]. exists o, r. auto 10. Qed.
Lemma more_good i s r r0 : good i s -> nth_error rs i = Some r0 -> evolves r0 r -> good (S i) (more s r).
Proof.
  intros [[K1 [L NK] K3] G1 G2 G3] E V. split; auto. split; auto. cbn. split; [rewrite app_length; cbn; lia|].
  intros j q nm Hq Hn. destruct (Nat.lt_ge_cases j i) as [LT|GE].
  - rewrite nth_error_app1 in Hn by lia. eapply NK; eauto.
  - rewrite nth_error_app2 in Hn by lia. rewrite L in Hn. destruct (j - i)%nat as [|d] eqn:D; cbn in Hn; [|now destruct d].
    injection Hn as <-. assert (j = i) by lia. subst j. assert (q = r0) by congruence. subst q. rewrite (evolves_net _ _ V). auto.
Qed.
Lemma more_bounded B g i s r r0 : good i s -> nth_error rs i = Some r0 -> evolves r0 r -> places B g (S i) -> bounded B g i s -> bounded B g (S i) (more s r).
Proof.
  intros [[K1 [L NK] K3] G1 G2 G3] E V P BD j nm z Hj IG Hn Hz. cbn in Hn.
  destruct (Nat.eq_dec j i) as [->|N].
  - rewrite nth_error_app2 in Hn by lia. rewrite L, Nat.sub_diag in Hn. injection Hn as <-. rewrite (evolves_net _ _ V) in Hz.
    destruct IG as (q & Q1 & Q2). assert (q = r0) by congruence. subst q. eapply (P i); eauto.
  - rewrite nth_error_app1 in Hn by lia. eapply (BD j); eauto. lia.
Qed.

(** What is known of every round of the outer loop. *)
Definition round (sf : dst) (i : nat) : Prop :=
  exists s1 s2 r r0, nth_error rs i = Some r0 /\ evolves r0 r /\ whole i s1 /\ good (S i) (more s1 r) /\
    (forall B g, places B g (S i) -> bounded B g (S i) (more s1 r)) /\
    related_loop i (related (group names r0) i) (more s1 r) = Go s2 /\ grows s2 sf.
Lemma main_ok n i parts s : whole i s -> (forall g, parts g = related g i) -> (i + n = List.length rs)%nat ->
  match main_loop n i parts s with
  | Go sf => whole (List.length rs) sf /\ grows s sf /\ forall j, (i <= j < List.length rs)%nat -> round sf j
  | Found a b sf => genuine a b /\ (exists k, good k sf) /\ te = false
  | Undefined => False
  end.
Proof.
  revert i parts s. induction n as [|n IH]; intros i parts s WH PA LN.
  { cbn. rewrite Nat.add_0_r in LN. subst i. split; [exact WH|]. split; [apply grows_refl|]. intros; lia. }
  cbn [DupModel.main_loop]. assert (LT : (i < List.length rs)%nat) by lia.
  destruct (nth_error rs i) as [r0|] eqn:E0; [|apply nth_error_None in E0; lia].
  pose proof (w_good _ _ WH) as GD. destruct (rx_get _ _ _ _ _ _ _ (g_ok _ _ _ _ _ GD) E0) as (r & R1 & V). rewrite R1.
  rewrite (evolves_key _ _ V), PA. fold (more s r).
  pose proof (more_good i s r r0 GD E0 V) as GM.
  pose proof (related_ok names walk W h te rs PR (S i) i r0 E0 (Nat.lt_succ_diag_r i) (related (group names r0) i) (more s r) GM) as RO.
  specialize (RO (fun m Hm => proj1 (related_in _ _ _) Hm)).
  assert (BM : forall B g, places B g (S i) -> bounded B g (S i) (more s r)).
  { intros B g P. eapply more_bounded; eauto. apply (w_bound _ _ WH). intros j q z Hj. apply P. lia. }
  destruct (related_loop i (related (group names r0) i) (more s r)) as [s2|a b s2|] eqn:RL; [|destruct RO as (-> & _ & A & B & C); eauto|exact RO].
  assert (WH2 : whole (S i) s2).
  { destruct RO as [T1 T2 T3 T4 T5 T6 T7]. split.
    - exact T1.
    - eapply incl_tran; [exact T5|exact (w_sub _ _ WH)].
    - assert (KEY : forall a b, (a < i)%nat -> b = i -> partner a b -> ~ In a (c_unm s2) /\ ~ In i (c_unm s2)).
      { intros a b Ha -> P. destruct (T6 a) as [X Y]; [|now apply partner_sym|tauto].
        apply related_in. split; [lia|]. destruct P as (_ & ra & rb & A1 & A2 & _ & _ & A5). exists ra. split; [auto|]. congruence. }
      intros a b Ha Hb P. destruct (Nat.eq_dec a i) as [->|Na]; [|destruct (Nat.eq_dec b i) as [->|Nb]].
      + assert (b <> i) by (destruct P; congruence). destruct (KEY b i ltac:(lia) eq_refl (partner_sym _ _ P)). auto.
      + destruct (KEY a i ltac:(lia) eq_refl P). auto.
      + intros X. apply T5 in X. eapply (w_gone _ _ WH a b); eauto; lia.
    - intros PS j J1 J2. destruct (dec_in (c_unm s) j) as [J3|J3]; [apply (T7 PS j J3 J2)|apply (w_why _ _ WH PS j J1 J3)].
    - intros B g P. destruct (Z.eq_dec (group names r0) g) as [<-|NG].
      + apply T3; [exists r0; auto|auto].
      + intros j nm z Hj IG Hn Hz. rewrite T4 in Hn.
        * eapply (BM B g P j); eauto.
        * intros ->. destruct IG as (q & Q1 & Q2). congruence.
        * rewrite related_in. intros [_ (q & Q1 & Q2)]. destruct IG as (q' & Q1' & Q2'). congruence. }
  specialize (IH (S i) (fun z => if Z.eqb z (group names r0) then related (group names r0) i ++ [i] else parts z) s2 WH2).
  assert (PA2 : forall g, (if Z.eqb g (group names r0) then related (group names r0) i ++ [i] else parts g) = related g (S i)).
  { intros g. rewrite related_S. destruct (Z.eqb_spec g (group names r0)) as [->|N].
    - assert (X : gis (group names r0) i = true) by (apply gis_in; exists r0; auto). now rewrite X.
    - destruct (gis g i) eqn:X; [|now rewrite app_nil_r, PA]. apply gis_in in X as (q & Q1 & Q2). congruence. }
  specialize (IH PA2 ltac:(lia)).
  match goal with |- match ?M with _ => _ end => destruct M as [sf|a b sf|]; [|exact IH|exact IH] end.
  destruct IH as (I1 & I2 & I3). split; [exact I1|]. split.
  - eapply grows_trans; [|exact I2]. exact (t_grow _ _ _ _ _ _ _ _ RO).
  - intros j Hj. destruct (Nat.eq_dec j i) as [->|N]; [|apply I3; lia].
    exists s, s2, r, r0. auto 10.
Qed.

(** ** Exact multiples are found *)
Lemma not_dom_zero r z : proper names r -> ~ In z (dom (net names r)) -> at_ (net names r) z = 0.
Proof. intros P N. destruct (Req_dec (at_ (net names r) z) 0) as [E|E]; [exact E|]. apply (net_nz names r P) in E. contradiction. Qed.
Lemma key_cases r o z : proper names r -> proper names o -> In z (dom (net names r)) \/ In z (dom (net names o)) ->
  exists t, In t names /\ (z = (-1 - place names t)%Z \/ z = (1 + place names t)%Z).
Proof.
  intros P Q [H|H]; apply net_dom in H as [(t & H & ->)|(t & H & ->)]; exists t; (split; [|auto]).
  - exact (names_react names r P t H).
  - exact (names_prod names r P t H).
  - exact (names_react names o Q t H).
  - exact (names_prod names o Q t H).
Qed.
Lemma net_multiple c r o : proper names r -> proper names o -> multiple c r o -> forall z, at_ (net names o) z = c * at_ (net names r) z.
Proof.
  intros P Q M z. destruct (in_dec Z.eq_dec z (dom (net names r))) as [I|N1]; [|destruct (in_dec Z.eq_dec z (dom (net names o))) as [I|N2]].
  3:{ rewrite !not_dom_zero by auto. ring. }
  1,2: destruct (key_cases r o z P Q ltac:(auto)) as (t & T & [-> | ->]); [rewrite !net_react by auto; rewrite (proj1 (M t)); ring|rewrite !net_prod by auto; apply M].
Qed.
Lemma net_reversed c r o : proper names r -> proper names o -> reversed_multiple c r o -> forall z, at_ (net names o) (- z) = - c * at_ (net names r) z.
Proof.
  intros P Q M z. destruct (in_dec Z.eq_dec z (dom (net names r))) as [I|N1]; [|destruct (in_dec Z.eq_dec (- z)%Z (dom (net names o))) as [I|N2]].
  3:{ rewrite !not_dom_zero by auto. ring. }
  - destruct (key_cases r o z P Q ltac:(auto)) as (t & T & [-> | ->]).
    + replace (- (-1 - place names t))%Z with (1 + place names t)%Z by lia. rewrite net_prod, net_react by auto. rewrite (proj1 (M t)). ring.
    + replace (- (1 + place names t))%Z with (-1 - place names t)%Z by lia. rewrite net_prod, net_react by auto. rewrite (proj2 (M t)). ring.
  - destruct (key_cases r o (- z)%Z P Q ltac:(auto)) as (t & T & [E|E]); rewrite E.
    + replace z with (1 + place names t)%Z by lia. rewrite net_prod, net_react by auto. rewrite (proj2 (M t)). ring.
    + replace z with (-1 - place names t)%Z by lia. rewrite net_prod, net_react by auto. rewrite (proj1 (M t)). ring.
Qed.
Lemma side_perm a b c : proper_side names a -> proper_side names b -> 0 < c -> (forall t, amount b t = c * amount a t) -> Permutation (map fst a) (map fst b).
Proof.
  intros A B C M. apply NoDup_Permutation; [apply A|apply B|]. intros t.
  rewrite <- (amount_nz names a t A), <- (amount_nz names b t B), M. split; intros H Z; apply H.
  - apply Rmult_integral in Z as [Z|Z]; lra.
  - rewrite Z. ring.
Qed.
Lemma multiple_group c r o : proper names r -> proper names o -> 0 < c -> multiple c r o \/ reversed_multiple c r o -> group names r = group names o.
Proof.
  intros (A & B & _) (A' & B' & _) C [M|M]; rewrite !group_zsum.
  - rewrite (zsum_perm _ _ _ (side_perm _ _ c A A' C (fun t => proj1 (M t)))), (zsum_perm _ _ _ (side_perm _ _ c B B' C (fun t => proj2 (M t)))). reflexivity.
  - rewrite (zsum_perm _ _ _ (side_perm _ _ c A B' C (fun t => proj1 (M t)))), (zsum_perm _ _ _ (side_perm _ _ c B A' C (fun t => proj2 (M t)))). lia.
Qed.
Lemma agree_scaled c x : c <> 0 -> agree c x (c * x).
Proof.
  intros C. split.
  - split; intros H; [rewrite H; ring|]. apply Rmult_integral in H as [H|H]; lra.
  - intros H. replace (c * x / x - c) with 0 by (field; auto). rewrite Rabs_R0. left. apply Rinv_0_lt_compat, pow_lt. lra.
Qed.

Lemma pair_reaches n i m s r0 o0 n1 : good n s -> c_rx s = rs -> (i < n)%nat -> (m < i)%nat -> nth_error rs i = Some r0 -> nth_error rs m = Some o0 ->
  comparable r0 o0 ->
  (exists c, 0 < c /\ (multiple c r0 o0 \/ (reversed_multiple c r0 o0 /\ either_reversible r0 o0))) ->
  nth_error (c_net s) i = Some n1 -> (forall k1, first_key n1 = Some k1 -> at_ (net names r0) k1 <> 0) ->
  exists nets, pair_step i m s = third_bodies names h te i m r0 o0 (DST (c_rx s) nets (c_unm s) (c_errs s) (c_warn s)).
Proof.
  intros GD RX Hi Hm E1 E2 (CD & CT & CR) (c & C & MU) N1 FKZ. pose proof (g_ok _ _ _ _ _ GD) as K.
  destruct (nets_get names h rs n s m K ltac:(lia)) as (n2 & N2).
  pose proof (proper_nth names rs PR _ _ E1) as P1. pose proof (proper_nth names rs PR _ _ E2) as P2.
  unfold DupModel.pair_step. rewrite RX, E1, E2, N1, N2.
  destruct (d_dup r0 && d_dup o0) eqn:DD; [apply andb_prop in DD; contradiction|].
  rewrite CT, CR, !String.eqb_refl. cbn [negb].
  destruct (k_net _ _ _ _ _ K) as [L NK]. destruct (NK _ _ _ E1 N1) as [A1 D1]. destruct (NK _ _ _ E2 N2) as [A2 D2].
  assert (NE : dom n1 <> []).
  { intros Z0. destruct (dom (net names r0)) as [|z l] eqn:Q; [now apply (net_nonempty names r0 P1)|]. specialize (D1 z). rewrite Z0 in D1. now apply D1; left. }
  destruct (first_key_min n1 NE) as (k1 & FK & KI & _). specialize (FKZ k1 FK).
  destruct (ratio_spec walk W n1 n2 k1 (fun _ => True) FK) as (q & q1 & q2 & -> & G1 & G2 & SND & CO1 & CO2); [auto|exact KI|].
  rewrite A1, A2 in *. cbn zeta.
  assert (Q : q <> 0 /\ (q < 0 -> either_reversible r0 o0)).
  { destruct MU as [M|[M RV]].
    - pose proof (net_multiple c r0 o0 P1 P2 M) as NM. assert (R0 : at_ (net names o0) k1 / at_ (net names r0) k1 = c) by (rewrite NM; field; auto).
      rewrite R0 in CO1. rewrite CO1; [split; [lra|lra]|auto| |].
      + rewrite NM. intros Z. apply Rmult_integral in Z as [Z|Z]; lra.
      + intros k _. rewrite NM. apply agree_scaled. lra.
    - split; [|auto]. pose proof (net_reversed c r0 o0 P1 P2 M) as NM.
      assert (R0 : at_ (net names o0) (- k1)%Z / at_ (net names r0) k1 = - c) by (rewrite NM; field; auto).
      rewrite R0 in CO2. apply CO2; [auto| |].
      + rewrite NM. intros Z. apply Rmult_integral in Z as [Z|Z]; lra.
      + intros k _. rewrite NM. apply agree_scaled. lra. }
  destruct Q as [Q0 QR]. apply reqb_false in Q0. rewrite Q0.
  assert (DIR : rltb q 0 && negb (d_rev r0) && negb (d_rev o0) = false).
  { destruct (rltb q 0) eqn:LT; [|reflexivity]. apply rltb_true in LT. destruct (QR LT) as [-> | ->]; cbn; [reflexivity|apply andb_false_r]. }
  rewrite DIR. exists (DupModel.put (DupModel.put (c_net s) i q1) m q2). reflexivity.
Qed.
(** Comparisons with reactions that are not comparable leave the coefficients alone. *)
Lemma pair_idle i m s r o : c_rx s = rs -> nth_error rs i = Some r -> nth_error rs m = Some o -> ~ comparable r o ->
  forall s', pair_step i m s = Go s' -> c_net s' = c_net s /\ c_rx s' = rs.
Proof.
  intros RX E1 E2 NC s' H. unfold DupModel.pair_step in H. rewrite RX, E1, E2 in H.
  destruct (nth_error (c_net s) i) as [n1|]; [|discriminate]. destruct (nth_error (c_net s) m) as [n2|]; [|discriminate].
  destruct (d_dup r && d_dup o) eqn:DD; [injection H as <-; cbn; rewrite <- RX; auto|].
  destruct (String.eqb_spec (d_type r) (d_type o)) as [TY|]; cbn [negb] in H; [|injection H as <-; auto].
  destruct (String.eqb_spec (d_rtype r) (d_rtype o)) as [RT|]; cbn [negb] in H; [|injection H as <-; auto].
  exfalso. apply NC. split; [|auto]. intros [X Y]. rewrite X, Y in DD. discriminate.
Qed.
Lemma related_idle i r l : nth_error rs i = Some r -> (forall m, In m l -> exists o, nth_error rs m = Some o /\ ~ comparable r o) ->
  forall s s', c_rx s = rs -> related_loop i l s = Go s' -> c_net s' = c_net s.
Proof.
  intros E1. induction l as [|m l IH]; intros HL s s' RX H; cbn [DupModel.related_loop] in H; [injection H as <-; reflexivity|].
  destruct (pair_step i m s) as [s1| |] eqn:PS; try discriminate. destruct (HL m (or_introl eq_refl)) as (o & E2 & NC).
  destruct (pair_idle i m s r o RX E1 E2 NC s1 PS) as [A B]. rewrite <- A. apply (IH (fun m' H' => HL m' (or_intror H')) s1 s' B H).
Qed.
Lemma related_cut g i m : (m < i)%nat -> in_group g m -> exists l, related g i = related g m ++ m :: l.
Proof.
  intros LT IG. apply gis_in in IG. exists (filter (gis g) (seq (S m) (i - S m))). unfold related.
  replace i with (m + S (i - S m))%nat at 1 by lia. rewrite seq_app, filter_app. cbn [seq filter]. rewrite Nat.add_0_l, IG. reflexivity.
Qed.

Lemma round_reaches sf i m r0 o0 : passive h rs -> round sf i -> (m < i)%nat -> nth_error rs i = Some r0 -> nth_error rs m = Some o0 ->
  comparable r0 o0 ->
  (exists c, 0 < c /\ (multiple c r0 o0 \/ (reversed_multiple c r0 o0 /\ either_reversible r0 o0))) ->
  unspoilt names rs i m r0 -> exists sa sb, c_rx sa = rs /\ third_bodies names h te i m r0 o0 sa = Go sb /\ grows sb sf.
Proof.
  intros PA (s1 & s2 & r & r0' & E1' & V & WH & GM & BM & RL & GR) Hm E1 E2 CMP MU US.
  assert (r0' = r0) by congruence. subst r0'. clear E1'.
  pose proof (proper_nth names rs PR _ _ E1) as P1. pose proof (proper_nth names rs PR _ _ E2) as P2.
  assert (GE : group names o0 = group names r0).
  { destruct MU as (c & C & MU). symmetry. apply (multiple_group c); auto. tauto. }
  destruct (related_cut (group names r0) i m Hm) as (l2 & EL); [exists o0; auto|]. rewrite EL in RL.
  destruct (related_split _ _ _ _ _ _ _ _ _ _ RL) as (sa & sb & RA & PS & RB).
  assert (LA : forall k, In k (related (group names r0) m) -> (k < i)%nat /\ in_group (group names r0) k).
  { intros k Hk. apply related_in in Hk as [X Y]. split; [lia|auto]. }
  pose proof (related_ok names walk W h te rs PR (S i) i r0 E1 (Nat.lt_succ_diag_r i) _ (more s1 r) GM LA) as OA. rewrite RA in OA.
  pose proof (t_good _ _ _ _ _ _ _ _ OA) as GA.
  assert (LB : forall k, In k l2 -> (k < i)%nat /\ in_group (group names r0) k).
  { intros k Hk. apply related_in. rewrite EL. apply in_or_app. right. now right. }
  pose proof (g_pass _ _ _ _ _ GA PA) as RXA.
  destruct (nets_get names h rs (S i) sa i (g_ok _ _ _ _ _ GA) ltac:(lia)) as (n1 & N1).
  destruct (k_net _ _ _ _ _ (g_ok _ _ _ _ _ GA)) as [_ NK]. destruct (NK _ _ _ E1 N1) as [A1 D1].
  assert (FKZ : forall k1, first_key n1 = Some k1 -> at_ (net names r0) k1 <> 0).
  { intros k1 FK. assert (NE : dom n1 <> []) by (intros Z; unfold first_key in FK; rewrite Z in FK; discriminate).
    destruct (first_key_min n1 NE) as (k & FK' & KI & KM). assert (k = k1) by congruence. subst k. destruct US as [US|(t & T1 & T2)].
    - assert (EN : c_net sa = c_net (more s1 r)).
      { eapply related_idle; [exact E1| | |exact RA].
        - intros k Hk. apply related_in in Hk as [X (q & Q1 & Q2)]. exists q. split; [auto|]. eapply US; eauto.
        - exact (g_pass _ _ _ _ _ GM PA). }
      rewrite EN in N1. cbn in N1. destruct (k_net _ _ _ _ _ (g_ok _ _ _ _ _ (w_good _ _ WH))) as [LN _].
      rewrite nth_error_app2 in N1 by lia. rewrite LN, Nat.sub_diag in N1. injection N1 as <-. rewrite (evolves_net _ _ V) in KI.
      now apply (net_nz names r0 P1).
    - set (B := (1 + place names t)%Z).
      assert (PL : places B (group names r0) (S i)).
      { intros j q z Hj Hq Gq Hz. pose proof (proper_nth names rs PR _ _ Hq) as Pq.
        apply net_dom in Hz as [(u & U & ->)|(u & U & ->)].
        - pose proof (place_nonneg names u (names_react names q Pq u U)). assert (place names u <= place names t)%Z; [|unfold B; lia].
          apply (T2 j q u); auto; [lia|]. rewrite map_app. apply in_or_app. auto.
        - pose proof (place_nonneg names u (names_prod names q Pq u U)). assert (place names u <= place names t)%Z; [|unfold B; lia].
          apply (T2 j q u); auto; [lia|]. rewrite map_app. apply in_or_app. auto. }
      pose proof (t_bound _ _ _ _ _ _ _ _ OA B (group names r0) (ex_intro _ r0 (conj E1 eq_refl)) (BM B _ PL)) as BD.
      assert (IB : In (- B)%Z (dom (net names r0))) by (apply net_dom; left; exists t; split; [auto|unfold B; lia]).
      assert (k1 = (- B)%Z).
      { pose proof (KM _ (D1 _ IB)). pose proof (BD i n1 k1 (Nat.lt_succ_diag_r i) (ex_intro _ r0 (conj E1 eq_refl)) N1 KI). lia. }
      subst k1. now apply (net_nz names r0 P1). }
  destruct (pair_reaches (S i) i m sa r0 o0 n1 GA RXA (Nat.lt_succ_diag_r i) Hm E1 E2 CMP MU N1 FKZ) as (nets & PF).
  eexists. exists sb. split; [|split; [rewrite PS in PF; symmetry; exact PF|]]; [exact RXA|].
  pose proof (pair_ok names walk W h te rs PR (S i) i m sa r0 o0 GA (Nat.lt_succ_diag_r i) Hm E1 E2 (eq_sym GE)) as PO. rewrite PS in PO. destruct PO as (GB & _).
  pose proof (related_ok names walk W h te rs PR (S i) i r0 E1 (Nat.lt_succ_diag_r i) l2 _ GB LB) as OB. rewrite RB in OB.
  eapply grows_trans; [exact (t_grow _ _ _ _ _ _ _ _ OB)|exact GR].
Qed.
Lemma third_fires i m r0 o0 s : third_bodies_clash names h r0 o0 -> third_bodies names h te i m r0 o0 s = report te i m s.
Proof.
  intros CL.
  unfold DupModel.third_bodies. unfold third_bodies_clash in CL. destruct (d_tb r0) as [t1|]; [|reflexivity]. destruct (d_tb o0) as [t2|]; [|reflexivity].
  destruct CL as [OV CL]. apply overlap_iff in OV. rewrite OV. cbn [negb].
  destruct (Bool.eqb (String.eqb (tb_name t1) "M") (String.eqb (tb_name t2) "M")) eqn:EB; cbn [negb]; [reflexivity|].
  destruct CL as [CL|CL]; [|now rewrite CL].
  exfalso. destruct (String.eqb_spec (tb_name t1) "M") as [M1|M1], (String.eqb_spec (tb_name t2) "M") as [M2|M2]; try discriminate; tauto.
Qed.
Lemma third_warns i m r0 o0 s : h = Warn -> generic_and_explicit names r0 o0 \/ generic_and_explicit names o0 r0 ->
  third_bodies names h te i m r0 o0 s = Go (DST (c_rx s) (c_net s) (c_unm s) (c_errs s) (c_warn s ++ [(i, m)])).
Proof.
  intros EH GE. unfold DupModel.third_bodies. rewrite EH. destruct GE as [(t1 & t2 & -> & -> & M1 & M2 & OV)|(t2 & t1 & -> & -> & M2 & M1 & OV)].
  - apply overlap_iff in OV. rewrite OV, M1, String.eqb_refl. cbn [negb]. destruct (String.eqb_spec (tb_name t2) "M"); [contradiction|reflexivity].
  - apply overlap_iff, overlap_sym in OV. rewrite OV, M2, String.eqb_refl. cbn [negb]. destruct (String.eqb_spec (tb_name t1) "M"); [contradiction|reflexivity].
Qed.
End Outer.
