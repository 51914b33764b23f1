(** Lemmas for C20: one comparison, and the loops around it. *)
From Coq Require Import Reals ZArith String List Bool Arith Lia Lra Permutation.
From Verif Require Import Base.Fp Base.Outcome Base.RSum Kinetics.DupModel Kinetics.DupSpec Kinetics.DupProofs Kinetics.DupProofs2.
Import ListNotations.
Local Open Scope R_scope.

Section Loops.
Context (names : list string) (walk : list Z -> list Z) (W : walks walk) (h : handling) (te : bool).
Context (rs : list rxn) (PR : Forall (proper names) rs).
Local Notation genuine := (genuine names h rs).
Local Notation okst := (okst names h rs).
Local Notation mixed := (mixed names rs).
Local Notation nets_ok := (nets_ok names rs).
Local Notation pair_step := (pair_step names walk h te).
Local Notation third_bodies := (third_bodies names h te).
Local Notation may_become := (may_become names h rs).

Definition grows (s s' : dst) : Prop := all_evolve (c_rx s) (c_rx s') /\ incl (c_errs s) (c_errs s') /\ incl (c_warn s) (c_warn s').
Lemma grows_refl s : grows s s.
Proof. split; [apply all_evolve_refl|]. split; apply incl_refl. Qed.
Lemma grows_trans a b c : grows a b -> grows b c -> grows a c.
Proof. intros (A & E & F) (B & E' & F'). split; [eapply all_evolve_trans; eauto|]. split; eapply incl_tran; eauto. Qed.

Lemma clash_evolves r o r0 o0 t1 t2 : evolves r0 r -> evolves o0 o -> d_tb r = Some t1 -> d_tb o = Some t2 ->
  overlap names t1 t2 = true -> (tb_name t1 = "M"%string <-> tb_name t2 = "M"%string) \/ h = Error -> third_bodies_clash names h r0 o0.
Proof.
  intros V1 V2 E1 E2 OV C. unfold third_bodies_clash. pose proof (ev_tb _ _ V1) as T1. pose proof (ev_tb _ _ V2) as T2. rewrite E1 in T1. rewrite E2 in T2.
  destruct (d_tb r0) as [q1|]; [|contradiction]. destruct (d_tb o0) as [q2|]; [|contradiction].
  destruct T1 as (N1 & F1 & _), T2 as (N2 & F2 & _). apply overlap_iff in OV as (s & Hs & A & B). split.
  - exists s. split; [auto|]. destruct (F1 s) as [Q|Q]; [contradiction|]. destruct (F2 s) as [Q'|Q']; [contradiction|]. split; congruence.
  - rewrite <- N1, <- N2. exact C.
Qed.
Lemma no_tb_clash r o r0 o0 : evolves r0 r -> evolves o0 o -> d_tb r = None \/ d_tb o = None -> third_bodies_clash names h r0 o0.
Proof.
  intros V1 V2 E. unfold third_bodies_clash. pose proof (ev_tb _ _ V1) as T1. pose proof (ev_tb _ _ V2) as T2.
  destruct (d_tb r0), (d_tb o0); auto. destruct E as [E|E]; rewrite E in *; contradiction.
Qed.
Lemma name_iff a b : Bool.eqb (String.eqb a "M") (String.eqb b "M") = true -> (a = "M"%string <-> b = "M"%string).
Proof.
  intros H. apply Bool.eqb_prop in H. rewrite <- !String.eqb_eq, H. tauto.
Qed.

(** Changes made so far are justified. *)
Definition justified (rx : list rxn) : Prop :=
  forall j r r', nth_error rs j = Some r -> nth_error rx j = Some r' -> may_become j r r'.
Definition warned (l : list (nat * nat)) : Prop :=
  forall p, In p l -> h = Warn /\ (mixed (fst p) (snd p) \/ mixed (snd p) (fst p)).
Lemma become_refl j r : may_become j r r.
Proof. unfold DupSpec.may_become. auto 10. Qed.
Lemma become_dup j r q k : may_become j r q -> h = MarkDuplicate -> mixed j k \/ mixed k j -> may_become j r (set_dup q).
Proof. intros (A & B & C & D & E & F & G & H) M X. unfold DupSpec.may_become. cbn. repeat (split; [assumption|]). split; [right; eauto|exact H]. Qed.
Lemma become_eff j r q k o t t2 : may_become j r q -> h = ModifyEfficiency -> mixed j k -> nth_error rs k = Some o -> d_tb o = Some t2 ->
  d_tb q = Some t -> may_become j r (set_tb q (set_eff t (tb_name t2) 0)).
Proof.
  intros (A & B & C & D & E & F & G & H) M X O T Q. unfold DupSpec.may_become. cbn. repeat (split; [assumption|]). right. split; [exact M|].
  assert (ST : forall s, eff (set_eff t (tb_name t2) 0) s = eff t s \/ (eff (set_eff t (tb_name t2) 0) s = 0 /\
     exists k o t3, mixed j k /\ nth_error rs k = Some o /\ d_tb o = Some t3 /\ tb_name t3 = s)).
  { intros s. rewrite <- !efficiency_eff, set_eff_at. destruct (String.eqb_spec (tb_name t2) s); [right; eauto 10|auto]. }
  destruct H as [H|(_ & t0 & t' & H1 & H2 & H3 & H4 & H5)].
  - exists t, (set_eff t (tb_name t2) 0). rewrite <- H, Q. do 2 (split; [reflexivity|]). split; [reflexivity|]. split; [reflexivity|]. exact ST.
  - assert (t' = t) by congruence. subst t'. exists t0, (set_eff t (tb_name t2) 0). split; [auto|]. split; [auto|]. split; [exact H3|]. split; [exact H4|].
    intros s. destruct (ST s) as [-> |S']; [apply H5|right; exact S'].
Qed.
Lemma justified_put rx i r q : justified rx -> nth_error rs i = Some r -> may_become i r q -> justified (put rx i q).
Proof.
  intros J E B j r1 r' H1 H2. rewrite put_nth in H2. destruct (Nat.eqb_spec j i) as [->|N]; [|eapply J; eauto].
  destruct (i <? List.length rx)%nat; [|discriminate]. injection H2 as <-. assert (r1 = r) by congruence. now subst.
Qed.
Lemma mixed_evolves r o r0 o0 t1 t2 i m : evolves r0 r -> evolves o0 o -> d_tb r = Some t1 -> d_tb o = Some t2 ->
  overlap names t1 t2 = true -> tb_name t1 = "M"%string -> tb_name t2 <> "M"%string ->
  nth_error rs i = Some r0 -> nth_error rs m = Some o0 -> comparable r0 o0 -> related_by names r0 o0 \/ related_by names o0 r0 -> mixed i m.
Proof.
  intros V1 V2 E1 E2 OV N1 N2 I1 I2 C RB. exists r0, o0. split; [auto|]. split; [auto|]. split; [auto|]. split; [|auto].
  pose proof (ev_tb _ _ V1) as T1. pose proof (ev_tb _ _ V2) as T2. rewrite E1 in T1. rewrite E2 in T2. unfold generic_and_explicit.
  destruct (d_tb r0) as [q1|]; [|contradiction]. destruct (d_tb o0) as [q2|]; [|contradiction].
  destruct T1 as (M1 & F1 & _), T2 as (M2 & F2 & _). apply overlap_iff in OV as (s & Hs & A & B). exists q1, q2. split; [auto|]. split; [auto|].
  split; [congruence|]. split; [congruence|].
  exists s. split; [auto|]. destruct (F1 s) as [Q|Q]; [contradiction|]. destruct (F2 s) as [Q'|Q']; [contradiction|]. split; congruence.
Qed.
Lemma comparable_sym r o : comparable r o -> comparable o r.
Proof. intros (A & B & C). split; [tauto|]. split; congruence. Qed.
Lemma overlap_sym a b : overlap names a b = true -> overlap names b a = true.
Proof. rewrite !overlap_iff. intros (s & A & B & C). eauto. Qed.

(** The invariant of the loops, but for the unmatched duplicates. *)
Record good (n : nat) (s : dst) : Prop := GOOD { g_ok : okst n s; g_just : justified (c_rx s); g_warn : warned (c_warn s);
  g_pass : passive h rs -> c_rx s = rs }.

Lemma third_ok n i m s r o r0 o0 : good n s -> nth_error (c_rx s) i = Some r -> nth_error (c_rx s) m = Some o -> (m < i)%nat ->
  nth_error rs i = Some r0 -> nth_error rs m = Some o0 -> comparable r0 o0 -> related_by names r0 o0 ->
  evolves r0 r -> evolves o0 o ->
  match third_bodies i m r o s with
  | Go s' => good n s' /\ grows s s' /\ c_net s' = c_net s /\ c_unm s' = c_unm s
  | Found i' m' s' => i' = i /\ m' = m /\ genuine i m /\ s' = s /\ te = false
  | Undefined => False
  end.
Proof.
  intros GD E1 E2 LT I1 I2 CMP RB V1 V2. pose proof (g_ok _ _ GD) as K.
  assert (GEN : third_bodies_clash names h r0 o0 -> genuine i m) by (intros; split; [auto|]; exists r0, o0; auto).
  assert (REP : third_bodies_clash names h r0 o0 -> match report te i m s with
    | Go s' => good n s' /\ grows s s' /\ c_net s' = c_net s /\ c_unm s' = c_unm s
    | Found i' m' s' => i' = i /\ m' = m /\ genuine i m /\ s' = s /\ te = false
    | Undefined => False end).
  { intros C. unfold report. destruct te.
    - split; [|split; [|auto]].
      + destruct GD as [_ G1 G2 G3]. split; auto. destruct K as [K1 K2 K3]. split; auto. cbn. intros p Hp. apply in_app_or in Hp as [Hp|[<-|[]]]; auto.
      + split; [apply all_evolve_refl|]. cbn. split; [apply incl_appl|]; apply incl_refl.
    - auto. }
  unfold DupModel.third_bodies. destruct (d_tb r) as [t1|] eqn:T1; [|apply REP, (no_tb_clash r o); auto].
  destruct (d_tb o) as [t2|] eqn:T2; [|apply REP, (no_tb_clash r o); auto].
  destruct (overlap names t1 t2) eqn:OV; cbn [negb].
  2:{ split; [exact GD|]. split; [apply grows_refl|auto]. }
  destruct (Bool.eqb (String.eqb (tb_name t1) "M") (String.eqb (tb_name t2) "M")) eqn:NM; cbn [negb].
  { apply REP. eapply (clash_evolves r o); eauto. left. now apply name_iff. }
  assert (MIX : (tb_name t1 = "M"%string /\ tb_name t2 <> "M"%string /\ mixed i m) \/ (tb_name t1 <> "M"%string /\ tb_name t2 = "M"%string /\ mixed m i)).
  { destruct (String.eqb_spec (tb_name t1) "M") as [M1|M1], (String.eqb_spec (tb_name t2) "M") as [M2|M2]; try discriminate.
    - left. split; [auto|]. split; [auto|]. eapply (mixed_evolves r o); eauto.
    - right. split; [auto|]. split; [auto|]. eapply (mixed_evolves o r); eauto using overlap_sym, comparable_sym. }
  assert (STEP : forall rx', all_evolve (c_rx s) rx' -> justified rx' -> (passive h rs -> False) -> let s' := DST rx' (c_net s) (c_unm s) (c_errs s) (c_warn s) in
    good n s' /\ grows s s' /\ c_net s' = c_net s /\ c_unm s' = c_unm s).
  { intros rx' A JU NP s'. split; [|split; [|auto]].
    - destruct GD as [_ G1 G2 G3]. split; [|exact JU|exact G2|intros P; destruct (NP P)]. destruct K as [K1 K2 K3]. split; auto. cbn. eapply all_evolve_trans; eauto.
    - split; [exact A|]. split; apply incl_refl. }
  assert (CE : h = Error -> third_bodies_clash names h r0 o0) by (intros; eapply (clash_evolves r o); eauto).
  assert (NP : h = MarkDuplicate \/ h = ModifyEfficiency -> passive h rs -> False).
  { intros HH [Q|[Q|Q]]; [destruct HH; congruence|destruct HH; congruence|]. pose proof (ev_tb _ _ V1) as W1. pose proof (ev_tb _ _ V2) as W2.
    rewrite T1 in W1. rewrite T2 in W2. destruct (d_tb r0) as [q1|] eqn:B1; [|contradiction]. destruct (d_tb o0) as [q2|] eqn:B2; [|contradiction].
    destruct W1 as [X1 _], W2 as [X2 _]. pose proof (Q _ _ (nth_error_In _ _ I1) B1). pose proof (Q _ _ (nth_error_In _ _ I2) B2).
    destruct MIX as [(? & ? & _)|(? & ? & _)]; congruence. }
  pose proof (g_just _ _ GD) as JU.
  pose proof (JU _ _ _ I1 E1) as J1. pose proof (JU _ _ _ I2 E2) as J2.
  assert (HC : h = Warn \/ h = Error \/ h = MarkDuplicate \/ h = ModifyEfficiency) by (destruct h; auto).
  destruct HC as [EH|[EH|[EH|EH]]]; rewrite EH; [| rewrite <- EH| |].
  - split; [|split; [|auto]].
    + destruct GD as [_ G1 G2 G3]. split; auto; [destruct K as [K1 K2 K3]; split; auto|]. cbn. intros p Hp. apply in_app_or in Hp as [Hp|[<-|[]]]; [now apply G2|].
      split; [auto|]. cbn. tauto.
    + split; [apply all_evolve_refl|]. cbn. split; [|apply incl_appl]; apply incl_refl.
  - apply REP, CE, EH.
  - apply STEP; [| |now apply NP; auto].
    + eapply all_evolve_trans; [apply (all_evolve_put _ i r); eauto using evolves_dup|].
      apply (all_evolve_put _ m o); [|apply evolves_dup]. rewrite put_nth. destruct (Nat.eqb_spec m i); [lia|auto].
    + assert (exists k, mixed i k \/ mixed k i) as (k1 & X1) by (destruct MIX as [(_ & _ & X)|(_ & _ & X)]; eauto).
      assert (exists k, mixed m k \/ mixed k m) as (k2 & X2) by (destruct MIX as [(_ & _ & X)|(_ & _ & X)]; eauto).
      eapply justified_put; eauto; [eapply justified_put; eauto|]; eapply become_dup; eauto.
  - apply STEP; [| |now apply NP; auto]; (destruct (String.eqb_spec (tb_name t1) "M") as [M1|M1]).
    + apply (all_evolve_put _ i r); auto. now apply evolves_eff.
    + apply (all_evolve_put _ m o); auto. apply evolves_eff; tauto.
    + assert (X : mixed i m /\ tb_name t2 <> "M"%string) by tauto. destruct X as [X N2]. eapply justified_put; eauto.
      assert (B2 : d_tb o0 = Some t2).
      { pose proof (ev_tb _ _ V2) as W2. rewrite T2 in W2. destruct (d_tb o0) as [q2|]; [|contradiction]. destruct W2 as (W3 & _ & W4). rewrite W4; [auto|congruence]. }
      eapply become_eff; eauto.
    + assert (X : mixed m i) by tauto. eapply justified_put; eauto.
      assert (B2 : d_tb r0 = Some t1).
      { pose proof (ev_tb _ _ V1) as W2. rewrite T1 in W2. destruct (d_tb r0) as [q2|]; [|contradiction]. destruct W2 as (W3 & _ & W4). rewrite W4; [auto|congruence]. }
      eapply become_eff; eauto.
Qed.

Lemma nets_get n s j : okst n s -> (j < n)%nat -> exists nm, nth_error (c_net s) j = Some nm.
Proof.
  intros K H. destruct (k_net _ _ _ _ _ K) as [L _]. destruct (nth_error (c_net s) j) eqn:E; [eauto|].
  apply nth_error_None in E. lia.
Qed.
Lemma rx_get n s j r : okst n s -> nth_error rs j = Some r -> exists r', nth_error (c_rx s) j = Some r' /\ evolves r r'.
Proof. intros K H. destruct (k_rx _ _ _ _ _ K) as [_ A]. eauto. Qed.
(** Entries added to the maps. *)
Definition nets_grow (i m : nat) (l l' : list nmap) : Prop :=
  List.length l' = List.length l /\
  (forall j, j <> i -> j <> m -> nth_error l' j = nth_error l j) /\
  (forall (e : Z -> Prop), (forall j nm z, j = i \/ j = m -> nth_error l j = Some nm -> In z (dom nm) -> e z /\ e (- z)%Z) ->
     forall j nm' z, j = i \/ j = m -> nth_error l' j = Some nm' -> In z (dom nm') -> e z).

(** One comparison. *)
Lemma pair_shape n i m s r0 o0 : good n s -> (i < n)%nat -> (m < i)%nat -> nth_error rs i = Some r0 -> nth_error rs m = Some o0 ->
  group names r0 = group names o0 ->
  exists r o, nth_error (c_rx s) i = Some r /\ evolves r0 r /\ nth_error (c_rx s) m = Some o /\ evolves o0 o /\
  ((d_dup r = true /\ d_dup o = true /\ pair_step i m s = Go (DST (c_rx s) (c_net s) (erase m (erase i (c_unm s))) (c_errs s) (c_warn s))) \/
   (~ (d_dup r = true /\ d_dup o = true) /\ exists nets, nets_ok n nets /\ nets_grow i m (c_net s) nets /\
      (pair_step i m s = Go (DST (c_rx s) nets (c_unm s) (c_errs s) (c_warn s)) \/
       (comparable r0 o0 /\ related_by names r0 o0 /\
        pair_step i m s = third_bodies i m r o (DST (c_rx s) nets (c_unm s) (c_errs s) (c_warn s)))))).
Proof.
  intros GD Hi Hm E1 E2 G. pose proof (g_ok _ _ GD) as K. destruct (rx_get _ _ _ _ K E1) as (r & R1 & V1). destruct (rx_get _ _ _ _ K E2) as (o & R2 & V2).
  exists r, o. split; [auto|]. split; [auto|]. split; [auto|]. split; [auto|].
  destruct (nets_get _ _ i K Hi) as (n1 & N1). destruct (nets_get _ _ m K ltac:(lia)) as (n2 & N2).
  pose proof (proper_nth names rs PR _ _ E1) as P1. pose proof (proper_nth names rs PR _ _ E2) as P2.
  unfold DupModel.pair_step. rewrite R1, R2, N1, N2.
  assert (NG : nets_grow i m (c_net s) (c_net s)).
  { split; [reflexivity|]. split; [auto|]. intros e H j nm z Hj A B. eapply H; eauto. }
  destruct (d_dup r && d_dup o) eqn:DD.
  { left. apply andb_prop in DD as [-> ->]. auto. }
  right. split; [intros [X Y]; rewrite X, Y in DD; discriminate|].
  assert (SAME : Go s = Go (DST (c_rx s) (c_net s) (c_unm s) (c_errs s) (c_warn s))) by (destruct s; reflexivity).
  destruct (String.eqb_spec (d_type r) (d_type o)) as [TY|]; cbn [negb]; [|exists (c_net s); split; [apply (k_net _ _ _ _ _ K)|split; [exact NG|left; exact SAME]]].
  destruct (String.eqb_spec (d_rtype r) (d_rtype o)) as [RT|]; cbn [negb]; [|exists (c_net s); split; [apply (k_net _ _ _ _ _ K)|split; [exact NG|left; exact SAME]]].
  destruct (k_net _ _ _ _ _ K) as [L NK]. destruct (NK _ _ _ E1 N1) as [A1 D1]. destruct (NK _ _ _ E2 N2) as [A2 D2].
  assert (NE : dom n1 <> []).
  { intros Z0. destruct (dom (net names r0)) as [|z l] eqn:Q; [now apply (net_nonempty names r0 P1)|]. specialize (D1 z). rewrite Z0 in D1. now apply D1; left. }
  destruct (first_key_min n1 NE) as (k1 & FK & KI & _).
  set (e := fun z : Z => exists j nm z', (j = i \/ j = m) /\ nth_error (c_net s) j = Some nm /\ In z' (dom nm) /\ (z = z' \/ z = - z')%Z).
  destruct (ratio_spec walk W n1 n2 k1 e FK) as (c & q1 & q2 & -> & G1 & G2 & SND & _); [|exact KI|].
  { intros z [Hz|Hz]; split; [exists i, n1, z|exists i, n1, z|exists m, n2, z|exists m, n2, z]; repeat split; auto. }
  cbn zeta. exists (DupModel.put (DupModel.put (c_net s) i q1) m q2).
  assert (Lp : forall j, nth_error (DupModel.put (DupModel.put (c_net s) i q1) m q2) j = if (j =? m)%nat then Some q2 else if (j =? i)%nat then Some q1 else nth_error (c_net s) j).
  { intros j. rewrite put_nth, put_length. rewrite (proj2 (Nat.ltb_lt m _)) by lia. destruct (j =? m)%nat; [reflexivity|].
    rewrite put_nth. rewrite (proj2 (Nat.ltb_lt i _)) by lia. reflexivity. }
  split.
  { split; [cbn; rewrite !put_length; exact L|]. intros j r' nm Hr Hn. rewrite Lp in Hn.
    destruct (Nat.eqb_spec j m) as [->|J1].
    - injection Hn as <-. assert (r' = o0) by congruence. subst r'. destruct G2 as (B1 & B2 & _). rewrite B1. split; auto.
    - destruct (Nat.eqb_spec j i) as [->|J2]; [|eapply NK; eauto]. injection Hn as <-. assert (r' = r0) by congruence. subst r'.
      destruct G1 as (B1 & B2 & _). rewrite B1. split; auto. }
  split.
  { split; [cbn; now rewrite !put_length|]. split.
    - intros j J1 J2. rewrite Lp. destruct (Nat.eqb_spec j m); [contradiction|]. destruct (Nat.eqb_spec j i); [contradiction|reflexivity].
    - intros e' He j nm' z Hj Hn Hz. rewrite Lp in Hn. assert (EX : forall z, e z -> e' z).
      { intros y (j' & nm & z' & Hj' & Hn' & Hz' & [-> | ->]); eapply He; eauto. }
      destruct (Nat.eqb_spec j m) as [->|J1].
      + injection Hn as <-. destruct G2 as (_ & _ & B). destruct (B z Hz) as [B'|B']; [|auto]. eapply (He m); eauto.
      + destruct (Nat.eqb_spec j i) as [->|J2]; [|tauto]. injection Hn as <-. destruct G1 as (_ & _ & B). destruct (B z Hz) as [B'|B']; [|auto]. eapply (He i); eauto. }
  destruct (reqb c 0) eqn:C0; [left; reflexivity|]. apply reqb_false in C0.
  destruct (rltb c 0 && negb (d_rev r) && negb (d_rev o)) eqn:DIR; [left; reflexivity|]. right. split; [|split; [|reflexivity]].
  - split; [|split].
    + intros [X Y]. rewrite (ev_dup _ _ V1 X), (ev_dup _ _ V2 Y) in DD. discriminate.
    + now rewrite <- (ev_type _ _ V1), <- (ev_type _ _ V2).
    + now rewrite <- (ev_rtype _ _ V1), <- (ev_rtype _ _ V2).
  - rewrite A1, A2 in SND. destruct (SND C0) as [NZ [(EC & NZ2 & AG)|(EC & NZ2 & AG)]].
    + exists c. split; [rewrite EC; now apply ratio_same_pos|]. left. apply (agree_alike_same names); auto.
      eapply (agree_everywhere names c r0 o0 1 n1 n2); eauto.
    + exists (- c). pose proof (ratio_opposite_neg names r0 o0 k1 P1 P2 NZ NZ2) as NEG. rewrite <- EC in NEG. split; [lra|]. right. split.
      * eapply (agree_alike_opposite names r0 o0 c n1 n2); eauto.
      * assert (LT : rltb c 0 = true) by (now apply rltb_true). rewrite LT in DIR. cbn [andb] in DIR.
        unfold either_reversible. rewrite <- (ev_rev _ _ V1), <- (ev_rev _ _ V2). destruct (d_rev r), (d_rev o); auto; discriminate.
Qed.

Lemma good_nets n s nets u : good n s -> nets_ok n nets -> good n (DST (c_rx s) nets u (c_errs s) (c_warn s)).
Proof. intros [[K1 K2 K3] G1 G2 G3] N. split; auto. split; auto. Qed.

(** The unmatched duplicates left after a comparison. *)
Definition left_after (i m : nat) (s s' : dst) : Prop :=
  (c_unm s' = c_unm s /\ ~ (exists r o, nth_error (c_rx s) i = Some r /\ nth_error (c_rx s) m = Some o /\ d_dup r = true /\ d_dup o = true)) \/
  (c_unm s' = erase m (erase i (c_unm s)) /\
   exists r o, nth_error (c_rx s) i = Some r /\ nth_error (c_rx s) m = Some o /\ d_dup r = true /\ d_dup o = true).
Lemma pair_ok n i m s r0 o0 : good n s -> (i < n)%nat -> (m < i)%nat -> nth_error rs i = Some r0 -> nth_error rs m = Some o0 ->
  group names r0 = group names o0 ->
  match pair_step i m s with
  | Go s' => good n s' /\ grows s s' /\ nets_grow i m (c_net s) (c_net s') /\ left_after i m s s'
  | Found i' m' s' => i' = i /\ m' = m /\ genuine i m /\ good n s' /\ te = false
  | Undefined => False
  end.
Proof.
  intros GD Hi Hm E1 E2 G. destruct (pair_shape n i m s r0 o0 GD Hi Hm E1 E2 G) as (r & o & R1 & V1 & R2 & V2 & [(D1 & D2 & ->)|(ND & nets & NO & NG & [-> |(CMP & RB & ->)])]).
  - split; [apply good_nets; [exact GD|apply (k_net _ _ _ _ _ (g_ok _ _ GD))]|]. split; [split; [apply all_evolve_refl|split; apply incl_refl]|].
    split; [|right; split; [reflexivity|eauto 10]]. split; [reflexivity|]. split; [auto|]. intros e H j nm z Hj A B. eapply H; eauto.
  - split; [now apply good_nets|]. split; [split; [apply all_evolve_refl|split; apply incl_refl]|]. split; [exact NG|].
    left. split; [reflexivity|]. intros (r' & o' & X1 & X2 & X3 & X4). apply ND. split; congruence.
  - set (s1 := DST _ _ _ _ _). assert (GD1 : good n s1) by (now apply good_nets).
    pose proof (third_ok n i m s1 r o r0 o0 GD1 R1 R2 Hm E1 E2 CMP RB V1 V2) as T.
    destruct (third_bodies i m r o s1) as [s'|i' m' s'|]; [|..].
    + destruct T as (T1 & T2 & T3 & T4). split; [exact T1|]. split; [destruct T2 as [TA TB]; split; auto|]. rewrite T3. split; [exact NG|].
      left. split; [exact T4|]. intros (r' & o' & X1 & X2 & X3 & X4). apply ND. split; congruence.
    + destruct T as (-> & -> & T3 & -> & T4). auto.
    + contradiction.
Qed.

(** ** The inner loop *)
Local Notation related_loop := (related_loop names walk h te).
Definition in_group (g : Z) (m : nat) : Prop := exists o, nth_error rs m = Some o /\ group names o = g.
Definition bounded (B g : Z) (n : nat) (s : dst) : Prop :=
  forall j nm z, (j < n)%nat -> in_group g j -> nth_error (c_net s) j = Some nm -> In z (dom nm) -> (- B <= z <= B)%Z.
Definition both_declared (a b : nat) : Prop := partner names rs a b.

Lemma erase_in i l x : In x (erase i l) <-> In x l /\ x <> i.
Proof. unfold erase. rewrite filter_In, negb_true_iff, Nat.eqb_neq. tauto. Qed.

Record steps (n i : nat) (l : list nat) (s s' : dst) : Prop := STEPS {
  t_good : good n s'; t_grow : grows s s';
  t_bound : forall B g, in_group g i -> bounded B g n s -> bounded B g n s';
  t_other : forall j, j <> i -> ~ In j l -> nth_error (c_net s') j = nth_error (c_net s) j;
  t_unm : incl (c_unm s') (c_unm s);
  t_gone : forall m, In m l -> both_declared i m -> ~ In i (c_unm s') /\ ~ In m (c_unm s');
  t_why : passive h rs -> forall j, In j (c_unm s) -> ~ In j (c_unm s') -> exists k, both_declared j k }.
Lemma dec_in (l : list nat) x : In x l \/ ~ In x l.
Proof. destruct (in_dec Nat.eq_dec x l); auto. Qed.
Lemma related_ok n i r0 : nth_error rs i = Some r0 -> (i < n)%nat -> forall l s, good n s ->
  (forall m, In m l -> (m < i)%nat /\ in_group (group names r0) m) ->
  match related_loop i l s with
  | Go s' => steps n i l s s'
  | Found i' m' s' => i' = i /\ In m' l /\ genuine i m' /\ good n s' /\ te = false
  | Undefined => False
  end.
Proof.
  intros E1 Hi. induction l as [|m l IH]; intros s GD HL.
  { cbn. split; auto using grows_refl, incl_refl; try tauto. }
  cbn [DupModel.related_loop]. destruct (HL m (or_introl eq_refl)) as [Hm (o0 & E2 & G)].
  pose proof (pair_ok n i m s r0 o0 GD Hi Hm E1 E2 (eq_sym G)) as P. destruct (pair_step i m s) as [s1|i' m' s1|]; [|destruct P as (-> & -> & P); cbn; tauto|exact P].
  destruct P as (P1 & P2 & P3 & P4). specialize (IH s1 P1 (fun m' H => HL m' (or_intror H))).
  destruct (related_loop i l s1) as [s'|i' m' s'|]; [|destruct IH as (A & B & C); cbn; tauto|exact IH].
  destruct IH as [I1 I2 I3 I4 I5 I6 I7].
  assert (SUB : incl (c_unm s1) (c_unm s)).
  { destruct P4 as [[-> _]|[-> _]]; [apply incl_refl|]. intros x Hx. rewrite !erase_in in Hx. tauto. }
  split.
  - exact I1.
  - eapply grows_trans; eauto.
  - intros B g IG BD. apply I3; [exact IG|]. destruct P3 as (PL & PO & PE). intros j nm z Hj Gj Hn Hz.
    assert (IM : in_group g m). { destruct IG as (r' & X1 & X2). assert (r' = r0) by congruence. subst r'. exists o0. split; congruence. }
    destruct (Nat.eq_dec j i) as [->|Ji]; [|destruct (Nat.eq_dec j m) as [->|Jm]].
    + apply (PE (fun z => - B <= z <= B)%Z) with (j := i) (nm' := nm); auto. intros j' nm0 z' [-> | ->] Hn' Hz'.
      * pose proof (BD i nm0 z' Hi Gj Hn' Hz'). lia.
      * pose proof (BD m nm0 z' ltac:(lia) IM Hn' Hz'). lia.
    + apply (PE (fun z => - B <= z <= B)%Z) with (j := m) (nm' := nm); auto. intros j' nm0 z' [-> | ->] Hn' Hz'.
      * pose proof (BD i nm0 z' Hi IG Hn' Hz'). lia.
      * pose proof (BD m nm0 z' ltac:(lia) IM Hn' Hz'). lia.
    + rewrite PO in Hn by auto. eapply BD; eauto.
  - intros j J1 J2. cbn in J2. rewrite I4 by tauto. destruct P3 as (_ & PO & _). apply PO; [auto|]. intros ->. tauto.
  - eapply incl_tran; eauto.
  - intros m' [<-|Hm'] BD; [|auto].
    assert (X : ~ In i (c_unm s1) /\ ~ In m (c_unm s1)).
    { destruct P4 as [[_ N]|[-> _]].
      - exfalso. apply N. destruct BD as (_ & ra & rb & X1 & X2 & X3 & X4 & _).
        destruct (rx_get _ _ _ _ (g_ok _ _ GD) X1) as (r & R1 & V1). destruct (rx_get _ _ _ _ (g_ok _ _ GD) X2) as (o & R2 & V2).
        exists r, o. split; [auto|]. split; [auto|]. split; [now apply (ev_dup _ _ V1)|now apply (ev_dup _ _ V2)].
      - rewrite !erase_in. tauto. }
    split; intros Q; apply I5 in Q; tauto.
  - intros PA j J1 J2. destruct (dec_in (c_unm s1) j) as [J3|J3]; [now apply I7|].
    destruct P4 as [[E _]|[E (r & o & R1 & R2 & D1 & D2)]]; [rewrite E in J3; contradiction|]. rewrite E, !erase_in in J3.
    rewrite (g_pass _ _ GD PA) in R1, R2.
    assert (X : j = i \/ j = m) by (destruct (Nat.eq_dec j i), (Nat.eq_dec j m); tauto).
    assert (r = r0) by congruence. assert (o = o0) by congruence. subst r o.
    destruct X as [-> | ->]; [exists m|exists i]; (split; [lia|]); eauto 10.
Qed.
Lemma related_split i l1 m l2 s s' : related_loop i (l1 ++ m :: l2) s = Go s' ->
  exists s1 s2, related_loop i l1 s = Go s1 /\ pair_step i m s1 = Go s2 /\ related_loop i l2 s2 = Go s'.
Proof.
  revert s. induction l1 as [|a l1 IH]; intros s H; cbn [app DupModel.related_loop] in *.
  - destruct (pair_step i m s) as [s2| |] eqn:E; try discriminate. eauto.
  - destruct (pair_step i a s) as [s2| |] eqn:E; try discriminate. eauto.
Qed.
End Loops.
