From Coq Require Import Reals ZArith List Bool Arith Lia Lra.
From Verif Require Import Base.Fp Base.Outcome Base.Map2 Cache.Model Cache.Spec Cache.Proofs.
From Verif Require Phase.CompModel.
Import ListNotations.
Local Open Scope R_scope.
Local Open Scope list_scope.
#[local] Arguments feqb _ _ : simpl never.
#[local] Arguments fltb _ _ : simpl never.
#[local] Arguments fsum _ : simpl never.

Section Bulk.
Context {P K Q W : Type} (pT pD : P -> fp) (pN : P -> Z) (kc : P -> K) (conc : P -> Q).
Context {KF : Type} (rkeys : nat -> P -> list fp) (kf : nat -> W -> P -> outcome KF).
Context {M R' : Type} (rop : list KF -> M -> Q -> K -> R').
Notation bulk := (bulk K Q W KF M R').
Notation step := (b_step pT pD pN kc conc rkeys kf rop).
Notation upd := (updateROP pT pD pN kc conc rkeys kf rop).
Context (vs : list P)
  (Hkc : forall p p', In p vs -> In p' vs -> feqb (pT p) (pT p') = true -> feqb (pD p) (pD p') = true -> kc p = kc p')
  (Hconc : forall p p', In p vs -> In p' vs -> feqb (pT p) (pT p') = true -> feqb (pD p) (pD p') = true -> pN p = pN p' -> conc p = conc p')
  (Hkf : forall i w p p', In p vs -> In p' vs -> same_keys (rkeys i p) (rkeys i p') = true -> kf i w p = kf i w p')
  (Hthrow : forall i w p, In p vs -> exists v, kf i w p = Ok v).

(* Evaluators from number i on. *)
Fixpoint rates_ok (i : nat) (w : nat -> W) (l : list (list fp * KF)) : Prop :=
  match l with
  | [] => True
  | (ks, v) :: l => (forall p, same_keys ks (rkeys i p) = true -> exists p0, In p0 vs /\ same_keys (rkeys i p0) (rkeys i p) = true /\ kf i (w i) p0 = Ok v)
                    /\ rates_ok (S i) w l
  end.
Fixpoint rates_at (i : nat) (w : nat -> W) (p : P) (l : list KF) : Prop :=
  match l with [] => True | v :: l => kf i (w i) p = Ok v /\ rates_at (S i) w p l end.
Lemma upd_rates_ok w p : In p vs -> forall l i, rates_ok i w l ->
  let '(r, ch, l') := upd_rates rkeys kf i w p l in
  r = Ok tt /\ rates_ok i w l' /\ rates_at i w p (map snd l') /\ length l' = length l /\ (ch = false -> l' = l).
Proof.
  intros I. induction l as [|[ks v] l IH]; intros i H; cbn; auto.
  destruct H as [H1 H2]. specialize (IH (S i) H2).
  destruct (same_keys ks (rkeys i p)) eqn:E.
  - destruct (upd_rates rkeys kf (S i) w p l) as [[r ch] l']. destruct IH as (A & B & C & L & D). cbn.
    split; auto. split; [split; auto|]. split; [split; auto|].
    + destruct (H1 p E) as (p0 & I0 & S0 & K0). rewrite <- (Hkf i (w i) p0 p I0 I S0). exact K0.
    + split; [congruence|]. intros X. rewrite (D X). reflexivity.
  - destruct (Hthrow i (w i) p I) as [v' Ev]. rewrite Ev.
    destruct (upd_rates rkeys kf (S i) w p l) as [[r ch] l']. destruct IH as (A & B & C & L & D). cbn.
    split; auto. split; [split; auto|]. 2: { split; [split; auto|]. split; [congruence|discriminate]. }
    intros p' S'. exists p. auto.
Qed.

Definition last_ok (s : bulk) : Prop :=
  b_last s = cval0 tt \/ exists p0, In p0 vs /\ k1 (b_last s) = pT p0 /\ k2 (b_last s) = pD p0 /\ kn (b_last s) = pN p0 /\
                                   b_conc s = conc p0 /\ b_rkcn s = kc p0.
Definition b_inv (s : bulk) : Prop :=
  last_ok s /\ rates_ok 0 (b_w s) (b_rates s) /\
  (b_ok s = true -> b_rop s = rop (map snd (b_rates s)) (b_perturb s) (b_conc s) (b_rkcn s)).

Lemma upd_ok s p : In p vs -> b_inv s ->
  fst (upd s p) = Ok tt /\ b_inv (snd (upd s p)) /\
  (exists vals, length vals = length (b_rates s) /\ rates_at 0 (b_w s) p vals /\
    b_rop (snd (upd s p)) = rop vals (b_perturb s) (conc p) (kc p)) /\
  length (b_rates (snd (upd s p))) = length (b_rates s) /\ b_w (snd (upd s p)) = b_w s /\ b_perturb (snd (upd s p)) = b_perturb s.
Proof.
  intros I (L & Rt & OK). unfold updateROP.
  set (rk := if negb (feqb (k1 (b_last s)) (pT p)) || negb (feqb (k2 (b_last s)) (pD p)) then kc p else b_rkcn s).
  assert (Erk : rk = kc p).
  { unfold rk. destruct (feqb (k1 (b_last s)) (pT p)) eqn:A; cbn; auto. destruct (feqb (k2 (b_last s)) (pD p)) eqn:B; cbn; auto.
    destruct L as [L|(p0 & I0 & Q1 & Q2 & Q3 & Q4 & Q5)]; [rewrite L in A; discriminate|].
    rewrite Q5. rewrite Q1 in A. rewrite Q2 in B. auto. }
  cbn [validate]. destruct (feqb (k1 (b_last s)) (pT p) && feqb (k2 (b_last s)) (pD p) && Z.eqb (kn (b_last s)) (pN p)) eqn:V.
  - apply andb_prop in V. destruct V as [V V3]. apply andb_prop in V. destruct V as [V1 V2].
    apply Z.eqb_eq in V3.
    assert (Ecn : b_conc s = conc p /\ b_rkcn s = kc p).
    { destruct L as [L|(p0 & I0 & Q1 & Q2 & Q3 & Q4 & Q5)]; [rewrite L in V1; discriminate|].
      rewrite Q4, Q5. rewrite Q1 in V1. rewrite Q2 in V2. rewrite Q3 in V3. split; auto. }
    destruct Ecn as [Ecn Ek].
    pose proof (upd_rates_ok (b_w s) p I (b_rates s) 0 Rt) as U.
    destruct (upd_rates rkeys kf 0 (b_w s) p (b_rates s)) as [[r ch] l']. destruct U as (-> & U2 & U3 & U4 & U5).
    assert (L' : forall l ok rp, last_ok (BK (b_last s) rk (b_conc s) l (b_w s) (b_perturb s) ok rp)).
    { intros. destruct L as [L|(p0 & I0 & Q1 & Q2 & Q3 & Q4 & Q5)]; [left; exact L|]. right. exists p0. cbn. rewrite Erk, <- Ek. auto 10. }
    destruct ch.
    + cbn. split; auto. split; [split; auto|]. split; [|auto]. exists (map snd l'). rewrite map_length, Ecn, Erk. auto.
    + specialize (U5 eq_refl). subst l'. destruct (b_ok s) eqn:O; cbn.
      * split; auto. split; [split; [auto|split; [auto|]]|]. { cbn. intros _. rewrite Erk, <- Ek. auto. }
        split; [|auto]. exists (map snd (b_rates s)). rewrite map_length, OK, Ecn, Ek; auto.
      * split; auto. split; [split; auto|]. split; [|auto]. exists (map snd (b_rates s)). rewrite map_length, Ecn, Erk. auto.
  - pose proof (upd_rates_ok (b_w s) p I (b_rates s) 0 Rt) as U.
    destruct (upd_rates rkeys kf 0 (b_w s) p (b_rates s)) as [[r ch] l']. destruct U as (-> & U2 & U3 & U4 & U5).
    replace (if ch then false else false) with false by (destruct ch; auto). cbn. split; auto. split; [split; [|split; auto]|].
    + right. exists p. cbn. auto 10.
    + split; [|auto]. exists (map snd l'). rewrite map_length, Erk. auto.
Qed.

Lemma same_keys_nan ks : same_keys [NaN] ks = false.
Proof. destruct ks as [|k ks]; auto. Qed.
Lemma rates_ok_w w w' l : forall i, (forall j, (i <= j)%nat -> w' j = w j) -> rates_ok i w l -> rates_ok i w' l.
Proof.
  induction l as [|[ks v] l IH]; intros i E; cbn; auto. intros [A B]. rewrite E by lia. split; auto. apply IH; auto. intros; apply E; lia.
Qed.
Lemma nan_key_ok w w0 l : forall i j, rates_ok i w l -> rates_ok i (set_at w (i + j) w0) (nan_key j l).
Proof.
  induction l as [|[ks v] l IH]; intros i j; [destruct j; cbn; auto|].
  intros [A B]. destruct j; cbn [nan_key snd].
  - split; [intros p X; change (same_keys [NaN] (rkeys i p) = true) in X; rewrite same_keys_nan in X; discriminate|]. apply (rates_ok_w w); auto.
    intros j J. unfold set_at. destruct (Nat.eqb_spec j (i + 0)); [lia|auto].
  - split.
    + unfold set_at. destruct (Nat.eqb_spec i (i + S j)); [lia|]. exact A.
    + specialize (IH (S i) j B). replace (S i + j)%nat with (i + S j)%nat in IH by lia. exact IH.
Qed.
Lemma nan_key_length (l : list (list fp * KF)) : forall j, length (nan_key j l) = length l.
Proof. induction l; intros [|j]; cbn; auto. Qed.

Lemma rates_init i w v n : rates_ok i w (repeat ([NaN], v) n).
Proof. revert i. induction n; intros i; cbn; auto. split; auto. intros p X. change (same_keys [NaN] (rkeys i p) = true) in X. rewrite same_keys_nan in X. discriminate. Qed.

Lemma run_inv h : forall p s, incl (bstates p h) vs -> b_inv s ->
  let '(p', s') := fold_left step h (p, s) in
  In p' vs /\ p' = bP_after p h /\ b_inv s' /\ length (b_rates s') = length (b_rates s) /\ b_perturb s' = bM_after (b_perturb s) h /\
  forall i, b_w s' i = bW_after (b_w s) h i.
Proof.
  induction h as [|o h IH]; intros p s V INV.
  - cbn. split; [apply V; left; auto|]. auto.
  - change (fold_left step (o :: h) (p, s)) with (fold_left step h (step (p, s) o)).
    assert (Ip : In p vs). { apply V. clear. revert p. cbn. destruct o; cbn; auto; induction h as [|[]]; intros; cbn; auto. }
    destruct o as [p'|m|j w| |].
    + refine (IH p' s _ INV). intros x X. apply V. right. exact X.
    + assert (J : b_inv (BK (b_last s) (b_rkcn s) (b_conc s) (b_rates s) (b_w s) m false (b_rop s))).
      { destruct INV as (A & B & C). split; [exact A|]. split; [exact B|]. cbn. discriminate. }
      exact (IH p _ V J).
    + assert (J : b_inv (BK (cval0 tt) (b_rkcn s) (b_conc s) (nan_key j (b_rates s)) (set_at (b_w s) j w) (b_perturb s) false (b_rop s))).
      { destruct INV as (A & B & C). split; [left; reflexivity|]. split; [exact (nan_key_ok _ w _ 0%nat j B)|]. cbn. discriminate. }
      pose proof (IH p _ V J) as R. cbn [b_step b_rates b_perturb b_w] in R |- *. destruct (fold_left _ h _) as [p' s'].
      destruct R as (R1 & R2 & R3 & R4 & R5 & R6). split; auto. split; auto. split; auto. split; [rewrite R4; apply nan_key_length|]. split; [exact R5|]. intros i. rewrite R6. reflexivity.
    + assert (J : b_inv (BK (cval0 tt) (b_rkcn s) (b_conc s) (b_rates s) (b_w s) (b_perturb s) false (b_rop s))).
      { destruct INV as (A & B & C). split; [left; reflexivity|]. split; [exact B|]. cbn. discriminate. }
      exact (IH p _ V J).
    + destruct (upd_ok s p Ip INV) as (_ & J & _ & L & EW & EM).
      pose proof (IH p _ V J) as R. cbn [b_step]. destruct (fold_left step h (p, snd (upd s p))) as [p' s'].
      destruct R as (R1 & R2 & R3 & R4 & R5 & R6). rewrite L in R4. rewrite EM in R5. rewrite EW in R6. auto 10.
Qed.

Lemma read_ok h p0 n k q v w m r :
  incl (bstates p0 h) vs ->
  let st := fold_left step h (p0, b_init n k q v w m r) in
  let p := bP_after p0 h in
  fst st = p /\ exists vals, length vals = n /\ rates_at 0 (bW_after w h) p vals /\
    b_read pT pD pN kc conc rkeys kf rop st = Ok (rop vals (bM_after m h) (conc p) (kc p)).
Proof.
  intros V st p.
  assert (J : b_inv (b_init n k q v w m r)). { split; [left; reflexivity|]. split; [apply rates_init|]. cbn. discriminate. }
  pose proof (run_inv h p0 _ V J) as X. subst st. destruct (fold_left step h (p0, b_init n k q v w m r)) as [p' s'].
  destruct X as (I & E & J' & L & EM & EW). cbn [fst]. split; auto.
  destruct (upd_ok s' p' I J') as (A & _ & (vals & L1 & R1 & Rp) & _).
  exists vals. unfold b_init in L. cbn in L. rewrite repeat_length in L. split; [congruence|].
  rewrite E in R1, Rp, A. fold p in R1, Rp, A. split.
  - clear - R1 EW. revert R1. generalize 0%nat. induction vals as [|x l IH]; intros i; cbn; auto. rewrite EW. intros [B C]. auto.
  - unfold b_read. cbn [fst snd]. rewrite E. fold p. destruct (upd s' p) as [rr s'']. cbn in A, Rp. subst rr. rewrite Rp, EM. reflexivity.
Qed.
End Bulk.

(* ---------------------------------------------------------------- *)
(** Equilibrium constants. *)
Lemma dot_affine nu g0 a b : length nu = length g0 -> dot nu (map (fun g => g * a + b) g0) = a * dot nu g0 + b * fold_right Rplus 0 nu.
Proof.
  revert g0. induction nu as [|x nu IH]; intros [|g g0] L; cbn in *; try discriminate; [lra|]. rewrite IH by lia. ring.
Qed.
Lemma ln_quot a b : 0 < a -> 0 < b -> ln (a / b) = ln a - ln b.
Proof. intros. unfold Rdiv. rewrite ln_mult; auto using Rinv_0_lt_compat. rewrite ln_Rinv; auto. Qed.
Lemma ig_rkcn_T nu g0 RT p p0 : length nu = length g0 -> 0 < RT -> 0 < p -> 0 < p0 ->
  ig_rkcn nu g0 RT p p0 = Rmin (exp (dot nu g0 + fold_right Rplus 0 nu * ln (RT / p0))) BigNumber.
Proof.
  intros L A B C. unfold ig_rkcn, rkcn, ig_mu0. rewrite dot_affine by auto. f_equal. f_equal. rewrite !ln_quot by auto. field. lra.
Qed.

(* ---------------------------------------------------------------- *)
(** The composition counter of Phase. *)
Section Counter.
Context (mw : list R) (kd : CompModel.kind).
Import CompModel.
Definition same_comp (a b : st) : Prop := s_Y a = s_Y b /\ s_YM a = s_YM b /\ s_mmw a = s_mmw b.
(* The step kept the composition, or counted a change. *)
Definition advanced (c c' : st) : Prop := (s_num c < s_num c')%nat \/ (s_num c' = s_num c /\ same_comp c c').
Lemma adv_refl c : advanced c c.
Proof. right. unfold same_comp. auto. Qed.
Lemma adv_trans a b c : advanced a b -> advanced b c -> advanced a c.
Proof.
  unfold advanced, same_comp. intros [A|(A & A1 & A2 & A3)] [B|(B & B1 & B2 & B3)]; try (left; lia). right. repeat split; congruence.
Qed.
Lemma adv_T c t : advanced c (snd (setTemperature c t)).
Proof. unfold setTemperature. destruct (fltb _ _); apply adv_refl || (right; cbn; unfold same_comp; auto). Qed.
Lemma adv_aD c d : advanced c (snd (assignDensity c d)).
Proof. unfold assignDensity. destruct (fltb _ _); apply adv_refl || (right; cbn; unfold same_comp; auto). Qed.
Lemma adv_D c d : advanced c (snd (setDensity kd c d)).
Proof. unfold setDensity. destruct (negb _); [apply adv_refl|]. destruct (fltb _ _); apply adv_refl || (right; cbn; unfold same_comp; auto). Qed.
Lemma adv_andthen c r f : advanced c (snd r) -> (forall c', advanced c' (snd (f c'))) -> advanced c (snd (andthen r f)).
Proof. intros A B. unfold andthen. destruct (fst r); auto. eapply adv_trans; eauto. Qed.
Lemma num_aD c d : s_num (snd (assignDensity c d)) = s_num c.
Proof. unfold assignDensity. destruct (fltb _ _); reflexivity. Qed.
Lemma num_cc c : s_num (snd (compositionChanged kd c)) = S (s_num c).
Proof. unfold compositionChanged. destruct kd; cbn; auto. unfold calcDensity. rewrite num_aD. reflexivity. Qed.
Lemma adv_cc c : advanced c (snd (compositionChanged kd c)).
Proof. left. rewrite num_cc. lia. Qed.
Lemma adv_P c p : advanced c (snd (setPressure kd c p)).
Proof.
  unfold setPressure. destruct kd; [apply adv_refl|]. unfold calcDensity.
  apply adv_trans with (with_P c p); [right; unfold same_comp; auto|apply adv_aD].
Qed.
Definition conc_throws (c : st) (o : op) : Prop :=
  match o with SetC _ | SetCNoNorm _ => kd = Compressible /\ fst (step mw kd c o) <> Ok tt | _ => False end.
Lemma cc_comp c y ym m : advanced c (snd (compositionChanged kd (with_comp c y ym m))).
Proof. left. rewrite num_cc. cbn. lia. Qed.
Lemma adv_step c o : ~ conc_throws c o -> advanced c (snd (step mw kd c o)).
Proof.
  intros N. destruct o; cbn [step].
  - apply adv_T.
  - apply adv_D.
  - apply adv_P.
  - apply adv_andthen; [apply adv_T|]. intros; apply adv_D.
  - apply cc_comp.
  - apply cc_comp.
  - apply cc_comp.
  - apply cc_comp.
  - cbn in N. unfold setConcentrations in *. destruct kd eqn:K; cbn in *; [|apply adv_refl].
    unfold andthen, setDensity in *. cbn in *. destruct (fltb _ _) eqn:F; cbn in *.
    + left. cbn. lia.
    + exfalso. apply N. split; auto. discriminate.
  - cbn in N. unfold setConcentrationsNoNorm in *. destruct kd eqn:K; cbn in *; [|apply adv_refl].
    unfold andthen, setDensity in *. cbn in *. destruct (fltb _ _) eqn:F; cbn in *.
    + left. cbn. lia.
    + exfalso. apply N. split; auto. discriminate.
  - apply cc_comp.
  - unfold restoreState. destruct (_ <? _)%nat; [apply adv_refl|].
    apply adv_andthen; [apply adv_T|]. intros c1. apply adv_andthen; [destruct (is_compressible kd); [apply adv_D|apply adv_P]|].
    intros c2. apply adv_andthen; [apply cc_comp|]. apply adv_cc.
Qed.
(* The states of a run, first to last. *)
Fixpoint run_states (c : st) (ops : list op) : list st :=
  match ops with [] => [c] | o :: ops => c :: run_states (snd (step mw kd c o)) ops end.
Fixpoint run_clean (c : st) (ops : list op) : Prop :=
  match ops with [] => True | o :: ops => ~ conc_throws c o /\ run_clean (snd (step mw kd c o)) ops end.
Lemma run_adv ops : forall c, run_clean c ops -> forall x, In x (run_states c ops) -> advanced c x.
Proof.
  induction ops as [|o ops IH]; intros c RC x; cbn.
  - intros [<-|[]]. apply adv_refl.
  - destruct RC as [A B]. intros [<-|I]; [apply adv_refl|]. eapply adv_trans; [apply adv_step, A|]. apply IH; auto.
Qed.
Lemma adv_same a b : advanced a b -> s_num a = s_num b -> same_comp a b.
Proof. intros [H|[_ H]] E; auto. lia. Qed.
Lemma same_sym a b : same_comp a b -> same_comp b a.
Proof. intros (A & B & C). repeat split; auto. Qed.
Lemma run_counter ops : forall c, run_clean c ops -> forall a b, In a (run_states c ops) -> In b (run_states c ops) -> s_num a = s_num b -> same_comp a b.
Proof.
  induction ops as [|o ops IH]; intros c RC a b Ia Ib E.
  - cbn in Ia, Ib. destruct Ia as [<-|[]], Ib as [<-|[]]. unfold same_comp; auto.
  - pose proof (run_adv _ c RC) as AD. destruct RC as [A B]. cbn in Ia, Ib. destruct Ia as [<-|Ia].
    + apply adv_same; auto.
    + destruct Ib as [<-|Ib]; [apply same_sym, adv_same; auto; apply AD; right; auto|]. eapply IH; eauto.
Qed.
End Counter.
