From Coquelicot Require Import Coquelicot.
From Coq Require Import Reals ZArith List Bool Arith Lia Lra Permutation.
From Verif Require Import Base.Outcome Base.RSum Base.Vec Stoich.Model Stoich.Spec.
Import ListNotations.
Open Scope R_scope.

Lemma Rltb_spec x y : Rltb x y = true <-> x < y.
Proof. unfold Rltb. destruct (Rlt_dec x y); split; intros; congruence || assumption || contradiction. Qed.
Lemma Rltb_false x y : Rltb x y = false <-> ~ x < y.
Proof. unfold Rltb. destruct (Rlt_dec x y); split; intros; congruence || contradiction. Qed.
Lemma Reqb_spec x y : Reqb x y = true <-> x = y.
Proof. unfold Reqb. destruct (Req_EM_T x y); split; intros; congruence || contradiction. Qed.
Lemma Reqb_false x y : Reqb x y = false <-> x <> y.
Proof. unfold Reqb. destruct (Req_EM_T x y); split; intros; congruence || contradiction. Qed.

(** ** All handlers as lists of participants *)
Definition units (ks : list nat) : list part := map (fun k => mkPart k 1 1) ks.
Definition h1 (c : C1) : CN := mkCN (c1_rxn c) (units [c1_ic0 c]).
Definition h2 (c : C2) : CN := mkCN (c2_rxn c) (units [c2_ic0 c; c2_ic1 c]).
Definition h3 (c : C3) : CN := mkCN (c3_rxn c) (units [c3_ic0 c; c3_ic1 c; c3_ic2 c]).
Definition hs (m : manager) : list CN :=
  map h1 (m_c1 m) ++ map h2 (m_c2 m) ++ map h3 (m_c3 m) ++ m_cn m.

Definition handled (h : CN) (d : decl) : Prop :=
  let ps := zip3 (d_sp d) (d_order d) (d_stoich d) in
  cn_rxn h = d_rxn d /\
  (cn_parts h = ps \/ (is_frac ps = false /\ cn_parts h = units (kRep ps))).

Lemma add_hs m d m' :
  mgr_add m (d_rxn d) (d_sp d) (d_order d) (d_stoich d) = Ok m' ->
  exists h, handled h d /\ Permutation (hs m') (h :: hs m) /\
    m_coeffs m' = m_coeffs m ++
       map (fun p => (p_sp p, d_rxn d, p_stoich p)) (zip3 (d_sp d) (d_order d) (d_stoich d)).
Proof.
  unfold mgr_add, handled, hs.
  destruct (negb (length (d_order d) =? length (d_sp d))%nat); [discriminate|].
  destruct (negb (length (d_stoich d) =? length (d_sp d))%nat); [discriminate|].
  set (ps := zip3 _ _ _). set (r := d_rxn d).
  assert (forall (l1 l2 l3 l4 : list CN) x, Permutation (l1 ++ l2 ++ l3 ++ l4 ++ [x]) (x :: l1 ++ l2 ++ l3 ++ l4)) as P4.
  { intros. replace (l1 ++ l2 ++ l3 ++ l4 ++ [x]) with ((l1 ++ l2 ++ l3 ++ l4) ++ [x])
      by (rewrite <- !app_assoc; reflexivity). symmetry. apply Permutation_cons_append. }
  assert (forall (l1 l2 l3 l4 : list CN) x, Permutation (l1 ++ l2 ++ (l3 ++ [x]) ++ l4) (x :: l1 ++ l2 ++ l3 ++ l4)) as P3.
  { intros. symmetry. replace (l1 ++ l2 ++ (l3 ++ [x]) ++ l4) with ((l1 ++ l2 ++ l3) ++ x :: l4)
      by (rewrite <- !app_assoc; reflexivity). apply Permutation_cons_app.
    rewrite <- !app_assoc. reflexivity. }
  assert (forall (l1 l2 l3 l4 : list CN) x, Permutation (l1 ++ (l2 ++ [x]) ++ l3 ++ l4) (x :: l1 ++ l2 ++ l3 ++ l4)) as P2.
  { intros. symmetry. replace (l1 ++ (l2 ++ [x]) ++ l3 ++ l4) with ((l1 ++ l2) ++ x :: l3 ++ l4)
      by (rewrite <- !app_assoc; reflexivity). apply Permutation_cons_app.
    rewrite <- !app_assoc. reflexivity. }
  assert (forall (l1 l2 l3 l4 : list CN) x, Permutation ((l1 ++ [x]) ++ l2 ++ l3 ++ l4) (x :: l1 ++ l2 ++ l3 ++ l4)) as P1.
  { intros. symmetry. rewrite <- app_assoc. simpl. apply Permutation_cons_app. reflexivity. }
  destruct (is_frac ps || (3 <? length (d_sp d))%nat) eqn:E.
  - intros H. injection H as <-. exists (mkCN r ps). simpl. auto.
  - apply orb_false_iff in E as [Ef _].
    destruct (kRep ps) as [|a [|b [|c [|x l]]]] eqn:Ek; intros H; injection H as <-; simpl.
    + exists (mkCN r ps). simpl. auto.
    + exists (h1 (mkC1 r a)). rewrite map_app. simpl. auto.
    + exists (h2 (mkC2 r a b)). rewrite map_app. simpl. auto.
    + exists (h3 (mkC3 r a b c)). rewrite map_app. simpl. auto.
    + exists (mkCN r ps). simpl. auto.
Qed.

Lemma adds_hs ds : forall m m',
  mgr_adds m ds = Ok m' ->
  exists hl, Forall2 handled hl ds /\ Permutation (hs m') (hl ++ hs m) /\
    m_coeffs m' = m_coeffs m ++
      flat_map (fun d => map (fun p => (p_sp p, d_rxn d, p_stoich p))
                             (zip3 (d_sp d) (d_order d) (d_stoich d))) ds.
Proof.
  induction ds as [|d ds IH]; intros m m' H; simpl in H.
  - injection H as <-. exists []. simpl. rewrite app_nil_r. auto.
  - destruct d as [[[r k] o] s]. destruct (mgr_add m r k o s) as [m1| | |] eqn:E; try discriminate.
    destruct (add_hs m (r,k,o,s) m1 E) as (h & Hh & Hp & Hc).
    destruct (IH m1 m' H) as (hl & HF & HP & HC).
    exists (h :: hl). split; [constructor; auto|]. split.
    + rewrite HP, Hp. simpl. symmetry. apply Permutation_middle.
    + rewrite HC, Hc. simpl. now rewrite <- app_assoc.
Qed.

Lemma adds_total nsp nrxn ds : forall m, Forall (well_formed nsp nrxn) ds ->
  exists m', mgr_adds m ds = Ok m'.
Proof.
  induction ds as [|d ds IH]; intros m HF; simpl; [eauto|].
  inversion HF as [|? ? (H1 & H2 & _) HF']; subst. destruct d as [[[r k] o] s].
  unfold d_order, d_sp, d_stoich in H1, H2. simpl in H1, H2.
  unfold mgr_add. rewrite H1, H2, Nat.eqb_refl. simpl.
  destruct (is_frac (zip3 k o s) || (3 <? length k)%nat); [apply IH; auto|].
  destruct (kRep (zip3 k o s)) as [|a [|b [|c [|]]]]; apply IH; auto.
Qed.

(** ** Repetition counts *)
Lemma is_integerb_spec x : is_integerb x = true -> exists z, x = IZR z.
Proof.
  unfold is_integerb. rewrite Reqb_spec. unfold frac_part. intros H. exists (Int_part x). lra.
Qed.

Lemma Int_part_IZR' z : Int_part (IZR z) = z.
Proof.
  destruct (base_Int_part (IZR z)) as [H1 H2]. apply Z.le_antisymm; [now apply le_IZR|].
  assert (IZR z - 1 < IZR (Int_part (IZR z))) as H by lra. rewrite <- minus_IZR in H.
  apply lt_IZR in H. lia.
Qed.

Lemma loop_count_int x : is_integerb x = true -> 0 <= x -> INR (loop_count x) = x.
Proof.
  intros H Hx. apply is_integerb_spec in H as [z ->]. unfold loop_count.
  rewrite <- opp_IZR, Int_part_IZR', Z.opp_involutive.
  rewrite INR_IZR_INZ, Z2Nat.id; [reflexivity|]. apply le_IZR. exact Hx.
Qed.

Lemma is_frac_false ps : is_frac ps = false ->
  Forall (fun p => is_integerb (p_stoich p) = true /\ p_stoich p = p_order p) ps.
Proof.
  unfold is_frac. induction ps as [|p ps IH]; simpl; intros H; constructor.
  - apply orb_false_iff in H as [H _]. apply orb_false_iff in H as [H1 H2].
    apply negb_false_iff in H1, H2. rewrite Reqb_spec in H2. auto.
  - apply orb_false_iff in H as [_ H]. auto.
Qed.

(** ** Sums over participants *)
Definition lin (g : nat -> R) (ps : list part) : R :=
  sum_of (fun p => p_stoich p * g (p_sp p)) ps.

Lemma lin_repeat g k n : lin g (units (repeat k n)) = INR n * g k.
Proof.
  unfold lin, units. rewrite sum_of_map. simpl.
  induction n as [|n IH]; [unfold sum_of; simpl; lra|].
  simpl repeat. rewrite sum_of_cons, IH, S_INR. lra.
Qed.

Lemma lin_units g ps : is_frac ps = false -> Forall (fun p => 0 <= p_stoich p) ps ->
  lin g (units (kRep ps)) = lin g ps.
Proof.
  intros Hf Hn. apply is_frac_false in Hf.
  induction ps as [|p ps IH]; [reflexivity|].
  inversion Hf as [|? ? [Hi _] Hf']; subst. inversion Hn as [|? ? Hp Hn']; subst.
  unfold kRep. simpl. unfold units. rewrite map_app. unfold lin at 1. rewrite sum_of_app.
  fold (units (repeat (p_sp p) (loop_count (p_stoich p)))).
  fold (lin g (units (repeat (p_sp p) (loop_count (p_stoich p))))).
  rewrite lin_repeat, loop_count_int by auto.
  specialize (IH Hf' Hn'). unfold lin, units, kRep in *. rewrite IH. reflexivity.
Qed.

Lemma zip3_forall (P : nat -> Prop) ks : forall os ss,
  Forall P ks -> Forall (fun p => P (p_sp p)) (zip3 ks os ss).
Proof.
  induction ks as [|k ks IH]; intros [|o os] [|s ss] H; simpl; try constructor; inversion H; subst; simpl; auto.
Qed.
Lemma zip3_forall_st (P : R -> Prop) ss : forall ks os,
  Forall P ss -> Forall (fun p => P (p_stoich p)) (zip3 ks os ss).
Proof.
  induction ss as [|k ss IH]; intros [|x ks] [|o os] H; simpl; try constructor; inversion H; subst; simpl; auto.
Qed.

Lemma lin_handled g h d : handled h d -> Forall (fun s => 0 <= s) (d_stoich d) ->
  lin g (cn_parts h) = lin g (zip3 (d_sp d) (d_order d) (d_stoich d)).
Proof.
  intros [_ [->|[Hf ->]]] Hn; [reflexivity|]. apply lin_units; [exact Hf|].
  now apply (zip3_forall_st (fun s => 0 <= s)).
Qed.

Lemma lin_amount g nsp ks os ss :
  length os = length ks -> length ss = length ks -> Forall (fun k => (k < nsp)%nat) ks ->
  lin g (zip3 ks os ss) = sum_n (fun k => amount k ks ss * g k) nsp.
Proof.
  revert os ss. induction ks as [|k ks IH]; intros [|o os] [|s ss] H1 H2 HF; try discriminate.
  - simpl. unfold lin, sum_n. symmetry. rewrite (sum_of_0 _ (seq 0 nsp)); [reflexivity|]. intros; simpl; lra.
  - inversion HF; subst. simpl zip3. unfold lin. rewrite sum_of_cons. fold (lin g (zip3 ks os ss)).
    rewrite IH; auto. simpl p_stoich. simpl p_sp. simpl amount.
    rewrite (sum_n_ext (fun k0 => ((if (k =? k0)%nat then s else 0) + amount k0 ks ss) * g k0)
      (fun k0 => (if (k =? k0)%nat then s else 0) * g k0 + amount k0 ks ss * g k0)).
    2:{ intros. lra. }
    unfold sum_n. rewrite sum_of_plus. f_equal. fold (sum_n (fun k0 => (if (k =? k0)%nat then s else 0) * g k0) nsp).
    rewrite (sum_n_single _ nsp k); [rewrite Nat.eqb_refl; reflexivity|assumption|].
    intros j _ Hj. destruct (Nat.eqb_spec k j); [congruence|]. lra.
Qed.

Lemma lin_single k ks os ss :
  length os = length ks -> length ss = length ks ->
  lin (fun k' => if Nat.eqb k' k then 1 else 0) (zip3 ks os ss) = amount k ks ss.
Proof.
  revert os ss. induction ks as [|k' ks IH]; intros [|o os] [|s ss] H1 H2; try discriminate.
  - reflexivity.
  - simpl. unfold lin. rewrite sum_of_cons. fold (lin (fun k'0 => if Nat.eqb k'0 k then 1 else 0) (zip3 ks os ss)).
    rewrite IH by auto. simpl. destruct (Nat.eqb k' k); lra.
Qed.

(** ** Species operations *)
Definition contribS (k : nat) (inp : vec) (h : CN) : R :=
  lin (fun k' => if Nat.eqb k' k then 1 else 0) (cn_parts h) * inp (cn_rxn h).

Lemma cn_incS_val h inp out k : cn_incS h inp out k = out k + contribS k inp h.
Proof.
  unfold cn_incS, contribS. destruct h as [r ps]. simpl. revert out.
  induction ps as [|p ps IH]; intros out; simpl.
  - unfold lin, sum_of. simpl. lra.
  - rewrite IH. unfold lin. rewrite sum_of_cons. unfold upd.
    rewrite (Nat.eqb_sym k). destruct (Nat.eqb_spec (p_sp p) k) as [<-|]; lra.
Qed.

Lemma cn_decS_val h inp out k : cn_decS h inp out k = out k - contribS k inp h.
Proof.
  unfold cn_decS, contribS. destruct h as [r ps]. simpl. revert out.
  induction ps as [|p ps IH]; intros out; simpl.
  - unfold lin, sum_of. simpl. lra.
  - rewrite IH. unfold lin. rewrite sum_of_cons. unfold upd.
    rewrite (Nat.eqb_sym k). destruct (Nat.eqb_spec (p_sp p) k) as [<-|]; lra.
Qed.

Lemma over_sum {A} (f : A -> vec -> vec -> vec) (g : A -> R) inp k l :
  (forall a out, f a inp out k = out k + g a) ->
  forall out, over f l inp out k = out k + sum_of g l.
Proof.
  intros Hf. induction l as [|a l IH]; intros out; unfold over in *; simpl.
  - unfold sum_of. simpl. lra.
  - rewrite IH, Hf, sum_of_cons. lra.
Qed.

Ltac eqbs :=
  repeat match goal with |- context [Nat.eqb ?a ?b] => destruct (Nat.eqb_spec a b); subst end.

Lemma incS_hs m inp out k :
  mgr_incSpecies m inp out k = out k + sum_of (contribS k inp) (hs m).
Proof.
  unfold mgr_incSpecies, hs. rewrite !sum_of_app, !sum_of_map.
  rewrite (over_sum cn_incS (contribS k inp)) by (intros; apply cn_incS_val).
  rewrite (over_sum c3_incS (fun a => contribS k inp (h3 a))).
  2:{ intros [r a b c] o. rewrite <- cn_incS_val. unfold c3_incS, cn_incS, upd. simpl. eqbs; lra. }
  rewrite (over_sum c2_incS (fun a => contribS k inp (h2 a))).
  2:{ intros [r a b] o. rewrite <- cn_incS_val. unfold c2_incS, cn_incS, upd. simpl. eqbs; lra. }
  rewrite (over_sum c1_incS (fun a => contribS k inp (h1 a))).
  2:{ intros [r a] o. rewrite <- cn_incS_val. unfold c1_incS, cn_incS, upd. simpl. eqbs; lra. }
  lra.
Qed.

Lemma decS_hs m inp out k :
  mgr_decSpecies m inp out k = out k - sum_of (contribS k inp) (hs m).
Proof.
  unfold mgr_decSpecies, hs. rewrite !sum_of_app, !sum_of_map.
  assert (forall A (f : A -> R) l, - sum_of f l = sum_of (fun x => - f x) l) as N.
  { intros A f l. induction l as [|x l IH]; [unfold sum_of; simpl; lra|].
    rewrite !sum_of_cons, <- IH. lra. }
  rewrite (over_sum cn_decS (fun a => - contribS k inp a)).
  2:{ intros. rewrite cn_decS_val. lra. }
  rewrite (over_sum c3_decS (fun a => - contribS k inp (h3 a))).
  2:{ intros [r a b c] o. match goal with |- _ = o k + - ?x => transitivity (o k - x); [|lra] end.
      rewrite <- cn_decS_val. unfold c3_decS, cn_decS, upd. simpl. eqbs; lra. }
  rewrite (over_sum c2_decS (fun a => - contribS k inp (h2 a))).
  2:{ intros [r a b] o. match goal with |- _ = o k + - ?x => transitivity (o k - x); [|lra] end.
      rewrite <- cn_decS_val. unfold c2_decS, cn_decS, upd. simpl. eqbs; lra. }
  rewrite (over_sum c1_decS (fun a => - contribS k inp (h1 a))).
  2:{ intros [r a] o. match goal with |- _ = o k + - ?x => transitivity (o k - x); [|lra] end.
      rewrite <- cn_decS_val. unfold c1_decS, cn_decS, upd. simpl. eqbs; lra. }
  rewrite <- !N. lra.
Qed.

(** ** Reaction operations *)
Definition contribR (i : nat) (inp : vec) (h : CN) : R :=
  if Nat.eqb (cn_rxn h) i then lin inp (cn_parts h) else 0.

Lemma cn_incR_val h inp out i : cn_incR h inp out i = out i + contribR i inp h.
Proof.
  unfold cn_incR, contribR. destruct h as [r ps]. simpl. revert out.
  induction ps as [|p ps IH]; intros out; simpl.
  - unfold lin, sum_of. simpl. destruct (Nat.eqb r i); lra.
  - rewrite IH. unfold lin. rewrite sum_of_cons. unfold upd.
    rewrite (Nat.eqb_sym i). destruct (Nat.eqb_spec r i) as [->|]; lra.
Qed.

Lemma cn_decR_val h inp out i : cn_decR h inp out i = out i - contribR i inp h.
Proof.
  unfold cn_decR, contribR. destruct h as [r ps]. simpl. revert out.
  induction ps as [|p ps IH]; intros out; simpl.
  - unfold lin, sum_of. simpl. destruct (Nat.eqb r i); lra.
  - rewrite IH. unfold lin. rewrite sum_of_cons. unfold upd.
    rewrite (Nat.eqb_sym i). destruct (Nat.eqb_spec r i) as [->|]; lra.
Qed.

Lemma incR_hs m inp out i :
  mgr_incReactions m inp out i = out i + sum_of (contribR i inp) (hs m).
Proof.
  unfold mgr_incReactions, hs. rewrite !sum_of_app, !sum_of_map.
  rewrite (over_sum cn_incR (contribR i inp)) by (intros; apply cn_incR_val).
  rewrite (over_sum c3_incR (fun a => contribR i inp (h3 a))).
  2:{ intros [r a b c] o. rewrite <- cn_incR_val. unfold c3_incR, cn_incR, upd. simpl. eqbs; try congruence; lra. }
  rewrite (over_sum c2_incR (fun a => contribR i inp (h2 a))).
  2:{ intros [r a b] o. rewrite <- cn_incR_val. unfold c2_incR, cn_incR, upd. simpl. eqbs; try congruence; lra. }
  rewrite (over_sum c1_incR (fun a => contribR i inp (h1 a))).
  2:{ intros [r a] o. rewrite <- cn_incR_val. unfold c1_incR, cn_incR, upd. simpl. eqbs; try congruence; lra. }
  lra.
Qed.

Lemma decR_hs m inp out i :
  mgr_decReactions m inp out i = out i - sum_of (contribR i inp) (hs m).
Proof.
  unfold mgr_decReactions, hs. rewrite !sum_of_app, !sum_of_map.
  assert (forall A (f : A -> R) l, - sum_of f l = sum_of (fun x => - f x) l) as N.
  { intros A f l. induction l as [|x l IH]; [unfold sum_of; simpl; lra|].
    rewrite !sum_of_cons, <- IH. lra. }
  rewrite (over_sum cn_decR (fun a => - contribR i inp a)).
  2:{ intros. rewrite cn_decR_val. lra. }
  rewrite (over_sum c3_decR (fun a => - contribR i inp (h3 a))).
  2:{ intros [r a b c] o. match goal with |- _ = o i + - ?x => transitivity (o i - x); [|lra] end.
      rewrite <- cn_decR_val. unfold c3_decR, cn_decR, upd. simpl. eqbs; try congruence; lra. }
  rewrite (over_sum c2_decR (fun a => - contribR i inp (h2 a))).
  2:{ intros [r a b] o. match goal with |- _ = o i + - ?x => transitivity (o i - x); [|lra] end.
      rewrite <- cn_decR_val. unfold c2_decR, cn_decR, upd. simpl. eqbs; try congruence; lra. }
  rewrite (over_sum c1_decR (fun a => - contribR i inp (h1 a))).
  2:{ intros [r a] o. match goal with |- _ = o i + - ?x => transitivity (o i - x); [|lra] end.
      rewrite <- cn_decR_val. unfold c1_decR, cn_decR, upd. simpl. eqbs; try congruence; lra. }
  rewrite <- !N. lra.
Qed.

(** ** From handlers to declarations *)
Lemma sum_handled (F : CN -> R) (G : decl -> R) hl ds :
  Forall2 handled hl ds -> (forall h d, In d ds -> handled h d -> F h = G d) ->
  sum_of F hl = sum_of G ds.
Proof.
  induction 1 as [|h d hl ds Hh HF IH]; intros HE; [reflexivity|].
  rewrite !sum_of_cons. f_equal.
  - apply HE; [left; reflexivity|assumption].
  - apply IH. intros h' d' Hd. apply HE. now right.
Qed.

Section Built.
  Variables (nsp nrxn : nat) (ds : list decl) (m : manager).
  Hypothesis Hwf : Forall (well_formed nsp nrxn) ds.
  Hypothesis Hm : mgr_adds mgr_init ds = Ok m.

  Lemma built_hs (F : CN -> R) (G : decl -> R) :
    (forall h d, In d ds -> handled h d -> F h = G d) ->
    sum_of F (hs m) = sum_of G ds.
  Proof using Hm.
    intros HE. destruct (adds_hs ds mgr_init m Hm) as (hl & HF & HP & _).
    rewrite (sum_of_perm F _ _ HP). simpl. rewrite app_nil_r. now apply sum_handled.
  Qed.

  Lemma matrix_S R0 k :
    sum_of (contribS k R0) (hs m) = sum_n (fun i => nu ds k i * R0 i) nrxn.
  Proof using Hwf Hm.
    rewrite (built_hs _ (fun d => amount k (d_sp d) (d_stoich d) * R0 (d_rxn d))).
    - unfold nu. unfold sum_n.
      rewrite (sum_of_ext _ (fun i => sum_of (fun d => (if Nat.eqb (d_rxn d) i then amount k (d_sp d) (d_stoich d) else 0) * R0 i) ds)).
      2:{ intros i _. rewrite sum_of_scal_r. reflexivity. }
      rewrite sum_of_swap. apply sum_of_ext. intros d Hd.
      rewrite Forall_forall in Hwf. destruct (Hwf d Hd) as (_ & _ & _ & _ & Hr).
      fold (sum_n (fun i => (if Nat.eqb (d_rxn d) i then amount k (d_sp d) (d_stoich d) else 0) * R0 i) nrxn).
      rewrite (sum_n_single _ nrxn (d_rxn d)); [rewrite Nat.eqb_refl; reflexivity|assumption|].
      intros j _ Hj. destruct (Nat.eqb_spec (d_rxn d) j); [congruence|]. lra.
    - intros h d Hd Hh. rewrite Forall_forall in Hwf. destruct (Hwf d Hd) as (H1 & H2 & H3 & H4 & H5).
      unfold contribS. rewrite (lin_handled _ h d Hh H3), lin_single by assumption.
      destruct Hh as [-> _]. reflexivity.
  Qed.

  Lemma matrix_R S i :
    sum_of (contribR i S) (hs m) = sum_n (fun k => nu ds k i * S k) nsp.
  Proof using Hwf Hm.
    rewrite (built_hs _ (fun d => if Nat.eqb (d_rxn d) i then sum_n (fun k => amount k (d_sp d) (d_stoich d) * S k) nsp else 0)).
    - unfold nu, sum_n.
      rewrite (sum_of_ext (fun k => sum_of _ ds * S k) (fun k => sum_of (fun d => (if Nat.eqb (d_rxn d) i then amount k (d_sp d) (d_stoich d) else 0) * S k) ds)).
      2:{ intros k _. rewrite sum_of_scal_r. reflexivity. }
      rewrite sum_of_swap. apply sum_of_ext. intros d Hd.
      destruct (Nat.eqb (d_rxn d) i); [reflexivity|]. symmetry. apply sum_of_0. intros. lra.
    - intros h d Hd Hh. rewrite Forall_forall in Hwf. destruct (Hwf d Hd) as (H1 & H2 & H3 & H4 & H5).
      unfold contribR. rewrite (lin_handled _ h d Hh H3), (lin_amount _ nsp) by assumption.
      destruct Hh as [-> _]. reflexivity.
  Qed.

  Lemma incSpecies_matrix R0 S k :
    mgr_incSpecies m R0 S k = S k + sum_n (fun i => nu ds k i * R0 i) nrxn.
  Proof using Hwf Hm. now rewrite incS_hs, matrix_S. Qed.
  Lemma decSpecies_matrix R0 S k :
    mgr_decSpecies m R0 S k = S k - sum_n (fun i => nu ds k i * R0 i) nrxn.
  Proof using Hwf Hm. now rewrite decS_hs, matrix_S. Qed.
  Lemma incReactions_matrix S R0 i :
    mgr_incReactions m S R0 i = R0 i + sum_n (fun k => nu ds k i * S k) nsp.
  Proof using Hwf Hm. now rewrite incR_hs, matrix_R. Qed.
  Lemma decReactions_matrix S R0 i :
    mgr_decReactions m S R0 i = R0 i - sum_n (fun k => nu ds k i * S k) nsp.
  Proof using Hwf Hm. now rewrite decR_hs, matrix_R. Qed.

  Lemma coeff_matrix k i : mgr_coeff m k i = nu ds k i.
  Proof using Hwf Hm.
    destruct (adds_hs ds mgr_init m Hm) as (hl & _ & _ & HC). simpl in HC.
    unfold mgr_coeff. rewrite HC. unfold nu. clear HC Hm.
    induction ds as [|d ds' IH]; [reflexivity|].
    inversion Hwf as [|? ? (H1 & H2 & _) Hwf']; subst.
    simpl. rewrite fold_right_app. rewrite IH by assumption. rewrite sum_of_cons.
    revert H1 H2. generalize (d_sp d) as ks, (d_order d) as os, (d_stoich d) as ss.
    intros ks os ss. set (tail := sum_of _ ds'). clearbody tail. clear.
    revert os ss. induction ks as [|k' ks IH]; intros [|o os] [|s ss] H1 H2; try discriminate.
    - simpl. destruct (Nat.eqb (d_rxn d) i); lra.
    - simpl. rewrite IH by (simpl in *; auto). 
      destruct (Nat.eqb k' k); simpl; destruct (Nat.eqb (d_rxn d) i); lra.
  Qed.
End Built.

(** ** multiply *)
Definition prodp (c : vec) (ps : list part) : R := prod_of (fun p => factor (c (p_sp p)) (p_order p)) ps.
Definition contribM (i : nat) (c : vec) (h : CN) : R :=
  if Nat.eqb (cn_rxn h) i then prodp c (cn_parts h) else 1.

Lemma cn_mul_val h c out i : cn_mul h c out i = out i * contribM i c h.
Proof.
  unfold cn_mul, contribM, prodp. destruct h as [r ps]. simpl. revert out.
  induction ps as [|p ps IH]; intros out.
  - unfold prod_of. simpl. destruct (Nat.eqb r i); lra.
  - simpl fold_left. rewrite prod_of_cons. unfold factor at 1. unfold Reqb, Rltb.
    destruct (Req_EM_T (p_order p) 0).
    + rewrite IH. destruct (Nat.eqb r i); lra.
    + destruct (Rlt_dec 0 (c (p_sp p))); rewrite IH; unfold upd;
        rewrite (Nat.eqb_sym i); destruct (Nat.eqb_spec r i) as [->|]; lra.
Qed.

Lemma factor_1 x : 0 <= x -> factor x 1 = x.
Proof.
  intros H. unfold factor. destruct (Req_EM_T 1 0); [lra|].
  destruct (Rlt_dec 0 x); [apply Rpower_1; assumption|lra].
Qed.

Lemma over_prod {A} (f : A -> vec -> vec -> vec) (g : A -> R) inp i l :
  (forall a, In a l -> forall out, f a inp out i = out i * g a) ->
  forall out, over f l inp out i = out i * prod_of g l.
Proof.
  induction l as [|a l IH]; intros Hf out; unfold over in *; simpl.
  - unfold prod_of. simpl. lra.
  - rewrite IH; [|intros b Hb; apply Hf; now right].
    rewrite Hf by (left; reflexivity). rewrite prod_of_cons. lra.
Qed.

Definition nonneg_on (c : vec) (h : CN) : Prop := Forall (fun p => 0 <= c (p_sp p)) (cn_parts h).

Lemma mul_hs m c out i : Forall (nonneg_on c) (hs m) ->
  mgr_multiply m c out i = out i * prod_of (contribM i c) (hs m).
Proof.
  intros HN. unfold hs in HN. rewrite !Forall_app in HN. destruct HN as (N1 & N2 & N3 & _).
  rewrite Forall_map, Forall_forall in N1, N2, N3.
  unfold mgr_multiply, hs. rewrite !prod_of_app.
  assert (forall A (g : A -> CN) l, prod_of (contribM i c) (map g l) = prod_of (fun a => contribM i c (g a)) l) as PM.
  { intros. unfold prod_of. now rewrite map_map. }
  rewrite !PM.
  rewrite (over_prod cn_mul (contribM i c)) by (intros; apply cn_mul_val).
  rewrite (over_prod c3_mul (fun a => contribM i c (h3 a))).
  2:{ intros [r x y z] Hin o. specialize (N3 _ Hin). unfold nonneg_on in N3. simpl in N3.
      inversion N3 as [|? ? X1 N3']; subst. inversion N3' as [|? ? X2 N3'']; subst.
      inversion N3'' as [|? ? X3 _]; subst. simpl in *.
      unfold c3_mul, contribM, prodp. simpl. rewrite !prod_of_cons. unfold prod_of. simpl.
      rewrite !factor_1 by assumption.
      assert (Rltb (c x) 0 = false) as -> by (apply Rltb_false; lra).
      assert (Rltb (c y) 0 = false) as -> by (apply Rltb_false; lra). simpl.
      unfold upd. rewrite (Nat.eqb_sym i). destruct (Nat.eqb_spec r i) as [->|]; lra. }
  rewrite (over_prod c2_mul (fun a => contribM i c (h2 a))).
  2:{ intros [r x y] Hin o. specialize (N2 _ Hin). unfold nonneg_on in N2. simpl in N2.
      inversion N2 as [|? ? X1 N2']; subst. inversion N2' as [|? ? X2 _]; subst. simpl in *.
      unfold c2_mul, contribM, prodp. simpl. rewrite !prod_of_cons. unfold prod_of. simpl.
      rewrite !factor_1 by assumption.
      assert (Rltb (c x) 0 = false) as -> by (apply Rltb_false; lra). simpl.
      unfold upd. rewrite (Nat.eqb_sym i). destruct (Nat.eqb_spec r i) as [->|]; lra. }
  rewrite (over_prod c1_mul (fun a => contribM i c (h1 a))).
  2:{ intros [r x] Hin o. specialize (N1 _ Hin). unfold nonneg_on in N1. simpl in N1.
      inversion N1 as [|? ? X1 _]; subst. simpl in *.
      unfold c1_mul, contribM, prodp. simpl. rewrite !prod_of_cons. unfold prod_of. simpl.
      rewrite !factor_1 by assumption.
      unfold upd. rewrite (Nat.eqb_sym i). destruct (Nat.eqb_spec r i) as [->|]; lra. }
  lra.
Qed.

Lemma prodp_repeat c k n : 0 <= c k -> prodp c (units (repeat k n)) = factor (c k) (INR n).
Proof.
  intros H. unfold prodp, units, prod_of. rewrite map_map. simpl.
  assert (rprod (map (fun x => factor (c x) 1) (repeat k n)) = c k ^ n) as E.
  { induction n as [|n IH]; [reflexivity|]. simpl. rewrite IH, factor_1 by assumption. reflexivity. }
  rewrite E. unfold factor. destruct (Req_EM_T (INR n) 0) as [E0|E0].
  - destruct n; [reflexivity|]. exfalso. apply (not_0_INR (S n)); [lia|assumption].
  - destruct (Rlt_dec 0 (c k)) as [L|L].
    + symmetry. apply Rpower_pow. assumption.
    + destruct n; [simpl in E0; lra|]. replace (c k) with 0 by lra. simpl. lra.
Qed.

Lemma prodp_units c ps : is_frac ps = false -> Forall (fun p => 0 <= p_stoich p) ps ->
  Forall (fun p => 0 <= c (p_sp p)) ps -> prodp c (units (kRep ps)) = prodp c ps.
Proof.
  intros Hf Hn Hc. apply is_frac_false in Hf.
  induction ps as [|p ps IH]; [reflexivity|].
  inversion Hf as [|? ? [Hi Ho] Hf']; subst. inversion Hn as [|? ? Hp Hn']; subst.
  inversion Hc as [|? ? Hcp Hc']; subst.
  unfold kRep. simpl. unfold units. rewrite map_app. unfold prodp at 1. rewrite prod_of_app.
  fold (units (repeat (p_sp p) (loop_count (p_stoich p)))).
  fold (prodp c (units (repeat (p_sp p) (loop_count (p_stoich p))))).
  rewrite prodp_repeat, loop_count_int by auto.
  specialize (IH Hf' Hn' Hc'). unfold prodp, units, kRep in *. rewrite IH, prod_of_cons, Ho. reflexivity.
Qed.

Lemma prodp_factors c ks : forall os ss, length os = length ks -> length ss = length ks ->
  prodp c (zip3 ks os ss) = factors c ks os.
Proof.
  induction ks as [|k ks IH]; intros [|o os] [|s ss] H1 H2; try discriminate; [reflexivity|].
  simpl. unfold prodp. rewrite prod_of_cons. fold (prodp c (zip3 ks os ss)). rewrite IH by auto. reflexivity.
Qed.

Lemma units_forall (P : nat -> Prop) ks : Forall P ks -> Forall (fun p => P (p_sp p)) (units ks).
Proof. intros H. unfold units. rewrite Forall_map. simpl. exact H. Qed.

Lemma kRep_forall (P : nat -> Prop) ps : Forall (fun p => P (p_sp p)) ps -> Forall P (kRep ps).
Proof.
  induction 1 as [|p ps Hp HF IH]; [constructor|]. unfold kRep. simpl. rewrite Forall_app. split; [|exact IH].
  apply Forall_forall. intros x Hx. apply repeat_spec in Hx. now subst.
Qed.

Lemma prod_of_perm {A} (f : A -> R) l1 l2 : Permutation l1 l2 -> prod_of f l1 = prod_of f l2.
Proof. induction 1; rewrite ?prod_of_cons; try lra; try congruence; reflexivity. Qed.

Lemma multiply_mass_action nsp nrxn ds m c R0 i :
  Forall (well_formed nsp nrxn) ds -> mgr_adds mgr_init ds = Ok m ->
  (forall k, (k < nsp)%nat -> 0 <= c k) ->
  mgr_multiply m c R0 i = R0 i * mass_action ds c i.
Proof.
  intros Hwf Hm Hc. destruct (adds_hs ds mgr_init m Hm) as (hl & HF & HP & _).
  simpl in HP. rewrite app_nil_r in HP.
  assert (forall d, In d ds -> Forall (fun p => 0 <= c (p_sp p)) (zip3 (d_sp d) (d_order d) (d_stoich d))) as HZ.
  { intros d Hd. rewrite Forall_forall in Hwf. destruct (Hwf d Hd) as (_ & _ & _ & H4 & _).
    apply (zip3_forall (fun k => 0 <= c k)). eapply Forall_impl; [|exact H4]. simpl. auto. }
  assert (Forall (nonneg_on c) hl) as HN.
  { clear HP Hm Hwf. induction HF as [|h d hl ds [_ Hh] HF IH]; constructor.
    - specialize (HZ d (or_introl eq_refl)). unfold nonneg_on. destruct Hh as [->|[_ ->]]; [assumption|].
      apply (units_forall (fun k => 0 <= c k)), (kRep_forall (fun k => 0 <= c k)). assumption.
    - apply IH. intros d' Hd'. apply HZ. now right. }
  rewrite mul_hs.
  2:{ eapply Permutation_Forall; [symmetry; exact HP|assumption]. }
  f_equal. rewrite (prod_of_perm _ _ _ HP). unfold mass_action.
  clear HP Hm HN. induction HF as [|h d hl ds Hh HF IH]; [reflexivity|].
  inversion Hwf as [|? ? (H1 & H2 & H3 & _) Hwf']; subst.
  rewrite !prod_of_cons. f_equal.
  - unfold contribM. destruct Hh as [-> Hh]. destruct (Nat.eqb (d_rxn d) i); [|reflexivity].
    rewrite <- (prodp_factors c (d_sp d) (d_order d) (d_stoich d)) by assumption.
    destruct Hh as [->|[Hf ->]]; [reflexivity|]. apply prodp_units; [assumption| |].
    + apply (zip3_forall_st (fun s => 0 <= s)). assumption.
    + apply HZ. now left.
  - apply IH; [assumption|]. intros d' Hd'. apply HZ. now right.
Qed.

(** ** derivatives *)
Fixpoint dsum (k : nat) (c : vec) (ps : list part) : R :=
  match ps with
  | [] => 0
  | p :: ps' =>
    (if Nat.eqb (p_sp p) k then p_order p * Rpower (c (p_sp p)) (p_order p - 1) else 0) * prodp c ps'
    + factor (c (p_sp p)) (p_order p) * dsum k c ps'
  end.

Lemma factor_pos x o : 0 < x -> factor x o = Rpower x o.
Proof.
  intros H. unfold factor. destruct (Req_EM_T o 0) as [->|]; [symmetry; apply Rpower_O; assumption|].
  destruct (Rlt_dec 0 x); [reflexivity|contradiction].
Qed.

Lemma cn_others_val c ps x : Forall (fun p => 0 < c (p_sp p)) ps ->
  cn_others c ps x = x * prodp c ps.
Proof.
  revert x. induction ps as [|p ps IH]; intros x H; simpl.
  - unfold prodp, prod_of. simpl. lra.
  - inversion H; subst. assert (Rltb 0 (c (p_sp p)) = true) as -> by now apply Rltb_spec.
    rewrite IH by assumption. unfold prodp. rewrite prod_of_cons, factor_pos by assumption. lra.
Qed.

Lemma prodp_app c l1 l2 : prodp c (l1 ++ l2) = prodp c l1 * prodp c l2.
Proof. apply prod_of_app. Qed.

Lemma cn_der_from_val rxn c R0 i k : forall ps pre j,
  Forall (fun p => 0 < c (p_sp p)) (rev pre) -> Forall (fun p => 0 < c (p_sp p)) ps ->
  cn_der_from rxn c R0 pre ps j i k =
  j i k + (if Nat.eqb rxn i then R0 rxn * prodp c (rev pre) * dsum k c ps else 0).
Proof.
  induction ps as [|p ps IH]; intros pre j Hpre Hps; simpl.
  - destruct (Nat.eqb rxn i); lra.
  - inversion Hps as [|? ? Hp Hps']; subst. rewrite IH; simpl; auto.
    2:{ rewrite Forall_app. split; auto. }
    rewrite prodp_app. unfold prodp at 2. unfold prod_of. simpl. rewrite Rmult_1_r.
    assert (Rltb 0 (c (p_sp p)) = true) as -> by now apply Rltb_spec. simpl.
    unfold jadd. rewrite (Nat.eqb_sym i), (Nat.eqb_sym k).
    assert ((if negb (Reqb (p_order p) 0)
             then cn_others c (rev pre ++ ps) (R0 rxn * (p_order p * Rpower (c (p_sp p)) (p_order p - 1)))
             else 0) = R0 rxn * (p_order p * Rpower (c (p_sp p)) (p_order p - 1)) * (prodp c (rev pre) * prodp c ps)) as ->.
    { destruct (Reqb (p_order p) 0) eqn:E0; simpl.
      - apply Reqb_spec in E0. rewrite E0. lra.
      - rewrite cn_others_val; [rewrite prodp_app; lra|]. rewrite Forall_app. auto. }
    destruct (Nat.eqb rxn i); simpl; [|lra]. destruct (Nat.eqb (p_sp p) k); lra.
Qed.

Definition contribD (c R0 : vec) (i k : nat) (h : CN) : R :=
  if Nat.eqb (cn_rxn h) i then R0 i * dsum k c (cn_parts h) else 0.

Definition pos_on (c : vec) (h : CN) : Prop := Forall (fun p => 0 < c (p_sp p)) (cn_parts h).

Lemma cn_der_val c R0 i k h j : pos_on c h ->
  cn_der h c R0 j i k = j i k + contribD c R0 i k h.
Proof.
  intros H. unfold cn_der. rewrite cn_der_from_val; [|constructor|exact H].
  unfold contribD. simpl. unfold prodp at 1, prod_of. simpl.
  destruct (Nat.eqb_spec (cn_rxn h) i) as [->|]; lra.
Qed.

Lemma over_j_sum {A} (f : A -> vec -> vec -> jac -> jac) (g : A -> R) (c R0 : vec) i k l :
  (forall a, In a l -> forall j, f a c R0 j i k = j i k + g a) ->
  forall j, fold_left (fun j a => f a c R0 j) l j i k = j i k + sum_of g l.
Proof.
  induction l as [|a l IH]; intros Hf j; simpl.
  - unfold sum_of. simpl. lra.
  - rewrite IH; [|intros b Hb; apply Hf; now right].
    rewrite Hf by (left; reflexivity). rewrite sum_of_cons. lra.
Qed.

Lemma Rpower_0' x : 0 < x -> Rpower x (1 - 1) = 1.
Proof. intros. replace (1-1) with 0 by lra. now apply Rpower_O. Qed.

Lemma der_hs m c R0 i k : Forall (pos_on c) (hs m) ->
  mgr_derivatives m c R0 i k = sum_of (contribD c R0 i k) (hs m).
Proof.
  intros HN. unfold hs in HN. rewrite !Forall_app in HN. destruct HN as (N1 & N2 & N3 & N4).
  rewrite Forall_map in N1, N2, N3. rewrite Forall_forall in N1, N2, N3, N4.
  unfold mgr_derivatives, hs. rewrite !sum_of_app, !sum_of_map.
  rewrite (over_j_sum cn_der (contribD c R0 i k)) by (intros; apply cn_der_val; auto).
  rewrite (over_j_sum c3_der (fun a => contribD c R0 i k (h3 a))).
  2:{ intros [r x y z] Hin j. specialize (N3 _ Hin). pose proof N3 as N3'. unfold pos_on in N3. simpl in N3.
      inversion N3 as [|? ? X1 N3a]; subst. inversion N3a as [|? ? X2 N3b]; subst.
      inversion N3b as [|? ? X3 _]; subst. simpl in *.
      unfold c3_der, contribD. simpl. unfold prodp, prod_of. simpl.
      rewrite !factor_1 by lra. rewrite !Rpower_0' by assumption.
      assert (Rltb 0 (c x) = true) as -> by now apply Rltb_spec.
      assert (Rltb 0 (c y) = true) as -> by now apply Rltb_spec.
      assert (Rltb 0 (c z) = true) as -> by now apply Rltb_spec. simpl.
      unfold jadd. rewrite !(Nat.eqb_sym i), !(Nat.eqb_sym k).
      destruct (Nat.eqb_spec r i) as [->|]; simpl; [|lra].
      destruct (Nat.eqb x k), (Nat.eqb y k), (Nat.eqb z k); lra. }
  rewrite (over_j_sum c2_der (fun a => contribD c R0 i k (h2 a))).
  2:{ intros [r x y] Hin j. specialize (N2 _ Hin). unfold pos_on in N2. simpl in N2.
      inversion N2 as [|? ? X1 N2a]; subst. inversion N2a as [|? ? X2 _]; subst. simpl in *.
      unfold c2_der, contribD. simpl. unfold prodp, prod_of. simpl.
      rewrite !factor_1 by lra. rewrite !Rpower_0' by assumption.
      assert (Rltb 0 (c x) = true) as -> by now apply Rltb_spec.
      assert (Rltb 0 (c y) = true) as -> by now apply Rltb_spec. simpl.
      unfold jadd. rewrite !(Nat.eqb_sym i), !(Nat.eqb_sym k).
      destruct (Nat.eqb_spec r i) as [->|]; simpl; [|lra].
      destruct (Nat.eqb x k), (Nat.eqb y k); lra. }
  rewrite (over_j_sum c1_der (fun a => contribD c R0 i k (h1 a))).
  2:{ intros [r x] Hin j. specialize (N1 _ Hin). unfold pos_on in N1. simpl in N1.
      inversion N1 as [|? ? X1 _]; subst. simpl in *.
      unfold c1_der, contribD. simpl. unfold prodp, prod_of. simpl.
      rewrite !factor_1 by lra. rewrite !Rpower_0' by assumption.
      unfold jadd. rewrite !(Nat.eqb_sym i), !(Nat.eqb_sym k).
      destruct (Nat.eqb_spec r i) as [->|]; simpl; [|lra].
      destruct (Nat.eqb x k); lra. }
  lra.
Qed.

Lemma upd_id v k : forall j, upd v k (v k) j = v j.
Proof. intros j. unfold upd. destruct (Nat.eqb_spec j k); congruence. Qed.

Lemma is_derive_cst (a x : R) : is_derive (fun _ : R => a) x 0.
Proof. apply is_derive_Reals. exact (derivable_pt_lim_const a x). Qed.

Lemma prodp_derive c k ps : 0 < c k -> Forall (fun p => 0 < c (p_sp p)) ps ->
  is_derive (fun x => prodp (upd c k x) ps) (c k) (dsum k c ps).
Proof.
  intros Hk. induction ps as [|p ps IH]; intros H.
  - unfold prodp, prod_of. simpl. apply is_derive_cst.
  - inversion H as [|? ? Hp H']; subst. specialize (IH H').
    assert (is_derive (fun x => factor (upd c k x (p_sp p)) (p_order p)) (c k)
       (if Nat.eqb (p_sp p) k then p_order p * Rpower (c (p_sp p)) (p_order p - 1) else 0)) as HD.
    { unfold upd at 1. destruct (Nat.eqb_spec (p_sp p) k) as [<-|Hne].
      - apply (is_derive_ext_loc (fun x => Rpower x (p_order p))).
        + assert (locally (c (p_sp p)) (fun x => 0 < x)) as HL.
          { apply (open_gt 0). exact Hp. }
          revert HL. apply filter_imp. intros x Hx. symmetry. now apply factor_pos.
        + apply is_derive_Reals. apply derivable_pt_lim_power. exact Hp.
      - apply is_derive_cst. }
    pose proof (is_derive_mult _ _ _ _ _ HD IH Rmult_comm) as HM.
    unfold plus, mult in HM. simpl in HM. simpl dsum.
    rewrite (upd_id c k) in HM.
    replace (prodp (upd c k (c k)) ps) with (prodp c ps) in HM.
    + exact HM.
    + unfold prodp. apply prod_of_ext. intros q _. now rewrite (upd_id c k).
Qed.

Lemma prod_single_rxn (F : CN -> R) (i : nat) : forall hl,
  NoDup (map cn_rxn hl) ->
  (exists h, In h hl /\ cn_rxn h = i /\
     (forall G : CN -> R, prod_of (fun h => if Nat.eqb (cn_rxn h) i then G h else 1) hl = G h) /\
     (forall G : CN -> R, sum_of (fun h => if Nat.eqb (cn_rxn h) i then G h else 0) hl = G h))
  \/ ((forall G : CN -> R, prod_of (fun h => if Nat.eqb (cn_rxn h) i then G h else 1) hl = 1) /\
     (forall G : CN -> R, sum_of (fun h => if Nat.eqb (cn_rxn h) i then G h else 0) hl = 0)).
Proof.
  induction hl as [|h hl IH]; intros HN.
  - right. split; reflexivity.
  - simpl in HN. inversion HN as [|? ? Hni HN']; subst.
    destruct (Nat.eq_dec (cn_rxn h) i) as [E|E].
    + left. exists h. split; [now left|]. split; [exact E|].
      assert (forall h', In h' hl -> Nat.eqb (cn_rxn h') i = false) as Hno.
      { intros h' Hin. apply Nat.eqb_neq. intros E'. apply Hni. rewrite E, <- E'. now apply in_map. }
      split; intros G.
      * rewrite prod_of_cons, E, Nat.eqb_refl.
        rewrite (prod_of_ext _ (fun _ => 1)); [|intros h' Hin; now rewrite Hno].
        assert (forall l : list CN, prod_of (fun _ => 1) l = 1) as ->; [|lra].
        induction l as [|x l IHl]; [reflexivity|]. rewrite prod_of_cons, IHl. lra.
      * rewrite sum_of_cons, E, Nat.eqb_refl.
        rewrite (sum_of_0 _ hl); [lra|]. intros h' Hin. now rewrite Hno.
    + destruct (IH HN') as [(h' & Hin & Hr & HP & HS)|[HP HS]].
      * left. exists h'. split; [now right|]. split; [exact Hr|].
        apply Nat.eqb_neq in E. split; intros G;
          [rewrite prod_of_cons, E, HP|rewrite sum_of_cons, E, HS]; lra.
      * right. apply Nat.eqb_neq in E. split; intros G;
          [rewrite prod_of_cons, E, HP|rewrite sum_of_cons, E, HS]; lra.
Qed.

Lemma derivatives_correct nsp nrxn ds m c R0 i k :
  Forall (well_formed nsp nrxn) ds -> mgr_adds mgr_init ds = Ok m ->
  NoDup (map d_rxn ds) -> (forall k, (k < nsp)%nat -> 0 < c k) -> (k < nsp)%nat ->
  derivable_pt_lim (fun x => mgr_multiply m (upd c k x) R0 i) (c k) (mgr_derivatives m c R0 i k).
Proof.
  intros Hwf Hm HND Hc Hk. destruct (adds_hs ds mgr_init m Hm) as (hl & HF & HP & _).
  simpl in HP. rewrite app_nil_r in HP.
  assert (NoDup (map cn_rxn hl)) as HN.
  { assert (map cn_rxn hl = map d_rxn ds) as ->; [|assumption].
    clear - HF. induction HF as [|h d hl ds [H _] HF IH]; [reflexivity|]. simpl. now rewrite H, IH. }
  assert (Forall (fun h => Forall (fun p => (p_sp p < nsp)%nat) (cn_parts h)) hl) as HB.
  { clear HP Hm HN HND. induction HF as [|h d hl ds [_ Hh] HF IH]; constructor.
    - inversion Hwf as [|? ? (_ & _ & _ & H4 & _) _]; subst.
      assert (Forall (fun p => (p_sp p < nsp)%nat) (zip3 (d_sp d) (d_order d) (d_stoich d))) as HZ
        by (now apply (zip3_forall (fun k => (k < nsp)%nat))).
      destruct Hh as [->|[_ ->]]; [assumption|].
      apply (units_forall (fun k => (k < nsp)%nat)), (kRep_forall (fun k => (k < nsp)%nat)). assumption.
    - inversion Hwf; subst. now apply IH. }
  assert (forall c', (forall k, (k < nsp)%nat -> 0 < c' k) -> Forall (pos_on c') (hs m)) as HPos.
  { intros c' H. eapply Permutation_Forall; [symmetry; exact HP|].
    eapply Forall_impl; [|exact HB]. intros h Hh. eapply Forall_impl; [|exact Hh]. simpl. auto. }
  rewrite der_hs by (now apply HPos). rewrite (sum_of_perm _ _ _ HP).
  apply is_derive_Reals.
  apply (is_derive_ext_loc (fun x => R0 i * prod_of (contribM i (upd c k x)) hl)).
  { assert (locally (c k) (fun x => 0 < x)) as HL by (apply (open_gt 0); now apply Hc).
    revert HL. apply filter_imp. intros x Hx.
    assert (forall j, (j < nsp)%nat -> 0 < upd c k x j) as HU.
    { intros j Hj. unfold upd. destruct (Nat.eqb j k); auto. }
    symmetry. rewrite mul_hs.
    - now rewrite (prod_of_perm _ _ _ HP).
    - specialize (HPos _ HU). eapply Forall_impl; [|exact HPos]. intros h Hh.
      eapply Forall_impl; [|exact Hh]. simpl. intros. lra. }
  unfold contribM, contribD.
  destruct (prod_single_rxn (fun _ => 0) i hl HN) as [(h & Hin & Hr & HPd & HSm)|[HPd HSm]].
  - rewrite (HSm (fun h => R0 i * dsum k c (cn_parts h))).
    apply (is_derive_ext (fun x => R0 i * prodp (upd c k x) (cn_parts h))).
    { intros x. now rewrite (HPd (fun h => prodp (upd c k x) (cn_parts h))). }
    apply (is_derive_scal (fun x => prodp (upd c k x) (cn_parts h)) (c k) (R0 i)).
    apply prodp_derive; [now apply Hc|]. rewrite Forall_forall in HB. specialize (HB h Hin).
    eapply Forall_impl; [|exact HB]. simpl. auto.
  - rewrite (HSm (fun h => R0 i * dsum k c (cn_parts h))).
    apply (is_derive_ext (fun x => R0 i * 1)).
    { intros x. now rewrite (HPd (fun h => prodp (upd c k x) (cn_parts h))). }
    apply is_derive_cst.
Qed.

(** ** scale *)
Definition torder (h : CN) : R := fold_left (fun acc p => acc + p_order p) (cn_parts h) 0.

Lemma over_set {A} (f : A -> vec -> vec -> vec) (g : A -> R) (r : A -> nat) inp i l :
  (forall a out, f a inp out i = if Nat.eqb (r a) i then g a else out i) ->
  forall out, over f l inp out i = fold_left (fun x a => if Nat.eqb (r a) i then g a else x) l (out i).
Proof.
  intros Hf. induction l as [|a l IH]; intros out; unfold over in *; simpl; [reflexivity|].
  rewrite IH, Hf. reflexivity.
Qed.

Lemma fold_left_map {A B C} (f : A -> B -> A) (g : C -> B) l : forall a,
  fold_left f (map g l) a = fold_left (fun x c => f x (g c)) l a.
Proof. induction l; simpl; auto. Qed.

Lemma scale_hs m f R0 out i :
  mgr_scale m f R0 out i =
  fold_left (fun x h => if Nat.eqb (cn_rxn h) i then torder h * R0 i * f else x) (hs m) (out i).
Proof.
  unfold mgr_scale, hs. rewrite !fold_left_app, !fold_left_map.
  rewrite (over_set (cn_scale f) (fun h => torder h * R0 i * f) cn_rxn).
  2:{ intros h o. unfold cn_scale, upd, torder. rewrite (Nat.eqb_sym i).
      destruct (Nat.eqb_spec (cn_rxn h) i) as [->|]; reflexivity. }
  rewrite (over_set (c3_scale f) (fun h => torder (h3 h) * R0 i * f) c3_rxn).
  2:{ intros h o. unfold c3_scale, upd, torder. simpl. rewrite (Nat.eqb_sym i).
      destruct (Nat.eqb_spec (c3_rxn h) i) as [->|]; lra. }
  rewrite (over_set (c2_scale f) (fun h => torder (h2 h) * R0 i * f) c2_rxn).
  2:{ intros h o. unfold c2_scale, upd, torder. simpl. rewrite (Nat.eqb_sym i).
      destruct (Nat.eqb_spec (c2_rxn h) i) as [->|]; lra. }
  rewrite (over_set (c1_scale f) (fun h => torder (h1 h) * R0 i * f) c1_rxn).
  2:{ intros h o. unfold c1_scale, upd, torder. simpl. rewrite (Nat.eqb_sym i).
      destruct (Nat.eqb_spec (c1_rxn h) i) as [->|]; lra. }
  reflexivity.
Qed.

Lemma torder_sum h : torder h = sum_of p_order (cn_parts h).
Proof.
  unfold torder. enough (forall l x, fold_left (fun acc p => acc + p_order p) l x = x + sum_of p_order l) as E
    by (rewrite E; lra).
  induction l as [|p l IH]; intros x; simpl; [unfold sum_of; simpl; lra|].
  rewrite IH, sum_of_cons. lra.
Qed.

Lemma set_last (G : CN -> R) i hl : forall x h, NoDup (map cn_rxn hl) -> In h hl -> cn_rxn h = i ->
  fold_left (fun x h => if Nat.eqb (cn_rxn h) i then G h else x) hl x = G h.
Proof.
  induction hl as [|a hl IH]; intros x h HN Hin Hr; [destruct Hin|].
  simpl in HN. inversion HN as [|? ? Hni HN']; subst. simpl. destruct Hin as [->|Hin].
  - rewrite Nat.eqb_refl. clear IH HN HN'. generalize (G h) as y. induction hl as [|b hl IH]; intros y; [reflexivity|].
    simpl. destruct (Nat.eqb_spec (cn_rxn b) (cn_rxn h)) as [E|E].
    + exfalso. apply Hni. rewrite <- E. now left.
    + apply IH. intros H. apply Hni. now right.
  - now apply IH.
Qed.

Lemma scale_correct nsp nrxn ds m f R0 out d :
  Forall (well_formed nsp nrxn) ds -> mgr_adds mgr_init ds = Ok m ->
  NoDup (map d_rxn ds) -> In d ds ->
  mgr_scale m f R0 out (d_rxn d) = total_order d * R0 (d_rxn d) * f.
Proof.
  intros Hwf Hm HND Hd. destruct (adds_hs ds mgr_init m Hm) as (hl & HF & HP & _).
  simpl in HP. rewrite app_nil_r in HP.
  assert (map cn_rxn hl = map d_rxn ds) as HE.
  { clear - HF. induction HF as [|h d hl ds [H _] HF IH]; [reflexivity|]. simpl. now rewrite H, IH. }
  assert (exists h, In h hl /\ handled h d) as (h & Hin & Hh).
  { clear - HF Hd. induction HF as [|h d' hl ds Hh HF IH]; [destruct Hd|].
    destruct Hd as [->|Hd]; [exists h; split; [now left|assumption]|].
    destruct (IH Hd) as (h' & ? & ?). exists h'. split; [now right|assumption]. }
  rewrite scale_hs.
  rewrite (set_last (fun h => torder h * R0 (d_rxn d) * f) (d_rxn d) (hs m) _ h).
  - rewrite torder_sum. f_equal. f_equal. rewrite Forall_forall in Hwf. destruct (Hwf d Hd) as (H1 & H2 & H3 & _).
    assert (forall ks os ss, length os = length ks -> length ss = length ks ->
              sum_of p_order (zip3 ks os ss) = rsum os) as HZ.
    { clear. induction ks as [|k ks IH]; intros [|o os] [|s ss] H1 H2; try discriminate; [reflexivity|].
      simpl. rewrite sum_of_cons, IH by auto. reflexivity. }
    destruct Hh as [_ [->|[Hf ->]]]; [apply HZ; assumption|].
    unfold total_order. rewrite <- (HZ (d_sp d) (d_order d) (d_stoich d)) by assumption.
    transitivity (lin (fun _ => 1) (units (kRep (zip3 (d_sp d) (d_order d) (d_stoich d))))).
    + unfold lin, units. rewrite !sum_of_map. apply sum_of_ext. intros. simpl. lra.
    + rewrite lin_units; [|assumption|now apply (zip3_forall_st (fun s => 0 <= s))].
      unfold lin. apply is_frac_false in Hf. rewrite Forall_forall in Hf.
      apply sum_of_ext. intros p Hp. destruct (Hf p Hp) as [_ ->]. lra.
  - apply (Permutation_NoDup (l := map cn_rxn hl)); [apply Permutation_map; symmetry; exact HP|]. now rewrite HE.
  - eapply Permutation_in; [symmetry; exact HP|assumption].
  - apply Hh.
Qed.

(** ** The handler chosen for a declaration, as a function *)
Definition handler (d : decl) : CN :=
  let ps := zip3 (d_sp d) (d_order d) (d_stoich d) in
  let r := d_rxn d in
  if is_frac ps || (3 <? length (d_sp d))%nat then mkCN r ps
  else match kRep ps with
       | [a] => h1 (mkC1 r a)
       | [a; b] => h2 (mkC2 r a b)
       | [a; b; c] => h3 (mkC3 r a b c)
       | _ => mkCN r ps
       end.

Lemma handler_handled d : handled (handler d) d.
Proof.
  unfold handler, handled.
  destruct (is_frac (zip3 _ _ _) || _) eqn:E; [simpl; auto|]. apply orb_false_iff in E as [Ef _].
  destruct (kRep (zip3 _ _ _)) as [|a [|b [|c [|]]]]; simpl; auto.
Qed.

Lemma add_handler m d m' :
  mgr_add m (d_rxn d) (d_sp d) (d_order d) (d_stoich d) = Ok m' ->
  Permutation (hs m') (handler d :: hs m).
Proof.
  unfold mgr_add, handler, hs.
  destruct (negb (length (d_order d) =? length (d_sp d))%nat); [discriminate|].
  destruct (negb (length (d_stoich d) =? length (d_sp d))%nat); [discriminate|].
  set (ps := zip3 _ _ _). set (r := d_rxn d).
  destruct (is_frac ps || (3 <? length (d_sp d))%nat) eqn:E; [|destruct (kRep ps) as [|a [|b [|c [|x l]]]] eqn:Ek];
    intros H; injection H as <-; simpl; rewrite ?map_app; simpl.
  - rewrite !app_assoc. symmetry. apply Permutation_cons_append.
  - rewrite !app_assoc. symmetry. apply Permutation_cons_append.
  - rewrite <- app_assoc. symmetry. simpl. apply Permutation_cons_app. reflexivity.
  - rewrite <- (app_assoc (map h2 _)). simpl. rewrite app_assoc. symmetry. apply Permutation_cons_app.
    rewrite <- app_assoc. reflexivity.
  - rewrite <- (app_assoc (map h3 _)). simpl. rewrite !app_assoc. symmetry. apply Permutation_cons_app.
    rewrite <- !app_assoc. reflexivity.
  - rewrite !app_assoc. symmetry. apply Permutation_cons_append.
Qed.

Lemma adds_handler ds : forall m m', mgr_adds m ds = Ok m' ->
  Permutation (hs m') (map handler ds ++ hs m).
Proof.
  induction ds as [|d ds IH]; intros m m' H; simpl in H.
  - injection H as <-. reflexivity.
  - destruct d as [[[r k] o] s]. destruct (mgr_add m r k o s) as [m1| | |] eqn:E; try discriminate.
    rewrite (IH m1 m' H). simpl. rewrite (add_handler m (r,k,o,s) m1 E). symmetry. apply Permutation_middle.
Qed.

Lemma adds_app ds1 : forall m ds2,
  mgr_adds m (ds1 ++ ds2) = match mgr_adds m ds1 with Ok m' => mgr_adds m' ds2 | r => r end.
Proof.
  induction ds1 as [|[[[r k] o] s] ds1 IH]; intros m ds2; simpl; [reflexivity|].
  destruct (mgr_add m r k o s); auto.
Qed.
