(** Lemmas for C20. *)
From Coq Require Import Reals ZArith String List Bool Arith Lia Lra Permutation.
From Verif Require Import Base.Fp Base.Outcome Base.RSum Kinetics.DupModel Kinetics.DupSpec.
Import ListNotations.
Local Open Scope R_scope.

(** ** Maps *)
Lemma memz_iff k l : memz k l = true <-> In k l.
Proof.
  unfold memz. rewrite existsb_exists. split.
  - intros (x & H & E). apply Z.eqb_eq in E. now subst.
  - intros H. exists k. split; [auto|apply Z.eqb_refl].
Qed.
Lemma touch_at r k : at_ (touch r k) = at_ r.
Proof. unfold touch. now destruct (memz k (dom r)). Qed.
Lemma touch_dom r k z : In z (dom (touch r k)) <-> z = k \/ In z (dom r).
Proof.
  unfold touch. destruct (memz k (dom r)) eqn:E; cbn; [|intuition].
  apply memz_iff in E. split; [auto|intros [->|H]; auto].
Qed.
Lemma add_at_at r k v z : at_ (add_at r k v) z = at_ r z + (if Z.eqb z k then v else 0).
Proof. unfold add_at. cbn. rewrite touch_at. destruct (Z.eqb_spec z k); [now subst|ring]. Qed.
Lemma add_at_dom r k v z : In z (dom (add_at r k v)) <-> z = k \/ In z (dom r).
Proof. unfold add_at. cbn. apply touch_dom. Qed.

Section Folds.
Context (f : string * R -> Z) (v : string * R -> R).
Let adds := fold_left (fun m e => add_at m (f e) (v e)).
Lemma adds_at l m z : at_ (adds l m) z = at_ m z + rsum (map (fun e => if Z.eqb z (f e) then v e else 0) l).
Proof.
  revert m. induction l as [|e l IH]; intros m; cbn.
  - ring.
  - unfold adds in *. rewrite IH, add_at_at. ring.
Qed.
Lemma adds_dom l m z : In z (dom (adds l m)) <-> In z (dom m) \/ exists e, In e l /\ z = f e.
Proof.
  revert m. induction l as [|e l IH]; intros m; cbn.
  - split; [auto|]. intros [H|(e & [] & _)]; auto.
  - unfold adds in *. rewrite IH, add_at_dom. split.
    + intros [[->|H]|(e' & H & ->)]; eauto.
    + intros [H|(e' & [<-|H] & ->)]; eauto.
Qed.
End Folds.

Lemma idx_place names s : idx names s = place names s.
Proof. reflexivity. Qed.
Lemma position_lt s names k : position s names = Some k -> nth_error names k = Some s.
Proof.
  revert k. induction names as [|x l IH]; intros k H; [discriminate|]. cbn in H.
  destruct (String.eqb_spec x s) as [->|N].
  - injection H as <-. reflexivity.
  - destruct (position s l); [|discriminate]. injection H as <-. cbn. now apply IH.
Qed.
Lemma position_in s names : In s names -> exists k, position s names = Some k.
Proof.
  induction names as [|x l IH]; intros H; [destruct H|]. cbn.
  destruct (String.eqb_spec x s) as [->|N]; [eauto|]. destruct H as [H|H]; [easy|].
  destruct (IH H) as (k & ->). exists (S k). reflexivity.
Qed.
Lemma place_nonneg names s : In s names -> (0 <= place names s)%Z.
Proof. intros H. unfold place. destruct (position_in s names H) as (k & ->). lia. Qed.
Lemma place_inj names s t : In s names -> In t names -> place names s = place names t -> s = t.
Proof.
  intros Hs Ht. unfold place. destruct (position_in s names Hs) as (k & Es). destruct (position_in t names Ht) as (k' & Et).
  rewrite Es, Et. intros H. assert (k = k') by lia. subst. apply position_lt in Es, Et. congruence.
Qed.
Lemma place_zero names s : In s names -> place names s = 0%Z -> Some s = hd_error names.
Proof.
  intros H E. unfold place in E. destruct (position_in s names H) as (k & P). rewrite P in E.
  assert (k = 0)%nat by lia. subst. apply position_lt in P. destruct names; cbn in *; congruence.
Qed.

Section Named.
Context (names : list string).
Let ok := proper_side names.
Lemma amount_unknown l s : ok l -> ~ In s names -> amount l s = 0.
Proof.
  intros [H _] N. unfold amount. induction l as [|e l IH]; [reflexivity|]. cbn.
  destruct (String.eqb_spec (fst e) s) as [E|E].
  - exfalso. apply N. rewrite <- E. apply H. now left.
  - rewrite IH; [ring|]. intros e' He. apply H. now right.
Qed.
Lemma amount_pos l s : ok l -> In s (map fst l) -> 0 < amount l s.
Proof.
  intros [H ND] I. unfold amount. induction l as [|e l IH]; [destruct I|]. cbn in *.
  inversion ND as [|? ? NI ND']; subst.
  assert (NN : 0 <= rsum (map (fun e0 => if String.eqb (fst e0) s then snd e0 else 0) l)).
  { clear -H. induction l as [|x l IH]; [cbn; lra|]. cbn.
    assert (0 <= rsum (map (fun e0 => if String.eqb (fst e0) s then snd e0 else 0) l))
      by (apply IH; intros e' He; apply H; destruct He; [left|right;right]; auto).
    destruct (String.eqb (fst x) s); [|lra]. specialize (H x ltac:(right; now left)). lra. }
  destruct (String.eqb_spec (fst e) s) as [E|E].
  - specialize (H e ltac:(now left)). lra.
  - destruct I as [I|I]; [contradiction|]. assert (0 < rsum (map (fun e0 => if String.eqb (fst e0) s then snd e0 else 0) l)).
    { apply IH; auto. }
    lra.
Qed.
Lemma amount_none l s : ~ In s (map fst l) -> amount l s = 0.
Proof.
  intros N. unfold amount. induction l as [|e l IH]; [reflexivity|]. cbn in *.
  destruct (String.eqb_spec (fst e) s) as [E|E]; [exfalso; auto|]. rewrite IH by auto. ring.
Qed.
Lemma amount_nz l s : ok l -> amount l s <> 0 <-> In s (map fst l).
Proof.
  intros H. split.
  - intros N. destruct (in_dec string_dec s (map fst l)); auto. rewrite amount_none in N; auto. lra.
  - intros I. pose proof (amount_pos l s H I). lra.
Qed.

Context (r : rxn) (P : proper names r).
Lemma rsum_keys (g : Z -> Z) l s (v : string * R -> R) : (forall a b, g a = g b -> a = b) -> ok l -> In s names ->
  rsum (map (fun e => if Z.eqb (g (place names s)) (g (idx names (fst e))) then v e else 0) l)
  = rsum (map (fun e => if String.eqb (fst e) s then v e else 0) l).
Proof.
  intros G [H _] Hs. f_equal. apply map_ext_in. intros e He.
  destruct (String.eqb_spec (fst e) s) as [E|E].
  - subst s. change (idx names (fst e)) with (place names (fst e)). now rewrite Z.eqb_refl.
  - destruct (Z.eqb_spec (g (place names s)) (g (idx names (fst e)))) as [Q|Q]; [|reflexivity].
    exfalso. apply E. symmetry. apply (place_inj names); auto. now apply H.
Qed.
Lemma rsum_none (k : string * R -> Z) z l (v : string * R -> R) : (forall e, In e l -> z <> k e) ->
  rsum (map (fun e => if Z.eqb z (k e) then v e else 0) l) = 0.
Proof.
  induction l as [|e l IH]; intros H; [reflexivity|]. cbn. rewrite IH by (intros; apply H; now right).
  destruct (Z.eqb_spec z (k e)) as [E|E]; [exfalso; apply (H e); [now left|auto]|ring].
Qed.
Lemma net_at z : at_ (net names r) z
  = rsum (map (fun e => if Z.eqb z (-1 - idx names (fst e)) then - snd e else 0) (d_react r))
    + rsum (map (fun e => if Z.eqb z (1 + idx names (fst e)) then snd e else 0) (d_prod r)).
Proof. unfold net. rewrite !adds_at. cbn. ring. Qed.
Lemma idx_nonneg e : In e (d_react r ++ d_prod r) -> (0 <= idx names (fst e))%Z.
Proof.
  destruct P as ((H1 & _) & (H2 & _) & _). intros H. apply place_nonneg. apply in_app_or in H as [H|H]; [apply (H1 e H)|apply (H2 e H)].
Qed.
Lemma net_react s : In s names -> at_ (net names r) (-1 - place names s) = - amount (d_react r) s.
Proof.
  intros Hs. rewrite net_at. pose proof (place_nonneg names s Hs).
  rewrite (rsum_keys (fun z => -1 - z)%Z) by (auto; try apply P; intros; lia).
  rewrite (rsum_none (fun e => (1 + idx names (fst e))%Z)).
  - unfold amount. rewrite Rplus_0_r. induction (d_react r) as [|e l IH]; cbn; [ring|]. rewrite IH. destruct (String.eqb (fst e) s); ring.
  - intros e He. pose proof (idx_nonneg e (in_or_app _ _ _ (or_intror He))). lia.
Qed.
Lemma net_prod s : In s names -> at_ (net names r) (1 + place names s) = amount (d_prod r) s.
Proof.
  intros Hs. rewrite net_at. pose proof (place_nonneg names s Hs).
  rewrite (rsum_keys (fun z => 1 + z)%Z) by (auto; try apply P; intros; lia).
  rewrite (rsum_none (fun e => (-1 - idx names (fst e))%Z)).
  - unfold amount. ring.
  - intros e He. pose proof (idx_nonneg e (in_or_app _ _ _ (or_introl He))). lia.
Qed.
Lemma net_dom z : In z (dom (net names r)) <->
  (exists s, In s (map fst (d_react r)) /\ z = (-1 - place names s)%Z) \/ (exists s, In s (map fst (d_prod r)) /\ z = (1 + place names s)%Z).
Proof.
  unfold net. rewrite !adds_dom. cbn. split.
  - intros [[[]|(e & H & ->)]|(e & H & ->)]; [left|right]; exists (fst e); split; auto using in_map.
  - intros [(s & H & ->)|(s & H & ->)]; apply in_map_iff in H as (e & <- & H); [left; right|right]; eauto.
Qed.
Lemma names_react s : In s (map fst (d_react r)) -> In s names.
Proof. intros H. apply in_map_iff in H as (e & <- & H). exact (proj1 (proj1 (proj1 P) e H)). Qed.
Lemma names_prod s : In s (map fst (d_prod r)) -> In s names.
Proof. intros H. apply in_map_iff in H as (e & <- & H). exact (proj1 (proj1 (proj1 (proj2 P)) e H)). Qed.
Lemma net_nz z : at_ (net names r) z <> 0 <-> In z (dom (net names r)).
Proof.
  split.
  - intros N. destruct (in_dec Z.eq_dec z (dom (net names r))) as [|NI]; auto. exfalso. apply N. rewrite net_at.
    rewrite (rsum_none (fun e => (-1 - idx names (fst e))%Z)), (rsum_none (fun e => (1 + idx names (fst e))%Z)); [ring| |].
    + intros e He E. apply NI, net_dom. right. exists (fst e). split; [now apply in_map|auto].
    + intros e He E. apply NI, net_dom. left. exists (fst e). split; [now apply in_map|auto].
  - intros H. apply net_dom in H as [(s & H & ->)|(s & H & ->)].
    + rewrite net_react by (now apply names_react). pose proof (amount_pos (d_react r) s (proj1 P) H). lra.
    + rewrite net_prod by (now apply names_prod). pose proof (amount_pos (d_prod r) s (proj1 (proj2 P)) H). lra.
Qed.
Lemma net_nonempty : dom (net names r) <> [].
Proof.
  destruct P as (_ & _ & NE). intros E.
  assert (H : forall z, ~ In z (dom (net names r))) by (rewrite E; auto).
  destruct (d_react r) as [|e l] eqn:ER; [destruct (d_prod r) as [|e l] eqn:EP; [now apply NE|]|];
    eapply H, net_dom; [right; exists (fst e); rewrite EP|left; exists (fst e); rewrite ER]; (split; [now left|reflexivity]).
Qed.
(** Reactants have negative keys and values, products positive ones. *)
Lemma net_sign z : In z (dom (net names r)) -> (z < 0)%Z /\ at_ (net names r) z < 0 \/ (0 < z)%Z /\ 0 < at_ (net names r) z.
Proof.
  intros H. apply net_dom in H as [(s & H & ->)|(s & H & ->)].
  - left. pose proof (names_react s H) as I. pose proof (place_nonneg names s I). split; [lia|]. rewrite net_react by auto.
    pose proof (amount_pos (d_react r) s (proj1 P) H). lra.
  - right. pose proof (names_prod s H) as I. pose proof (place_nonneg names s I). split; [lia|]. rewrite net_prod by auto.
    pose proof (amount_pos (d_prod r) s (proj1 (proj2 P)) H). lra.
Qed.
End Named.

(** ** Comparing stoichiometries *)
Definition agree (c a b : R) : Prop := (a = 0 <-> b = 0) /\ (a <> 0 -> Rabs (b / a - c) <= / 10 ^ 8).
Lemma nz_true x : nz x = true <-> x <> 0.
Proof. unfold nz. rewrite negb_true_iff. apply reqb_false. Qed.
Lemma nz_false x : nz x = false <-> x = 0.
Proof. unfold nz. rewrite negb_false_iff. apply reqb_true. Qed.
Lemma differ_false a b c : differ a b c = false <-> agree c a b.
Proof.
  unfold differ, agree. destruct (nz a) eqn:A, (nz b) eqn:B; cbn; rewrite ?nz_true, ?nz_false in *.
  - rewrite rltb_false. split; [intros H; split; [split; intros; contradiction|auto]|intros [_ H]; auto].
  - split; [discriminate|]. intros [H _]. exfalso. apply A, H, B.
  - split; [discriminate|]. intros [H _]. exfalso. apply B, H, A.
  - split; [intros _|auto]. split; [tauto|contradiction].
Qed.
Lemma agree_ext c a b a' b' : a = a' -> b = b' -> agree c a b -> agree c a' b'.
Proof. now intros -> ->. Qed.

Definition grown (r r' : nmap) (extra : Z -> Prop) : Prop :=
  at_ r' = at_ r /\ (forall z, In z (dom r) -> In z (dom r')) /\ (forall z, In z (dom r') -> In z (dom r) \/ extra z).
Lemma grown_refl r e : grown r r e.
Proof. split; [reflexivity|]. auto. Qed.
Lemma grown_touch r k (e : Z -> Prop) : e k -> grown r (touch r k) e.
Proof. intros H. split; [apply touch_at|]. split; intros z; rewrite touch_dom; auto. intros [->|I]; auto. Qed.
Lemma grown_trans a b c e : grown a b e -> grown b c e -> grown a c e.
Proof.
  intros (A1 & A2 & A3) (B1 & B2 & B3). split; [congruence|]. split; auto. intros z H. destruct (B3 z H) as [H1|H1]; auto.
Qed.
Lemma compare_spec sg c ks r1 r2 (e : Z -> Prop) : (forall k, In k ks -> e k /\ e (sg * k)%Z) ->
  exists d r1' r2', compare sg c ks r1 r2 = (d, (r1', r2')) /\ grown r1 r1' e /\ grown r2 r2' e /\
    (d = false <-> forall k, In k ks -> agree c (at_ r1 k) (at_ r2 (sg * k)%Z)).
Proof.
  revert r1 r2. induction ks as [|k ks IH]; intros r1 r2 H; cbn [compare].
  - do 3 eexists. split; [reflexivity|]. split; [apply grown_refl|]. split; [apply grown_refl|]. split; [intros _ k []|auto].
  - destruct (H k (or_introl eq_refl)) as [H1 H2]. rewrite !touch_at.
    pose proof (grown_touch r1 k e H1) as G1. pose proof (grown_touch r2 (sg * k) e H2) as G2.
    destruct (differ (at_ r1 k) (at_ r2 (sg * k)%Z) c) eqn:D.
    + do 3 eexists. split; [reflexivity|]. split; [exact G1|]. split; [exact G2|]. split; [discriminate|].
      intros Q. specialize (Q k (or_introl eq_refl)). apply differ_false in Q. congruence.
    + destruct (IH (touch r1 k) (touch r2 (sg * k))) as (d & r1' & r2' & -> & A & B & Q).
      { intros k' Hk. apply H. now right. }
      do 3 eexists. split; [reflexivity|]. split; [eapply grown_trans; eauto|]. split; [eapply grown_trans; eauto|].
      rewrite Q, !touch_at. apply differ_false in D. split.
      * intros Q' k' [<-|Hk]; auto.
      * intros Q' k' Hk. apply Q'. now right.
Qed.
Lemma first_key_min r : dom r <> [] -> exists k, first_key r = Some k /\ In k (dom r) /\ forall z, In z (dom r) -> (k <= z)%Z.
Proof.
  intros NE. unfold first_key. destruct (dom r) as [|a l]; [contradiction|]. eexists. split; [reflexivity|]. clear NE.
  revert a. induction l as [|b l IH]; intros a; cbn.
  - split; [auto|]. intros z [<-|[]]. lia.
  - destruct (IH (Z.min a b)) as [I M]. split.
    + destruct I as [I|I]; [|auto]. rewrite <- I. destruct (Z.min_spec a b) as [[_ ->]|[_ ->]]; auto.
    + intros z Hz. specialize (M (Z.min a b) (or_introl eq_refl)) as M0.
      destruct Hz as [<-|[<-|Hz]]; [lia|lia|]. apply M. now right.
Qed.

Section Ratio.
Context (walk : list Z -> list Z) (W : walks walk).
Lemma walk_union z a b : In z (walk (union a b)) <-> In z a \/ In z b.
Proof. unfold walks in W. rewrite W. unfold union. rewrite nodup_In. apply in_app_iff. Qed.

Lemma ratio_spec r1 r2 k1 (e : Z -> Prop) : first_key r1 = Some k1 ->
  (forall z, In z (dom r1) \/ In z (dom r2) -> e z /\ e (- z)%Z) -> In k1 (dom r1) ->
  exists c r1' r2', stoich_ratio walk r1 r2 = Ok (c, (r1', r2')) /\ grown r1 r1' e /\ grown r2 r2' e /\
    (c <> 0 -> at_ r1 k1 <> 0 /\
       ((c = at_ r2 k1 / at_ r1 k1 /\ at_ r2 k1 <> 0 /\ forall k, In k (dom r1) \/ In k (dom r2) -> agree c (at_ r1 k) (at_ r2 k)) \/
        (c = at_ r2 (- k1)%Z / at_ r1 k1 /\ at_ r2 (- k1)%Z <> 0 /\ forall k, In k (dom r1) \/ In k (dom r2) -> agree c (at_ r1 k) (at_ r2 (- k)%Z)))) /\
    (at_ r1 k1 <> 0 -> at_ r2 k1 <> 0 -> (forall k, In k (dom r1) \/ In k (dom r2) -> agree (at_ r2 k1 / at_ r1 k1) (at_ r1 k) (at_ r2 k)) ->
       c = at_ r2 k1 / at_ r1 k1) /\
    (at_ r1 k1 <> 0 -> at_ r2 (- k1)%Z <> 0 ->
       (forall k, In k (dom r1) \/ In k (dom r2) -> agree (at_ r2 (- k1)%Z / at_ r1 k1) (at_ r1 k) (at_ r2 (- k)%Z)) -> c <> 0).
Proof.
  intros FK E IN. unfold stoich_ratio. rewrite FK. set (keys := walk (union (dom r1) (dom r2))).
  assert (KEYS : forall z, In z keys <-> In z (dom r1) \/ In z (dom r2)) by (intros; apply walk_union).
  destruct (E k1 (or_introl IN)) as [Ek Ek'].
  destruct (reqb (at_ r1 k1) 0) eqn:Z0.
  { apply reqb_true in Z0. do 3 eexists. split; [reflexivity|]. split; [apply grown_refl|]. split; [apply grown_refl|]. tauto. }
  apply reqb_false in Z0. cbn zeta. rewrite !touch_at.
  pose proof (grown_touch r2 k1 e Ek) as T1. set (q2 := touch r2 k1) in *.
  assert (AQ : at_ q2 = at_ r2) by (unfold q2; apply touch_at).
  assert (REV : forall p1 p2, grown r1 p1 e -> grown r2 p2 e ->
    exists c r1' r2', (let r3 := touch p2 (- k1) in
      if reqb (at_ r3 (- k1)%Z) 0 then Ok (0, (p1, r3))
      else let ratio := at_ r3 (- k1)%Z / at_ p1 k1 in
           let (d, rs) := compare (-1) ratio keys p1 r3 in Ok (if d then 0 else ratio, rs)) = Ok (c, (r1', r2')) /\
      grown r1 r1' e /\ grown r2 r2' e /\
      (c <> 0 -> (c = at_ r2 (- k1)%Z / at_ r1 k1 /\ at_ r2 (- k1)%Z <> 0 /\ forall k, In k (dom r1) \/ In k (dom r2) -> agree c (at_ r1 k) (at_ r2 (- k)%Z))) /\
      (at_ r2 (- k1)%Z <> 0 -> (forall k, In k (dom r1) \/ In k (dom r2) -> agree (at_ r2 (- k1)%Z / at_ r1 k1) (at_ r1 k) (at_ r2 (- k)%Z)) -> c <> 0)).
  { intros p1 p2 G1 G2. cbn zeta. rewrite !touch_at. destruct G1 as (A1 & D1 & D1'). destruct G2 as (A2 & D2 & D2'). rewrite A1, A2.
    pose proof (grown_touch p2 (- k1)%Z e Ek') as T2. pose proof (conj A1 (conj D1 D1') : grown r1 p1 e) as G1. pose proof (conj A2 (conj D2 D2') : grown r2 p2 e) as G2.
    destruct (reqb (at_ r2 (- k1)%Z) 0) eqn:Z1.
    - apply reqb_true in Z1. do 3 eexists. split; [reflexivity|]. split; [exact G1|]. split; [eapply grown_trans; eauto|]. tauto.
    - apply reqb_false in Z1.
      destruct (compare_spec (-1) (at_ r2 (- k1)%Z / at_ r1 k1) keys p1 (touch p2 (- k1)) e) as (d & r1' & r2' & -> & H1 & H2 & Q).
      { intros k Hk. apply KEYS in Hk. replace (-1 * k)%Z with (- k)%Z by lia. now apply E. }
      do 3 eexists. split; [reflexivity|]. split; [eapply grown_trans; eauto|]. split; [eapply grown_trans; [|exact H2]; eapply grown_trans; eauto|].
      rewrite touch_at, A1, A2 in Q.
      assert (Q' : d = false <-> forall k, In k (dom r1) \/ In k (dom r2) -> agree (at_ r2 (- k1)%Z / at_ r1 k1) (at_ r1 k) (at_ r2 (- k)%Z)).
      { rewrite Q. split; intros H k Hk; [apply KEYS in Hk|apply KEYS in Hk]; specialize (H k Hk); replace (-1 * k)%Z with (- k)%Z in * by lia; auto. }
      split.
      + intros C. destruct d; [contradiction|]. split; [reflexivity|]. split; [exact Z1|]. now apply Q'.
      + intros _ H. apply Q' in H. rewrite H. intros C. apply Z1. unfold Rdiv in C. apply Rmult_integral in C as [C|C]; auto.
        exfalso. apply (Rinv_neq_0_compat _ Z0). exact C. }
  destruct (nz (at_ r2 k1)) eqn:N1.
  - apply nz_true in N1.
    destruct (compare_spec 1 (at_ r2 k1 / at_ r1 k1) keys r1 q2 e) as (d & p1 & p2 & -> & G1 & G2 & Q).
    { intros k Hk. apply KEYS in Hk. rewrite Z.mul_1_l. destruct (E k Hk). auto. }
    rewrite AQ in Q.
    assert (Q' : d = false <-> forall k, In k (dom r1) \/ In k (dom r2) -> agree (at_ r2 k1 / at_ r1 k1) (at_ r1 k) (at_ r2 k)).
    { rewrite Q. split; intros H k Hk; apply KEYS in Hk; specialize (H k Hk); rewrite Z.mul_1_l in *; auto. }
    pose proof (grown_trans _ _ _ _ T1 G2) as G2'. destruct G1 as (A1 & D1). destruct G2' as (A2 & D2). rewrite A1, A2.
    pose proof (conj A1 D1 : grown r1 p1 e) as G1. pose proof (conj A2 D2 : grown r2 p2 e) as G2'.
    destruct d; cbn [negb].
    + destruct (REV p1 p2 G1 G2') as (c & r1' & r2' & EQ & H1 & H2 & H3 & H4). cbn zeta in EQ. rewrite A1 in EQ. rewrite EQ.
      do 3 eexists. split; [reflexivity|]. split; [exact H1|]. split; [exact H2|]. split; [tauto|]. split; [|tauto].
      intros _ _ H. exfalso. apply Q' in H. discriminate.
    + do 3 eexists. split; [reflexivity|]. split; [exact G1|]. split; [exact G2'|]. split; [|split; [auto|]].
      * intros C. split; [auto|]. left. split; [reflexivity|]. split; [auto|]. now apply Q'.
      * intros _ _ _ C. unfold Rdiv in C. apply Rmult_integral in C as [C|C]; auto. apply (Rinv_neq_0_compat _ Z0). exact C.
  - apply nz_false in N1.
    destruct (REV r1 q2 (grown_refl _ _) T1) as (c & r1' & r2' & EQ & H1 & H2 & H3 & H4). cbn zeta in EQ. rewrite EQ.
    do 3 eexists. split; [reflexivity|]. split; [exact H1|]. split; [exact H2|]. split; [tauto|]. split; [|tauto]. intros _ H. contradiction.
Qed.
End Ratio.
