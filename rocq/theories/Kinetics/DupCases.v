(** C20: concrete mechanisms meeting the hypotheses of the theorems, and claims that are false. *)
From Coq Require Import Reals ZArith String List Bool Arith Lia Lra Permutation.
From Verif Require Import Base.Fp Base.Outcome Base.RSum Kinetics.DupModel Kinetics.DupSpec Kinetics.DupProofs Kinetics.DupProofs2
  Kinetics.DupProofs3 Kinetics.DupProofs4 Kinetics.DupProps.
Import ListNotations.
Local Open Scope string_scope.
Local Open Scope R_scope.

Definition id_walk (l : list Z) : list Z := l.
Definition front (l : list nat) : nat := hd 0%nat l.
Lemma id_walks : walks id_walk. Proof. intros l z. reflexivity. Qed.
Lemma front_picks : picks front. Proof. intros [|a l] H; [contradiction|]. now left. Qed.
Definition four := ["A"; "B"; "C"; "D"].
Definition simple (re pr : list (string * R)) (dup rev : bool) (eq : string) : rxn := RXN re pr dup rev "reaction" "Arrhenius" None eq.
Definition ab_cd := simple [("A", 1); ("B", 1)] [("C", 1); ("D", 1)] false false "A + B => C + D".
Definition cd_ab := simple [("C", 1); ("D", 1)] [("A", 1); ("B", 1)] false false "C + D => A + B".
Definition ab_cd2 := simple [("A", 2); ("B", 2)] [("C", 2); ("D", 2)] false true "2 A + 2 B <=> 2 C + 2 D".
Ltac in_list := cbn; tauto.
Ltac proper_tac := split; [|split]; [split|split|discriminate];
  [intros e He; cbn in He; decompose [or] He; try contradiction; subst e; cbn; (split; [tauto|lra])
  |cbn; repeat constructor; cbn; intuition discriminate
  |intros e He; cbn in He; decompose [or] He; try contradiction; subst e; cbn; (split; [tauto|lra])
  |cbn; repeat constructor; cbn; intuition discriminate].
Lemma proper_ab : proper four ab_cd. Proof. proper_tac. Qed.
Lemma proper_cd : proper four cd_ab. Proof. proper_tac. Qed.
Lemma proper_ab2 : proper four ab_cd2. Proof. proper_tac. Qed.

Lemma amount_cons n v l s : amount ((n, v) :: l) s = (if String.eqb n s then v else 0) + amount l s.
Proof. reflexivity. Qed.
Lemma double_ab : multiple 2 ab_cd ab_cd2.
Proof. intros s. cbn [ab_cd ab_cd2 simple d_react d_prod]. rewrite !amount_cons. unfold amount, rsum. cbn [map fold_right].
  destruct (String.eqb "A" s), (String.eqb "B" s), (String.eqb "C" s), (String.eqb "D" s); split; ring.
Qed.
Lemma reverse_ab : reversed_multiple 1 ab_cd cd_ab.
Proof. intros s. cbn [ab_cd cd_ab simple d_react d_prod]. split; ring. Qed.

Lemma one_multiple r : multiple 1 r r.
Proof. intros s. split; ring. Qed.
Lemma comparable_simple a b eq1 c d eq2 rv1 rv2 : comparable (simple a b false rv1 eq1) (simple c d false rv2 eq2).
Proof. split; [intros [H _]; discriminate|]. split; reflexivity. Qed.
Lemma passive_error rs : passive Error rs. Proof. right. now left. Qed.

(** The same reaction twice, after its reverse: found. *)
Lemma proper3 a b c : proper four a -> proper four b -> proper four c -> Forall (proper four) [a; b; c].
Proof. intros. apply Forall_cons; [auto|]. apply Forall_cons; [auto|]. apply Forall_cons; [auto|]. apply Forall_nil. Qed.
Example C20_found_case : exists l, fst (checkDuplicates four id_walk Error true front [ab_cd; cd_ab; cd_ab]) = Ok (Throws l) /\ In (Undeclared 2 1) l.
Proof.
  assert (PR : Forall (proper four) [ab_cd; cd_ab; cd_ab]) by (apply proper3; auto using proper_ab, proper_cd).
  assert (US : unspoilt four [ab_cd; cd_ab; cd_ab] 2 1 cd_ab).
  { right. exists "D". split; [in_list|]. intros j q t Hj Hq _ Ht. assert (H : In t four).
    { destruct j as [|[|[|j]]]; try lia; injection Hq as <-; cbn in Ht |- *; tauto. }
    cbn in H. decompose [or] H; try contradiction; subst t; cbn; lia. }
  pose proof (C20_found_partial four id_walk Error true front [ab_cd; cd_ab; cd_ab] 2 1 cd_ab cd_ab id_walks PR (passive_error _)
    ltac:(lia) eq_refl eq_refl (comparable_simple _ _ _ _ _ _ _ _) I
    (ex_intro _ 1 (conj Rlt_0_1 (or_introl (one_multiple _)))) US) as F.
  destruct (fst (checkDuplicates four id_walk Error true front [ab_cd; cd_ab; cd_ab])) as [[|i m|l]| | |]; try contradiction; [discriminate|].
  exists l. split; [reflexivity|]. apply F.
Qed.

(** ** A duplicate that is missed: the comparison with an earlier reverse reaction leaves zero entries. *)
Ltac vals := cbn [net ab_cd cd_ab simple d_react d_prod fold_left]; lazy -[Rplus Rmult Ropp Rinv Rdiv Rminus IZR]; ring.
Lemma agree_one : agree (-1) (-1) 1.
Proof. split; [lra|]. intros _. replace (1 / -1 - -1) with 0 by field. rewrite Rabs_R0. left. apply Rinv_0_lt_compat, pow_lt. lra. Qed.
Lemma agree_one' : agree (-1) 1 (-1).
Proof. split; [lra|]. intros _. replace (-1 / 1 - -1) with 0 by field. rewrite Rabs_R0. left. apply Rinv_0_lt_compat, pow_lt. lra. Qed.
Lemma agree_zero c : agree c 0 0.
Proof. split; [tauto|]. intros H. now destruct H. Qed.
Definition nf := net four ab_cd.
Definition nb := net four cd_ab.
Lemma nf_dom : dom nf = [4; 3; -2; -1]%Z. Proof. reflexivity. Qed.
Lemma nb_dom : dom nb = [2; 1; -4; -3]%Z. Proof. reflexivity. Qed.
Lemma nf_at : at_ nf 4%Z = 1 /\ at_ nf 3%Z = 1 /\ at_ nf 2%Z = 0 /\ at_ nf 1%Z = 0 /\ at_ nf (-1)%Z = -1 /\ at_ nf (-2)%Z = -1 /\ at_ nf (-3)%Z = 0 /\ at_ nf (-4)%Z = 0.
Proof. unfold nf. repeat split; vals. Qed.
Lemma nb_at : at_ nb 4%Z = 0 /\ at_ nb 3%Z = 0 /\ at_ nb 2%Z = 1 /\ at_ nb 1%Z = 1 /\ at_ nb (-1)%Z = 0 /\ at_ nb (-2)%Z = 0 /\ at_ nb (-3)%Z = -1 /\ at_ nb (-4)%Z = -1.
Proof. unfold nb. repeat split; vals. Qed.
Lemma compare_step sg c k ks r1 r2 : agree c (at_ r1 k) (at_ r2 (sg * k)%Z) ->
  DupModel.compare sg c (k :: ks) r1 r2 = DupModel.compare sg c ks (touch r1 k) (touch r2 (sg * k)).
Proof. intros H. cbn [DupModel.compare]. rewrite !touch_at. apply differ_false in H. now rewrite H. Qed.
Lemma ratio_reverse n1 n2 k1 c rs' : first_key n1 = Some k1 -> at_ n1 k1 <> 0 -> at_ n2 k1 = 0 -> at_ n2 (- k1)%Z <> 0 ->
  at_ n2 (- k1)%Z / at_ n1 k1 = c ->
  DupModel.compare (-1) c (id_walk (union (dom n1) (dom n2))) n1 (touch (touch n2 k1) (- k1)) = (false, rs') ->
  stoich_ratio id_walk n1 n2 = Ok (c, rs').
Proof.
  intros FK A B C E Q. unfold stoich_ratio. rewrite FK. apply reqb_false in A. rewrite A. cbn zeta. rewrite touch_at.
  replace (nz (at_ n2 k1)) with false by (symmetry; now apply nz_false). rewrite touch_at. rewrite touch_at.
  apply reqb_false in C. rewrite C. rewrite E. rewrite Q. now destruct rs'.
Qed.
Definition forward_vals (f : Z -> R) : Prop :=
  f 4%Z = 1 /\ f 3%Z = 1 /\ f 2%Z = 0 /\ f 1%Z = 0 /\ f (-1)%Z = -1 /\ f (-2)%Z = -1 /\ f (-3)%Z = 0 /\ f (-4)%Z = 0.
Definition backward_vals (g : Z -> R) : Prop :=
  g 4%Z = 0 /\ g 3%Z = 0 /\ g 2%Z = 1 /\ g 1%Z = 1 /\ g (-1)%Z = 0 /\ g (-2)%Z = 0 /\ g (-3)%Z = -1 /\ g (-4)%Z = -1.
Lemma compare_fb f g l1 l2 ks : forward_vals f -> backward_vals g -> forall r', (forall k, In k ks -> In k [4; 3; -2; -1; 2; 1; -4; -3]%Z) ->
  fold_left (fun p k => (touch (fst p) k, touch (snd p) (-1 * k)%Z)) ks (NM l1 f, NM l2 g) = r' ->
  DupModel.compare (-1) (-1) ks (NM l1 f) (NM l2 g) = (false, r').
Proof.
  intros F B r' H <-. revert l1 l2. induction ks as [|k ks IH]; intros l1 l2; [reflexivity|].
  rewrite compare_step.
  - cbn [fold_left fst snd].
    assert (T : forall l (q : Z -> R) z, exists l', touch (NM l q) z = NM l' q) by (intros l q z; unfold touch; cbn [dom at_]; destruct (memz z l); eauto).
    destruct (T l1 f k) as (l1' & T1). destruct (T l2 g (-1 * k)%Z) as (l2' & T2).
    rewrite T1, T2. apply IH. intros k' Hk. apply H. now right.
  - cbn [at_]. destruct F as (F1 & F2 & F3 & F4 & F5 & F6 & F7 & F8), B as (B1 & B2 & B3 & B4 & B5 & B6 & B7 & B8).
    specialize (H k (or_introl eq_refl)). cbn in H. decompose [or] H; try contradiction; subst k; cbn [Z.mul Pos.mul Z.opp];
    rewrite ?F1, ?F2, ?F3, ?F4, ?F5, ?F6, ?F7, ?F8, ?B1, ?B2, ?B3, ?B4, ?B5, ?B6, ?B7, ?B8; auto using agree_one, agree_one', agree_zero.
Qed.
Lemma first_compare f g l2 l1' l2' : forward_vals f -> backward_vals g ->
  (forall k, In k (union [4; 3; -2; -1]%Z l2) -> In k [4; 3; -2; -1; 2; 1; -4; -3]%Z) ->
  fold_left (fun p k => (touch (fst p) k, touch (snd p) (-1 * k)%Z)) (union [4; 3; -2; -1]%Z l2) (NM [4; 3; -2; -1]%Z f, touch (touch (NM l2 g) (-2)) 2) = (NM l1' f, NM l2' g) ->
  stoich_ratio id_walk (NM [4; 3; -2; -1]%Z f) (NM l2 g) = Ok (-1, (NM l1' f, NM l2' g)).
Proof.
  intros F B H E. apply ratio_reverse with (k1 := (-2)%Z); cbn [at_].
  - reflexivity.
  - destruct F as (_ & _ & _ & _ & _ & -> & _). lra.
  - apply B.
  - change (- -2)%Z with 2%Z. destruct B as (_ & _ & -> & _). lra.
  - change (- -2)%Z with 2%Z. destruct B as (_ & _ & -> & _). destruct F as (_ & _ & _ & _ & _ & -> & _). field.
  - change (- -2)%Z with 2%Z. cbn [dom]. unfold id_walk.
    assert (T : exists l, touch (touch (NM l2 g) (-2)) 2 = NM l g).
    { unfold touch. cbn [dom at_]. destruct (memz (-2) l2); cbn [dom at_]; match goal with |- context [if ?b then _ else _] => destruct b end; eauto. }
    destruct T as (l & T). rewrite T in *. now apply compare_fb.
Qed.
Lemma nf_shape : nf = NM [4; 3; -2; -1]%Z (at_ nf). Proof. reflexivity. Qed.
Lemma nb_shape : nb = NM [2; 1; -4; -3]%Z (at_ nb). Proof. reflexivity. Qed.
Definition all_f := NM [-3; -4; 1; 2; 4; 3; -2; -1]%Z (at_ nf).
Definition all_b := NM [3; 4; -1; -2; 2; 1; -4; -3]%Z (at_ nb).
Lemma compare_1 : stoich_ratio id_walk nf nb = Ok (-1, (all_f, all_b)).
Proof.
  rewrite nf_shape, nb_shape. apply first_compare; [apply nf_at|apply nb_at| |].
  - change (union [4; 3; -2; -1]%Z [2; 1; -4; -3]%Z) with [4; 3; -2; -1; 2; 1; -4; -3]%Z. auto.
  - change (union [4; 3; -2; -1]%Z [2; 1; -4; -3]%Z) with [4; 3; -2; -1; 2; 1; -4; -3]%Z.
    generalize (at_ nf) (at_ nb). intros f g. reflexivity.
Qed.
Lemma compare_2 : stoich_ratio id_walk nf all_b = Ok (-1, (all_f, all_b)).
Proof.
  rewrite nf_shape. unfold all_b, all_f. apply first_compare; [apply nf_at|apply nb_at| |].
  - lazy. tauto.
  - generalize (at_ nf) (at_ nb). intros f g. lazy. reflexivity.
Qed.
Lemma compare_3 r2 : stoich_ratio id_walk all_f r2 = Ok (0, (all_f, r2)).
Proof.
  unfold stoich_ratio. change (first_key all_f) with (Some (-4)%Z). cbv beta iota zeta. assert (Z4 : at_ all_f (-4)%Z = 0) by apply nf_at. rewrite Z4. replace (reqb 0 0) with true by (symmetry; now apply reqb_true). reflexivity.
Qed.
Lemma step_reverse i m s r o n1 n2 q1 q2 : nth_error (c_rx s) i = Some r -> nth_error (c_rx s) m = Some o -> nth_error (c_net s) i = Some n1 -> nth_error (c_net s) m = Some n2 ->
  d_dup r = false -> d_type r = d_type o -> d_rtype r = d_rtype o -> d_rev r = false -> d_rev o = false ->
  stoich_ratio id_walk n1 n2 = Ok (-1, (q1, q2)) \/ stoich_ratio id_walk n1 n2 = Ok (0, (q1, q2)) ->
  forall names h te, pair_step names id_walk h te i m s = Go (DST (c_rx s) (put (put (c_net s) i q1) m q2) (c_unm s) (c_errs s) (c_warn s)).
Proof.
  intros E1 E2 E3 E4 D T RT V1 V2 S names h te. unfold pair_step. rewrite E1, E2, E3, E4, D, T, RT, !String.eqb_refl. cbn [andb negb].
  destruct S as [-> | ->]; cbn zeta.
  - replace (reqb (-1) 0) with false by (symmetry; apply reqb_false; lra). replace (rltb (-1) 0) with true by (symmetry; apply rltb_true; lra).
    rewrite V1, V2. reflexivity.
  - replace (reqb 0 0) with true by (symmetry; now apply reqb_true). reflexivity.
Qed.
Theorem C20_missed_refuted : exists names walk pick rs i m r o, walks walk /\ picks pick /\ Forall (proper names) rs /\ (m < i)%nat /\
  nth_error rs i = Some r /\ nth_error rs m = Some o /\ comparable r o /\ third_bodies_clash names Error r o /\ multiple 1 r o /\
  fst (checkDuplicates names walk Error true pick rs) = Ok Nothing.
Proof.
  exists four, id_walk, front, [cd_ab; ab_cd; ab_cd], 2%nat, 1%nat, ab_cd, ab_cd. split; [exact id_walks|]. split; [exact front_picks|].
  split; [apply proper3; auto using proper_ab, proper_cd|]. split; [lia|]. split; [reflexivity|]. split; [reflexivity|]. split; [apply comparable_simple|].
  split; [exact I|]. split; [apply one_multiple|]. unfold checkDuplicates. cbn [List.length]. change (declared [cd_ab; ab_cd; ab_cd]) with (@nil nat).
  set (rs := [cd_ab; ab_cd; ab_cd]).
  assert (K1 : key four ab_cd = 20%Z) by reflexivity. assert (K2 : key four cd_ab = 20%Z) by reflexivity.
  cbn [main_loop]. cbn [c_rx c_net c_unm c_errs c_warn nth_error rs related_loop]. rewrite !K2. cbn [app]. rewrite !K1. cbn [Z.eqb Pos.eqb app]. fold nf nb rs.
  cbn [related_loop].
  erewrite (step_reverse 1 0 _ ab_cd cd_ab nf nb all_f all_b); try reflexivity; [|left; exact compare_1].
  cbn [c_rx c_net c_unm c_errs c_warn put nth_error rs app]. rewrite !K1. cbn [Z.eqb Pos.eqb app related_loop]. fold nf nb rs.
  erewrite (step_reverse 2 0 _ ab_cd cd_ab nf all_b all_f all_b); try reflexivity; [|left; exact compare_2].
  cbn [c_rx c_net c_unm c_errs c_warn put].
  erewrite (step_reverse 2 1 _ ab_cd ab_cd all_f all_f all_f all_f); try reflexivity. right. apply compare_3.
Qed.

(** ** Two reactions *)
Lemma two names walk h te pick o r : key names o = key names r -> checkDuplicates names walk h te pick [o; r] =
  match pair_step names walk h te 1 0 (DST [o; r] [net names o; net names r] (declared [o; r]) [] []) with
  | Undefined => (UB, ([o; r], []))
  | Found i m s => (Ok (Pair i m), (c_rx s, c_warn s))
  | Go s =>
      let errs := map (fun p => Undeclared (fst p) (snd p)) (c_errs s) in
      (match c_unm s with
       | [] => Ok (match errs with [] => Nothing | _ => Throws errs end)
       | l => if te then Ok (Throws (errs ++ [Unmatched (pick l)])) else Ok (Pair (pick l) (pick l))
       end, (c_rx s, c_warn s))
  end.
Proof.
  intros K. unfold checkDuplicates. cbn [List.length main_loop c_rx c_net c_unm c_errs c_warn nth_error related_loop app]. rewrite !K, Z.eqb_refl. cbn [app related_loop].
  destruct (pair_step names walk h te 1 0 _); reflexivity.
Qed.

(** ** Not a duplicate, but reported: the first species is not looked for on the other side. *)
Definition three := ["X"; "A"; "B"].
Definition b_ax := simple [("B", 1)] [("A", 1); ("X", 1)] false true "B <=> A + X".
Definition a_b := simple [("A", 1)] [("B", 1)] false false "A => B".
Lemma proper_bax : proper three b_ax. Proof. proper_tac. Qed.
Lemma proper_a_b : proper three a_b. Proof. proper_tac. Qed.
Lemma na_dom : dom (net three a_b) = [3; -2]%Z. Proof. reflexivity. Qed.
Lemma nx_dom : dom (net three b_ax) = [1; 2; -3]%Z. Proof. reflexivity. Qed.
Ltac vals3 := cbn [net a_b b_ax simple d_react d_prod fold_left]; lazy -[Rplus Rmult Ropp Rinv Rdiv Rminus IZR]; ring.
Lemma na_at : at_ (net three a_b) 3 = 1 /\ at_ (net three a_b) (-2) = -1 /\ at_ (net three a_b) 1 = 0 /\ at_ (net three a_b) 2 = 0 /\ at_ (net three a_b) (-3) = 0.
Proof. repeat split; vals3. Qed.
Lemma nx_at : at_ (net three b_ax) (-3) = -1 /\ at_ (net three b_ax) 2 = 1 /\ at_ (net three b_ax) (-1) = 0 /\ at_ (net three b_ax) (-2) = 0 /\ at_ (net three b_ax) 3 = 0.
Proof. repeat split; vals3. Qed.
Theorem C20_false_duplicate_refuted : exists names walk pick rs i m r o, walks walk /\ picks pick /\ Forall (proper names) rs /\
  fst (checkDuplicates names walk Error true pick rs) = Ok (Throws [Undeclared i m]) /\
  nth_error rs i = Some r /\ nth_error rs m = Some o /\
  forall c, ~ same_direction c r o /\ ~ opposite (fun _ => True) c r o.
Proof.
  exists three, id_walk, front, [b_ax; a_b], 1%nat, 0%nat, a_b, b_ax. split; [exact id_walks|]. split; [exact front_picks|].
  split; [apply Forall_cons; [exact proper_bax|]; apply Forall_cons; [exact proper_a_b|apply Forall_nil]|].
  split; [|split; [reflexivity|split; [reflexivity|]]].
  - rewrite two by reflexivity. unfold pair_step. cbn [nth_error c_rx c_net].
    replace (d_dup a_b && d_dup b_ax) with false by reflexivity. replace (String.eqb (d_type a_b) (d_type b_ax)) with true by reflexivity.
    replace (String.eqb (d_rtype a_b) (d_rtype b_ax)) with true by reflexivity. cbn [negb].
    destruct (ratio_spec id_walk id_walks (net three a_b) (net three b_ax) (-2)%Z (fun _ => True) eq_refl) as (c & q1 & q2 & -> & _ & _ & _ & _ & CO); [auto|rewrite na_dom; cbn; auto|].
    destruct na_at as (A1 & A2 & A3 & A4 & A5), nx_at as (X1 & X2 & X3 & X4 & X5). change (- -2)%Z with 2%Z in CO. rewrite A2, X2 in CO.
    assert (C0 : c <> 0).
    { apply CO; [lra|lra|]. replace (1 / -1) with (-1) by field. rewrite na_dom, nx_dom. intros k Hk. cbn in Hk.
      decompose [or] Hk; try contradiction; subst k; cbn [Z.opp]; rewrite ?A1, ?A2, ?A3, ?A4, ?A5, ?X1, ?X2, ?X3, ?X4, ?X5;
        auto using agree_one, agree_one', agree_zero. }
    cbn zeta. apply reqb_false in C0. rewrite C0. replace (rltb c 0 && negb (d_rev a_b) && negb (d_rev b_ax)) with false by (cbn [b_ax simple d_rev negb]; now rewrite andb_false_r).
    reflexivity.
  - intros c. split; intros H.
    + destruct (H "A") as [[[_ H1] _] _]. cbn [a_b b_ax simple d_react d_prod] in H1. rewrite !amount_cons in H1. unfold amount, rsum in H1. cbn in H1. lra.
    + destruct (H "X" I) as [[[H1 _] _] _]. cbn [a_b b_ax simple d_react d_prod] in H1. rewrite !amount_cons in H1. unfold amount, rsum in H1. cbn in H1. lra.
Qed.

(** ** Declared duplicates need no partner that resembles them: an equal sum of k (k + 1) is enough. *)
Definition five := ["A"; "B"; "C"; "D"; "E"].
Definition e_a := simple [("E", 1)] [("A", 1)] true false "E => A".
Definition d_cb := simple [("D", 1)] [("C", 1); ("B", 1)] true false "D => C + B".
Lemma proper_e_a : proper five e_a. Proof. proper_tac. Qed.
Lemma proper_d_cb : proper five d_cb. Proof. proper_tac. Qed.
Theorem C20_declared_unrelated_refuted : exists names rs r o, Forall (proper names) rs /\ rs = [o; r] /\ d_dup o = true /\ d_dup r = true /\
  (forall s, In s (map fst (d_react r ++ d_prod r)) -> ~ In s (map fst (d_react o ++ d_prod o))) /\
  forall walk h te pick, fst (checkDuplicates names walk h te pick rs) = Ok Nothing.
Proof.
  exists five, [e_a; d_cb], d_cb, e_a. split; [apply Forall_cons; [exact proper_e_a|]; apply Forall_cons; [exact proper_d_cb|apply Forall_nil]|].
  split; [reflexivity|]. split; [reflexivity|]. split; [reflexivity|]. split.
  - intros s H. cbn in *. decompose [or] H; try contradiction; subst s; intuition discriminate.
  - intros walk h te pick. rewrite two by reflexivity. reflexivity.
Qed.

(** ** The messages: numbers and equations are exchanged, and one number starts from zero. *)
Theorem C20_message_refuted : exists rs i m, (m < i < List.length rs)%nat /\
  (exists n e, In (n, e) (message rs (Undeclared i m)) /\ forall r, nth_error rs (n - 1) = Some r -> d_eq r <> e) /\
  (exists n e, In (n, e) (message rs (Unmatched i)) /\ forall r, nth_error rs (n - 1) = Some r -> d_eq r <> e).
Proof.
  exists [ab_cd; cd_ab], 1%nat, 0%nat. cbn [List.length]. split; [lia|]. split.
  - exists 1%nat, "C + D => A + B". split; [left; reflexivity|]. cbn. intros r H. injection H as <-. discriminate.
  - exists 1%nat, "C + D => A + B". split; [left; reflexivity|]. cbn. intros r H. injection H as <-. discriminate.
Qed.

(** ** Reactions with both sides empty: the first entry of an empty map is read. *)
Theorem C20_empty_refuted : exists rs, Forall (fun r => d_react r = [] /\ d_prod r = []) rs /\ List.length rs = 2%nat /\
  forall names walk h te pick, fst (checkDuplicates names walk h te pick rs) = UB.
Proof.
  exists [simple [] [] false false "=>"; simple [] [] false false "=>"]. split; [repeat constructor|]. split; [reflexivity|].
  intros. rewrite two by reflexivity. reflexivity.
Qed.

(** ** Generic and explicit third bodies *)
Definition abr := ["A"; "B"; "AR"].
Definition with_m := RXN [("A", 1)] [("B", 1)] false true "three-body" "Arrhenius" (Some (TB "M" [] 1)) "A + M <=> B + M".
Definition with_ar := RXN [("A", 1)] [("B", 1)] false true "three-body" "Arrhenius" (Some (TB "AR" [("AR", 1)] 0)) "A + AR <=> B + AR".
Lemma proper_m : proper abr with_m. Proof. proper_tac. Qed.
Lemma proper_ar : proper abr with_ar. Proof. proper_tac. Qed.
Lemma proper_mar : Forall (proper abr) [with_m; with_ar].
Proof. apply Forall_cons; [exact proper_m|]. apply Forall_cons; [exact proper_ar|apply Forall_nil]. Qed.
Lemma m_ar_multiple : multiple 1 with_ar with_m.
Proof. intros s. split; cbn [with_m with_ar d_react d_prod]; ring. Qed.
Lemma m_ar_comparable : comparable with_ar with_m.
Proof. split; [intros [H _]; discriminate|split; reflexivity]. Qed.
Lemma ar_overlap : overlap abr (TB "AR" [("AR", 1)] 0) (TB "M" [] 1) = true.
Proof. apply overlap_iff. exists "AR". split; [cbn; auto|]. unfold eff. cbn. lra. Qed.
Lemma m_ar_pair h te : exists nets, pair_step abr id_walk h te 1 0 (DST [with_m; with_ar] [net abr with_m; net abr with_ar] [] [] []) =
  third_bodies abr h te 1 0 with_ar with_m (DST [with_m; with_ar] nets [] [] []).
Proof.
  apply (pair_reaches abr id_walk id_walks h te [with_m; with_ar] proper_mar 2 1 0 (DST [with_m; with_ar] [net abr with_m; net abr with_ar] [] [] []) with_ar with_m (net abr with_ar));
    try reflexivity; try lia.
  - split; [split; [apply all_evolve_refl|split; [reflexivity|]|intros p []]| |intros p []|auto].
    + intros j r nm Hr Hn. destruct j as [|[|j]]; cbn in Hr, Hn; [|..].
      * injection Hr as <-. injection Hn as <-. auto.
      * injection Hr as <-. injection Hn as <-. auto.
      * now destruct j.
    + intros j r r' A B. cbn in B. assert (r' = r) by congruence. subst. apply become_refl.
  - exact m_ar_comparable.
  - exists 1. split; [lra|]. left. exact m_ar_multiple.
  - intros k1 FK. injection FK as <-. apply (net_nz abr with_ar proper_ar). cbn. auto.
Qed.
(** "mark-duplicate" declares both. *)
Example C20_effects_case : checkDuplicates abr id_walk MarkDuplicate true front [with_m; with_ar] =
  (Ok Nothing, ([set_dup with_m; set_dup with_ar], [])).
Proof.
  rewrite two by reflexivity. change (declared [with_m; with_ar]) with (@nil nat). destruct (m_ar_pair MarkDuplicate true) as (nets & ->).
  unfold third_bodies. cbn [with_m with_ar d_tb]. rewrite ar_overlap. cbn [negb tb_name String.eqb Ascii.eqb Bool.eqb]. reflexivity.
Qed.
Example C20_warned_case : checkDuplicates abr id_walk Warn true front [with_m; with_ar] = (Ok Nothing, ([with_m; with_ar], [(1, 0)%nat])).
Proof.
  rewrite two by reflexivity. change (declared [with_m; with_ar]) with (@nil nat). destruct (m_ar_pair Warn true) as (nets & ->).
  unfold third_bodies. cbn [with_m with_ar d_tb]. rewrite ar_overlap. reflexivity.
Qed.
(** "modify-efficiency" changes the reaction, but not the efficiencies its rate is computed with. *)
Theorem C20_modify_rates_refuted : exists names walk pick rs r' t' c conc, walks walk /\ picks pick /\ Forall (proper names) rs /\
  let '(ans, (rs', inst)) := addReactions names walk ModifyEfficiency pick rs in
  ans = Ok Nothing /\ nth_error rs' 0 = Some r' /\ d_tb r' = Some t' /\ eff t' "AR" = 0 /\ In "AR" names /\
  nth_error inst 0 = Some (Some c) /\
  concm c conc (sum_n conc (List.length names)) <> sum_n (fun k => eff t' (nth k names "") * conc k) (List.length names).
Proof.
  exists abr, id_walk, front, [with_m; with_ar], (set_tb with_m (set_eff (TB "M" [] 1) "AR" 0)), (set_eff (TB "M" [] 1) "AR" 0), ([], 1), (fun _ => 1).
  split; [exact id_walks|]. split; [exact front_picks|]. split; [exact proper_mar|].
  unfold addReactions. rewrite two by reflexivity. change (declared [with_m; with_ar]) with (@nil nat). destruct (m_ar_pair ModifyEfficiency true) as (nets & ->).
  unfold third_bodies. cbn [with_m with_ar d_tb]. rewrite ar_overlap. cbn [negb tb_name String.eqb Ascii.eqb Bool.eqb c_unm c_errs c_rx map put].
  split; [reflexivity|]. split; [reflexivity|]. split; [reflexivity|]. split; [reflexivity|]. split; [cbn; auto|]. split; [reflexivity|].
  unfold concm, sum_n, rsum, eff. cbn. lra.
Qed.

(** ** The other theorems' hypotheses *)
Definition just_ab := simple [("A", 1)] [("B", 1)] false true "A <=> B".
Lemma proper_just : proper four just_ab. Proof. proper_tac. Qed.
Example C20_accepts_case : Forall (proper four) [ab_cd; just_ab] /\ (forall i m, ~ genuine four Error [ab_cd; just_ab] i m) /\
  (forall j, ~ lonely four [ab_cd; just_ab] j).
Proof.
  split; [apply Forall_cons; [exact proper_ab|]; apply Forall_cons; [exact proper_just|apply Forall_nil]|]. split.
  - intros i m (LT & r & o & E1 & E2 & _ & (c & _ & RB) & _). destruct i as [|[|i]]; [lia| |now destruct i]. destruct m as [|m]; [|lia].
    injection E1 as <-. injection E2 as <-. destruct RB as [H|[H _]].
    + destruct (H "C") as [_ [[H1 _] _]]. cbn [just_ab ab_cd simple d_react d_prod] in H1. rewrite !amount_cons in H1. unfold amount, rsum in H1. cbn in H1. lra.
    + destruct (H "C" ltac:(discriminate)) as [[[H1 _] _] _]. cbn [just_ab ab_cd simple d_react d_prod] in H1. rewrite !amount_cons in H1. unfold amount, rsum in H1. cbn in H1. lra.
  - intros j [(r & E & D) _]. destruct j as [|[|j]]; [injection E as <-; discriminate|injection E as <-; discriminate|now destruct j].
Qed.
Example C20_lonely_case : lonely five [e_a] 0 /\ exists k, fst (checkDuplicates five id_walk Error true front [e_a]) = Ok (Throws [Unmatched k]).
Proof.
  split; [|exists 0%nat; reflexivity]. split; [exists e_a; split; reflexivity|]. intros k (N & r & o & _ & E & _). destruct k as [|k]; [congruence|now destruct k].
Qed.
Example C20_reported_case : genuine four Error [ab_cd; cd_ab; cd_ab] 2 1.
Proof.
  destruct C20_found_case as (l & E & I).
  pose proof (C20_reported four id_walk Error true front [ab_cd; cd_ab; cd_ab] id_walks front_picks ltac:(apply proper3; auto using proper_ab, proper_cd)) as R.
  rewrite E in R. destruct R as (_ & _ & R). exact (R _ I).
Qed.
Print Assumptions C20_missed_refuted.
Print Assumptions C20_false_duplicate_refuted.
Print Assumptions C20_declared_unrelated_refuted.
Print Assumptions C20_message_refuted.
Print Assumptions C20_empty_refuted.
Print Assumptions C20_modify_rates_refuted.
