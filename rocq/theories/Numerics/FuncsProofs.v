(* Interpolation and quadrature. *)
From Coquelicot Require Import Coquelicot.
From Coq Require Import Reals List Bool Arith Lra Lia.
From Verif Require Import Base.Outcome Base.Fp Base.RSum Numerics.Model Numerics.Spec.
Import ListNotations.
Local Open Scope R_scope.

Lemma sum_n_Sn f n : RSum.sum_n f (S n) = RSum.sum_n f n + f n.
Proof. apply sum_n_S. Qed.

Lemma rd_nth l i : (i < length l)%nat -> rd l i = Ok (nth i l 0).
Proof. intros H. unfold rd. rewrite (nth_error_nth' l 0 H). reflexivity. Qed.
Lemma back_nth l : l <> [] -> back l = Ok (nth (length l - 1) l 0).
Proof.
  intros H. unfold back. destruct (rev l) as [|x r] eqn:E.
  - apply (f_equal (@rev R)) in E. rewrite rev_involutive in E. cbn in E. contradiction.
  - apply (f_equal (@rev R)) in E. rewrite rev_involutive in E. cbn in E. subst l.
    rewrite app_length. cbn [length]. rewrite app_nth2 by lia.
    replace (length (rev r) + 1 - 1 - length (rev r))%nat with 0%nat by lia. reflexivity.
Qed.

Lemma nondecreasing_le x i j :
  nondecreasing x -> (i <= j < length x)%nat -> nth i x 0 <= nth j x 0.
Proof.
  intros H [Hij Hj]. induction Hij as [|j Hij IH]; [lra|].
  specialize (H j). assert (j < length x)%nat by lia. specialize (IH H0). specialize (H Hj). lra.
Qed.
Lemma increasing_lt x i j : increasing x -> (i < j < length x)%nat -> nth i x 0 < nth j x 0.
Proof.
  intros H [Hij Hj]. induction Hij as [|j Hij IH]; [apply H; exact Hj|].
  assert (j < length x)%nat by lia. specialize (IH H0). specialize (H j Hj). lra.
Qed.
Lemma increasing_nondecreasing x : increasing x -> nondecreasing x.
Proof. intros H i Hi. specialize (H i Hi). lra. Qed.
Lemma increasing_tl a x : increasing (a :: x) -> increasing x.
Proof. intros H i Hi. apply (H (S i)). cbn. lia. Qed.
Lemma nondecreasing_tl a x : nondecreasing (a :: x) -> nondecreasing x.
Proof. intros H i Hi. apply (H (S i)). cbn. lia. Qed.

Lemma lower_bound_at x t i :
  nondecreasing x -> (i < length x)%nat -> t <= nth i x 0 -> (forall j, (j < i)%nat -> nth j x 0 < t) ->
  lower_bound (Fin t) x = i.
Proof.
  revert i; induction x as [|a x IH]; intros i Hn Hi Ht Hl; [cbn in Hi; lia|].
  cbn [lower_bound fltb]. destruct i as [|i].
  - cbn [nth] in Ht. destruct (rltb a t) eqn:E; [|reflexivity]. apply rltb_true in E. lra.
  - pose proof (Hl 0%nat ltac:(lia)) as H0. cbn [nth] in H0.
    rewrite (proj2 (rltb_true _ _) H0). f_equal. apply IH.
    + apply (nondecreasing_tl a); exact Hn.
    + cbn in Hi. lia.
    + exact Ht.
    + intros j Hj. apply (Hl (S j)). lia.
Qed.

Lemma fleb_fin a b : fleb (Fin a) (Fin b) = true <-> a <= b.
Proof.
  unfold fleb. rewrite orb_true_iff. cbn [fltb feqb]. rewrite rltb_true, reqb_true. lra.
Qed.
Lemma fleb_fin_f a b : fleb (Fin a) (Fin b) = false <-> b < a.
Proof.
  destruct (fleb (Fin a) (Fin b)) eqn:E.
  - apply fleb_fin in E. split; [discriminate|lra].
  - split; [|reflexivity]. intros _. destruct (Rlt_dec b a) as [H|H]; [exact H|].
    assert (X : fleb (Fin a) (Fin b) = true) by (apply fleb_fin; lra). congruence.
Qed.

Lemma interp_low x xs fs :
  (0 < length xs)%nat -> (0 < length fs)%nat -> fleb x (Fin (nth 0 xs 0)) = true ->
  linearInterp x xs fs = Ok (Fin (nth 0 fs 0)).
Proof.
  intros H1 H2 H. unfold linearInterp. rewrite rd_nth by exact H1. cbn [obind]. rewrite H.
  rewrite rd_nth by exact H2. reflexivity.
Qed.
Lemma interp_high x xs fs :
  increasing xs -> (0 < length xs)%nat -> length fs = length xs ->
  fleb (Fin (nth (length xs - 1) xs 0)) x = true ->
  linearInterp x xs fs = Ok (Fin (nth (length fs - 1) fs 0)).
Proof.
  intros Hi H1 H2 H. destruct (Nat.eq_dec (length xs) 1) as [E1|E1].
  - (* one point *)
    unfold linearInterp. rewrite rd_nth by exact H1. cbn [obind].
    assert (B1 : back xs = Ok (nth (length xs - 1) xs 0)).
    { apply back_nth. intros ->. cbn in H1. lia. }
    assert (B2 : back fs = Ok (nth (length fs - 1) fs 0)).
    { apply back_nth. intros ->. cbn in H2. lia. }
    destruct (fleb x (Fin (nth 0 xs 0))).
    + rewrite rd_nth by lia. cbn [omap obind]. replace (length fs - 1)%nat with 0%nat by lia. reflexivity.
    + rewrite B1. cbn [obind]. rewrite H, B2. reflexivity.
  - assert (F : fleb x (Fin (nth 0 xs 0)) = false).
    { assert (L : nth 0 xs 0 < nth (length xs - 1) xs 0) by (apply increasing_lt; [exact Hi|lia]).
      destruct x as [t| | |].
      - apply fleb_fin in H. apply fleb_fin_f. lra.
      - reflexivity.
      - discriminate H.
      - reflexivity. }
    unfold linearInterp. rewrite rd_nth by exact H1. cbn [obind]. rewrite F.
    rewrite (back_nth xs) by (intros ->; cbn in H1; lia). cbn [obind]. rewrite H.
    rewrite (back_nth fs) by (intros ->; cbn in H2; lia). reflexivity.
Qed.

Lemma interp_mid t xs fs i :
  increasing xs -> length fs = length xs -> (S i < length xs)%nat ->
  nth i xs 0 <= t <= nth (S i) xs 0 ->
  linearInterp (Fin t) xs fs =
    Ok (Fin (nth i fs 0 + (t - nth i xs 0) * (nth (S i) fs 0 - nth i fs 0) / (nth (S i) xs 0 - nth i xs 0))).
Proof.
  intros Hi Hf Hl Ht. pose proof (Hi i Hl) as Hs.
  destruct (Rle_dec t (nth 0 xs 0)) as [L|L].
  { rewrite interp_low; [| lia | lia | apply fleb_fin; exact L].
    destruct i as [|i].
    - assert (t = nth 0 xs 0) as -> by lra. do 2 f_equal. field. lra.
    - pose proof (increasing_lt xs 0 (S i) Hi ltac:(lia)). lra. }
  destruct (Rle_dec (nth (length xs - 1) xs 0) t) as [U|U].
  { rewrite interp_high; [| exact Hi | lia | exact Hf | apply fleb_fin; exact U].
    destruct (Nat.eq_dec (S i) (length xs - 1)) as [E|E].
    - rewrite Hf. rewrite <- E in *. assert (t = nth (S i) xs 0) as -> by lra. do 2 f_equal. field. lra.
    - pose proof (increasing_lt xs (S i) (length xs - 1) Hi ltac:(lia)). lra. }
  apply Rnot_le_lt in L, U. unfold linearInterp. rewrite rd_nth by lia. cbn [obind].
  rewrite (proj2 (fleb_fin_f _ _) L). rewrite (back_nth xs) by (intros ->; cbn in Hl; lia). cbn [obind].
  rewrite (proj2 (fleb_fin_f _ _) U).
  destruct (Req_EM_T t (nth i xs 0)) as [E|E].
  - (* on a node that is not the first: the preceding interval *)
    destruct i as [|i]; [lra|].
    assert (Hb : lower_bound (Fin t) xs = S i).
    { apply lower_bound_at; [apply increasing_nondecreasing; exact Hi|lia|lra|].
      intros j Hj. pose proof (increasing_lt xs j (S i) Hi ltac:(lia)). lra. }
    rewrite Hb. rewrite !rd_nth by lia. cbn [obind fsub fopp fadd fmul].
    pose proof (Hi i ltac:(lia)) as Hp. rewrite fdiv_fin by lra. cbn [fadd]. do 2 f_equal. rewrite E.
    field. split; lra.
  - assert (Hb : lower_bound (Fin t) xs = S i).
    { apply lower_bound_at; [apply increasing_nondecreasing; exact Hi|lia|lra|].
      intros j Hj. destruct (Nat.eq_dec j i) as [->|]; [lra|].
      pose proof (increasing_lt xs j i Hi ltac:(lia)). lra. }
    rewrite Hb. rewrite !rd_nth by lia. cbn [obind fsub fopp fadd fmul].
    rewrite fdiv_fin by lra. cbn [fadd]. do 2 f_equal.
Qed.

Lemma interp_bounds a b u v t : a < b -> a <= t <= b ->
  Rmin u v <= u + (t - a) * (v - u) / (b - a) <= Rmax u v.
Proof.
  intros H Ht. set (s := (t - a) / (b - a)).
  assert (S : 0 <= s <= 1).
  { unfold s. split.
    - apply Rmult_le_pos; [lra|]. left. apply Rinv_0_lt_compat. lra.
    - apply (Rmult_le_reg_r (b - a)); [lra|]. unfold Rdiv. rewrite Rmult_assoc, Rinv_l by lra. lra. }
  replace (u + (t - a) * (v - u) / (b - a)) with (u + s * (v - u)) by (unfold s; field; lra).
  destruct (Rle_dec u v) as [L|L].
  - rewrite Rmin_left, Rmax_right by lra. nra.
  - rewrite Rmin_right, Rmax_left by lra. nra.
Qed.

(* ---------------- quadrature ---------------- *)

Lemma diffs_length x : length (diffs x) = (length x - 1)%nat.
Proof.
  induction x as [|a [|b x] IH]; [reflexivity|reflexivity|].
  change (diffs (a :: b :: x)) with ((b - a) :: diffs (b :: x)). cbn [length] in *. rewrite IH. lia.
Qed.
Lemma diffs_nth x i : (S i < length x)%nat -> nth i (diffs x) 0 = nth (S i) x 0 - nth i x 0.
Proof.
  revert i. induction x as [|a [|b x] IH]; intros i H; [cbn in H; lia|cbn in H; lia|].
  change (diffs (a :: b :: x)) with ((b - a) :: diffs (b :: x)).
  destruct i as [|i]; [reflexivity|]. cbn [nth] in IH |- *. apply IH. cbn in *. lia.
Qed.
Lemma any_nonpos_false x : any_nonpos (diffs x) = false <-> increasing x.
Proof.
  unfold any_nonpos. split.
  - intros H i Hi. destruct (Rlt_dec (nth i x 0) (nth (S i) x 0)) as [L|L]; [exact L|exfalso].
    assert (X : existsb (fun h => negb (rltb 0 h)) (diffs x) = true); [|congruence].
    apply existsb_exists. exists (nth i (diffs x) 0). split.
    + apply nth_In. rewrite diffs_length. lia.
    + rewrite diffs_nth by exact Hi. apply negb_true_iff. apply rltb_false. lra.
  - intros H. destruct (existsb _ _) eqn:E; [|reflexivity].
    apply existsb_exists in E as (h & H1 & H2). apply negb_true_iff in H2. apply rltb_false in H2.
    apply In_nth with (d := 0) in H1 as (i & I1 & I2). rewrite diffs_length in I1.
    rewrite diffs_nth in I2 by lia. specialize (H i ltac:(lia)). lra.
Qed.

Lemma dot_sum f : forall x, length f = length x ->
  dot (pair_sums f) (diffs x) =
  RSum.sum_n (fun i => (nth (S i) f 0 + nth i f 0) * (nth (S i) x 0 - nth i x 0)) (length x - 1).
Proof.
  induction f as [|a [|b f] IH]; intros [|c [|d x]] H; cbn in H; try lia; try reflexivity.
  change (pair_sums (a :: b :: f)) with ((b + a) :: pair_sums (b :: f)).
  change (diffs (c :: d :: x)) with ((d - c) :: diffs (d :: x)). cbn [dot].
  rewrite IH by (cbn; lia).
  replace (length (c :: d :: x) - 1)%nat with (S (length (d :: x) - 1)) by (cbn; lia).
  rewrite sum_n_shift. reflexivity.
Qed.

(* Integrals of polynomials of degree two. *)
Lemma is_RInt_quad a b c u v :
  is_RInt (fun t => a * t ^ 2 + b * t + c) u v
    (a * (v ^ 3 - u ^ 3) / 3 + b * (v ^ 2 - u ^ 2) / 2 + c * (v - u)).
Proof.
  replace (a * (v ^ 3 - u ^ 3) / 3 + b * (v ^ 2 - u ^ 2) / 2 + c * (v - u))
    with (minus ((fun t => a * t ^ 3 / 3 + b * t ^ 2 / 2 + c * t) v)
                ((fun t => a * t ^ 3 / 3 + b * t ^ 2 / 2 + c * t) u)).
  2:{ unfold minus, plus, opp. cbn. field. }
  apply (is_RInt_derive (V := R_CompleteNormedModule) (fun t => a * t ^ 3 / 3 + b * t ^ 2 / 2 + c * t)
    (fun t => a * t ^ 2 + b * t + c)).
  - intros t _. auto_derive; [exact I|]. field.
  - intros t _. apply continuity_pt_filterlim. reg.
Qed.

Lemma RInt_segment g u v a b c :
  u <= v -> (forall t, u <= t <= v -> g t = a * t ^ 2 + b * t + c) ->
  is_RInt g u v (a * (v ^ 3 - u ^ 3) / 3 + b * (v ^ 2 - u ^ 2) / 2 + c * (v - u)).
Proof.
  intros Huv H. apply (is_RInt_ext (fun t => a * t ^ 2 + b * t + c)); [|apply is_RInt_quad].
  intros t Ht. rewrite Rmin_left, Rmax_right in Ht by exact Huv. symmetry. apply H. lra.
Qed.

Lemma chasles_n g (x : nat -> R) (s : nat -> R) n :
  (forall i, (i < n)%nat -> is_RInt g (x i) (x (S i)) (s i)) ->
  is_RInt g (x 0%nat) (x n) (RSum.sum_n s n).
Proof.
  induction n as [|n IH]; intros H.
  - rewrite RSum.sum_n_0. apply (is_RInt_point (V := R_NormedModule)).
  - rewrite sum_n_Sn. apply (is_RInt_Chasles (V := R_NormedModule) g (x 0%nat) (x n) (x (S n))).
    + apply IH. intros i Hi. apply H. lia.
    + apply H. lia.
Qed.

Lemma linear_segment g u v fu fv :
  u < v -> (forall t, u <= t <= v -> g t = fu + (t - u) * (fv - fu) / (v - u)) ->
  is_RInt g u v ((fv + fu) * (v - u) / 2).
Proof.
  intros Huv H.
  replace ((fv + fu) * (v - u) / 2)
    with (0 * (v ^ 3 - u ^ 3) / 3 + ((fv - fu) / (v - u)) * (v ^ 2 - u ^ 2) / 2 +
          (fu - u * (fv - fu) / (v - u)) * (v - u)) by (field; lra).
  apply RInt_segment; [lra|]. intros t Ht. rewrite H by exact Ht. field. lra.
Qed.

Lemma trapezoidal_exact f x g :
  (0 < length x)%nat -> increasing x -> length f = length x -> piecewise_linear g x f ->
  exists I, trapezoidal f x = Ok I /\ is_RInt g (nth 0 x 0) (nth (length x - 1) x 0) I.
Proof.
  intros H0 Hi Hl Hg. exists (dot (pair_sums f) (diffs x) / 2). split.
  - unfold trapezoidal. rewrite (proj2 (Nat.eqb_eq _ _) Hl). cbn [negb].
    rewrite (proj2 (any_nonpos_false x) Hi). destruct f; [cbn in Hl; lia|reflexivity].
  - rewrite dot_sum by exact Hl. unfold Rdiv. rewrite Rmult_comm. unfold RSum.sum_n.
    rewrite <- sum_of_scal.
    apply (chasles_n g (fun i => nth i x 0)
      (fun i => / 2 * ((nth (S i) f 0 + nth i f 0) * (nth (S i) x 0 - nth i x 0)))).
    intros i Hin. replace (/ 2 * ((nth (S i) f 0 + nth i f 0) * (nth (S i) x 0 - nth i x 0)))
      with ((nth (S i) f 0 + nth i f 0) * (nth (S i) x 0 - nth i x 0) / 2) by field.
    apply linear_segment; [apply Hi; lia|]. intros t Ht. apply Hg; [lia|exact Ht].
Qed.

Lemma simpson_segment f x g k :
  increasing x -> (2 * k + 2 < length x)%nat ->
  (exists a b c,
    (forall t, nth (2 * k) x 0 <= t <= nth (2 * k + 2) x 0 -> g t = a * t ^ 2 + b * t + c) /\
    (forall i, (2 * k <= i <= 2 * k + 2)%nat -> nth i f 0 = g (nth i x 0))) ->
  is_RInt g (nth (2 * k) x 0) (nth (2 * S k) x 0) (simpson_term f x (2 * k + 1)).
Proof.
  intros Hi Hk (a & b & c & Hg & Hf).
  replace (2 * S k)%nat with (2 * k + 2)%nat by lia.
  pose proof (Hi (2 * k)%nat ltac:(lia)) as L1.
  pose proof (Hi (S (2 * k))%nat ltac:(lia)) as L2.
  unfold simpson_term. replace (2 * k + 1 - 1)%nat with (2 * k)%nat by lia.
  replace (S (2 * k + 1)) with (2 * k + 2)%nat by lia.
  rewrite (Hf (2 * k)%nat), (Hf (2 * k + 1)%nat), (Hf (2 * k + 2)%nat) by lia.
  replace (S (2 * k)) with (2 * k + 1)%nat in * by lia.
  replace (S (2 * k + 1)) with (2 * k + 2)%nat in * by lia.
  rewrite !Hg by lra.
  set (u := nth (2 * k) x 0) in *. set (v := nth (2 * k + 1) x 0) in *. set (w := nth (2 * k + 2) x 0) in *.
  match goal with |- is_RInt _ _ _ ?e =>
    replace e with (a * (w ^ 3 - u ^ 3) / 3 + b * (w ^ 2 - u ^ 2) / 2 + c * (w - u)) end.
  - apply RInt_segment; [lra|]. intros t Ht. apply Hg. exact Ht.
  - field. repeat split; lra.
Qed.

Lemma fold_sum (f : nat -> R) l : forall acc, fold_left (fun s k => s + f k) l acc = acc + sum_of f l.
Proof.
  induction l as [|k l IH]; intros acc; cbn [fold_left]; [cbn; ring|].
  rewrite IH, sum_of_cons. ring.
Qed.

Lemma basicSimpson_exact f x g n :
  increasing x -> length f = (2 * n + 1)%nat -> (2 * n + 1 <= length x)%nat -> (0 < n)%nat ->
  piecewise_quadratic g x f n ->
  exists I, basicSimpson f x = Ok I /\ is_RInt g (nth 0 x 0) (nth (2 * n) x 0) I.
Proof.
  intros Hi Hl Hx Hn Hg. unfold basicSimpson. rewrite Hl.
  replace (Nat.ltb (2 * n + 1) 2) with false by (symmetry; apply Nat.ltb_ge; lia).
  replace (Nat.even (2 * n + 1)) with false.
  2:{ symmetry. rewrite Nat.even_add, Nat.even_mul. reflexivity. }
  replace ((2 * n + 1 - 1) / 2)%nat with n.
  2:{ replace (2 * n + 1 - 1)%nat with (n * 2)%nat by lia. rewrite Nat.div_mul by lia. reflexivity. }
  eexists. split; [reflexivity|]. rewrite fold_sum, Rplus_0_l.
  apply (chasles_n g (fun k => nth (2 * k) x 0) (fun k => simpson_term f x (2 * k + 1)) n).
  intros k Hk. apply simpson_segment; [exact Hi|lia|]. apply Hg. exact Hk.
Qed.

Lemma nth_firstn_lt {A} n (l : list A) d i : (i < n)%nat -> nth i (firstn n l) d = nth i l d.
Proof.
  revert l i; induction n as [|n IH]; intros l i H; [lia|].
  destruct l as [|a l]; [destruct i; reflexivity|]. destruct i as [|i]; [reflexivity|].
  cbn [firstn nth]. apply IH. lia.
Qed.

Lemma simpson_odd_exact f x g n :
  increasing x -> length f = (2 * n + 1)%nat -> length x = (2 * n + 1)%nat -> (0 < n)%nat ->
  piecewise_quadratic g x f n ->
  exists I, simpson f x = Ok I /\ is_RInt g (nth 0 x 0) (nth (2 * n) x 0) I.
Proof.
  intros Hi Hl Hx Hn Hg.
  destruct (basicSimpson_exact f x g n Hi Hl ltac:(lia) Hn Hg) as (v & E & V).
  exists v. split; [|exact V]. rewrite <- E. unfold simpson. destruct x as [|x0 x']; [cbn in Hx; lia|].
  rewrite (proj2 (any_nonpos_false _) Hi). rewrite Hl, Hx, Nat.eqb_refl. cbn [negb].
  replace (Nat.odd (2 * n + 1)) with true; [reflexivity|].
  symmetry. rewrite <- Nat.negb_even, Nat.even_add, Nat.even_mul. reflexivity.
Qed.

Lemma simpson_even_exact f x g n :
  increasing x -> length f = (2 * n + 2)%nat -> length x = (2 * n + 2)%nat ->
  piecewise_quadratic g x f n ->
  (forall t, nth (2 * n) x 0 <= t <= nth (2 * n + 1) x 0 ->
     g t = nth (2 * n) f 0 + (t - nth (2 * n) x 0) * (nth (2 * n + 1) f 0 - nth (2 * n) f 0) /
           (nth (2 * n + 1) x 0 - nth (2 * n) x 0)) ->
  exists I, simpson f x = Ok I /\ is_RInt g (nth 0 x 0) (nth (2 * n + 1) x 0) I.
Proof.
  intros Hi Hl Hx Hg Hlast.
  pose proof (Hi (2 * n)%nat ltac:(lia)) as L. replace (S (2 * n)) with (2 * n + 1)%nat in L by lia.
  assert (Hd : nth (2 * n) (diffs x) 0 = nth (2 * n + 1) x 0 - nth (2 * n) x 0).
  { rewrite diffs_nth by lia. replace (S (2 * n)) with (2 * n + 1)%nat by lia. reflexivity. }
  pose proof (linear_segment g _ _ _ _ L Hlast) as V2.
  unfold simpson. destruct x as [|x0 x']; [cbn in Hx; lia|]. set (x := x0 :: x') in *.
  rewrite (proj2 (any_nonpos_false _) Hi). rewrite Hl, Hx, Nat.eqb_refl. cbn [negb].
  replace (Nat.odd (2 * n + 2)) with false.
  2:{ symmetry. rewrite <- Nat.negb_even, Nat.even_add, Nat.even_mul. reflexivity. }
  destruct (Nat.eq_dec n 0) as [->|Hn].
  - cbn [Nat.mul Nat.add Nat.eqb]. cbn [Nat.mul Nat.add] in Hd. rewrite Hd.
    eexists. split; [reflexivity|]. cbn [Nat.mul Nat.add] in V2.
    match goal with |- is_RInt _ _ _ ?e => replace e with
      ((nth 1 f 0 + nth 0 f 0) * (nth 1 x 0 - nth 0 x 0) / 2) by lra end. exact V2.
  - replace (Nat.eqb (2 * n + 2) 2) with false by (symmetry; apply Nat.eqb_neq; lia).
    replace (2 * n + 2 - 1)%nat with (2 * n + 1)%nat by lia.
    replace (2 * n + 1 - 1)%nat with (2 * n)%nat by lia.
    destruct (basicSimpson_exact (firstn (2 * n + 1) f) (firstn (2 * n + 1) x) g n) as (v & E & V).
    + intros i H. rewrite firstn_length in H. rewrite !nth_firstn_lt by lia. apply Hi. lia.
    + rewrite firstn_length. lia.
    + rewrite firstn_length. lia.
    + lia.
    + intros k Hk. destruct (Hg k Hk) as (a & b & c & G1 & G2). exists a, b, c. split.
      * rewrite !nth_firstn_lt by lia. exact G1.
      * intros i H. rewrite !nth_firstn_lt by lia. apply G2. exact H.
    + rewrite E. cbn [obind]. eexists. split; [reflexivity|]. rewrite Hd.
      rewrite !nth_firstn_lt in V by lia.
      replace (v + 0.5 * (nth (2 * n + 1) x 0 - nth (2 * n) x 0) * (nth (2 * n + 1) f 0 + nth (2 * n) f 0))
        with (plus v ((nth (2 * n + 1) f 0 + nth (2 * n) f 0) * (nth (2 * n + 1) x 0 - nth (2 * n) x 0) / 2)).
      2:{ unfold plus. cbn. lra. }
      apply (is_RInt_Chasles (V := R_NormedModule) g _ (nth (2 * n) x 0)); assumption.
Qed.
