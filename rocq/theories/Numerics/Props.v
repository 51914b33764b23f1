(* Theorems about interpolation, quadrature and matrices (C28, C39, C53, C54). *)
From Coquelicot Require Import Coquelicot.
From Coq Require Import String Reals List Bool Arith Lra Lia.
From Verif Require Import Base.Outcome Base.Fp Base.RSum Numerics.Model Numerics.Spec
  Numerics.FuncsProofs Numerics.MatProofs.
Import ListNotations.
Local Open Scope R_scope.

(** * C28: interpolation and quadrature *)

(* Inside the table: the line through the neighbouring points, which lies between
   their values. *)
Theorem C28_interp_between t xs fs i :
  increasing xs -> length fs = length xs -> (S i < length xs)%nat ->
  nth i xs 0 <= t <= nth (S i) xs 0 ->
  exists v, linearInterp (Fin t) xs fs = Ok (Fin v) /\
    v = nth i fs 0 + (t - nth i xs 0) * (nth (S i) fs 0 - nth i fs 0) / (nth (S i) xs 0 - nth i xs 0) /\
    Rmin (nth i fs 0) (nth (S i) fs 0) <= v <= Rmax (nth i fs 0) (nth (S i) fs 0).
Proof.
  intros Hi Hf Hl Ht. eexists. split; [apply interp_mid with (i := i); assumption|].
  split; [reflexivity|]. apply interp_bounds; [apply Hi; exact Hl|exact Ht].
Qed.
Print Assumptions C28_interp_between.

(* At a table point: the tabulated value. *)
Theorem C28_interp_node xs fs i :
  increasing xs -> length fs = length xs -> (i < length xs)%nat ->
  linearInterp (Fin (nth i xs 0)) xs fs = Ok (Fin (nth i fs 0)).
Proof.
  intros Hi Hf Hl. destruct (Nat.eq_dec (S i) (length xs)) as [E|E].
  - rewrite interp_high.
    + rewrite Hf, <- E. do 3 f_equal. lia.
    + exact Hi.
    + lia.
    + exact Hf.
    + apply fleb_fin. rewrite <- E. replace (S i - 1)%nat with i by lia. lra.
  - rewrite interp_mid with (i := i); try assumption; [|lia|].
    + do 2 f_equal. pose proof (Hi i ltac:(lia)). field. lra.
    + pose proof (Hi i ltac:(lia)). lra.
Qed.
Print Assumptions C28_interp_node.

(* Outside: the nearest end, for infinite arguments as well. *)
Theorem C28_interp_below x xs fs :
  (0 < length xs)%nat -> (0 < length fs)%nat -> x = NInf \/ (exists t, x = Fin t /\ t <= nth 0 xs 0) ->
  linearInterp x xs fs = Ok (Fin (nth 0 fs 0)).
Proof.
  intros H1 H2 H. apply interp_low; try assumption.
  destruct H as [->|(t & -> & Ht)]; [reflexivity|apply fleb_fin; exact Ht].
Qed.
Theorem C28_interp_above x xs fs :
  increasing xs -> (0 < length xs)%nat -> length fs = length xs ->
  x = PInf \/ (exists t, x = Fin t /\ nth (length xs - 1) xs 0 <= t) ->
  linearInterp x xs fs = Ok (Fin (nth (length xs - 1) fs 0)).
Proof.
  intros Hi H1 H2 H. rewrite <- H2. apply interp_high; try assumption.
  destruct H as [->|(t & -> & Ht)]; [reflexivity|apply fleb_fin; exact Ht].
Qed.
Print Assumptions C28_interp_above.

(* A NaN argument is not handled: the element before the table is read. *)
Theorem C28_interp_nan_refuted xs fs : xs <> [] -> linearInterp NaN xs fs = UB.
Proof.
  intros H. unfold linearInterp. destruct xs as [|a xs]; [contradiction|]. cbn [rd nth_error obind].
  replace (fleb NaN (Fin a)) with false by reflexivity.
  rewrite back_nth by discriminate. cbn [obind].
  replace (fleb (Fin _) NaN) with false by reflexivity. reflexivity.
Qed.
Print Assumptions C28_interp_nan_refuted.

Example C28_interp_ex : increasing [1; 2; 4] /\ linearInterp (Fin 3) [1; 2; 4] [10; 20; 0] = Ok (Fin 10).
Proof.
  assert (H : increasing [1; 2; 4]).
  { intros [|[|[|i]]] Hi; cbn in *; try lra; lia. }
  split; [exact H|].
  rewrite interp_mid with (i := 1%nat); [|exact H|reflexivity|cbn; lia|cbn; lra].
  do 2 f_equal. cbn. lra.
Qed.

(* Trapezoidal integration is exact for piecewise linear functions. *)
Theorem C28_trapezoidal f x g :
  (0 < length x)%nat -> increasing x -> length f = length x -> piecewise_linear g x f ->
  exists I, trapezoidal f x = Ok I /\ is_RInt g (nth 0 x 0) (nth (length x - 1) x 0) I.
Proof. apply trapezoidal_exact. Qed.
Print Assumptions C28_trapezoidal.

(* Simpson's rule is exact for functions quadratic on each pair of intervals,
   if the number of points is odd. *)
Theorem C28_simpson_odd f x g n :
  increasing x -> length f = (2 * n + 1)%nat -> length x = (2 * n + 1)%nat -> (0 < n)%nat ->
  piecewise_quadratic g x f n ->
  exists I, simpson f x = Ok I /\ is_RInt g (nth 0 x 0) (nth (2 * n) x 0) I.
Proof. apply simpson_odd_exact. Qed.
Print Assumptions C28_simpson_odd.

(* For an even number of points the last interval is integrated by the
   trapezoidal rule. *)
Theorem C28_simpson_even f x g n :
  increasing x -> length f = (2 * n + 2)%nat -> length x = (2 * n + 2)%nat ->
  piecewise_quadratic g x f n ->
  (forall t, nth (2 * n) x 0 <= t <= nth (2 * n + 1) x 0 ->
     g t = nth (2 * n) f 0 + (t - nth (2 * n) x 0) * (nth (2 * n + 1) f 0 - nth (2 * n) f 0) /
           (nth (2 * n + 1) x 0 - nth (2 * n) x 0)) ->
  exists I, simpson f x = Ok I /\ is_RInt g (nth 0 x 0) (nth (2 * n + 1) x 0) I.
Proof. apply simpson_even_exact. Qed.
Print Assumptions C28_simpson_even.

(* So "exact for quadratics" fails for an even number of points. *)
Theorem C28_simpson_even_refuted :
  exists I, simpson [0; 1; 4; 9] [0; 1; 2; 3] = Ok I /\ is_RInt (fun t => t ^ 2) 0 3 9 /\ I <> 9.
Proof.
  assert (D : any_nonpos (diffs [0; 1; 2; 3]) = false).
  { apply any_nonpos_false. intros [|[|[|[|i]]]] Hi; cbn in *; try lra; lia. }
  eexists. split; [|split].
  - unfold simpson. rewrite D. cbn [length Nat.eqb negb Nat.odd Nat.even].
    unfold basicSimpson. cbn [length firstn Nat.sub Nat.ltb Nat.leb Nat.even obind]. reflexivity.
  - replace 9 with (1 * (3 ^ 3 - 0 ^ 3) / 3 + 0 * (3 ^ 2 - 0 ^ 2) / 2 + 0 * (3 - 0)) by field.
    apply (RInt_segment (fun t => t ^ 2)); [lra|]. intros. ring.
  - unfold simpson_term. cbn. lra.
Qed.
Print Assumptions C28_simpson_even_refuted.

(* Tables that are not strictly increasing and tables of different lengths are
   rejected by both rules; other method names as well. *)
Theorem C28_rejects f x :
  x <> [] -> f <> [] -> ~ (increasing x /\ length f = length x) ->
  trapezoidal f x = Err /\ simpson f x = Err.
Proof.
  intros Hx Hf H.
  destruct (any_nonpos (diffs x)) eqn:A.
  - split.
    + unfold trapezoidal. destruct (Nat.eqb (length f) (length x)); cbn [negb]; [|reflexivity].
      rewrite A. destruct f; [contradiction|reflexivity].
    + unfold simpson. rewrite A. destruct x; [contradiction|reflexivity].
  - apply any_nonpos_false in A.
    assert (L : Nat.eqb (length f) (length x) = false).
    { apply Nat.eqb_neq. intros E. apply H. split; assumption. }
    split.
    + unfold trapezoidal. rewrite L. reflexivity.
    + unfold simpson. rewrite (proj2 (any_nonpos_false x) A), L. destruct x; [contradiction|reflexivity].
Qed.
Theorem C28_dispatch m f x :
  numericalQuadrature "simpson" f x = simpson f x /\
  numericalQuadrature "trapezoidal" f x = trapezoidal f x /\
  (m <> "simpson"%string -> m <> "trapezoidal"%string -> numericalQuadrature m f x = Err).
Proof.
  split; [reflexivity|]. split; [reflexivity|]. intros H1 H2. unfold numericalQuadrature.
  destruct (String.eqb_spec m "simpson"); [contradiction|].
  destruct (String.eqb_spec m "trapezoidal"); [contradiction|reflexivity].
Qed.
Print Assumptions C28_rejects.
Print Assumptions C28_dispatch.

(* Empty tables are not rejected: lengths agree and a vector of length -1 is
   formed. *)
Theorem C28_empty_refuted : trapezoidal [] [] = UB /\ simpson [] [] = UB /\ linearInterp (Fin 0) [] [] = UB.
Proof. repeat split; reflexivity. Qed.

Example C28_trapezoidal_ex : piecewise_linear (fun t => Rabs t) [-2; 0; 1] [2; 0; 1] /\ increasing [-2; 0; 1].
Proof.
  split.
  - intros [|[|[|i]]] t Hi Ht; cbn in *; try lia.
    + rewrite Rabs_left1 by lra. field.
    + rewrite Rabs_right by lra. field.
  - intros [|[|[|i]]] Hi; cbn in *; try lra; lia.
Qed.
Example C28_simpson_ex :
  piecewise_quadratic (fun t => t * t - 3 * t) [0; 1; 3; 4; 7] [0; -2; 0; 4; 28] 2 /\ increasing [0; 1; 3; 4; 7].
Proof.
  split.
  - intros k Hk. exists 1, (-3), 0. split; [intros; ring|]. intros i Hi.
    destruct k as [|[|k]]; [| |lia];
      (destruct i as [|[|[|[|[|i]]]]]; cbn in *; try lia; ring).
  - intros [|[|[|[|[|i]]]]] Hi; cbn in *; try lra; lia.
Qed.

(** * C39: matrices address their entries *)

(* Array2D and DenseMatrix: after any sequence of writes, the entries are those of
   the matrix the calls describe; rows, columns and left products agree. *)
Theorem C39_array ops m n v :
  arr_ok ops (Matrix m n (fun _ _ => v)) ->
  exists a, arun ops (arr_new m n v) = Ok a /\
    let M := fold_left arr_step ops (Matrix m n (fun _ _ => v)) in
    a_nr a = M_nr M /\ a_nc a = M_nc M /\
    (forall i j, (i < M_nr M)%nat -> (j < M_nc M)%nat -> arr_get a i j = Ok (M_at M i j)) /\
    (forall i, (i < M_nr M)%nat -> getRow a i = Ok (map (fun j => M_at M i j) (seq 0 (M_nc M)))) /\
    (forall j, (j < M_nc M)%nat -> getColumn a j = Ok (map (fun i => M_at M i j) (seq 0 (M_nr M)))) /\
    (forall b, dense_leftMult a b =
       Ok (map (fun j => RSum.sum_n (fun i => M_at M i j * b i) (M_nr M)) (seq 0 (M_nc M)))).
Proof.
  intros H. destruct (rep_run ops _ _ (rep_new m n v) H) as (a & E & R). exists a.
  split; [exact E|]. cbv zeta. split; [apply R|]. split; [apply R|].
  split; [intros; apply rep_get; assumption|]. split; [intros; apply rep_row; assumption|].
  split; [intros; apply rep_column; assumption|]. intros; apply rep_leftMult; assumption.
Qed.
Print Assumptions C39_array.

Example C39_array_ex :
  arr_ok [ASet 1 2 5; ASetRow 0 INR; ASetColumn 1 INR; AResize 2 4 7; AScale 2; ASet 1 3 1]
    (Matrix 2 3 (fun _ _ => 0)) /\
  M_at (fold_left arr_step [ASet 1 2 5; ASetRow 0 INR; ASetColumn 1 INR; AResize 2 4 7; AScale 2; ASet 1 3 1]
    (Matrix 2 3 (fun _ _ => 0))) 1 2 = 10.
Proof. split; cbn; [repeat split; lia|lra]. Qed.

(* Changing the number of rows moves the entries. *)
Theorem C39_resize_rows_refuted :
  exists a, arun [ASet 0 1 5; AResize 3 2 0] (arr_new 2 2 0) = Ok a /\ arr_get a 0 1 = Ok 0.
Proof. eexists. split; reflexivity. Qed.

(* appendColumn does not append a column: it writes outside the storage of a matrix
   with one row, and into other entries otherwise. *)
Theorem C39_append_refuted :
  appendColumn (arr_new 1 1 0) [7] = UB /\
  exists a, appendColumn (arr_new 2 2 0) [7; 8] = Ok a /\
    arr_get a 0 2 = Ok 0 /\ arr_get a 1 1 = Ok 7.
Proof. split; [reflexivity|]. eexists. repeat split; reflexivity. Qed.
Print Assumptions C39_append_refuted.

(* BandMatrix: after any sequence of calls, entries read through the const accessor
   are those of the banded matrix the calls describe (zero outside the band), and so
   are the entries of the columns handed out by ptrColumn; the products are the
   products with that matrix. *)
Theorem C39_band fok ops n kl ku v :
  band_ok ops (constant_band n kl ku v) ->
  exists b, brun fok ops (band_new n kl ku v) = Ok b /\
    let M := fold_left band_step ops (constant_band n kl ku v) in
    b_n b = B_n M /\
    (forall i j, (i < B_n M)%nat -> (j < B_n M)%nat -> band_get b i j = Ok (B_at M i j)) /\
    (forall i j, (i < B_n M)%nat -> (j < B_n M)%nat -> in_band (B_kl M) (B_ku M) i j ->
       column_get b j (B_kl M + B_ku M + i - j) = Ok (B_at M i j)) /\
    (forall i j, ~ in_band (B_kl M) (B_ku M) i j -> B_at M i j = 0) /\
    (forall w, band_mult b w =
       Ok (map (fun i => RSum.sum_n (fun j => B_at M i j * w j) (B_n M)) (seq 0 (B_n M)))) /\
    (forall w, band_leftMult b w =
       Ok (map (fun j => RSum.sum_n (fun i => B_at M i j * w i) (B_n M)) (seq 0 (B_n M)))).
Proof.
  intros H. destruct (repb_run fok ops (band_new n kl ku v) _ (repb_const n kl ku v _ _ _) H) as (b & E & R).
  exists b. split; [exact E|]. cbv zeta. split; [apply R|].
  split; [intros; apply repb_get; assumption|]. split; [intros; apply repb_pointer; assumption|].
  split; [apply (fun i j => repb_zero b _ i j R)|].
  split; [intros; apply repb_mult; assumption|intros; apply repb_leftMult; assumption].
Qed.
Print Assumptions C39_band.

Example C39_band_ex :
  let ops := [BSet 0 1 3; BSet 2 0 9; BFactor; BSet 1 0 4; BResize 3 1 1 1; BSet 2 1 6] in
  band_ok ops (constant_band 3 1 1 0) /\
  B_at (fold_left band_step ops (constant_band 3 1 1 0)) 2 1 = 6 /\
  B_at (fold_left band_step ops (constant_band 3 1 1 0)) 2 0 = 0.
Proof. cbn. repeat split; lia. Qed.

(* Read through a non-const matrix, an entry outside the band is whatever was last
   written outside the band. *)
Theorem C39_out_of_band_refuted :
  exists b, brun (fun _ => true) [BSet 2 0 9] (band_new 3 1 1 0) = Ok b /\
    band_get b 0 2 = Ok 0 /\ omap snd (band_ref_get b 0 2) = Ok 9.
Proof. eexists. repeat split; reflexivity. Qed.
Print Assumptions C39_out_of_band_refuted.

(** * C53: a solve uses the factors of the current matrix *)

(* After any sequence of writes through value(), fills, resizes, factorisations and
   solves, a solve that succeeds uses the factors of the matrix as it is then. *)
Theorem C53_current_factors fok ops n kl ku v b m b' :
  brun fok ops (band_new n kl ku v) = Ok b -> solve fok b = (Ok m, b') ->
  m = b_data b /\ fok m = true /\ b_data b' = b_data b.
Proof.
  intros E S. assert (F : fresh fok b).
  { apply (fresh_run fok ops (band_new n kl ku v) b); [intros X; discriminate X|exact E]. }
  unfold solve in S. destruct (b_factored b) eqn:Eb.
  - destruct (F Eb) as [F1 F2]. cbn [obind] in S. rewrite F1 in S. inversion S; subst.
    split; [reflexivity|]. split; [exact F2|reflexivity].
  - unfold factor in S. destruct (fok (b_data b)) eqn:Ef; cbn in S; inversion S; subst.
    split; [reflexivity|]. split; [exact Ef|reflexivity].
Qed.
Print Assumptions C53_current_factors.

(* It fails only if the factorisation of the current matrix fails. *)
Theorem C53_failure fok ops n kl ku v b r b' :
  brun fok ops (band_new n kl ku v) = Ok b -> solve fok b = (r, b') ->
  (forall m, r <> Ok m) -> r = Err /\ fok (b_data b) = false.
Proof.
  intros E S N. assert (F : fresh fok b).
  { apply (fresh_run fok ops (band_new n kl ku v) b); [intros X; discriminate X|exact E]. }
  unfold solve in S. destruct (b_factored b) eqn:Eb.
  - destruct (F Eb) as [F1 F2]. cbn [obind] in S. rewrite F1 in S. inversion S; subst.
    exfalso. apply (N (b_data b')). reflexivity.
  - unfold factor in S. destruct (fok (b_data b)) eqn:Ef; cbn in S; inversion S; subst.
    + exfalso. apply (N (b_data b)). reflexivity.
    + split; reflexivity.
Qed.
Print Assumptions C53_failure.

Example C53_ex :
  exists b, brun (fun _ => true) [BSet 0 0 2; BFactor; BSet 0 0 3; BSolve; BFill 4] (band_new 1 0 0 1) = Ok b /\
    fst (solve (fun _ => true) b) = Ok [4].
Proof. eexists. split; reflexivity. Qed.

(* Entries written through the column pointers do not invalidate the factors. *)
Theorem C53_column_pointer_refuted :
  exists b b1, brun (fun _ => true) [BFactor] (band_new 1 0 0 1) = Ok b /\
    column_set b 0 0 5 = Ok b1 /\ b_data b1 = [5] /\ fst (solve (fun _ => true) b1) = Ok [1].
Proof. eexists. eexists. repeat split; reflexivity. Qed.
Print Assumptions C53_column_pointer_refuted.

(** * C54: norms and weakest lines *)

Theorem C54_one_norm fok ops n kl ku v :
  band_ok ops (constant_band n kl ku v) ->
  exists b w, brun fok ops (band_new n kl ku v) = Ok b /\ oneNorm b = Ok w /\
    let M := fold_left band_step ops (constant_band n kl ku v) in
    (forall j, (j < B_n M)%nat -> RSum.sum_n (fun i => Rabs (B_at M i j)) (B_n M) <= w) /\
    ((0 < B_n M)%nat ->
       exists j, (j < B_n M)%nat /\ w = RSum.sum_n (fun i => Rabs (B_at M i j)) (B_n M)).
Proof.
  intros H. destruct (repb_run fok ops (band_new n kl ku v) _ (repb_const n kl ku v _ _ _) H) as (b & E & R).
  destruct (repb_norm b _ R) as (w & W). exists b, w. split; [exact E|]. exact W.
Qed.
Print Assumptions C54_one_norm.

(* checkRows and checkColumns find the first line whose largest magnitude is
   smallest. *)
Theorem C54_weakest fok ops n kl ku v :
  band_ok ops (constant_band n kl ku v) ->
  exists b rr rc, brun fok ops (band_new n kl ku v) = Ok b /\
    checkRows b = Ok rr /\ checkColumns b = Ok rc /\
    let M := fold_left band_step ops (constant_band n kl ku v) in
    weakest (B_at M) (B_n M) rr /\ weakest (fun j i => B_at M i j) (B_n M) rc.
Proof.
  intros H. destruct (repb_run fok ops (band_new n kl ku v) _ (repb_const n kl ku v _ _ _) H) as (b & E & R).
  destruct (repb_rows b _ R) as (rr & R1 & R2). destruct (repb_columns b _ R) as (rc & C1 & C2).
  exists b, rr, rc. split; [exact E|]. split; [exact R1|]. split; [exact C1|]. split; [exact R2|exact C2].
Qed.
Print Assumptions C54_weakest.

(* So a zero row is reported exactly when there is one. *)
Theorem C54_zero_row fok ops n kl ku v :
  band_ok ops (constant_band n kl ku v) ->
  exists b r w, brun fok ops (band_new n kl ku v) = Ok b /\ checkRows b = Ok (r, w) /\
    let M := fold_left band_step ops (constant_band n kl ku v) in
    (w = 0 <-> exists i, (i < B_n M)%nat /\ forall j, (j < B_n M)%nat -> B_at M i j = 0).
Proof.
  intros H. destruct (C54_weakest fok ops n kl ku v H) as (b & [r w] & rc & E & R1 & _ & W).
  exists b, r, w. split; [exact E|]. split; [exact R1|]. destruct W as [W _].
  set (M := fold_left band_step ops (constant_band n kl ku v)) in *. cbv zeta.
  assert (Hh : 0 < huge300) by (apply pow_lt; lra).
  assert (Z : forall i u, line_max (B_at M i) (B_n M) u ->
     ((forall j, (j < B_n M)%nat -> B_at M i j = 0) <-> u = 0)).
  { intros i u [L1 (k & K1 & K2)]. split.
    - intros X. rewrite <- K2, X by exact K1. apply Rabs_R0.
    - intros -> j Hj. specialize (L1 j Hj). pose proof (Rabs_pos (B_at M i j)).
      destruct (Req_EM_T (B_at M i j) 0) as [Q|Q]; [exact Q|]. apply Rabs_no_R0 in Q. lra. }
  assert (P : forall i u, line_max (B_at M i) (B_n M) u -> 0 <= u).
  { intros i u [_ (k & _ & <-)]. apply Rabs_pos. }
  destruct r as [i|]; cbn [weakest] in W.
  - destruct W as (Hi & L & Hw & W1 & W2). split.
    + intros ->. exists i. split; [exact Hi|]. apply (proj2 (Z i 0 L)). reflexivity.
    + intros (k & Hk & Hz). destruct (lt_eq_lt_dec k i) as [[Hlt|Heq]|Hgt].
      * destruct (W1 k Hlt) as (u & U1 & U2). pose proof (proj1 (Z k u U1) Hz). pose proof (P i w L). lra.
      * subst k. exact (proj1 (Z i w L) Hz).
      * destruct (W2 k ltac:(lia)) as (u & U1 & U2). pose proof (proj1 (Z k u U1) Hz). pose proof (P i w L). lra.
  - destruct W as [-> W]. split; [lra|]. intros (k & Hk & Hz). destruct (W k Hk) as (u & U1 & U2).
    pose proof (proj1 (Z k u U1) Hz). lra.
Qed.
Print Assumptions C54_zero_row.

Example C54_ex :
  band_ok [BSet 0 0 (-3); BSet 1 1 2] (constant_band 2 1 1 1) /\
  weakest (B_at (fold_left band_step [BSet 0 0 (-3); BSet 1 1 2] (constant_band 2 1 1 1))) 2 (Some 1%nat, 2).
Proof.
  split; [cbn; repeat split; lia|]. cbn [weakest]. split; [lia|]. split; [|split; [|split]].
  - split.
    + intros [|[|k]] Hk; cbn; [rewrite Rabs_R1; lra|rewrite Rabs_right; lra|lia].
    + exists 1%nat. split; [lia|]. cbn. rewrite Rabs_right; lra.
  - unfold huge300. apply Rlt_le_trans with (10 ^ 1); [lra|]. apply Rle_pow; [lra|lia].
  - intros [|k] Hk; [|lia]. exists 3. split; [|lra]. split.
    + intros [|[|k]] Hk'; cbn; [rewrite Rabs_left; lra|rewrite Rabs_R1; lra|lia].
    + exists 0%nat. split; [lia|]. cbn. rewrite Rabs_left; lra.
  - intros k Hk. lia.
Qed.
