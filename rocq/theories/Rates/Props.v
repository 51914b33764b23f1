(* Theorems about rate parameterisations and their shared data (C23-C26, C52). *)
From Coq Require Import Reals List Lra Lia Bool Permutation Sorted.
From Verif Require Import Base.Outcome Base.Fp Base.RSum Rates.Model Rates.Spec Rates.PlogProofs
  Rates.PlogProofs2 Rates.ChebProofs Rates.FalloffProofs Rates.FalloffProofs2 Rates.DataProofs.
Import ListNotations.
Local Open Scope R_scope.

(** * C23: P-log rates *)

(* The value is the documented one, whatever evaluations came before. *)
Theorem C23_value tab h T P :
  good_table tab T -> hist_ok h -> in_double_range P ->
  exists k, plog_value tab h T P = Ok (Some k) /\ plog_spec tab T P k.
Proof. apply plog_computes_spec. Qed.
Print Assumptions C23_value.

(* At a tabulated pressure: the sum of the rates given there (plus 1e-300). *)
Theorem C23_at_tabulated tab h T p :
  good_table tab T -> hist_ok h -> listed tab p ->
  plog_value tab h T p = Ok (Some (offset + rate_at tab p T)).
Proof.
  intros Hg Hh Hp.
  destruct (plog_computes_spec tab h T p Hg Hh) as (k & E & S).
  { destruct Hg as (_ & G & _). apply G. exact Hp. }
  rewrite E. rewrite (spec_at tab T p k Hg Hp S). reflexivity.
Qed.
Print Assumptions C23_at_tabulated.

(* Between neighbouring tabulated pressures: log k is linear in log P, so k lies
   between the two values. *)
Theorem C23_between tab h T P p1 p2 :
  good_table tab T -> hist_ok h -> listed tab p1 -> listed tab p2 ->
  (forall q, listed tab q -> q <= p1 \/ p2 <= q) -> p1 < p2 -> p1 <= P <= p2 ->
  exists k, plog_value tab h T P = Ok (Some k) /\
    ln k = ln (knot tab p1 T) + (ln (knot tab p2 T) - ln (knot tab p1 T)) *
           ((ln P - ln p1) / (ln p2 - ln p1)) /\
    Rmin (knot tab p1 T) (knot tab p2 T) <= k <= Rmax (knot tab p1 T) (knot tab p2 T).
Proof.
  intros Hg Hh L1 L2 Hn Hp HP.
  assert (R1 := proj1 (proj2 Hg) p1 L1). assert (R2 := proj1 (proj2 Hg) p2 L2).
  assert (P1 : 0 < p1) by (unfold in_double_range in R1; pose proof (exp_pos (-1000)); lra).
  assert (RP : in_double_range P) by (unfold in_double_range in *; lra).
  destruct (plog_computes_spec tab h T P Hg Hh RP) as (k & E & S).
  assert (Ek : k = interp tab T p1 p2 P).
  { destruct (Req_EM_T P p2) as [->|Hne].
    - rewrite (spec_at tab T p2 k Hg L2 S). unfold interp.
      replace ((ln p2 - ln p1) / (ln p2 - ln p1)) with 1.
      + replace (ln (knot tab p1 T) + (ln (knot tab p2 T) - ln (knot tab p1 T)) * 1)
          with (ln (knot tab p2 T)) by ring.
        rewrite exp_ln; [reflexivity|]. apply knot_pos; assumption.
      + field. assert (ln p1 < ln p2) by (apply ln_increasing; assumption). lra.
    - apply (spec_unique tab T P); [exact S|]. apply PS_between; try assumption. lra. }
  exists k. split; [exact E|]. rewrite Ek. split.
  - unfold interp. rewrite ln_exp. reflexivity.
  - apply interp_bounds; try assumption; apply knot_pos; assumption.
Qed.
Print Assumptions C23_between.

(* Outside the table: the value at the nearest end. *)
Theorem C23_outside tab h T P p :
  good_table tab T -> hist_ok h -> in_double_range P -> listed tab p ->
  ((forall q, listed tab q -> p <= q) /\ P <= p) \/
  ((forall q, listed tab q -> q <= p) /\ p <= P) ->
  plog_value tab h T P = plog_value tab h T p.
Proof.
  intros Hg Hh HP Hp Hside. rewrite (C23_at_tabulated tab h T p Hg Hh Hp).
  destruct (plog_computes_spec tab h T P Hg Hh HP) as (k & E & S). rewrite E.
  do 2 f_equal. destruct Hside as [[H1 H2]|[H1 H2]].
  - destruct H2 as [H2| ->].
    + apply (spec_unique tab T P); [exact S|]. apply PS_below; assumption.
    + apply spec_at; assumption.
  - apply (spec_unique tab T P); [exact S|]. apply PS_above; assumption.
Qed.
Print Assumptions C23_outside.

(* The rate as a function of pressure is continuous, also at the tabulated
   pressures and at the ends; H P is any history that came before evaluating at
   P. *)
Theorem C23_continuous tab T (H : R -> list (R * R)) (f : R -> R) :
  good_table tab T -> (forall P, hist_ok (H P)) ->
  (forall P, in_double_range P -> plog_value tab (H P) T P = Ok (Some (f P))) ->
  forall P, in_double_range P -> continuity_pt f P.
Proof.
  intros Hg Hh Hf P HP. apply (spec_continuous tab T); [exact Hg| |exact HP].
  intros x Hx. destruct (plog_computes_spec tab (H x) T x Hg (Hh x) Hx) as (k & E & S).
  rewrite Hf in E by exact Hx. injection E as ->. exact S.
Qed.
Print Assumptions C23_continuous.

(* The order in which the entries are given does not matter. *)
Theorem C23_order t1 t2 h1 h2 T P :
  good_table t1 T -> Permutation t1 t2 -> hist_ok h1 -> hist_ok h2 -> in_double_range P ->
  plog_value t1 h1 T P = plog_value t2 h2 T P.
Proof.
  intros Hg Hp H1 H2 HP.
  assert (Hg2 : good_table t2 T).
  { destruct Hg as (G1 & G2 & G3). split; [|split].
    - intros ->. apply Permutation_sym, Permutation_nil in Hp. contradiction.
    - intros p L. apply G2. apply (listed_perm t1 t2); assumption.
    - intros p L. rewrite <- (rate_at_perm t1 t2) by exact Hp. apply G3.
      apply (listed_perm t1 t2); assumption. }
  destruct (plog_computes_spec t1 h1 T P Hg H1 HP) as (k1 & E1 & S1).
  destruct (plog_computes_spec t2 h2 T P Hg2 H2 HP) as (k2 & E2 & S2).
  rewrite E1, E2. do 2 f_equal. apply (spec_unique t2 T P); [|exact S2].
  apply (spec_perm t1); assumption.
Qed.
Print Assumptions C23_order.

(* getRates gives the table back: sorted by pressure, and at each pressure the
   entries in the order in which they were given. *)
Theorem C23_get_rates tab :
  usable_table tab ->
  exists res, getRates (plog_of tab) = Ok res /\
    StronglySorted (fun x y => fst x <= fst y) res /\
    forall p, 0 < p -> filter (fun x => reqb (fst x) p) res = filter (fun x => reqb (fst x) p) tab.
Proof. apply getRates_spec. Qed.
Print Assumptions C23_get_rates.

(* A table with a repeated pressure, given out of order. *)
Definition ex_tab : list (R * arr) :=
  [(10, Arr 7 0 0); (1, Arr 2 0 0); (10, Arr (-4) 0 0); (1, Arr 1 0 0)].

Lemma range_small p : 1 <= p <= 100 -> in_double_range p.
Proof.
  intros H. split.
  - apply Rlt_le_trans with (exp 0); [apply exp_increasing; lra|rewrite exp_0; lra].
  - apply Rle_lt_trans with 100; [lra|]. apply Rlt_le_trans with (1 + 1000); [lra|].
    left. apply exp_ineq1. lra.
Qed.
Lemma arr_const A T : arrhenius (Arr A 0 0) T = A * Rpower T 0.
Proof. unfold arrhenius. cbn. replace (- (0 / T)) with 0 by (unfold Rdiv; ring). rewrite exp_0. ring. Qed.

Example C23_table : good_table ex_tab 300 /\ hist_ok [(300, 3); (500, 10)] /\
  plog_value ex_tab [(300, 3); (500, 10)] 300 10 = Ok (Some (offset + 3)).
Proof.
  assert (Hg : good_table ex_tab 300).
  { split; [discriminate|]. split.
    - intros p (a & [E|[E|[E|[E|[]]]]]); injection E as <- <-; apply range_small; lra.
    - intros p (a & L). unfold ex_tab. cbn [rate_at]. rewrite !arr_const, !Rpower_O by lra.
      repeat (destruct (Req_EM_T _ p)); lra. }
  assert (Hh : hist_ok [(300, 3); (500, 10)]).
  { intros T P [E|[E|[]]]; injection E as <- <-; apply range_small; lra. }
  split; [exact Hg|]. split; [exact Hh|].
  rewrite C23_at_tabulated; [|exact Hg|exact Hh|exists (Arr 7 0 0); left; reflexivity].
  do 3 f_equal. unfold ex_tab. cbn [rate_at]. rewrite !arr_const, !Rpower_O by lra.
  repeat (destruct (Req_EM_T _ 10)); lra.
Qed.

(* setRates does not forget the interval found for the last pressure: after it
   the object evaluates with stale positions, here outside the table. *)
Ltac dec_r :=
  repeat match goal with
  | |- context [rltb ?x ?y] =>
      first [ rewrite (proj2 (rltb_true x y)) by lra
            | rewrite (proj2 (rltb_false x y)) by lra ]
  | |- context [reqb ?x ?y] =>
      first [ rewrite (proj2 (reqb_true x y)) by lra
            | rewrite (proj2 (reqb_false x y)) by lra ]
  end.

Theorem C23_set_rates_refuted :
  ~ (forall tab1 tab2 h T P s,
       good_table tab1 T -> good_table tab2 T -> hist_ok h -> in_double_range P ->
       plog_hist h (plog_of tab1) = Ok s ->
       omap snd (plog_at T P (setRates (multimap_of tab2) s)) = plog_value tab2 [] T P).
Proof.
  intros H.
  set (tab1 := [(1, Arr 1 0 0); (10, Arr 1 0 0)]). set (tab2 := [(1, Arr 5 0 0)]).
  assert (G1 : good_table tab1 300).
  { split; [discriminate|]. split.
    - intros p (a & [E|[E|[]]]); injection E as <- <-; apply range_small; lra.
    - intros p (a & L). unfold tab1. cbn [rate_at]. rewrite !arr_const, !Rpower_O by lra.
      repeat (destruct (Req_EM_T _ p)); lra. }
  assert (G2 : good_table tab2 300).
  { split; [discriminate|]. split.
    - intros p (a & [E|[]]); injection E as <- <-; apply range_small; lra.
    - intros p (a & L). unfold tab2. cbn [rate_at]. rewrite !arr_const, !Rpower_O by lra.
      repeat (destruct (Req_EM_T _ p)); lra. }
  assert (Hh : hist_ok [(300, 100)]).
  { intros T P [E|[]]; injection E as <- <-; apply range_small; lra. }
  assert (R100 : in_double_range 100) by (apply range_small; lra).
  pose proof (ln_range 100 R100) as L100.
  assert (L10 : 0 < ln 10) by (rewrite <- ln_1; apply ln_increasing; lra).
  assert (L10' : ln 10 < ln 100) by (apply ln_increasing; lra).
  pose proof ln_1 as L1.
  assert (E1 : plog_of tab1 =
    Plog [(-1000, (0, 1)%nat); (ln 1, (0, 1)%nat); (ln 10, (1, 2)%nat); (1000, (1, 2)%nat)]
         [Some (Arr 1 0 0); Some (Arr 1 0 0)] (-1000) 1000 (-1000) None None (-1)).
  { unfold plog_of, tab1, multimap_of. cbn [fold_left mm_insert fst snd]. dec_r.
    unfold setRates. cbn [fold_left]. unfold set_step, map_last, map_set, map_get, map_insert.
    cbn [fst snd rev app negb]. dec_r. cbn [fst snd rev app negb]. dec_r.
    cbn [fst snd rev app negb pl_logP pl_logP1 pl_logP2 pl_low pl_high pl_rDelta plog_new].
    dec_r. reflexivity. }
  set (s := Plog [(-1000, (0, 1)%nat); (ln 1, (0, 1)%nat); (ln 10, (1, 2)%nat); (1000, (1, 2)%nat)]
         [Some (Arr 1 0 0); Some (Arr 1 0 0)] (ln 100) (ln 10) 1000
         (Some (1, 2)%nat) (Some (1, 2)%nat) (/ (1000 - ln 10))).
  assert (E2 : plog_hist [(300, 100)] (plog_of tab1) = Ok s).
  { destruct (plog_computes_spec tab1 [] 300 100 G1) as (k & Ek & _); [intros ? ? []|exact R100|].
    unfold plog_value in Ek. cbn [plog_hist obind] in Ek. rewrite E1 in Ek.
    rewrite E1. cbn [plog_hist]. unfold plog_at in *.
    assert (U : plog_update (ln 100)
      (Plog [(-1000, (0, 1)%nat); (ln 1, (0, 1)%nat); (ln 10, (1, 2)%nat); (1000, (1, 2)%nat)]
         [Some (Arr 1 0 0); Some (Arr 1 0 0)] (-1000) 1000 (-1000) None None (-1)) = Ok s).
    { unfold plog_update, upper. cbn [pl_logP pl_logP1 pl_logP2 pl_pressures fst snd].
      dec_r. reflexivity. }
    rewrite U in *. cbn [obind] in *.
    destruct (plog_eval (ln 300) (/ 300) s); cbn in *; congruence. }
  specialize (H tab1 tab2 [(300, 100)] 300 100 s G1 G2 Hh R100 E2).
  destruct (plog_computes_spec tab2 [] 300 100 G2) as (k & Ek & _); [intros ? ? []|exact R100|].
  rewrite Ek in H. clear -H. unfold plog_at, plog_update in H.
  replace (pl_logP (setRates (multimap_of tab2) s)) with (ln 100) in H.
  2:{ unfold setRates. destruct (fold_left _ _ _) as [[? ?] ?]. reflexivity. }
  rewrite (proj2 (reqb_true (ln 100) (ln 100))) in H by reflexivity.
  cbn [obind] in H. unfold plog_eval in H.
  replace (pl_low (setRates (multimap_of tab2) s)) with (Some (1, 2)%nat) in H.
  2:{ unfold setRates. destruct (fold_left _ _ _) as [[? ?] ?]. reflexivity. }
  replace (pl_rates (setRates (multimap_of tab2) s)) with [Some (Arr 5 0 0)] in H by reflexivity.
  discriminate H.
Qed.
Print Assumptions C23_set_rates_refuted.

(** * C25: Chebyshev rates *)

(* log10 k is the double sum, whatever evaluations came before. *)
Theorem C25_value Tmin Tmax Pmin Pmax c h T P :
  (1 <= m_nr c)%nat -> (1 <= m_nc c)%nat ->
  cheb_value Tmin Tmax Pmin Pmax c h T P =
  Ok (Some (Rpower 10
    (sum_n (fun i => sum_n (fun j =>
       m_at c i j * chebT i (reduced (/ T) (/ Tmin) (/ Tmax)) *
       chebT j (reduced (log10 P) (log10 Pmin) (log10 Pmax))) (m_nc c)) (m_nr c)))).
Proof. intros H1 H2. apply cheb_computes; assumption. Qed.
Print Assumptions C25_value.

(* The polynomials are the Chebyshev polynomials. *)
Theorem C25_cosines n theta : chebT n (cos theta) = cos (INR n * theta).
Proof. apply chebT_cos. Qed.
Print Assumptions C25_cosines.

(* The reduced coordinates map the limits to -1 and 1 and the range between them
   into [-1, 1]. *)
Theorem C25_range Tmin Tmax Pmin Pmax T P :
  0 < Tmin -> Tmin < Tmax -> 0 < Pmin -> Pmin < Pmax ->
  reduced (/ Tmin) (/ Tmin) (/ Tmax) = -1 /\ reduced (/ Tmax) (/ Tmin) (/ Tmax) = 1 /\
  reduced (log10 Pmin) (log10 Pmin) (log10 Pmax) = -1 /\
  reduced (log10 Pmax) (log10 Pmin) (log10 Pmax) = 1 /\
  (Tmin <= T <= Tmax -> -1 <= reduced (/ T) (/ Tmin) (/ Tmax) <= 1) /\
  (Pmin <= P <= Pmax -> -1 <= reduced (log10 P) (log10 Pmin) (log10 Pmax) <= 1).
Proof.
  intros T0 T1 P0 P1.
  assert (A : / Tmax < / Tmin) by (apply Rinv_lt_contravar; [apply Rmult_lt_0_compat|]; lra).
  pose proof (log10_increasing Pmin Pmax P0 P1) as B.
  destruct (reduced_ends (/ Tmin) (/ Tmax)) as [C1 C2]; [lra|].
  destruct (reduced_ends (log10 Pmin) (log10 Pmax)) as [C3 C4]; [lra|].
  repeat (split; [assumption|]). split; intros Hr.
  - apply reduced_range'; [exact A|]. split; apply Rinv_le_contravar; lra.
  - apply reduced_range; [exact B|]. split.
    + destruct (proj1 Hr) as [L| ->]; [left; apply log10_increasing; lra|right; reflexivity].
    + destruct (proj2 Hr) as [L| ->]; [left; apply log10_increasing; lra|right; reflexivity].
Qed.
Print Assumptions C25_range.

(* 2 x 2 coefficients; value at the corner (Tmin, Pmax) is 10^(1 + 3 - 2 - 4). *)
Definition ex_mat : mat :=
  Mat 2 2 (fun i j => match i, j with
                      | O, O => 1 | O, _ => 3 | _, O => 2 | _, _ => 4 end).
Example C25_corner :
  cheb_value 300 2000 1 100 ex_mat [(500, 7); (400, 2)] 300 100 = Ok (Some (Rpower 10 (1 + 3 - 2 - 4))).
Proof.
  rewrite C25_value by (cbn; lia).
  destruct (C25_range 300 2000 1 100 300 100) as (A & _ & _ & B & _); try lra.
  rewrite A, B. do 3 f_equal. unfold ex_mat. cbn [m_nc m_nr m_at].
  repeat rewrite ?sum_n_S, ?sum_n_0. cbn [chebT]. lra.
Qed.

(* setData after an evaluation leaves the sums computed from the old data: at
   the same pressure the old rate comes back. *)
Theorem C25_set_data_refuted :
  ~ (forall Tmin Tmax Pmin Pmax c1 c2 h T P s,
       0 < Tmin -> Tmin < Tmax -> 0 < Pmin -> Pmin < Pmax -> 0 < T -> 0 < P ->
       (1 <= m_nr c1)%nat -> (1 <= m_nc c1)%nat -> (1 <= m_nr c2)%nat -> (1 <= m_nc c2)%nat ->
       cheb_hist h (cheb_of Tmin Tmax Pmin Pmax c1) = Ok s ->
       omap snd (cheb_at T P (setData c2 s)) = cheb_value Tmin Tmax Pmin Pmax c2 [] T P).
Proof.
  intros H.
  set (c1 := Mat 1 1 (fun _ _ => 1)). set (c2 := Mat 1 1 (fun _ _ => 2)).
  assert (E : exists s, cheb_hist [(300, 10)] (cheb_of 300 1000 1 100 c1) = Ok s /\
    ch_log10P s = Some (log10 10) /\ ch_dot s = [1] /\ exists l, ch_lims s = Some l).
  { eexists. split; [reflexivity|]. repeat split. eexists. reflexivity. }
  destruct E as (s & E1 & E2 & E3 & [[[a b] d] e] & E4).
  specialize (H 300 1000 1 100 c1 c2 [(300, 10)] 300 10 s).
  rewrite C25_value in H by (cbn; lia).
  assert (Hv : omap snd (cheb_at 300 10 (setData c2 s)) = Ok (Some (Rpower 10 1))).
  { unfold cheb_at, cheb_update, setData. cbn [c2 m_nr m_nc Nat.mul Nat.eqb Nat.add ch_log10P].
    rewrite E2. rewrite (proj2 (reqb_true (log10 10) (log10 10))) by reflexivity.
    cbn [obind]. unfold cheb_eval. cbn [ch_lims ch_coeffs ch_dot]. rewrite E4, E3. reflexivity. }
  rewrite Hv in H.
  assert (X : Ok (Some (Rpower 10 1)) = Ok (Some (Rpower 10 2))).
  { rewrite H; try lra; try (cbn; lia); try exact E1.
    do 3 f_equal. unfold c2. cbn [m_nc m_nr m_at]. repeat rewrite ?sum_n_S, ?sum_n_0. cbn [chebT]. lra. }
  injection X as X.
  assert (Rpower 10 1 < Rpower 10 2) by (apply Rpower_lt; lra). lra.
Qed.
Print Assumptions C25_set_data_refuted.

(** * C24: falloff functions *)

(* Lindemann: F = 1.  Troe with three coefficients, a in [0,1] and T3, T1 not
   negative: 0 < F <= 1, at every temperature and reduced pressure. *)
Theorem C24_factor_range a c1 c2 b T pr :
  0 <= a <= 1 -> 0 <= c1 -> 0 <= c2 -> 0 < T ->
  setTroe [a; c1; c2] = Ok b \/ setLindemann [] = Ok b ->
  exists F, blendF b T pr = Some F /\ 0 < F <= 1.
Proof.
  intros Ha H1 H2 HT [E|E]; injection E as <-.
  - cbn [blendF]. apply troe_F_range. apply log10_small_nonpos. apply troe_fcent_le1; assumption.
  - exists 1. split; [reflexivity|lra].
Qed.
Print Assumptions C24_factor_range.

(* With the fourth coefficient T2 the factor can exceed one. *)
Theorem C24_factor_range_t2_refuted :
  ~ (forall a c1 c2 c3 b T pr F,
       0 <= a <= 1 -> 0 < c1 -> 0 < c2 -> 0 < c3 -> 0 < T -> 0 <= pr ->
       setTroe [a; c1; c2; c3] = Ok b -> blendF b T pr = Some F -> F <= 1).
Proof.
  intros H.
  set (w := exp (- (1000) * / 1000000) + exp (- (1) / 1000)).
  assert (B : forall x, -(1/10) <= x <= 0 -> 9 / 10 <= exp x <= 1).
  { intros x Hx. split.
    - apply Rle_trans with (1 + x); [lra|]. destruct (Req_EM_T x 0) as [->|Hn].
      + rewrite exp_0. lra.
      + left. apply exp_ineq1. exact Hn.
    - rewrite <- exp_0. destruct (proj2 Hx) as [L| ->]; [left; apply exp_increasing; exact L|right; reflexivity]. }
  assert (W1 : 1 < w <= 2).
  { unfold w. pose proof (B (- (1000) * / 1000000) ltac:(lra)). pose proof (B (- (1) / 1000) ltac:(lra)). lra. }
  set (b := Troe 1 (inv_or_inf 1) (inv_or_inf 1000000) 1).
  pose proof small_lt1 as Sl. pose proof small_pos as Sp.
  assert (Ew : troe_fcent 1 (inv_or_inf 1) (inv_or_inf 1000000) 1 1000 = w).
  { unfold troe_fcent, inv_or_inf. rewrite !Rabs_right by lra.
    rewrite (proj2 (rltb_false 1 SmallNumber)) by lra.
    rewrite (proj2 (rltb_false 1000000 SmallNumber)) by lra.
    rewrite (proj2 (reqb_false 1 0)) by lra. cbn [exp_neg]. unfold w. ring. }
  assert (Hw : 0 < log10 (Rmax w SmallNumber) < 1 / 2).
  { rewrite Rmax_left by lra. apply log10_bound; lra. }
  destruct (troe_F_above 1 _ Hw eq_refl) as (F & EF & HF).
  assert (blendF b 1000 1 = Some F) by (cbn [b blendF]; rewrite Ew; exact EF).
  specialize (H 1 1 1000000 1 b 1000 1 F). 
  assert (F <= 1) by (apply H; try lra; [reflexivity|assumption]). lra.
Qed.
Print Assumptions C24_factor_range_t2_refuted.

(* A falloff rate lies between zero and the smaller of its limits, and a
   chemically activated one between zero and its low-pressure value. *)
Theorem C24_falloff_bounds a c1 c2 b lo hi act nA T M :
  0 <= a <= 1 -> 0 <= c1 -> 0 <= c2 -> 0 < T ->
  setTroe [a; c1; c2] = Ok b \/ setLindemann [] = Ok b ->
  0 <= aA lo -> 0 <= aA hi -> 0 <= M ->
  exists k, falloff_eval (Falloff (Some lo) (Some hi) act nA b) T M = Some k /\ 0 <= k /\
    (act = false -> k <= M * arrhenius lo T /\ k <= arrhenius hi T) /\
    (act = true -> k <= arrhenius lo T).
Proof.
  intros Ha H1 H2 HT Hb Hl Hh HM.
  destruct (C24_factor_range a c1 c2 b T (M * arrhenius lo T / (arrhenius hi T + SmallNumber))
    Ha H1 H2 HT Hb) as (F & E & R).
  apply (falloff_bounds lo hi act nA b T M F); try assumption; apply arrhenius_nonneg; assumption.
Qed.
Print Assumptions C24_falloff_bounds.

(* A Lindemann rate does not decrease with the third-body concentration ... *)
Theorem C24_lindemann_monotone lo hi nA T M1 M2 k1 k2 :
  0 <= aA lo -> 0 <= aA hi -> 0 <= M1 -> M1 <= M2 ->
  falloff_eval (Falloff (Some lo) (Some hi) false nA Lindemann) T M1 = Some k1 ->
  falloff_eval (Falloff (Some lo) (Some hi) false nA Lindemann) T M2 = Some k2 ->
  k1 <= k2.
Proof.
  intros Hl Hh H1 H2.
  pose proof (arrhenius_nonneg lo T Hl). pose proof (arrhenius_nonneg hi T Hh).
  rewrite !lindemann_eval by lra. intros E1 E2. injection E1 as <-. injection E2 as <-.
  apply lind_mono; try assumption. apply small_pos.
Qed.
Print Assumptions C24_lindemann_monotone.

(* ... tends to the high-pressure rate as the concentration grows, and divided
   by the concentration to the low-pressure rate as it vanishes, up to the
   factor kh / (kh + 1e-300). *)
Theorem C24_lindemann_limits lo hi nA T eps :
  0 < aA lo -> 0 <= aA hi -> 0 < eps ->
  let k M := falloff_eval (Falloff (Some lo) (Some hi) false nA Lindemann) T M in
  (exists M0, forall M, M0 <= M -> 0 <= M ->
     exists v, k M = Some v /\ Rabs (v - arrhenius hi T) < eps) /\
  (exists M0, 0 < M0 /\ forall M, 0 < M < M0 ->
     exists v, k M = Some v /\
       Rabs (v / M - arrhenius lo T * (arrhenius hi T / (arrhenius hi T + / 10 ^ 300))) < eps).
Proof.
  intros Hl Hh He k.
  assert (Hl' : 0 < arrhenius lo T).
  { destruct (arrhenius_sign lo T) as (c & C1 & ->). apply Rmult_lt_0_compat; assumption. }
  pose proof (arrhenius_nonneg hi T Hh) as Hh'. split.
  - destruct (lind_high (arrhenius lo T) (arrhenius hi T) SmallNumber eps Hl' Hh' small_pos He) as [M0 H].
    exists M0. intros M H1 H2. unfold k. rewrite lindemann_eval by lra. eexists. split; [reflexivity|].
    apply H; assumption.
  - destruct (lind_low (arrhenius lo T) (arrhenius hi T) SmallNumber eps) as (M0 & H0 & H);
      [lra|exact Hh'|apply small_pos|exact He|].
    exists M0. split; [exact H0|]. intros M HM. unfold k. rewrite lindemann_eval by lra.
    eexists. split; [reflexivity|]. apply H. exact HM.
Qed.
Print Assumptions C24_lindemann_limits.

(* A Troe rate does not tend to its high-pressure limit: from some concentration
   on it stays below a fixed fraction of it. *)
Theorem C24_troe_high_pressure_refuted a c1 c2 b lo hi nA T :
  0 <= a <= 1 -> 1 <= c1 -> 1 <= c2 -> 0 < T -> 0 < aA lo -> 0 < aA hi ->
  setTroe [a; c1; c2] = Ok b ->
  exists c M0, c < 1 /\ forall M, M0 <= M -> exists k,
    falloff_eval (Falloff (Some lo) (Some hi) false nA b) T M = Some k /\
    k <= c * arrhenius hi T.
Proof.
  intros Ha H1 H2 HT Hl Hh E. injection E as <-. pose proof small_lt1.
  apply troe_high; try assumption; try lra.
  - destruct (arrhenius_sign lo T) as (c & C1 & ->). apply Rmult_lt_0_compat; assumption.
  - destruct (arrhenius_sign hi T) as (c & C1 & ->). apply Rmult_lt_0_compat; assumption.
Qed.
Print Assumptions C24_troe_high_pressure_refuted.

(* Coefficients set and read back: accepted coefficients come back unchanged
   (zero and magnitudes from 1e-300 on are representable)... *)
Definition representable (x : R) : Prop := x = 0 \/ / 10 ^ 300 <= Rabs x.

Theorem C24_roundtrip_troe cs b :
  setTroe cs = Ok b -> Forall representable cs ->
  getCoeffs b = cs \/ exists a c1 c2, cs = [a; c1; c2; 0] /\ getCoeffs b = [a; c1; c2].
Proof.
  intros E Hr. destruct cs as [|c0 [|c1 [|c2 [|c3 [|? ?]]]]]; try discriminate E;
    injection E as <-; cbn [getCoeffs].
  - left. inversion_clear Hr as [|? ? R0 Hr']. inversion_clear Hr' as [|? ? R1 Hr].
    inversion_clear Hr as [|? ? R2 _]. rewrite Rabs_R0.
    rewrite (proj2 (rltb_true 0 SmallNumber)) by apply small_pos.
    rewrite !recip_repr by assumption. reflexivity.
  - inversion_clear Hr as [|? ? R0 Hr']. inversion_clear Hr' as [|? ? R1 Hr].
    inversion_clear Hr as [|? ? R2 Hr']. inversion_clear Hr' as [|? ? R3 _].
    rewrite !recip_repr by assumption. destruct R3 as [->|R3].
    + right. exists c0, c1, c2. split; [reflexivity|]. rewrite Rabs_R0.
      rewrite (proj2 (rltb_true 0 SmallNumber)) by apply small_pos. reflexivity.
    + left. rewrite (proj2 (rltb_false (Rabs c3) SmallNumber)) by exact R3. reflexivity.
Qed.
Print Assumptions C24_roundtrip_troe.

(* ... and configure the same function again. *)
Theorem C24_roundtrip cs b :
  (setTroe cs = Ok b -> Forall representable cs -> setTroe (getCoeffs b) = Ok b) /\
  (setSri cs = Ok b -> setSri (getCoeffs b) = Ok b) /\
  (setTsang cs = Ok b -> Forall representable cs -> setTsang (getCoeffs b) = Ok b) /\
  (setLindemann cs = Ok b -> setLindemann (getCoeffs b) = Ok b /\ getCoeffs b = cs).
Proof.
  split; [|split; [|split]].
  - intros E Hr. destruct (C24_roundtrip_troe cs b E Hr) as [->|(a & c1 & c2 & -> & ->)]; [exact E|].
    rewrite <- E. reflexivity.
  - intros E. destruct cs as [|c0 [|c1 [|c2 [|c3 [|c4 [|? ?]]]]]]; try discriminate E; cbn [setSri] in E.
    + destruct (rltb c2 0) eqn:E2; [discriminate E|]. injection E as <-. cbn [getCoeffs].
      rewrite sri_never. cbn [setSri]. rewrite E2, (rltb_neg 1) by lra. reflexivity.
    + destruct (rltb c2 0) eqn:E2; [discriminate E|]. destruct (rltb c3 0) eqn:E3; [discriminate E|].
      injection E as <-. cbn [getCoeffs]. rewrite sri_never. cbn [setSri]. rewrite E2, E3. reflexivity.
  - intros E Hr. destruct cs as [|c0 [|c1 [|? ?]]]; try discriminate E; injection E as <-; cbn [getCoeffs].
    + rewrite Rabs_R0, (proj2 (rltb_true 0 SmallNumber)) by apply small_pos. reflexivity.
    + inversion_clear Hr as [|? ? R0 Hr']. inversion_clear Hr' as [|? ? R1 _].
      destruct R1 as [->|R1].
      * rewrite Rabs_R0, (proj2 (rltb_true 0 SmallNumber)) by apply small_pos. reflexivity.
      * rewrite (proj2 (rltb_false (Rabs c1) SmallNumber)) by exact R1. reflexivity.
  - intros E. destruct cs; [|discriminate E]. injection E as <-. split; reflexivity.
Qed.
Print Assumptions C24_roundtrip.

(* SRI and Tsang coefficients: five (resp. two, the second not zero) come back
   as they are. *)
Theorem C24_roundtrip_sri_tsang a b c d e x :
  (setSri [a; b; c; d; e] = Ok x -> getCoeffs x = [a; b; c; d; e]) /\
  (setTsang [a; b] = Ok x -> / 10 ^ 300 <= Rabs b -> getCoeffs x = [a; b]) /\
  (setTsang [a] = Ok x -> getCoeffs x = [a]).
Proof.
  split; [|split].
  - cbn [setSri]. destruct (rltb c 0); [discriminate|]. destruct (rltb d 0); [discriminate|].
    intros E. injection E as <-. cbn [getCoeffs]. rewrite sri_never. reflexivity.
  - intros E H. injection E as <-. cbn [getCoeffs].
    rewrite (proj2 (rltb_false (Rabs b) SmallNumber)) by exact H. reflexivity.
  - intros E. injection E as <-. cbn [getCoeffs].
    rewrite Rabs_R0, (proj2 (rltb_true 0 SmallNumber)) by apply small_pos. reflexivity.
Qed.
Print Assumptions C24_roundtrip_sri_tsang.

(* Three SRI coefficients never come back as three: the test for the short form
   asks for e < 1e-300 and |e - 1| < 1e-300. *)
Theorem C24_sri_three_refuted a b c x :
  0 <= c -> setSri [a; b; c] = Ok x -> getCoeffs x = [a; b; c; 1; 0].
Proof.
  intros Hc E. cbn [setSri] in E. rewrite rltb_neg in E by exact Hc. injection E as <-.
  cbn [getCoeffs]. rewrite sri_never. reflexivity.
Qed.
Print Assumptions C24_sri_three_refuted.

Example C24_case :
  setTroe [0.7; 100; 0] = Ok (Troe 0.7 (Some (/ 100)) None 0) /\
  Forall representable [0.7; 100; 0] /\ setSri [1; 2; -1] = Err.
Proof.
  assert (I : forall x, 0.5 <= x -> / 10 ^ 300 <= x).
  { intros x Hx. apply Rle_trans with (/ 2); [|lra]. apply Rinv_le_contravar; [lra|].
    apply Rle_trans with (10 ^ 1); [lra|]. apply Rle_pow; [lra|lia]. }
  split; [|split].
  - cbn [setTroe]. unfold inv_or_inf. rewrite Rabs_R0, (proj2 (rltb_true 0 SmallNumber)) by apply small_pos.
    rewrite Rabs_right by lra. rewrite (proj2 (rltb_false 100 SmallNumber)) by (apply I; lra). reflexivity.
  - constructor; [right; rewrite Rabs_right by lra; apply I; lra|].
    constructor; [right; rewrite Rabs_right by lra; apply I; lra|].
    constructor; [left; reflexivity|constructor].
  - cbn [setSri]. rewrite (proj2 (rltb_true (-1) 0)) by lra. reflexivity.
Qed.

(** * C52: signs of falloff limits *)

(* Whatever sequence of setLowRate / setHighRate / setAllowNegative... calls:
   the factors of the two limits never have opposite signs. *)
Theorem C52_signs ops b act lo hi :
  let f := fold_left fstep ops (Falloff None None act false b) in
  fo_low f = Some lo -> fo_high f = Some hi -> 0 <= aA lo * aA hi.
Proof.
  intros f El Eh. assert (S : sign_ok (fo_low f) (fo_high f) = true) by (apply fsteps_sign; reflexivity).
  rewrite El, Eh in S. cbn [sign_ok] in S. apply negb_true_iff in S. apply rltb_false in S. exact S.
Qed.
Print Assumptions C52_signs.

(* If negative factors were never allowed, both factors are not negative, the
   object passes check(), and the rate is not negative. *)
Theorem C52_nonnegative ops a c1 c2 b act T M lo hi :
  0 <= a <= 1 -> 0 <= c1 -> 0 <= c2 -> 0 < T -> 0 <= M ->
  setTroe [a; c1; c2] = Ok b \/ setLindemann [] = Ok b ->
  (forall x, In (AllowNegative x) ops -> x = false) ->
  let f := fold_left fstep ops (Falloff None None act false b) in
  fo_low f = Some lo -> fo_high f = Some hi ->
  falloff_check f = Ok tt /\ 0 <= aA lo /\ 0 <= aA hi /\
  exists k, falloff_eval f T M = Some k /\ 0 <= k.
Proof.
  intros Ha H1 H2 HT HM Hb Hn f El Eh.
  assert (N : (forall a, fo_low f = Some a -> 0 <= aA a) /\ (forall a, fo_high f = Some a -> 0 <= aA a)).
  { apply fsteps_nonneg; try reflexivity; try assumption; cbn; discriminate. }
  destruct N as [N1 N2]. specialize (N1 lo El). specialize (N2 hi Eh).
  assert (S : 0 <= aA lo * aA hi) by (apply Rmult_le_pos; assumption).
  split.
  { unfold falloff_check. rewrite El, Eh. cbn [arr_check sign_ok].
    rewrite !(rltb_neg _) by assumption. cbn [negb]. rewrite !orb_true_r. reflexivity. }
  split; [exact N1|]. split; [exact N2|].
  assert (Eb : fo_blend f = b /\ fo_act f = act).
  { unfold f. clear.
    assert (G : forall g, fo_blend (fold_left fstep ops g) = fo_blend g /\ fo_act (fold_left fstep ops g) = fo_act g).
    { induction ops as [|o ops IH]; intros g; [split; reflexivity|]. cbn [fold_left].
      destruct (IH (fstep g o)) as [-> ->]. destruct o; unfold fstep, setLowRate, setHighRate;
        repeat match goal with |- context [if ?c then _ else _] => destruct c end; split; reflexivity. }
    destruct (G (Falloff None None act false b)) as [-> ->]. split; reflexivity. }
  destruct f as [fl fh fa fn fb]. cbn [fo_low fo_high fo_blend fo_act] in *. subst fl fh.
  destruct Eb as [-> ->].
  destruct (C24_falloff_bounds a c1 c2 b lo hi act fn T M) as (k & E & K & _); try assumption.
  exists k. split; assumption.
Qed.
Print Assumptions C52_nonnegative.

Example C52_case :
  let f := fold_left fstep [SetHigh (Arr 3 0 0); SetLow (Arr (-1) 0 0); SetLow (Arr 2 1 5)]
             (Falloff None None false false Lindemann) in
  fo_low f = Some (Arr 2 1 5) /\ fo_high f = Some (Arr 3 0 0).
Proof.
  cbn [fold_left]. unfold fstep, setLowRate, setHighRate, arr_check, sign_ok.
  cbn [fo_negA fo_low fo_high aA orb negb]. dec_r.
  cbn [fo_negA fo_low fo_high aA orb negb]. dec_r. cbn [fo_negA fo_low fo_high aA orb negb]. dec_r. split; reflexivity.
Qed.

(* The constructor taking two rates and coefficients (src/kinetics/
   Falloff.cpp:209-216) assigns the members without the test: with opposite
   signs the rate is unbounded in the third-body concentration, here undefined. *)
Theorem C52_constructor_refuted :
  exists lo hi T M, 0 < T /\ 0 < M /\
    falloff_eval (Falloff (Some lo) (Some hi) false false Lindemann) T M = None.
Proof.
  exists (Arr (-1) 0 0), (Arr 1 0 0), 1, (1 + SmallNumber).
  pose proof small_pos as S. split; [lra|]. split; [lra|].
  unfold falloff_eval. cbn [fo_low fo_high fo_act fo_blend]. rewrite !evalRate_arrhenius, !arr_const, !Rpower_O by lra.
  rewrite (proj2 (reqb_false (1 * 1 + SmallNumber) 0)) by lra.
  rewrite (proj2 (reqb_true (1 + _) 0)); [reflexivity|]. field. lra.
Qed.
Print Assumptions C52_constructor_refuted.

(** * C26: perturbing and restoring shared data *)

(* P-log and Chebyshev data: after an update, any sequence of perturbations
   (the rejected ones included), then restore: everything a rate can read is as
   the update left it, and nothing is pending. *)
Theorem C26_restore d T P ops :
  clean d -> 0 < T -> 0 < P -> Forall plog_op ops ->
  obs (restoreP (fold_left dstep ops (upd_TP T P d))) = obs (upd_TP T P d) /\
  clean (restoreP (fold_left dstep ops (upd_TP T P d))).
Proof.
  intros Hc HT HP Ho.
  destruct (pinv_restore T P (rd_M d) (fold_left dstep ops (upd_TP T P d)) HT HP) as [A B].
  { apply pinv_steps; try assumption. apply upd_TP_pinv. exact Hc. }
  split; [rewrite A; reflexivity|exact B].
Qed.
Print Assumptions C26_restore.

(* Falloff data. *)
Theorem C26_restore_third_bodies d T M ops :
  clean d -> 0 < T -> Forall falloff_op ops ->
  obs (restoreM (fold_left dstep ops (upd_TM T M d))) = obs (upd_TM T M d) /\
  clean (restoreM (fold_left dstep ops (upd_TM T M d))).
Proof.
  intros (C1 & C2 & C3) HT Ho.
  destruct (minv_restore T (rd_P d) (rd_logP d) M (fold_left dstep ops (upd_TM T M d)) HT) as [A B].
  { apply minv_steps; try assumption. unfold minv, upd_TM, upd_T. cbn. rewrite C3.
    split; [left; split; [exact C1|reflexivity]|]. repeat (split; [first [reflexivity|assumption]|]).
    reflexivity. }
  split; [rewrite A; reflexivity|exact B].
Qed.
Print Assumptions C26_restore_third_bodies.

(* Any number of perturb ... restore rounds. *)
Theorem C26_rounds d T P rounds :
  clean d -> 0 < T -> 0 < P -> Forall (Forall plog_op) rounds ->
  let round d ops := restoreP (fold_left dstep ops d) in
  obs (fold_left round rounds (upd_TP T P d)) = obs (upd_TP T P d).
Proof.
  intros Hc HT HP Ho round.
  assert (G : forall d', pinv T P (rd_M d) d' -> clean d' ->
    obs d' = (T, ln T, / T, P, ln P, rd_M d) ->
    obs (fold_left round rounds d') = (T, ln T, / T, P, ln P, rd_M d)).
  { induction Ho as [|ops rounds H1 H2 IH]; intros d' Hp Hc' Hobs; [exact Hobs|]. cbn [fold_left].
    destruct (pinv_restore T P (rd_M d) (fold_left dstep ops d') HT HP) as [A B].
    { apply pinv_steps; assumption. }
    apply IH; [|exact B|exact A]. unfold round.
    pose proof (obs_fields _ _ _ _ _ _ _ A) as (A1 & A2 & A3 & A4 & A5 & A6). destruct B as (B1 & B2 & B3).
    unfold pinv. rewrite A1, A2, A3, A4, A5, A6. split; [left; auto|]. split; [reflexivity|].
    split; [reflexivity|]. split; [left; auto|]. split; [reflexivity|]. split; [reflexivity|exact B3]. }
  apply G; [apply upd_TP_pinv; exact Hc|exact Hc|reflexivity].
Qed.
Print Assumptions C26_rounds.

(* Perturbing what is already perturbed is rejected ... *)
Theorem C26_twice_rejected d x y d' :
  (0 < rd_T d -> perturbT x d = Ok d' -> perturbT y d' = Err) /\
  (0 < rd_P d -> perturbP x d = Ok d' -> perturbP y d' = Err) /\
  (perturbM x d = Ok d' -> perturbM y d' = Err).
Proof.
  split; [|split].
  - unfold perturbT at 1. destruct (rltb 0 (rd_Tbuf d)); [discriminate|]. intros H E. injection E as <-.
    unfold perturbT. cbn. rewrite (proj2 (rltb_true 0 (rd_T d))) by exact H. reflexivity.
  - unfold perturbP at 1. destruct (rltb 0 (rd_Pbuf d)); [discriminate|]. intros H E. injection E as <-.
    unfold perturbP. cbn. rewrite (proj2 (rltb_true 0 (rd_P d))) by exact H. reflexivity.
  - unfold perturbM at 1. destruct (rd_pert d); [discriminate|]. intros E. injection E as <-. reflexivity.
Qed.
Print Assumptions C26_twice_rejected.

(* ... and restoring what is not perturbed changes nothing. *)
Theorem C26_restore_harmless d : clean d -> restoreT d = d /\ restoreP d = d /\ restoreM d = d.
Proof.
  intros (C1 & C2 & C3).
  assert (E : restoreT d = d).
  { unfold restoreT. rewrite C1, (proj2 (rltb_true (-1) 0)) by lra. reflexivity. }
  split; [exact E|]. split.
  - unfold restoreP. rewrite E, C2, (proj2 (rltb_true (-1) 0)) by lra. reflexivity.
  - unfold restoreM. rewrite E, C3. reflexivity.
Qed.
Print Assumptions C26_restore_harmless.

(* A perturbation does what it says. *)
Theorem C26_perturb d x :
  clean d ->
  (exists d', perturbT x d = Ok d' /\
     obs d' = (rd_T d * (1 + x), ln (rd_T d * (1 + x)), / (rd_T d * (1 + x)), rd_P d, rd_logP d, rd_M d)) /\
  (exists d', perturbP x d = Ok d' /\
     obs d' = (rd_T d, ln (rd_T d), / rd_T d, rd_P d * (1 + x), ln (rd_P d * (1 + x)), rd_M d)) /\
  (exists d', perturbM x d = Ok d' /\
     obs d' = (rd_T d, rd_logT d, rd_recipT d, rd_P d, rd_logP d, map (fun c => c * (1 + x)) (rd_M d))).
Proof.
  intros Hc. split; [apply perturbT_ok; exact Hc|]. split; [apply perturbP_ok; exact Hc|].
  destruct Hc as (C1 & C2 & C3). unfold perturbM. rewrite C3. eexists. split; reflexivity.
Qed.
Print Assumptions C26_perturb.

(* An update between perturb and restore is undone by restore. *)
Theorem C26_update_between_refuted :
  ~ (forall d T P T' P' d', clean d -> 0 < T -> 0 < P -> 0 < T' -> 0 < P' ->
       forall x, perturbT x (upd_TP T P d) = Ok d' ->
       rd_T (restoreP (upd_TP T' P' d')) = T').
Proof.
  intros H.
  assert (C : clean rd_new) by (repeat split).
  set (d' := RData (300 * (1 + 1)) (ln (300 * (1 + 1))) (/ (300 * (1 + 1))) 1 (ln 1) []
                300 (-1) [] false).
  assert (E : perturbT 1 (upd_TP 300 1 rd_new) = Ok d').
  { unfold perturbT. rewrite (proj2 (rltb_false 0 (rd_Tbuf (upd_TP 300 1 rd_new)))).
    - reflexivity.
    - change (-1 <= 0). lra. }
  specialize (H rd_new 300 1 400 1 d' C ltac:(lra) ltac:(lra) ltac:(lra) ltac:(lra) 1 E).
  assert (E2 : restoreT (upd_TP 400 1 d') = RData 300 (ln 300) (/ 300) 1 (ln 1) [] (-1) (-1) [] false).
  { unfold restoreT. rewrite (proj2 (rltb_false (rd_Tbuf (upd_TP 400 1 d')) 0)).
    - reflexivity.
    - change (0 <= 300). lra. }
  unfold restoreP in H. rewrite E2 in H. cbn [rd_Pbuf] in H.
  rewrite (proj2 (rltb_true (-1) 0)) in H by lra. cbn [rd_T] in H. lra.
Qed.
Print Assumptions C26_update_between_refuted.

(* Numerical derivatives of a set of P-log reactions: after any updates, the
   rate constants at (T, P) are those of fresh objects; asking for the derivative
   with respect to pressure returns (k(T, P(1+d)) / kf - 1) / (P d) for each
   reaction with kf <> 0 and leaves everything an evaluation depends on as it was. *)
Theorem C26_derivative_P l h T P d kf :
  usable_all l -> hist_ok h -> 0 < T -> in_double_range P -> in_double_range (P * (1 + d)) ->
  exists m ks m' ks',
    updates (h ++ [(T, P)]) (mu_of l) = Ok m /\
    getRateConstants m = Ok ks /\ constants l T P = Ok ks /\
    constants l T (P * (1 + d)) = Ok ks' /\
    process_ddP d kf m = Ok (m', fd_list (/ (P * d)) kf ks') /\
    getRateConstants m' = Ok ks /\ obs (mu_sh m') = obs (mu_sh m) /\ clean (mu_sh m').
Proof.
  intros Hu Hh HT HP HP'.
  destruct (updates_evaluator l h (mu_of l) Hu (mu_of_ready l Hu)) as (m0 & U0 & U1 & U2 & U3);
    [repeat split|reflexivity|exact Hh|].
  destruct (update_evaluator l m0 T P Hu U1 U2 U3 HP) as (m & E1 & E2).
  destruct (constants_total l T P Hu HP) as [ks Hks].
  destruct (constants_total l T (P * (1 + d)) Hu HP') as [ks' Hks'].
  destruct (process_ddP_spec l T P m d kf Hu E2 HT HP HP' ks' Hks') as (m' & F1 & F2).
  assert (G : forall m, evaluator l T P m -> getRateConstants m = Ok ks).
  { intros m1 (A1 & A2 & A3). apply obs_fields in A3 as (_ & O2 & O3 & _).
    unfold getRateConstants. rewrite (consts_of l (mu_rates m1) T P (mu_sh m1) Hu A1 HP O2 O3). exact Hks. }
  exists m, ks, m', ks'. split.
  { clear -U0 E1. revert U0. generalize (mu_of l). induction h as [|[T1 P1] h IH]; intros m1 U0.
    - injection U0 as ->. cbn [app updates]. rewrite E1. reflexivity.
    - cbn [app updates] in *. destruct (mu_update T1 P1 m1) as [m2| | |]; try discriminate U0.
      cbn [obind] in *. apply IH. exact U0. }
  split; [apply G; exact E2|]. split; [exact Hks|]. split; [exact Hks'|]. split; [exact F1|].
  split; [apply G; exact F2|]. destruct F2 as (_ & F3 & F4). destruct E2 as (_ & _ & E3).
  split; [rewrite F4, E3; reflexivity|exact F3].
Qed.
Print Assumptions C26_derivative_P.

Theorem C26_derivative_T l h T P d kf :
  usable_all l -> hist_ok h -> 0 < T -> in_double_range P ->
  exists m ks m' ks',
    updates (h ++ [(T, P)]) (mu_of l) = Ok m /\
    getRateConstants m = Ok ks /\ constants l T P = Ok ks /\
    constants l (T * (1 + d)) P = Ok ks' /\
    process_ddT d kf m = Ok (m', fd_list (/ (T * d)) kf ks') /\
    getRateConstants m' = Ok ks /\ obs (mu_sh m') = obs (mu_sh m) /\ clean (mu_sh m').
Proof.
  intros Hu Hh HT HP.
  destruct (updates_evaluator l h (mu_of l) Hu (mu_of_ready l Hu)) as (m0 & U0 & U1 & U2 & U3);
    [repeat split|reflexivity|exact Hh|].
  destruct (update_evaluator l m0 T P Hu U1 U2 U3 HP) as (m & E1 & E2).
  destruct (constants_total l T P Hu HP) as [ks Hks].
  destruct (constants_total l (T * (1 + d)) P Hu HP) as [ks' Hks'].
  destruct (process_ddT_spec l T P m d kf Hu E2 HT HP ks' Hks') as (m' & F1 & F2).
  assert (G : forall m, evaluator l T P m -> getRateConstants m = Ok ks).
  { intros m1 (A1 & A2 & A3). apply obs_fields in A3 as (_ & O2 & O3 & _).
    unfold getRateConstants. rewrite (consts_of l (mu_rates m1) T P (mu_sh m1) Hu A1 HP O2 O3). exact Hks. }
  exists m, ks, m', ks'. split.
  { clear -U0 E1. revert U0. generalize (mu_of l). induction h as [|[T1 P1] h IH]; intros m1 U0.
    - injection U0 as ->. cbn [app updates]. rewrite E1. reflexivity.
    - cbn [app updates] in *. destruct (mu_update T1 P1 m1) as [m2| | |]; try discriminate U0.
      cbn [obind] in *. apply IH. exact U0. }
  split; [apply G; exact E2|]. split; [exact Hks|]. split; [exact Hks'|]. split; [exact F1|].
  split; [apply G; exact F2|]. destruct F2 as (_ & F3 & F4). destruct E2 as (_ & _ & E3).
  split; [rewrite F4, E3; reflexivity|exact F3].
Qed.
Print Assumptions C26_derivative_T.

(* What the factors are: the difference quotient of the constants, so that
   rop_i * factor approximates d(rop_i)/dP; each reaction keeps its index. *)
Theorem C26_factors inv kf ks n i k :
  nth_error ks n = Some (i, Some k) -> kf i <> 0 ->
  nth_error (fd_list inv kf ks) n = Some (i, Some ((k - kf i) * inv / kf i)).
Proof.
  revert n. induction ks as [|[j v] ks IH]; intros n H Hk; [destruct n; discriminate|].
  destruct n as [|n]; cbn [fd_list nth_error] in *.
  - injection H as -> ->. rewrite (proj2 (reqb_false (kf i) 0)) by exact Hk. do 3 f_equal.
    unfold fd_factor. field. exact Hk.
  - apply IH; assumption.
Qed.
Print Assumptions C26_factors.

Example C26_case :
  clean rd_new /\ usable_all [(0%nat, ex_tab); (3%nat, [(10, Arr 1 0 0)])] /\
  hist_ok [(300, 3)] /\ in_double_range 50 /\ in_double_range (50 * (1 + 1)).
Proof.
  split; [repeat split|]. split.
  - constructor; [|constructor; [|constructor]].
    + split; [discriminate|]. intros p (a & [E|[E|[E|[E|[]]]]]); injection E as <- <-; apply range_small; lra.
    + split; [discriminate|]. intros p (a & [E|[]]); injection E as <- <-; apply range_small; lra.
  - split; [|split; apply range_small; lra].
    intros T P [E|[]]; injection E as <- <-; apply range_small; lra.
Qed.
