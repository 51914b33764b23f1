(** C69: sticking, exchange current densities, and the data the rates are computed from. *)
From Coq Require Import Reals ZArith String List Bool Lra Lia.
From Verif Require Import Base.Fp Base.RSum Units.Model Excess.Proofs Interface.Model Interface.Spec.
Import ListNotations.
Open Scope R_scope.

(** ** Sticking *)

Definition s_fac orders (s : sreact) : R :=
  match s_kind s with Surf size => powr size (order_of orders s) | Other _ c0 => powr c0 (- order_of orders s) end.
Definition s_ord orders (s : sreact) : R := match s_kind s with Surf _ => order_of orders s | Other _ _ => 0 end.
Lemma stick_loop_others orders sp rs : (forall s, In s rs -> s_name s <> sp) -> forall rest mult so,
  stick_loop orders sp (rs ++ rest) mult so
  = stick_loop orders sp rest (mult * prod_of (s_fac orders) rs) (so + sum_of (s_ord orders) rs).
Proof.
  induction rs as [|s rs IH]; intros H rest mult so.
  - cbn [app]. rewrite sum_of_nil. unfold prod_of. cbn. f_equal; ring.
  - cbn [app stick_loop]. destruct (String.eqb_spec (s_name s) sp) as [E|_]; [destruct (H s (or_introl eq_refl) E)|].
    assert (H' : forall x, In x rs -> s_name x <> sp) by (intros x Hx; apply H; now right).
    rewrite prod_of_cons, sum_of_cons. unfold s_fac at 1, s_ord at 1. destruct (s_kind s); rewrite (IH H'); f_equal; ring.
Qed.
Lemma powr_pos x y : 0 < powr x y.
Proof. apply exp_pos. Qed.
Lemma others_cancel orders G act rs : 0 < G -> (forall s, In s rs -> kind_ok (s_kind s) /\ 0 < act s) ->
  prod_of (s_fac orders) rs * powr G (- sum_of (s_ord orders) rs)
  * prod_of (fun s => powr (conc_of G (s_kind s) (act s)) (order_of orders s)) rs
  = prod_of (fun s => powr (act s) (order_of orders s)) rs.
Proof.
  intros HG. induction rs as [|s rs IH]; intros H.
  - rewrite sum_of_nil. unfold prod_of, powr, Rpower. cbn. rewrite Ropp_0, Rmult_0_l, exp_0. ring.
  - rewrite !prod_of_cons, sum_of_cons. rewrite <- IH by (intros x Hx; apply H; now right).
    destruct (H s (or_introl eq_refl)) as [Hk Ha].
    replace (powr G (- (s_ord orders s + sum_of (s_ord orders) rs)))
      with (powr G (- s_ord orders s) * powr G (- sum_of (s_ord orders) rs))
      by (unfold powr; rewrite <- Rpower_plus; f_equal; ring).
    assert (K : s_fac orders s * powr G (- s_ord orders s) * powr (conc_of G (s_kind s) (act s)) (order_of orders s)
                = powr (act s) (order_of orders s)).
    { unfold s_fac, s_ord, conc_of, kind_ok, powr, Rpower in *. destruct (s_kind s) as [size|g c0].
      - rewrite <- !exp_plus. f_equal. unfold Rdiv.
        assert (0 < act s * G) by nra. assert (0 < / size) by now apply Rinv_0_lt_compat.
        rewrite (ln_mult (act s * G)), (ln_mult (act s)), ln_Rinv by assumption. ring.
      - rewrite <- !exp_plus. f_equal. rewrite ln_mult by lra. ring. }
    rewrite <- K. ring.
Qed.
(* The rate of progress of a sticking reaction is the flux of the sticking species onto the wall times the
   sticking coefficient times the activities of the others, each to its order. *)
Theorem C69_sticking : forall orders l1 s l2 gas c0 mult so mw gamma G T act,
  (forall x, In x (l1 ++ l2) -> s_name x <> s_name s /\ kind_ok (s_kind x) /\ 0 < act x) ->
  s_kind s = Other gas c0 -> 0 < c0 -> 0 < act s -> 0 < s_W s -> 0 < G -> 0 < T ->
  stick_loop orders (s_name s) (l1 ++ s :: l2) 1 0 = (mult, so) ->
  sticking_rate mw gamma G T mult so
    * prod_of (fun x => powr (conc_of G (s_kind x) (act x)) (order_of orders x)) (l1 ++ s :: l2)
  = motz_wise mw gamma * wall_flux T (s_W s) (powr (conc_of G (s_kind s) (act s)) (order_of orders s))
    * prod_of (fun x => powr (act x) (order_of orders x)) (l1 ++ l2).
Proof.
  intros orders l1 s l2 gas c0 mult so mw gamma G T act H Hk Hc0 Ha HW HG HT L.
  rewrite stick_loop_others in L by (intros x Hx; apply H, in_or_app; now left).
  cbn [stick_loop] in L. rewrite String.eqb_refl in L.
  rewrite <- (app_nil_r l2) in L. rewrite stick_loop_others in L by (intros x Hx; apply H, in_or_app; now right).
  cbn [stick_loop] in L. injection L as L1 L2. subst mult so.
  pose proof (others_cancel orders G act (l1 ++ l2) HG (fun x Hx => proj2 (H x Hx))) as C.
  rewrite !prod_of_app, sum_of_app in C. rewrite !prod_of_app, !prod_of_cons, <- C.
  unfold sticking_rate, wall_flux. rewrite Rplus_0_l, Hk. cbn [conc_of].
  pose proof R_pos. pose proof PI_RGT_0.
  replace (GasConstant * T / (2 * PI * s_W s)) with (T * (GasConstant / (2 * PI * s_W s)))
    by (unfold Rdiv; ring).
  rewrite sqrt_mult_alt by lra. ring.
Qed.
Print Assumptions C69_sticking.

(* The order of a reactant is the one given for its name, and otherwise its coefficient. *)
Theorem C69_order : forall orders s o, NoDup (map fst orders) ->
  (order_of orders s = o <->
   In (s_name s, o) orders \/ (~ In (s_name s) (map fst orders) /\ o = s_stoich s)).
Proof.
  intros orders s o. unfold order_of. induction orders as [|[n v] l IH]; intros N.
  - cbn. split; [intros H; right; split; [tauto|now symmetry]|intros [[]|[_ H]]; now symmetry].
  - inversion N as [|? ? N1 N2]; subst. cbn [find fst map In]. destruct (String.eqb_spec n (s_name s)) as [E|E].
    + subst n. split; [intros H; left; left; now subst|]. intros [[H|H]|[H _]].
      * now injection H.
      * exfalso. apply N1. change (s_name s) with (fst (s_name s, o)). now apply in_map.
      * exfalso. apply H. now left.
    + rewrite (IH N2). split; intros [H|[H1 H2]].
      * left. now right.
      * right. split; [|exact H2]. intros [H|H]; [contradiction|now apply H1].
      * destruct H as [H|H]; [injection H as H _; contradiction|now left].
      * right. split; [|exact H2]. intros H. apply H1. now right.
Qed.
Print Assumptions C69_order.
Example C69_order_ex :
  NoDup (map fst [("A"%string, 2); ("B"%string, 3)]) /\ In (s_name (Sreact "B" 1 (Surf 1) 1), 3) [("A"%string, 2); ("B"%string, 3)].
Proof. split; [repeat constructor; cbn; intros H; repeat destruct H as [H|H]; try discriminate; contradiction|right; left; reflexivity]. Qed.
(* The Motz-Wise correction: at coefficients in the physical range, between one and two times. *)
Theorem C69_motz_wise : forall g, 0 <= g <= 1 ->
  g <= motz_wise true g <= 2 * g /\ motz_wise false g = g /\ motz_wise true g * (1 - g / 2) = g.
Proof.
  intros g H. unfold motz_wise. assert (0 < 1 - 1 / 2 * g) by lra. repeat split.
  - apply Rmult_le_reg_r with (1 - 1/2 * g); [lra|]. unfold Rdiv. rewrite (Rmult_assoc g (/ _)), Rinv_l by lra. nra.
  - apply Rmult_le_reg_r with (1 - 1/2 * g); [lra|]. unfold Rdiv. rewrite (Rmult_assoc g (/ _)), Rinv_l by lra. nra.
  - field. lra.
Qed.
Print Assumptions C69_motz_wise.
(* A coefficient above two, of which validation only warns, makes the corrected forward rate negative. *)
Theorem C69_motz_wise_refuted : forall g G T mult so, 2 < g -> 0 < T -> 0 < mult ->
  sticking_rate true g G T mult so < 0.
Proof.
  intros g G T mult so H HT Hm. unfold sticking_rate.
  assert (motz_wise true g < 0).
  { unfold motz_wise, Rdiv. assert (/ (1 - 1 * / 2 * g) < 0) by (apply Rinv_lt_0_compat; lra). nra. }
  pose proof (powr_pos G (- so)). pose proof (sqrt_lt_R0 T HT).
  assert (0 < powr G (- so) * sqrt T * mult) by (repeat apply Rmult_lt_0_compat; assumption).
  replace (motz_wise true g * powr G (- so) * sqrt T * mult) with (motz_wise true g * (powr G (- so) * sqrt T * mult)) by ring.
  nra.
Qed.
Print Assumptions C69_motz_wise_refuted.
(* A sticking species named in the input need not be a reactant: it is accepted, and the rate then has no
   flux onto the wall in it. *)
Theorem C69_sticking_species_refuted : forall orders rs sp mult so mw gamma G T act, sp <> EmptyString ->
  (forall s, In s rs -> s_name s <> sp /\ kind_ok (s_kind s) /\ 0 < act s) -> 0 < G -> 
  sticking_species sp rs = Some sp
  /\ (stick_loop orders sp rs 1 0 = (mult, so) ->
      sticking_rate mw gamma G T mult so
        * prod_of (fun x => powr (conc_of G (s_kind x) (act x)) (order_of orders x)) rs
      = motz_wise mw gamma * sqrt T * prod_of (fun x => powr (act x) (order_of orders x)) rs).
Proof.
  intros orders rs sp mult so mw gamma G T act Hne H HG. split.
  - unfold sticking_species. destruct (String.eqb_spec sp EmptyString); [congruence|reflexivity].
  - intros L. rewrite <- (app_nil_r rs) in L. rewrite stick_loop_others in L by (intros x Hx; now apply H).
    cbn [stick_loop] in L. injection L as <- <-.
    rewrite <- (others_cancel orders G act rs HG (fun x Hx => proj2 (H x Hx))).
    unfold sticking_rate. rewrite Rplus_0_l. ring.
Qed.
Print Assumptions C69_sticking_species_refuted.
(* Without one in the input it is the only gas reactant, or else the only reactant off the surface. *)
Theorem C69_sticking_species : forall rs sp, sticking_species EmptyString rs = Some sp ->
  exists s, In s rs /\ s_name s = sp /\ (exists gas c0, s_kind s = Other gas c0)
  /\ ((exists c0, s_kind s = Other true c0) /\ length (filter (fun s => match s_kind s with Other true _ => true | _ => false end) rs) = 1%nat
      \/ length (filter (fun s => match s_kind s with Surf _ => false | _ => true end) rs) = 1%nat).
Proof.
  intros rs sp H. unfold sticking_species in H. cbn [String.eqb negb] in H.
  set (fg := filter (fun s => match s_kind s with Other true _ => true | _ => false end) rs) in *.
  set (fa := filter (fun s => match s_kind s with Surf _ => false | _ => true end) rs) in *.
  assert (Hany : forall a, fa = [a] -> match map s_name fa with [x] => Some x | _ => None end = Some sp ->
            exists s, In s rs /\ s_name s = sp /\ (exists gas c0, s_kind s = Other gas c0) /\
            ((exists c0, s_kind s = Other true c0) /\ length fg = 1%nat \/ length fa = 1%nat)).
  { intros a E K. rewrite E in K. cbn in K. injection K as <-. exists a.
    assert (Ia : In a fa) by (rewrite E; now left). apply filter_In in Ia. destruct Ia as [Ia Ka].
    repeat split; [exact Ia| |right; now rewrite E]. destruct (s_kind a); [discriminate|eauto]. }
  destruct fg as [|g [|g2 fg']] eqn:Eg; cbn [map] in H.
  - destruct fa as [|a [|a2 fa']] eqn:Ea; try discriminate. apply (Hany a eq_refl H).
  - injection H as <-. exists g. assert (Ig : In g fg) by (rewrite Eg; now left).
    apply filter_In in Ig. destruct Ig as [Ig Kg]. repeat split; [exact Ig| |left].
    + destruct (s_kind g) as [|gas c0]; [discriminate|eauto].
    + split; [|reflexivity]. destruct (s_kind g) as [|[|] c0]; try discriminate. eauto.
  - destruct fa as [|a [|a2 fa']] eqn:Ea; try discriminate. apply (Hany a eq_refl H).
Qed.
Print Assumptions C69_sticking_species.
Example C69_sticking_example : exists mult so,
  stick_loop [] "O2" [Sreact "O2" 1 (Other true (1/20)) 32; Sreact "PT(S)" 2 (Surf 1) 195] 1 0 = (mult, so)
  /\ so = 2 /\ sticking_species EmptyString [Sreact "O2" 1 (Other true (1/20)) 32; Sreact "PT(S)" 2 (Surf 1) 195] = Some "O2"%string.
Proof. do 2 eexists. split; [reflexivity|]. split; [unfold order_of; cbn; ring|reflexivity]. Qed.

(** ** Exchange current densities *)

Lemma rpower_mult_l x y z : 0 < x -> 0 < y -> Rpower (x * y) z = Rpower x z * Rpower y z.
Proof. intros. now rewrite Rpower_mult_distr. Qed.
(* With the exchange current formulation the documented exchange current at unit activities is not the
   given number i0 but differs from it by the number of electrons and by a ratio of standard concentrations. *)
Theorem C69_exchange_refuted : forall n i0 beta T mu0 c0 reac prod kf kr, 0 < i0 -> 0 < T ->
  (forall p, In p (reac ++ prod) -> 0 < snd p /\ 0 < c0 (fst p)) ->
  kf = interface_rate i0 T 0 0 0 true
         (voltage beta 0 true (delta_gibbs0_RT mu0 T (stoich_coeffs reac prod)) (prod_conc c0 (stoich_coeffs reac prod))) ->
  kr = kf * rkc T true (mu0_Kc T mu0 (fun _ => 0) (fun _ => 0%nat) (fun _ => 0) c0) reac prod ->
  exchange_current n kf kr beta c0 reac prod
  = n * i0 * (prod_of (fun p => Rpower (c0 (fst p)) (snd p)) reac / prod_of (fun p => c0 (fst p)) prod).
Proof.
  intros n i0 beta T mu0 c0 reac prod kf kr Hi HT Hp Ekf Ekr.
  pose proof R_pos as HR.
  assert (HF : 0 < Faraday).
  { unfold Faraday, ElectronCharge, Avogadro. assert (0 < 10 ^ 18) by (apply pow_lt; lra).
    assert (0 < / 10 ^ 28) by (apply Rinv_0_lt_compat, pow_lt; lra). unfold Rdiv. nra. }
  assert (Hpc : prod_conc c0 (stoich_coeffs reac prod) = prod_of (fun p => c0 (fst p)) prod).
  { unfold prod_conc, stoich_coeffs. rewrite prod_of_app.
    rewrite (prod_of_ext _ (fun p => c0 (fst p)) prod).
    - assert (E : forall l, (forall p, In p l -> 0 < snd p) ->
        prod_of (fun p : nat * R => if rltb 0 (snd p) then c0 (fst p) else 1) (map (fun p => (fst p, - snd p)) l) = 1).
      { induction l as [|q l IH]; intros Hl; [reflexivity|]. cbn [map]. rewrite prod_of_cons, IH by (intros; apply Hl; now right).
        cbn [fst snd]. pose proof (Hl q (or_introl eq_refl)). destruct (rltb 0 (- snd q)) eqn:B; [apply rltb_true in B; lra|ring]. }
      rewrite E; [ring|]. intros p Hin. apply Hp, in_or_app. now left.
    - intros p Hin. destruct (rltb 0 (snd p)) eqn:B; [reflexivity|]. apply rltb_false in B.
      destruct (Hp p (in_or_app _ _ _ (or_intror Hin))). lra. }
  set (PC := prod_of (fun p => c0 (fst p)) prod) in *.
  assert (HPC : 0 < PC).
  { unfold PC. assert (Hq : forall p, In p prod -> 0 < c0 (fst p)) by (intros p Hin; apply Hp, in_or_app; now right).
    clear - Hq. induction prod as [|q l IH]; [unfold prod_of; cbn; lra|]. rewrite prod_of_cons.
    apply Rmult_lt_0_compat; [apply Hq; now left|apply IH; intros; apply Hq; now right]. }
  set (DG := delta mu0 reac prod).
  assert (Hdg : delta_gibbs0_RT mu0 T (stoich_coeffs reac prod) = DG / (GasConstant * T)).
  { unfold delta_gibbs0_RT, stoich_coeffs, DG, delta. unfold Rdiv. f_equal. rewrite sum_of_app, sum_of_map. cbn [fst snd].
    unfold Rminus. rewrite Rplus_comm. f_equal; [apply sum_of_ext; intros; ring|].
    transitivity (sum_of (fun p => -1 * (snd p * mu0 (fst p))) reac); [apply sum_of_ext; intros; ring|].
    rewrite sum_of_scal. ring. }
  assert (Hlnprod : forall l b, prod_of (fun p : nat * R => Rpower (c0 (fst p)) (b * snd p)) l
                     = exp (b * sum_of (fun p => snd p * ln (c0 (fst p))) l)).
  { intros l b. induction l as [|q l IH]; [unfold prod_of, sum_of; cbn; now rewrite Rmult_0_r, exp_0|].
    rewrite prod_of_cons, sum_of_cons, IH. unfold Rpower. rewrite <- exp_plus. f_equal. ring. }
  set (LR := sum_of (fun p => snd p * ln (c0 (fst p))) reac) in *.
  set (LP := sum_of (fun p => snd p * ln (c0 (fst p))) prod) in *.
  assert (Hrk : rkc T true (mu0_Kc T mu0 (fun _ => 0) (fun _ => 0%nat) (fun _ => 0) c0) reac prod
                = exp (DG / (GasConstant * T) - LP + LR)).
  { unfold rkc. f_equal.
    assert (E : delta (mu0_Kc T mu0 (fun _ => 0) (fun _ => 0%nat) (fun _ => 0) c0) reac prod
                = DG - GasConstant * T * (LP - LR)).
    { unfold delta, DG, delta, mu0_Kc, LP, LR.
      rewrite (sum_of_ext _ (fun p => snd p * mu0 (fst p) - GasConstant * T * (snd p * ln (c0 (fst p)))) prod) by (intros; ring).
      rewrite (sum_of_ext _ (fun p => snd p * mu0 (fst p) - GasConstant * T * (snd p * ln (c0 (fst p)))) reac) by (intros; ring).
      rewrite !sum_of_minus, !sum_of_scal. ring. }
    rewrite E. field. lra. }
  assert (Ekf' : kf = i0 * / (PC * Faraday) * exp (- beta * (DG / (GasConstant * T)))).
  { rewrite Ekf. unfold interface_rate, voltage. rewrite Hpc, Hdg. 
    replace (reqb 0 0) with true by (symmetry; now apply reqb_true).
    replace (ln 10 * 0 - 0 * / T + 0) with 0 by ring. rewrite exp_0. unfold Rdiv. ring. }
  assert (Hkf : 0 < kf).
  { rewrite Ekf'. apply Rmult_lt_0_compat; [|apply exp_pos]. apply Rmult_lt_0_compat; [lra|]. apply Rinv_0_lt_compat. nra. }
  unfold exchange_current. rewrite Ekr, Hrk, !Hlnprod. fold LR LP.
  rewrite rpower_mult_l by (try assumption; apply exp_pos).
  replace (n * Faraday * Rpower kf (1 - beta) * (Rpower kf beta * Rpower (exp (DG / (GasConstant * T) - LP + LR)) beta)
    * exp ((1 - beta) * LR) * exp (beta * LP))
  with (n * Faraday * (Rpower kf (1 - beta) * Rpower kf beta) * (Rpower (exp (DG / (GasConstant * T) - LP + LR)) beta
    * exp ((1 - beta) * LR) * exp (beta * LP))) by ring.
  rewrite <- Rpower_plus. replace (1 - beta + beta) with 1 by ring. rewrite Rpower_1 by assumption.
  unfold Rpower at 1. rewrite ln_exp, <- !exp_plus.
  rewrite Ekf'. 
  replace (prod_of (fun p => Rpower (c0 (fst p)) (snd p)) reac) with (exp LR).
  2: { rewrite (prod_of_ext _ (fun p : nat * R => Rpower (c0 (fst p)) (1 * snd p))) by (intros; now rewrite Rmult_1_l).
       rewrite Hlnprod. fold LR. now rewrite Rmult_1_l. }
  replace (n * Faraday * (i0 * / (PC * Faraday) * exp (- beta * (DG / (GasConstant * T))))
     * exp (beta * (DG / (GasConstant * T) - LP + LR) + (1 - beta) * LR + beta * LP))
  with (n * Faraday * (i0 * / (PC * Faraday)) * (exp (- beta * (DG / (GasConstant * T)))
     * exp (beta * (DG / (GasConstant * T) - LP + LR) + (1 - beta) * LR + beta * LP))) by ring.
  rewrite <- exp_plus.
  replace (- beta * (DG / (GasConstant * T)) + (beta * (DG / (GasConstant * T) - LP + LR) + (1 - beta) * LR + beta * LP)) with LR by ring.
  field. lra.
Qed.
Print Assumptions C69_exchange_refuted.
(* ... which is not i0 for a one-electron reaction between species of different standard concentrations. *)
Example C69_exchange_example : let c0 := fun k => if Nat.eqb k 0 then 2 else 3 in
  prod_of (fun p : nat * R => Rpower (c0 (fst p)) (snd p)) [(0%nat, 1)] / prod_of (fun p : nat * R => c0 (fst p)) [(1%nat, 1)] = 2 / 3.
Proof. cbn. unfold prod_of. cbn. rewrite Rpower_1 by lra. field. Qed.

(** ** The data the rates see *)

Definition head_cov (ps : list phs) : list R := match ps with [] => [] | p :: _ => p_comp p end.
Definition head_T (ps : list phs) : R := match ps with [] => 0 | p :: _ => p_T p end.
Definition data_inv (s : R * list phs * idata) : Prop :=
  let '(g, ps, d) := s in ps <> [] /\ (id_site d <> None ->
    (id_mf d <= mf_sum ps)%Z /\ (id_mf d = mf_sum ps -> id_cov d = head_cov ps /\ id_phi d = map p_phi ps)).
Lemma upd_change c i ps :
  upd_nth i (apply_change c) ps = ps \/ (mf_sum ps < mf_sum (upd_nth i (apply_change c) ps))%Z
  \/ (mf_sum (upd_nth i (apply_change c) ps) = mf_sum ps /\ head_cov (upd_nth i (apply_change c) ps) = head_cov ps
      /\ map p_phi (upd_nth i (apply_change c) ps) = map p_phi ps).
Proof.
  revert i. induction ps as [|p ps IH]; intros i; [left; now destruct i|].
  destruct i as [|i]; cbn [upd_nth].
  - destruct c; cbn; [right; left; lia|right; left; lia|right; right; auto|right; right; auto].
  - destruct (IH i) as [->|[H|(H1 & H2 & H3)]]; [now left|right; left; unfold mf_sum in *; cbn [fold_right]; lia|right; right].
    unfold mf_sum in *. cbn [fold_right map head_cov]. rewrite H1, H3. auto.
Qed.
Lemma upd_not_nil {A} i (f : A -> A) l : l <> [] -> upd_nth i f l <> [].
Proof. destruct l, i; cbn; congruence. Qed.
Lemma data_inv_step e s : data_inv s -> data_inv (istep e s).
Proof.
  destruct s as [[g ps] d]. intros [Hne H]. destruct e as [i c|g'| |]; cbn [istep].
  - split; [now apply upd_not_nil|]. intros Hs. destruct (H Hs) as [H1 H2].
    destruct (upd_change c i ps) as [->|[K|(K1 & K2 & K3)]]; [auto| |rewrite K1, K2, K3; auto].
    split; [lia|]. intros E. lia.
  - split; assumption.
  - split; [assumption|]. unfold data_update. destruct ps as [|p ps]; [congruence|].
    destruct (_ || _); cbn [fst]; [|assumption]. intros _. cbn [id_mf id_cov id_phi]. split; [lia|]. auto.
  - split; [assumption|]. cbn [id_site id_mf id_cov id_phi]. exact H.
Qed.
Lemma data_inv_run es : forall s, data_inv s -> data_inv (irun es s).
Proof. induction es as [|e es IH]; intros s H; [exact H|]. cbn. apply IH. now apply data_inv_step. Qed.
(* Temperature, site density, coverages and potentials are those of the moment, after any history. *)
Theorem C69_current_data : forall es g ps g' ps' d', ps <> [] ->
  irun (es ++ [Evaluate]) (g, ps, fresh_data) = (g', ps', d') ->
  id_site d' = Some g' /\ id_T d' = Some (head_T ps') /\ id_cov d' = head_cov ps' /\ id_phi d' = map p_phi ps'.
Proof.
  intros es g ps g' ps' d' Hne H. unfold irun in H. rewrite fold_left_app in H. fold (irun es (g, ps, fresh_data)) in H.
  assert (I : data_inv (irun es (g, ps, fresh_data))) by (apply data_inv_run; split; [assumption|cbn; congruence]).
  destruct (irun es (g, ps, fresh_data)) as [[g1 ps1] d1]. cbn in H. injection H as <- <- <-.
  destruct I as [Hn I]. unfold data_update. destruct ps1 as [|p ps1]; [congruence|].
  destruct (negb (oeqb (id_site d1) g1) || negb (oeqb (id_T d1) (p_T p))) eqn:C; cbn [orb].
  - cbn. auto.
  - destruct (Z.eqb_spec (mf_sum (p :: ps1)) (id_mf d1)) as [E|E]; cbn [negb]; [|cbn; auto].
    cbn [fst]. apply orb_false_iff in C. destruct C as [C1 C2]. apply negb_false_iff in C1, C2.
    unfold oeqb in C1, C2. destruct (id_site d1) as [v|]; [|discriminate]. destruct (id_T d1) as [t|]; [|discriminate].
    apply reqb_true in C1, C2. subst. destruct I as [_ I]; [congruence|]. destruct (I (eq_sym E)) as [I1 I2]. auto.
Qed.
Print Assumptions C69_current_data.
(* A change of pressure in any phase, or of temperature in a phase other than the first, between two
   evaluations leaves enthalpies, standard potentials and standard concentrations as they were. *)
Theorem C69_pressure_refuted : forall es g ps i c g1 ps1 d1 g2 ps2 d2, ps <> [] ->
  match c with SetP _ => True | SetT _ => i <> 0%nat | _ => False end ->
  irun (es ++ [Evaluate]) (g, ps, fresh_data) = (g1, ps1, d1) ->
  irun [Change i c; Evaluate] (g1, ps1, d1) = (g2, ps2, d2) ->
  id_snap d2 = id_snap d1 /\ g2 = g1 /\ ps2 = upd_nth i (apply_change c) ps1.
Proof.
  intros es g ps i c g1 ps1 d1 g2 ps2 d2 Hne Hc H1 H2.
  destruct (C69_current_data es g ps g1 ps1 d1 Hne H1) as (S1 & S2 & _ & _).
  assert (Hmf : id_mf d1 = mf_sum ps1 /\ ps1 <> []).
  { unfold irun in H1. rewrite fold_left_app in H1. fold (irun es (g, ps, fresh_data)) in H1.
    assert (I : data_inv (irun es (g, ps, fresh_data))) by (apply data_inv_run; split; [assumption|cbn; congruence]).
    destruct (irun es (g, ps, fresh_data)) as [[g0 ps0] d0]. cbn in H1. injection H1 as <- <- <-. destruct I as [I _].
    split; [|exact I]. unfold data_update. destruct ps0 as [|p ps0]; [congruence|].
    destruct (_ || negb _) eqn:B; [reflexivity|]. apply orb_false_iff in B. destruct B as [_ B].
    apply negb_false_iff, Z.eqb_eq in B. cbn [fst]. auto. }
  destruct Hmf as [Hmf Hn]. cbn in H2. injection H2 as <- <- <-.
  split; [|auto]. destruct ps1 as [|p ps1]; [congruence|].
  assert (Em : mf_sum (upd_nth i (apply_change c) (p :: ps1)) = mf_sum (p :: ps1)).
  { clear - Hc. generalize (p :: ps1). intros l. assert (Hc' : match c with SetP _ => True | SetT _ => True | _ => False end) by (destruct c; tauto).
    clear Hc. revert i. induction l as [|q l IH]; intros [|i]; cbn; try reflexivity; [destruct c; tauto|]. now rewrite IH. }
  unfold data_update. destruct i as [|i]; cbn [upd_nth] in Em |- *.
  - destruct c; try tauto; try lia. cbn [apply_change p_T]. rewrite S1, S2. cbn [oeqb head_T].
    replace (reqb g1 g1) with true by (symmetry; now apply reqb_true).
    replace (reqb (p_T p) (p_T p)) with true by (symmetry; now apply reqb_true).
    cbn [negb orb]. cbn [apply_change] in Em. rewrite Em, Hmf, Z.eqb_refl. reflexivity.
  - rewrite S1, S2. cbn [oeqb head_T].
    replace (reqb g1 g1) with true by (symmetry; now apply reqb_true).
    replace (reqb (p_T p) (p_T p)) with true by (symmetry; now apply reqb_true).
    cbn [negb orb]. rewrite Em, Hmf, Z.eqb_refl. reflexivity.
Qed.
Print Assumptions C69_pressure_refuted.
Example C69_pressure_example : exists ps1 d1 ps2 d2,
  irun ([Change 1 (SetComp [1/2; 1/2])] ++ [Evaluate])
    (1, [Phs 0 300 1 [1] 0; Phs 0 300 1 [1; 0] 0], fresh_data) = (1, ps1, d1)
  /\ irun [Change 1 (SetP 2); Evaluate] (1, ps1, d1) = (1, ps2, d2) /\ id_snap d2 <> map snap ps2.
Proof.
  do 4 eexists. split; [cbn; reflexivity|]. split; [cbn; reflexivity|].
  unfold data_update. cbn. rewrite !(proj2 (reqb_true _ _) eq_refl). cbn. intros E. injection E as E. lra.
Qed.
