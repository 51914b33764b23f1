(** C65: the transport properties reported for a gas mixture are those of its present state. *)
From Coq Require Import Reals List Bool Arith Lia Lra.
From Verif Require Import Base.Fp Base.Outcome Base.RSum Base.Vec Transport.Model Transport.Spec
  Transport.Proofs Transport.Proofs2.
Import ListNotations.
Open Scope R_scope.

(** [reached]: after the calls [ops] on a phase in state [g0] and its transport object, the phase is in
    state [g], the object is [t], and the polynomials are to be [tb]; a query now is safe. *)
Definition reached ck fitV fitC fitD (g0 : gas) (ops : list op) (g : gas) (t : tr) (tb : tabs) : Prop :=
  has_data (g_sp g0) /\ safe fitV fitC fitD ops g0 (hstart fitV fitC fitD g0) /\
  run ck fitV fitC fitD g0 ops = (g, t) /\
  exists h, snd (hrun fitV fitC fitD g0 ops) = h /\ safe_ask g h /\ tb = fit fitV fitC fitD g h.

Lemma reached_answer ck fitV fitC fitD g0 ops g t tb : reached ck fitV fitC fitD g0 ops g t tb ->
  (forall q, fst (answer ck fitV fitC fitD q g t) = Ok (value ck q g tb)) /\
  (forall i j, (i < nS g)%nat -> (j < nS g)%nat -> tb_d tb i j = tb_d tb j i).
Proof.
  intros (Hd & Hs & Hr & h & Hh & Ha & Ht).
  destruct (run_ok ck fitV fitC fitD g0 ops Hd Hs) as (E1 & I).
  rewrite Hr, Hh in *. cbn [fst snd] in *. rewrite <- E1 in I. subst tb. split.
  - intros q. exact (proj1 (answer_inv ck fitV fitC fitD q g h t I Ha)).
  - destruct (update_T_inv ck fitV fitC fitD g h t I Ha) as (t1 & _ & I1).
    exact (ts _ _ _ _ (in_tab _ _ _ _ I1)).
Qed.

(** Every answer is the one given by the formulas, from the present state and polynomials, whatever
    was asked and set before. *)
Theorem C65_values ck fitV fitC fitD g0 ops g t tb q :
  reached ck fitV fitC fitD g0 ops g t tb ->
  (q = QViscosity -> physical ck g tb) ->
  fst (answer ck fitV fitC fitD q g t) = Ok (formula ck q g tb).
Proof.
  intros Hr Hp. destruct (reached_answer _ _ _ _ _ _ _ _ _ Hr) as (Hv & Hs).
  rewrite Hv. f_equal. now apply value_formula.
Qed.
Print Assumptions C65_values.

(** Which states are reached: the phase is the one the calls on the phase make it, and the polynomials
    returned by the getters are those last fitted or set. *)
Theorem C65_polynomials ck fitV fitC fitD g0 ops : has_data (g_sp g0) ->
  safe fitV fitC fitD ops g0 (hstart fitV fitC fitD g0) ->
  let h := snd (hrun fitV fitC fitD g0 ops) in
  let t := snd (run ck fitV fitC fitD g0 ops) in
  fst (run ck fitV fitC fitD g0 ops) = fst (hrun fitV fitC fitD g0 ops) /\
  (forall i, getViscosityPolynomial i t = if (i <? h_n h)%nat then Ok (tb_v (h_tabs h) i) else Err) /\
  (forall i, getConductivityPolynomial i t = if (i <? h_n h)%nat then Ok (tb_c (h_tabs h) i) else Err) /\
  (forall i j, getBinDiffusivityPolynomial i j t =
               if (i <? h_n h)%nat && (j <? h_n h)%nat then Ok (tb_d (h_tabs h) i j) else Err).
Proof.
  intros Hd Hs h t. destruct (run_ok ck fitV fitC fitD g0 ops Hd Hs) as (E1 & I). fold h t in I.
  split; [assumption|]. destruct I as [i1 i2 i3 i4 i5 i6 i7]. destruct i6.
  unfold getViscosityPolynomial, getConductivityPolynomial, getBinDiffusivityPolynomial. rewrite i1.
  split; [|split].
  - intros i. destruct (Nat.ltb_spec i (h_n h)); [now rewrite tv|reflexivity].
  - intros i. destruct (Nat.ltb_spec i (h_n h)); [now rewrite tc|reflexivity].
  - intros i j. destruct (Nat.ltb_spec i (h_n h)), (Nat.ltb_spec j (h_n h)); cbn [andb]; try reflexivity. now rewrite td.
Qed.
Print Assumptions C65_polynomials.

(** If no polynomial was set, the answers are those of a transport object made anew. *)
Lemma fitted_prefix fitV fitC fitD ops : forall g h,
  Forall (fun o => match o with SetV _ _ | SetC _ _ | SetD _ _ _ => False | _ => True end) ops ->
  (h_n h <= nS g)%nat -> h_tabs h = fitted fitV fitC fitD (firstn (h_n h) (g_sp g)) ->
  let (g', h') := fold_left (hstep fitV fitC fitD) ops (g, h) in
  (h_n h' <= nS g')%nat /\ h_tabs h' = fitted fitV fitC fitD (firstn (h_n h') (g_sp g')).
Proof.
  induction ops as [|o ops IH]; intros g h Hf Hn Ht; [now split|].
  inversion Hf as [|? ? Ho Hf']; subst. cbn [fold_left]. destruct o; try contradiction; cbn [hstep].
  - now apply IH.
  - apply IH; [assumption| |].
    + unfold nS, add_species in *. simpl. rewrite app_length. lia.
    + unfold add_species. simpl. rewrite firstn_app. replace (h_n h - length (g_sp g))%nat with 0%nat by (unfold nS in Hn; lia).
      simpl. now rewrite app_nil_r.
  - apply IH; [assumption|simpl; lia|]. simpl. unfold nS at 1. rewrite firstn_all. unfold fit.
    destruct (Nat.eqb_spec (nS g) (h_n h)) as [E|E]; [|reflexivity].
    rewrite Ht, <- E. unfold nS. now rewrite firstn_all.
Qed.
Theorem C65_fresh ck fitV fitC fitD g0 ops g t tb q :
  reached ck fitV fitC fitD g0 ops g t tb ->
  Forall (fun o => match o with SetV _ _ | SetC _ _ | SetD _ _ _ => False | _ => True end) ops ->
  fst (answer ck fitV fitC fitD q g t) = fst (answer ck fitV fitC fitD q g (fst (init fitV fitC fitD g blank))).
Proof.
  intros Hr Hf. pose proof (proj1 (reached_answer _ _ _ _ _ _ _ _ _ Hr) q) as E. rewrite E.
  destruct Hr as (Hd & Hs & Hrun & h & Hh & Ha & Ht).
  destruct (run_ok ck fitV fitC fitD g0 ops Hd Hs) as (E1 & I). rewrite Hrun, Hh in *. cbn [fst snd] in *.
  pose proof (fitted_prefix fitV fitC fitD ops g0 (hstart fitV fitC fitD g0) Hf) as X.
  cbn [h_n h_tabs hstart] in X. specialize (X (le_n _)).
  assert (Hpre : fitted fitV fitC fitD (g_sp g0) = fitted fitV fitC fitD (firstn (nS g0) (g_sp g0)))
    by (unfold nS; now rewrite firstn_all).
  specialize (X Hpre).
  unfold hrun in *. destruct (fold_left (hstep fitV fitC fitD) ops (g0, hstart fitV fitC fitD g0)) as [g' h'].
  cbn [fst snd] in *. subst g' h'. destruct X as (Xn & Xt).
  assert (Etb : tb = fitted fitV fitC fitD (g_sp g)).
  { rewrite Ht. unfold fit. destruct (Nat.eqb_spec (nS g) (h_n h)) as [Q|Q]; [|reflexivity].
    rewrite Xt, <- Q. unfold nS. now rewrite firstn_all. }
  assert (Hdg : has_data (g_sp g)) by exact (in_data _ _ _ _ I).
  pose proof (start_inv ck fitV fitC fitD g Hdg) as I0.
  destruct (answer_inv ck fitV fitC fitD q g _ _ I0) as (E0 & _); [left; reflexivity|].
  rewrite E0, Etb. unfold fit. cbn [h_n hstart]. now rewrite Nat.eqb_refl.
Qed.
Print Assumptions C65_fresh.

(** The species fluxes sum to zero. *)
Theorem C65_fluxes_sum ck fitV fitC fitD g0 ops g t tb gradX :
  reached ck fitV fitC fitD g0 ops g t tb -> mmw g <> 0 ->
  exists f, fst (answer ck fitV fitC fitD (QFluxes gradX) g t) = Ok (map (fun k => Fin (f k)) (seq 0 (nS g))) /\
            sum_n f (nS g) = 0.
Proof.
  intros Hr Hm. exists (net_flux ck g tb gradX). split.
  - rewrite (C65_values _ _ _ _ _ _ _ _ _ _ Hr) by discriminate. reflexivity.
  - now apply net_flux_zero.
Qed.
Print Assumptions C65_fluxes_sum.

(** The conductivity lies between the smallest and the largest of those of the species; the viscosity
    is positive, not above the sum of those of the species, and, for species that are alike, equal to
    theirs. *)
Theorem C65_bounds ck fitV fitC fitD g0 ops g t tb :
  reached ck fitV fitC fitD g0 ops g t tb -> (0 < nS g)%nat ->
  (forall lo hi, (forall k, (k < nS g)%nat -> Tiny <= g_x g k) -> sum_n (g_x g) (nS g) = 1 -> 0 < lo ->
     (forall k, (k < nS g)%nat -> lo <= lam ck g tb k <= hi) ->
     exists v, fst (answer ck fitV fitC fitD QConductivity g t) = Ok [Fin v] /\ lo <= v <= hi) /\
  (physical ck g tb ->
     exists v, fst (answer ck fitV fitC fitD QViscosity g t) = Ok [Fin v] /\
       0 < v <= sum_n (eta ck g tb) (nS g) /\
       forall e w, (forall k, (k < nS g)%nat -> eta ck g tb k = e /\ wt g k = w) -> v = e).
Proof.
  intros Hr Hn. split.
  - intros lo hi Hx H1 Hlo Hl. exists (mix_conductivity ck g tb). split.
    + rewrite (C65_values _ _ _ _ _ _ _ _ _ _ Hr) by discriminate. reflexivity.
    + now apply conductivity_bounds.
  - intros Hp. exists (mix_viscosity ck g tb). split; [|split].
    + rewrite (C65_values _ _ _ _ _ _ _ _ _ _ Hr) by auto. reflexivity.
    + now apply viscosity_bounds.
    + intros e w H. now apply (viscosity_same ck g tb e w).
Qed.
Print Assumptions C65_bounds.

(** The binary diffusion coefficients: entry (i, j), stored by columns, is the one of the pair and is
    the same as entry (j, i). *)
Theorem C65_binary ck fitV fitC fitD g0 ops g t tb :
  reached ck fitV fitC fitD g0 ops g t tb ->
  exists l, fst (answer ck fitV fitC fitD QBinary g t) = Ok l /\ length l = (nS g * nS g)%nat /\
  forall i j, (i < nS g)%nat -> (j < nS g)%nat ->
    nth_error l (nS g * j + i) = Some (Fin (unit_diffusivity ck (g_T g) (tb_d tb i j) / g_P g)) /\
    nth_error l (nS g * j + i) = nth_error l (nS g * i + j).
Proof.
  intros Hr. destruct (reached_answer _ _ _ _ _ _ _ _ _ Hr) as (_ & Hs).
  eexists. split; [rewrite (C65_values _ _ _ _ _ _ _ _ _ _ Hr) by discriminate; reflexivity|].
  cbn [formula]. rewrite (concat_index (fun i j => Fin (dij ck g tb i j / g_P g))).
  split; [now rewrite map_length, seq_length|].
  assert (X : forall i j, (i < nS g)%nat -> (j < nS g)%nat ->
     nth_error (map (fun a => Fin (dij ck g tb (a mod nS g)%nat (a / nS g)%nat / g_P g)) (seq 0 (nS g * nS g))) (nS g * j + i)
     = Some (Fin (unit_diffusivity ck (g_T g) (tb_d tb i j) / g_P g))).
  { intros i j Hi Hj. erewrite map_nth_error.
    2: { rewrite (nth_error_nth' (seq 0 (nS g * nS g)) 0%nat) by (rewrite seq_length; nia).
         rewrite seq_nth by nia. reflexivity. }
    rewrite Nat.add_0_l. replace (nS g * j + i)%nat with (i + j * nS g)%nat by lia.
    rewrite Nat.mod_add, Nat.div_add by lia. rewrite Nat.mod_small, Nat.div_small by lia. reflexivity. }
  intros i j Hi Hj. rewrite !X by assumption. split; [reflexivity|]. now rewrite Hs.
Qed.
Print Assumptions C65_binary.

(** In a mixture of two species the three kinds of mixture diffusion coefficient are the binary
    coefficient (the first kind times the ratio of the other weight to the mean weight). *)
Theorem C65_two_species ck fitV fitC fitD g0 ops g t tb k :
  reached ck fitV fitC fitD g0 ops g t tb ->
  nS g = 2%nat -> (k < 2)%nat -> 0 < g_P g ->
  (forall j, (j < 2)%nat -> Tiny <= g_x g j /\ 0 < wt g j) -> g_x g 0%nat + g_x g 1%nat = 1 ->
  let D := unit_diffusivity ck (g_T g) (tb_d tb (1 - k) k) / g_P g in 0 < D ->
  exists l1 l2 l3,
  fst (answer ck fitV fitC fitD QMix g t) = Ok l1 /\ nth_error l1 k = Some (Fin (D * wt g (1 - k) / mmw g)) /\
  fst (answer ck fitV fitC fitD QMixMole g t) = Ok l2 /\ nth_error l2 k = Some (Fin D) /\
  fst (answer ck fitV fitC fitD QMixMass g t) = Ok l3 /\ nth_error l3 k = Some (Fin D).
Proof.
  intros Hr Hn Hk HP Hx H1 D HD.
  assert (HD' : 0 < dij ck g tb (1 - k) k).
  { unfold dij. replace (unit_diffusivity ck (g_T g) (tb_d tb (1 - k) k)) with (D * g_P g) by (unfold D; field; lra).
    now apply Rmult_lt_0_compat. }
  destruct (two_species ck g tb k Hn Hk HP Hx H1 HD') as (E1 & E2 & E3).
  assert (Hm : mmw g <> 0).
  { rewrite (mmw_two g Hn). destruct (Hx 0%nat ltac:(lia)), (Hx 1%nat ltac:(lia)).
    assert (0 < Tiny) by (unfold Tiny; apply Rinv_0_lt_compat, pow_lt; lra).
    assert (0 < g_x g 0%nat * wt g 0) by (apply Rmult_lt_0_compat; lra).
    assert (0 < g_x g 1%nat * wt g 1) by (apply Rmult_lt_0_compat; lra). lra. }
  rewrite !(C65_values _ _ _ _ _ _ _ _ _ _ Hr) by discriminate. cbn [formula].
  assert (S : nth_error (seq 0 (nS g)) k = Some k).
  { rewrite Hn. destruct k as [|[|k]]; [reflexivity|reflexivity|lia]. }
  do 3 eexists. split; [reflexivity|]. split; [|split; [reflexivity|split; [|split; [reflexivity|]]]].
  - rewrite (map_nth_error _ _ _ S), E1. unfold D, dij. do 2 f_equal. field. split; lra.
  - rewrite (map_nth_error _ _ _ S), E2. reflexivity.
  - rewrite (map_nth_error _ _ _ S), E3. reflexivity.
Qed.
Print Assumptions C65_two_species.

(** Refuted: without the exception for pure species.  At the pure state all three coefficients of the
    species are 0, while by the theorem above those of every mixture of two species, however close to
    it, are the binary coefficient. *)
Theorem C65_pure_species_refuted ck fitV fitC fitD g0 ops g t tb k :
  reached ck fitV fitC fitD g0 ops g t tb ->
  (2 <= nS g)%nat -> (k < nS g)%nat -> 0 < g_P g -> 0 < wt g k ->
  (forall j, (j < nS g)%nat -> j <> k -> 0 < unit_diffusivity ck (g_T g) (tb_d tb j k) /\ 0 < wt g j) ->
  (forall j, (j < nS g)%nat -> g_x g j = if (j =? k)%nat then 1 else 0) ->
  Forall (fun q => exists l, fst (answer ck fitV fitC fitD q g t) = Ok l /\ nth_error l k = Some (Fin 0))
    [QMix; QMixMole; QMixMass].
Proof.
  intros Hr Hn Hk HP Hw HD Hx.
  destruct (pure_species ck g tb k Hn Hk HP Hw HD Hx) as (E1 & E2 & E3).
  assert (S : nth_error (seq 0 (nS g)) k = Some k).
  { rewrite (nth_error_nth' (seq 0 (nS g)) 0%nat) by (rewrite seq_length; lia). now rewrite seq_nth. }
  apply Forall_cons; [|apply Forall_cons; [|apply Forall_cons; [|apply Forall_nil]]];
    rewrite (C65_values _ _ _ _ _ _ _ _ _ _ Hr) by discriminate; cbn [formula]; eexists; (split; [reflexivity|]);
    rewrite (map_nth_error _ _ _ S); [now rewrite E1|now rewrite E2|now rewrite E3].
Qed.
Print Assumptions C65_pure_species_refuted.

(** Refuted: that a species added between two queries at one temperature is taken into account.  Its
    viscosity is reported as 0. *)
Theorem C65_added_species_refuted ck fitV fitC fitD g s :
  has_data (g_sp g) -> sp_tr s = true ->
  let '(g1, t1) := run ck fitV fitC fitD g [Ask QSpeciesViscosities; AddSpecies s] in
  exists l, fst (answer ck fitV fitC fitD QSpeciesViscosities g1 t1) = Ok l /\
    length l = S (nS g) /\ nth_error l (nS g) = Some (Fin 0).
Proof.
  intros Hd Hs. unfold run. cbn [fold_left step].
  assert (Hd1 : has_data (g_sp (add_species g s))).
  { unfold has_data, add_species. simpl. apply Forall_app. split; [assumption|]. constructor; [assumption|constructor]. }
  pose proof (start_inv ck fitV fitC fitD g Hd) as I0.
  set (t0 := fst (init fitV fitC fitD g blank)) in *.
  destruct (update_T_inv ck fitV fitC fitD g _ t0 I0) as (t1 & E1 & I1); [left; reflexivity|].
  apply inv_ready in I1.
  destruct (viscT_ready ck g _ t1 I1) as (t2 & E2 & R2 & W2 & _).
  assert (X : snd (answer ck fitV fitC fitD QSpeciesViscosities g t0) = t2).
  { unfold answer, withT. rewrite E1, E2. reflexivity. }
  rewrite X. destruct (sw _ _ _ _ _ _ (rd_st _ _ _ _ R2) W2) as (S2 & _). clear X E1 E2 I1 I0.
  set (g' := add_species g s) in *.
  assert (Hn' : nS g' = S (nS g)) by (unfold nS, g', add_species; simpl; rewrite app_length; simpl; lia).
  unfold answer, withT, update_T.
  rewrite (proj2 (Nat.eqb_neq (t_n t2) (nS g'))) by (rewrite (rd_n _ _ _ _ R2); lia).
  rewrite andb_false_r. unfold gas_update_T.
  rewrite (proj2 (Nat.eqb_neq (nS g') (t_n t2))) by (rewrite (rd_n _ _ _ _ R2); lia).
  unfold init. rewrite (data_forallb _ Hd1). cbn [negb].
  unfold same_T. cbn [t_temp]. rewrite (rd_T _ _ _ _ R2).
  rewrite (proj2 (reqb_true (g_T g') (g_T g))) by reflexivity.
  unfold updateViscosity_T. cbn [t_svok]. rewrite S2. cbn [obind t_size t_visc].
  eexists. split; [reflexivity|]. unfold reals. split; [rewrite map_length, seq_length; assumption|].
  erewrite map_nth_error.
  2: { rewrite (nth_error_nth' _ 0%nat) by (rewrite seq_length, Hn'; lia). rewrite seq_nth by lia. reflexivity. }
  unfold resize. rewrite (rd_s _ _ _ _ R2). simpl. now rewrite Nat.ltb_irrefl.
Qed.
Print Assumptions C65_added_species_refuted.

(** Refuted: that an object which refused a query stays usable.  After a species without transport
    data is added, the first query throws and the next writes beyond the end of a vector. *)
Theorem C65_missing_data_refuted ck fitV fitC fitD g s q :
  has_data (g_sp g) -> sp_tr s = false -> q <> QSpeciesViscosities -> q <> QBinary ->
  let '(g1, t1) := run ck fitV fitC fitD g [AddSpecies s] in
  fst (answer ck fitV fitC fitD q g1 t1) = Err /\
  fst (answer ck fitV fitC fitD q g1 (snd (answer ck fitV fitC fitD q g1 t1))) = UB.
Proof.
  intros Hd Hs Hq1 Hq2. unfold run. cbn [fold_left step].
  set (g' := add_species g s) in *.
  assert (Hn' : nS g' = S (nS g)) by (unfold nS, g', add_species; simpl; rewrite app_length; simpl; lia).
  assert (Hf : forallb sp_tr (g_sp g') = false).
  { unfold g', add_species. simpl. rewrite forallb_app. simpl. rewrite Hs. apply andb_false_r. }
  pose proof (start_inv ck fitV fitC fitD g Hd) as I0.
  set (t0 := fst (init fitV fitC fitD g blank)) in *.
  assert (HT : t_temp t0 = None) by exact (in_T _ _ _ _ I0).
  assert (HN : t_n t0 = nS g) by exact (in_n _ _ _ _ I0).
  assert (HS : t_size t0 = nS g) by exact (in_s _ _ _ _ I0).
  destruct (update_T fitV fitC fitD g' t0) as [t1 b] eqn:E1.
  assert (Eb : b = false /\ t_n t1 = nS g' /\ t_size t1 = nS g /\ t_temp t1 = None).
  { unfold update_T, same_T in E1. rewrite HT in E1. cbn [andb] in E1. unfold gas_update_T in E1.
    rewrite (proj2 (Nat.eqb_neq (nS g') (t_n t0))) in E1 by lia.
    unfold init in E1. rewrite Hf in E1. cbn [negb] in E1. inversion E1; subst. auto. }
  destruct Eb as (-> & Bn & Bs & BT).
  assert (A1 : answer ck fitV fitC fitD q g' t0 = (Err, t1)).
  { destruct q; unfold answer, withT; rewrite E1; reflexivity. }
  rewrite A1. cbn [fst snd]. split; [reflexivity|].
  assert (E2 : exists t2, update_T fitV fitC fitD g' t1 = (t2, true) /\ t_size t2 = nS g).
  { unfold update_T, same_T. rewrite BT. cbn [andb]. unfold gas_update_T. rewrite Bn, Nat.eqb_refl. cbn [negb].
    unfold same_T. rewrite BT. eexists. split; [reflexivity|]. exact Bs. }
  destruct E2 as (t2 & E2 & S2).
  assert (E3 : update_C g' t2 = UB) by (unfold update_C; rewrite S2, Hn'; now rewrite (proj2 (Nat.leb_gt (S (nS g)) (nS g))) by lia).
  destruct q; try congruence; unfold answer, withT; rewrite E2, E3; reflexivity.
Qed.
Print Assumptions C65_missing_data_refuted.

(** ** Concrete cases *)
Definition ex_fit : list species -> nat -> coef := fun _ k => match k with 0%nat => C5 1 0 0 0 0 | 1%nat => C5 2 0 0 0 0 | _ => C5 3 0 0 0 0 end.
Definition ex_fitD : list species -> nat -> nat -> coef := fun _ i j => match i with 0%nat => C5 2 0 0 0 0 | _ => C5 3 0 0 0 0 end.
Definition ex_g0 : gas := Gas 3 2 4 (fun _ => / 2) [Sp 0 2 true; Sp 1 32 true].
Definition ex_ops : list op :=
  [Ask QViscosity; Ask QBinary; SetD 1 0 (C5 7 0 0 0 0); Ask QMix;
   AddSpecies (Sp 2 18 true); SetState 4 2 3 (fun k => if (k <? 2)%nat then / 4 else / 2); Ask QConductivity; SetV 2 (C5 5 0 0 0 0)].

Example C65_values_ex : exists g t tb,
  reached false ex_fit ex_fit ex_fitD ex_g0 ex_ops g t tb /\ nS g = 3%nat /\ g_T g = 4 /\
  tb_d tb 0%nat 1%nat = C5 2 0 0 0 0 /\ tb_v tb 2%nat = C5 5 0 0 0 0 /\
  physical false g tb /\ mmw g <> 0.
Proof.
  destruct (run false ex_fit ex_fit ex_fitD ex_g0 ex_ops) as [g t] eqn:Er.
  assert (Hd : has_data (g_sp ex_g0)) by (repeat constructor).
  assert (Hs : safe ex_fit ex_fit ex_fitD ex_ops ex_g0 (hstart ex_fit ex_fit ex_fitD ex_g0)).
  { cbn [safe hstep ex_ops]. unfold safe_ask. cbn -[IZR]. repeat match goal with |- _ /\ _ => split | |- True => exact I | |- true = true => reflexivity end;
      try (left; reflexivity). right. intros Q. injection Q. lra. }
  destruct (run_ok false ex_fit ex_fit ex_fitD ex_g0 ex_ops Hd Hs) as (E1 & _). rewrite Er in E1. cbn [fst] in E1.
  exists g, t, (fit ex_fit ex_fit ex_fitD g (snd (hrun ex_fit ex_fit ex_fitD ex_g0 ex_ops))).
  split.
  - split; [assumption|]. split; [assumption|]. split; [exact Er|]. eexists. split; [reflexivity|]. split; [|reflexivity].
    rewrite E1. left. reflexivity.
  - rewrite E1. split; [reflexivity|]. split; [reflexivity|]. split.
    + reflexivity.
    + split; [reflexivity|]. split.
      * split; [cbn -[IZR]; lra|]. split.
        -- intros k Hk. cbn in Hk. destruct k as [|[|[|k]]]; [cbn -[IZR ln]; lra|cbn -[IZR ln]; lra|cbn -[IZR ln]; lra|lia].
        -- intros _ k Hk. cbn in Hk. unfold poly5, poly4.
           destruct k as [|[|[|k]]]; [cbn -[IZR ln]; lra|cbn -[IZR ln]; lra|cbn -[IZR ln]; lra|lia].
      * unfold mmw. cbn -[IZR sum_n]. rewrite !sum_n_S, sum_n_0. cbn -[IZR]. lra.
Qed.

(** A history without setters and with two species, as the last theorems ask for. *)
Example C65_two_species_ex : exists g t tb,
  reached false ex_fit ex_fit ex_fitD ex_g0 [Ask QMix; Ask QViscosity] g t tb /\ nS g = 2%nat /\ 0 < g_P g /\
  (forall j, (j < 2)%nat -> Tiny <= g_x g j /\ 0 < wt g j) /\ g_x g 0%nat + g_x g 1%nat = 1 /\
  0 < unit_diffusivity false (g_T g) (tb_d tb 1%nat 0%nat) / g_P g /\
  (forall k, (k < nS g)%nat -> sqrt 3 <= lam false g tb k <= sqrt 3 * 2).
Proof.
  destruct (run false ex_fit ex_fit ex_fitD ex_g0 [Ask QMix; Ask QViscosity]) as [g t] eqn:Er.
  assert (Hd : has_data (g_sp ex_g0)) by (repeat constructor).
  assert (Hs : safe ex_fit ex_fit ex_fitD [Ask QMix; Ask QViscosity] ex_g0 (hstart ex_fit ex_fit ex_fitD ex_g0)).
  { cbn [safe hstep ex_ops]. unfold safe_ask. cbn -[IZR]. repeat match goal with |- _ /\ _ => split | |- True => exact I | |- true = true => reflexivity end; left; reflexivity. }
  destruct (run_ok false ex_fit ex_fit ex_fitD ex_g0 _ Hd Hs) as (E1 & _). rewrite Er in E1. cbn [fst] in E1.
  exists g, t, (fit ex_fit ex_fit ex_fitD g (snd (hrun ex_fit ex_fit ex_fitD ex_g0 [Ask QMix; Ask QViscosity]))).
  assert (HT : Tiny <= / 2).
  { unfold Tiny. apply Rinv_le_contravar; [lra|]. apply Rle_trans with (10 ^ 1); [lra|]. apply Rle_pow; [lra|lia]. }
  assert (Hq : 0 < sqrt 3) by (apply sqrt_lt_R0; lra).
  split.
  - split; [assumption|]. split; [assumption|]. split; [exact Er|]. eexists. split; [reflexivity|]. split; [|reflexivity].
    rewrite E1. left. reflexivity.
  - rewrite E1. split; [reflexivity|]. split; [cbn -[IZR]; lra|]. split; [|split; [cbn -[IZR]; lra|split]].
    + intros j Hj. destruct j as [|[|j]]; [| |lia]; (split; [exact HT|cbn -[IZR]; lra]).
    + unfold fit, unit_diffusivity, poly5, poly4. cbn -[IZR sqrt ln]. apply Rdiv_lt_0_compat; [|lra].
      apply Rmult_lt_0_compat; [|lra]. apply Rmult_lt_0_compat; lra.
    + intros k Hk. cbn in Hk. unfold lam, species_conductivity, poly5, poly4, fit.
      destruct k as [|[|k]]; [| |lia]; cbn -[IZR sqrt ln]; nra.
Qed.

Example C65_pure_species_ex : exists g t tb,
  reached false ex_fit ex_fit ex_fitD (Gas 3 2 4 (fun k => if (k =? 0)%nat then 1 else 0) (g_sp ex_g0)) [] g t tb /\
  nS g = 2%nat /\ 0 < g_P g /\ 0 < wt g 0 /\
  (forall j, (j < nS g)%nat -> j <> 0%nat -> 0 < unit_diffusivity false (g_T g) (tb_d tb j 0%nat) /\ 0 < wt g j) /\
  (forall j, (j < nS g)%nat -> g_x g j = if (j =? 0)%nat then 1 else 0).
Proof.
  eexists _, _, _. split.
  - split; [repeat constructor|]. split; [exact I|]. split; [reflexivity|].
    eexists. split; [reflexivity|]. split; [left; reflexivity|reflexivity].
  - split; [reflexivity|]. split; [cbn -[IZR]; lra|]. split; [cbn -[IZR]; lra|]. split; [|reflexivity].
    intros j Hj Hne. cbn in Hj. destruct j as [|[|j]]; [lia| |lia]. split; [|cbn -[IZR]; lra].
    assert (0 < sqrt 3) by (apply sqrt_lt_R0; lra).
    unfold unit_diffusivity, poly5, poly4. cbn -[IZR sqrt ln]. apply Rmult_lt_0_compat; [|lra].
    apply Rmult_lt_0_compat; lra.
Qed.
