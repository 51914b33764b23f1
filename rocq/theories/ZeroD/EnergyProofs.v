(* Walls, volume and energy; sums over the network. *)
From Coq Require Import String List Bool Reals Lra Lia Arith Permutation.
From Verif Require Import Base.Outcome Base.RSum ZeroD.NetModel ZeroD.NetSpec ZeroD.FrameProofs
  ZeroD.EvalProofs ZeroD.BalanceProofs.
Import ListNotations.
Local Open Scope R_scope.
Local Open Scope list_scope.

Lemma wright_Some s w i : wright s w = Some i <-> exists l, wl_ends (w_walls s w) = Some (l, i).
Proof.
  unfold wright. destruct (wl_ends (w_walls s w)) as [[a b]|]; cbn.
  - split; [intros H; injection H as ->; exists a; reflexivity|intros (x & H); congruence].
  - split; [discriminate|intros (x & H); discriminate].
Qed.
Lemma wleft_Some s w i : wleft s w = Some i <-> exists r, wl_ends (w_walls s w) = Some (i, r).
Proof.
  unfold wleft. destruct (wl_ends (w_walls s w)) as [[a b]|]; cbn.
  - split; [intros H; injection H as ->; exists b; reflexivity|intros (x & H); congruence].
  - split; [discriminate|intros (x & H); discriminate].
Qed.

Lemma sum_split (h : nat * bool -> R) l :
  sum_of h l = sum_of (fun w => h (w, true)) (map fst (filter snd l)) +
               sum_of (fun w => h (w, false)) (map fst (filter (fun x => negb (snd x)) l)).
Proof.
  induction l as [|[w b] l IH]; [cbn; lra|]. rewrite sum_of_cons, IH. cbn [filter snd].
  destruct b; cbn [negb map fst]; rewrite sum_of_cons; lra.
Qed.
Lemma NoDup_sides (l : list (nat * bool)) (P : nat * bool -> bool) (b : bool) :
  (forall x, P x = true -> snd x = b) -> NoDup l -> NoDup (map fst (filter P l)).
Proof.
  intros H ND. induction ND as [|[w c] l Hx ND IH]; [constructor|]. cbn [filter].
  destruct (P (w, c)) eqn:E; [|exact IH]. cbn [map fst]. constructor; [|exact IH].
  intros C. apply in_map_iff in C. destruct C as ([w' c'] & E1 & E2). cbn in E1. subst w'.
  apply filter_In in E2. destruct E2 as [E2 E3]. apply H in E, E3. cbn in E, E3. congruence.
Qed.
Lemma In_sides (l : list (nat * bool)) (P : nat * bool -> bool) (b : bool) w :
  (forall x, P x = true <-> snd x = b) -> In w (map fst (filter P l)) <-> In (w, b) l.
Proof.
  intros H. rewrite in_map_iff. split.
  - intros ([w' c'] & E1 & E2). cbn in E1. subst w'. apply filter_In in E2. destruct E2 as [E2 E3].
    apply H in E3. cbn in E3. subst. exact E2.
  - intros E. exists (w, b). split; [reflexivity|]. apply filter_In. split; [exact E|]. apply H. reflexivity.
Qed.
Lemma wall_sum s i (h : nat * bool -> R) : linked s ->
  sum_of h (n_wall (w_nodes s i)) = on_right s i (fun w => h (w, true)) + on_left s i (fun w => h (w, false)).
Proof.
  intros L. rewrite sum_split. unfold on_right, on_left.
  assert (Pt : forall x : nat * bool, snd x = true <-> snd x = true) by tauto.
  assert (Pf : forall x : nat * bool, negb (snd x) = true <-> snd x = false) by (intros []; destruct b; cbn; split; congruence).
  f_equal; apply sum_of_select.
  - eapply NoDup_sides; [intros x; apply Pt|apply (lk_wall_nd _ L)].
  - intros w. rewrite (In_sides _ _ true w Pt), (lk_wall _ L), is_at_true, wright_Some. split.
    + intros (l & r & E & ->). exists l. exact E.
    + intros (l & E). exists l, i. tauto.
  - intros w. rewrite (In_sides _ _ true w Pt), (lk_wall _ L). intros (l & r & E & _).
    apply (lk_wl _ L) in E. tauto.
  - eapply NoDup_sides; [intros x; apply Pf|apply (lk_wall_nd _ L)].
  - intros w. rewrite (In_sides _ _ false w Pf), (lk_wall _ L), is_at_true, wleft_Some. split.
    + intros (l & r & E & ->). exists r. exact E.
    + intros (r & E). exists i, r. tauto.
  - intros w. rewrite (In_sides _ _ false w Pf), (lk_wall _ L). intros (l & r & E & _).
    apply (lk_wl _ L) in E. tauto.
Qed.

Lemma fold_walls (l : list (R * R * R)) : forall a b,
  fold_left (fun acc x => match acc, x with (vd, qd), (f, v, q) => (vd - f * v, qd + f * q) end) l (a, b) =
  (a - sum_of (fun x => fst (fst x) * snd (fst x)) l, b + sum_of (fun x => fst (fst x) * snd x) l).
Proof.
  induction l as [|[[f v] q] l IH]; intros a b; cbn [fold_left].
  - rewrite !sum_of_nil. f_equal; lra.
  - rewrite IH, !sum_of_cons. cbn [fst snd]. f_equal; lra.
Qed.
Lemma on_right_neg s i f : on_right s i (fun w => - f w) = - on_right s i f.
Proof.
  unfold on_right, sum_n. set (X := sum_of _ _) at 2. replace (- X) with (-1 * X) by lra. subst X.
  rewrite <- sum_of_scal. apply sum_of_ext. intros d _. destruct (is_at _ _); lra.
Qed.
Lemma on_left_neg s i f : on_left s i (fun w => - f w) = - on_left s i f.
Proof.
  unfold on_left, sum_n. set (X := sum_of _ _) at 2. replace (- X) with (-1 * X) by lra. subst X.
  rewrite <- sum_of_scal. apply sum_of_ext. intros d _. destruct (is_at _ _); lra.
Qed.
Lemma on_right_ext s i f g : (forall w, f w = g w) -> on_right s i f = on_right s i g.
Proof. intros H. unfold on_right. apply sum_n_ext. intros w _. rewrite H. reflexivity. Qed.
Lemma on_left_ext s i f g : (forall w, f w = g w) -> on_left s i f = on_left s i g.
Proof. intros H. unfold on_left. apply sum_n_ext. intros w _. rewrite H. reflexivity. Qed.

Lemma walls_spec s i vd qd : linked s -> evalWalls s (w_nodes s i) = Ok (vd, qd) ->
  vd = expansion s i /\ qd = heating s i.
Proof.
  intros L. unfold evalWalls. destruct (wall_terms s (w_nodes s i)) as [l| | |] eqn:E; try discriminate.
  unfold omap, obind. rewrite fold_walls. intros H. injection H as <- <-. unfold wall_terms in E.
  assert (X : forall (w : nat * bool) b, obind (expansionRate (press s) (w_walls s (fst w))) (fun v =>
                 obind (heatRate (temp s) (w_walls s (fst w))) (fun q =>
                 Ok ((if snd w then 1 else -1) : R, v, q))) = Ok b ->
     b = (if snd (w : nat * bool) then 1 else -1, wall_motion s (fst w), wall_heat s (fst w))).
  { intros w b. unfold wall_motion, wall_heat. destruct (expansionRate _ _) as [v| | |]; try discriminate. cbn [obind].
    destruct (heatRate _ _) as [q| | |]; try discriminate. cbn [obind]. intros H. injection H as <-. reflexivity. }
  rewrite (sum_oseq _ _ (fun w : nat * bool => (if snd w then 1 else -1) * wall_motion s (fst w)) _ _ E).
  2:{ intros a b _ H. apply X in H. subst b. reflexivity. }
  rewrite (sum_oseq _ _ (fun w : nat * bool => (if snd w then 1 else -1) * wall_heat s (fst w)) _ _ E).
  2:{ intros a b _ H. apply X in H. subst b. reflexivity. }
  rewrite !wall_sum by exact L. cbn [fst snd]. unfold expansion, heating.
  rewrite (on_right_ext s i (fun w => 1 * wall_motion s w) (wall_motion s)) by (intros; lra).
  rewrite (on_right_ext s i (fun w => 1 * wall_heat s w) (wall_heat s)) by (intros; lra).
  rewrite (on_left_ext s i (fun w => -1 * wall_motion s w) (fun w => - wall_motion s w)) by (intros; lra).
  rewrite (on_left_ext s i (fun w => -1 * wall_heat s w) (fun w => - wall_heat s w)) by (intros; lra).
  rewrite !on_left_neg. split; lra.
Qed.

(** * Energy of one reactor *)
Lemma fold_minus2 {A} (f g : A -> R) l : forall a,
  fold_left (fun acc x => acc - f x - g x) l a = a - sum_of (fun x => f x + g x) l.
Proof.
  induction l as [|x l IH]; intros a; cbn [fold_left]; [rewrite sum_of_nil; lra|].
  rewrite IH, sum_of_cons. lra.
Qed.
Lemma fold_in {A B} (g : A -> R) (c : A -> B -> R) (m : list B) l : forall a,
  fold_left (fun acc x => fold_left (fun acc k => acc - c x k) m (acc + g x)) l a =
  a + sum_of (fun x => g x - sum_of (c x) m) l.
Proof.
  induction l as [|x l IH]; intros a; cbn [fold_left]; [rewrite sum_of_nil; lra|].
  rewrite IH, sum_of_cons, fold_minus. lra.
Qed.

Section Energy.
Context (s : net) (i : nat) (v : list R).
Context (L : linked s) (St : settled s i v) (NR : n_kind (w_nodes s i) <> KReservoir).
Notation n := (w_nodes s i).

Lemma in_carried_h e : oseq (flow_of s) (n_inlet n) = Ok (en_in e) ->
  sum_of (fun f => fl_mdot f * fl_h f) (en_in e) = arriving s i (carried_h s).
Proof.
  intros Hi. apply (in_sum s i _ _ _ L Hi). intros d a f E Ef.
  rewrite (flow_mdot _ _ _ Ef), (flow_h _ _ _ _ _ E Ef). unfold carried_h, up. rewrite E. reflexivity.
Qed.
Lemma out_carried_h e : oseq (flow_of s) (n_outlet n) = Ok (en_out e) ->
  sum_of (fun f => fl_mdot f * n_enth n) (en_out e) = leaving s i (carried_h s).
Proof.
  intros Ho. apply (out_sum s i _ _ _ L Ho). intros d b f E Ef.
  rewrite (flow_mdot _ _ _ Ef). unfold carried_h, up. rewrite E. reflexivity.
Qed.
Lemma leaving_carried_h : leaving s i (carried_h s) = leaving s i (mflow s) * n_enth n.
Proof.
  rewrite <- leaving_scal. apply leaving_ext. intros d b E. unfold carried_h, up. rewrite E. reflexivity.
Qed.

(* The chemical part of the energy, for any partial molar property x_k. *)
Lemma chemical (x : nat -> R) : weights_nonzero n ->
  (if molar (n_kind n) then same_species_downstream s i /\ names_distinct n else n_mass n <> 0) ->
  sum_n (fun k => x k * (species_mass_rate n v k / at_ (th_mw (n_th n)) k)) (n_nsp n) =
  sum_n (fun k => x k * (from_reactions n k + from_surfaces n k)) (n_nsp n)
  + arriving s i (fun d => sum_n (fun k => x k / at_ (th_mw (n_th n)) k * carried s d (name n k)) (n_nsp n))
  - leaving s i (mflow s) * sum_n (fun k => at_ (n_Y n) k * x k / at_ (th_mw (n_th n)) k) (n_nsp n).
Proof.
  intros W H. rewrite <- arriving_swap. unfold sum_n.
  rewrite <- (sum_of_scal (leaving s i (mflow s)) (fun k => at_ (n_Y n) k * x k / at_ (th_mw (n_th n)) k) (seq 0 (n_nsp n))).
  rewrite <- sum_of_plus, <- sum_of_minus. apply sum_of_ext. intros k Hk. apply in_seq in Hk.
  assert (Hk' : (k < n_nsp n)%nat) by lia. specialize (W k Hk').
  rewrite (reactor_species s i v L St NR k Hk').
  2:{ destruct (molar (n_kind n)); tauto. }
  assert (E : arriving s i (fun d => x k / at_ (th_mw (n_th n)) k * carried s d (name n k)) =
              x k / at_ (th_mw (n_th n)) k * arriving s i (fun d => carried s d (name n k))).
  { rewrite Rmult_comm, <- arriving_scal. unfold arriving. apply sum_n_ext. intros d _. destruct (is_at _ _); lra. }
  rewrite E. field. exact W.
Qed.

Lemma inner_in e (x : nat -> R) : oseq (flow_of s) (n_inlet n) = Ok (en_in e) ->
  sum_of (fun f => fl_h f * fl_mdot f - sum_of (fun k => x k / at_ (th_mw (n_th n)) k * fl_spec f k) (seq 0 (n_nsp n))) (en_in e)
  = arriving s i (carried_h s)
    - arriving s i (fun d => sum_n (fun k => x k / at_ (th_mw (n_th n)) k * carried s d (name n k)) (n_nsp n)).
Proof.
  intros Hi. rewrite <- arriving_minus. apply (in_sum s i _ _ _ L Hi). intros d a f E Ef.
  rewrite (flow_mdot _ _ _ Ef), (flow_h _ _ _ _ _ E Ef). unfold carried_h, up. rewrite E. cbn [option_map fst].
  f_equal; [lra|]. apply sum_n_ext. intros k Hk. rewrite (flow_spec s d a i f k L E Ef Hk). reflexivity.
Qed.

Lemma reactor_energy : fresh_p n -> n_energy n = true -> given_volume n = true -> energy_ok s i ->
  energy_rate n v = - n_press n * expansion s i + heating s i
                    + arriving s i (carried_h s) - leaving s i (carried_h s).
Proof.
  intros P En GV OK. rewrite leaving_carried_h.
  pose proof (fun x => chemical x) as Ch.
  assert (St' := St). destruct St' as (e & Hv0 & Hw & _ & Hv & Ho & Hi & Hs).
  destruct (walls_spec s i _ _ L Hv) as [Ev Eq].
  destruct (sdot_spec _ _ _ Hs) as [L1 L2].
  assert (Lead : forall k, (k < species_at n)%nat -> at_ v k = at_ (lead n e) k).
  { intros k Hk. rewrite Hv0. apply quot_lead; assumption. }
  assert (Uc : dUdt n e = - n_press n * expansion s i + heating s i
                    + arriving s i (carried_h s) - leaving s i (mflow s) * n_enth n \/ constP (n_kind n) = true).
  { destruct (constP (n_kind n)) eqn:CP; [right; reflexivity|left]. unfold dUdt. rewrite En, fold_plus, fold_minus.
    rewrite (in_carried_h e Hi), (out_carried_h e Ho), leaving_carried_h, Ev, Eq.
    rewrite (P CP). lra. }
  assert (Tc : weights_nonzero n -> u_mixture n ->
     (if molar (n_kind n) then same_species_downstream s i /\ names_distinct n else n_mass n <> 0) ->
     mcvdTdt n e + sum_n (fun k => at_ (th_uk (n_th n) (n_T n) (n_rho n) (n_Y n)) k *
                          (species_mass_rate n v k / at_ (th_mw (n_th n)) k)) (n_nsp n) =
     - n_press n * expansion s i + heating s i + arriving s i (carried_h s) - leaving s i (mflow s) * n_enth n).
  { intros W Um Hm. rewrite (Ch _ W Hm). unfold mcvdTdt. rewrite En. cbv zeta.
    rewrite fold_in, fold_minus, fold_minus2, inner_in by exact Hi. rewrite Ev, Eq, Hw.
    assert (B : sum_of (fun f => fl_mdot f * n_press n * n_vol n / n_mass n) (en_out e) =
                leaving s i (mflow s) * (n_press n * n_vol n / n_mass n)).
    { rewrite <- leaving_scal. apply (out_sum s i _ _ _ L Ho). intros d b f E Ef. rewrite (flow_mdot _ _ _ Ef).
      unfold Rdiv. ring. }
    assert (C : sum_of (fun k => at_ (n_wdot n) k * at_ (th_uk (n_th n) (n_T n) (n_rho n) (n_Y n)) k * n_vol n +
                      at_ (en_sdot e) k * at_ (th_uk (n_th n) (n_T n) (n_rho n) (n_Y n)) k) (seq 0 (n_nsp n)) =
       sum_n (fun k => at_ (th_uk (n_th n) (n_T n) (n_rho n) (n_Y n)) k * (from_reactions n k + from_surfaces n k)) (n_nsp n)).
    { apply sum_n_ext. intros k Hk. rewrite (L2 k Hk). unfold from_reactions. ring. }
    rewrite B, C. rewrite Um. ring. }
  unfold given_volume in GV. unfold energy_rate, energy_ok, lead, species_at in *. cbv zeta in *.
  destruct (n_kind n); try discriminate; cbn [constP molar] in *.
  - rewrite Lead by lia. destruct Uc as [Uc|]; [exact Uc|discriminate].
  - destruct OK as (O1 & O2 & O3 & O4). rewrite <- (Tc O3 O4 O2), (Lead 2%nat) by lia.
    cbn [at_ nth]. rewrite En. field. split; intros Z; apply O1; rewrite Z; ring.
  - rewrite Lead by lia. destruct Uc as [Uc|]; [exact Uc|discriminate].
  - destruct OK as (O1 & O3 & O4 & O5). rewrite <- (Tc O3 O4 O5), (Lead 0%nat) by lia.
    cbn [at_ nth]. rewrite En. field. split; intros Z; apply O1; rewrite Z; ring.
Qed.

Lemma reactor_enthalpy : n_energy n = true -> given_pressure n = true -> energy_ok s i ->
  enthalpy_rate n v = heating s i + arriving s i (carried_h s) - leaving s i (carried_h s).
Proof.
  intros En GV OK. rewrite leaving_carried_h.
  pose proof (fun x => chemical x) as Ch.
  assert (St' := St). destruct St' as (e & Hv0 & Hw & _ & Hv & Ho & Hi & Hs).
  destruct (walls_spec s i _ _ L Hv) as [Ev Eq].
  destruct (sdot_spec _ _ _ Hs) as [L1 L2].
  assert (Lead : forall k, (k < species_at n)%nat -> at_ v k = at_ (lead n e) k).
  { intros k Hk. rewrite Hv0. apply quot_lead; assumption. }
  assert (Uc : dHdt n e = heating s i + arriving s i (carried_h s) - leaving s i (mflow s) * n_enth n).
  { unfold dHdt. rewrite En, fold_plus, fold_minus.
    rewrite (in_carried_h e Hi), (out_carried_h e Ho), leaving_carried_h, Eq. lra. }
  assert (Tc : weights_nonzero n -> h_mixture n ->
     (if molar (n_kind n) then same_species_downstream s i /\ names_distinct n else n_mass n <> 0) ->
     mcpdTdt n e + sum_n (fun k => at_ (th_hk (n_th n) (n_T n) (n_rho n) (n_Y n)) k *
                          (species_mass_rate n v k / at_ (th_mw (n_th n)) k)) (n_nsp n) =
     heating s i + arriving s i (carried_h s) - leaving s i (mflow s) * n_enth n).
  { intros W Um Hm. rewrite (Ch _ W Hm). unfold mcpdTdt. rewrite En. cbv zeta.
    rewrite fold_in, fold_minus2, inner_in by exact Hi. rewrite Eq, Hw.
    assert (C : sum_of (fun k => at_ (n_wdot n) k * at_ (th_hk (n_th n) (n_T n) (n_rho n) (n_Y n)) k * n_vol n +
                      at_ (en_sdot e) k * at_ (th_hk (n_th n) (n_T n) (n_rho n) (n_Y n)) k) (seq 0 (n_nsp n)) =
       sum_n (fun k => at_ (th_hk (n_th n) (n_T n) (n_rho n) (n_Y n)) k * (from_reactions n k + from_surfaces n k)) (n_nsp n)).
    { apply sum_n_ext. intros k Hk. rewrite (L2 k Hk). unfold from_reactions. ring. }
    rewrite C. rewrite Um. ring. }
  unfold given_pressure in GV. unfold enthalpy_rate, energy_ok, lead, species_at in *. cbv zeta in *.
  destruct (n_kind n); try discriminate; cbn [constP molar] in *.
  - rewrite Lead by lia. exact Uc.
  - destruct OK as (O1 & O2 & O3 & O4). rewrite <- (Tc O3 O4 O2), (Lead 1%nat) by lia.
    cbn [at_ nth]. rewrite En. field. split; intros Z; apply O1; rewrite Z; ring.
  - rewrite Lead by lia. exact Uc.
  - destruct OK as (O1 & O3 & O4 & O5). rewrite <- (Tc O3 O4 O5), (Lead 0%nat) by lia.
    cbn [at_ nth]. rewrite En. field. split; intros Z; apply O1; rewrite Z; ring.
Qed.

Lemma reactor_volume : given_volume n = true -> volume_rate v = expansion s i.
Proof.
  intros GV. destruct St as (e & -> & Hw & _ & Hv & Ho & Hi & Hs).
  destruct (walls_spec s i _ _ L Hv) as [<- _]. unfold volume_rate. rewrite quot_lead.
  - unfold given_volume in GV. unfold lead. destruct (n_kind n); try discriminate; reflexivity.
  - exact NR.
  - unfold given_volume in GV. unfold species_at. destruct (n_kind n); try discriminate; lia.
Qed.
End Energy.

(** * Sums over the network *)
Lemma sum_arriving s f : NoDup (w_order s) ->
  sum_of (fun i => arriving s i f) (w_order s) = sum_n (fun d => f d * ind (inside_o s (down s d))) (w_nd s).
Proof.
  intros ND. unfold arriving, sum_n. rewrite sum_of_swap. apply sum_of_ext. intros d _.
  rewrite (sum_ind_in (fun _ => f d) (down s d) (w_order s) ND). unfold inside_o, inside, ind.
  destruct (down s d) as [j|]; [|lra]. destruct (existsb _ _); lra.
Qed.
Lemma sum_leaving s f : NoDup (w_order s) ->
  sum_of (fun i => leaving s i f) (w_order s) = sum_n (fun d => f d * ind (inside_o s (up s d))) (w_nd s).
Proof.
  intros ND. unfold leaving, sum_n. rewrite sum_of_swap. apply sum_of_ext. intros d _.
  rewrite (sum_ind_in (fun _ => f d) (up s d) (w_order s) ND). unfold inside_o, inside, ind.
  destruct (up s d) as [j|]; [|lra]. destruct (existsb _ _); lra.
Qed.
Lemma sum_on_right s (f : nat -> nat -> R) : NoDup (w_order s) ->
  sum_of (fun i => on_right s i (f i)) (w_order s) =
  sum_n (fun w => match wright s w with Some i => f i w * ind (inside s i) | None => 0 end) (w_nw s).
Proof.
  intros ND. unfold on_right, sum_n. rewrite sum_of_swap. apply sum_of_ext. intros d _.
  rewrite (sum_ind_in (fun i => f i d) (wright s d) (w_order s) ND). unfold inside, ind.
  destruct (wright s d) as [j|]; [|lra]. destruct (existsb _ _); lra.
Qed.
Lemma sum_on_left s (f : nat -> nat -> R) : NoDup (w_order s) ->
  sum_of (fun i => on_left s i (f i)) (w_order s) =
  sum_n (fun w => match wleft s w with Some i => f i w * ind (inside s i) | None => 0 end) (w_nw s).
Proof.
  intros ND. unfold on_left, sum_n. rewrite sum_of_swap. apply sum_of_ext. intros d _.
  rewrite (sum_ind_in (fun i => f i d) (wleft s d) (w_order s) ND). unfold inside, ind.
  destruct (wleft s d) as [j|]; [|lra]. destruct (existsb _ _); lra.
Qed.
Lemma parts_sum s yd (f : node -> list R -> R) g : Forall2 (settled s) (w_order s) yd ->
  (forall i v, In i (w_order s) -> settled s i v -> f (w_nodes s i) v = g i) ->
  sum_of (fun p => f (fst p) (snd p)) (parts s yd) = sum_of g (w_order s).
Proof.
  intros F H. unfold parts. induction F as [|i v o yd S F IH]; [reflexivity|].
  cbn [map combine]. rewrite !sum_of_cons. cbn [fst snd].
  rewrite (H i v (or_introl eq_refl) S), IH; [reflexivity|]. intros. apply H; [right|]; assumption.
Qed.
