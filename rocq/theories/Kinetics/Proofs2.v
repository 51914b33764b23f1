From Coq Require Import Reals ZArith String List Bool Arith Lia Lra Permutation.
From Verif Require Import Base.Outcome Base.RSum Base.Vec Stoich.Model Stoich.Spec Stoich.Proofs
  Kinetics.Model Kinetics.Spec Kinetics.Proofs.
Import ListNotations.
Open Scope R_scope.

(** ** Linear forms of the declarations *)
Fixpoint lks (g : nat -> R) (ks : list nat) (ss : list R) : R :=
  match ks, ss with
  | k :: ks', s :: ss' => s * g k + lks g ks' ss'
  | _, _ => 0
  end.

Lemma lin_lks g ks : forall os ss, length os = length ks -> length ss = length ks ->
  lin g (zip3 ks os ss) = lks g ks ss.
Proof.
  induction ks as [|k ks IH]; intros [|o os] [|s ss] H1 H2; try discriminate; [reflexivity|].
  simpl. unfold lin. rewrite sum_of_cons. fold (lin g (zip3 ks os ss)). rewrite IH by auto. reflexivity.
Qed.

Lemma lks_snoc0 g ks : forall ss k, length ss = length ks -> lks g (ks ++ [k]) (ss ++ [0]) = lks g ks ss.
Proof.
  induction ks as [|k' ks IH]; intros [|s ss] k H; try discriminate; simpl; [lra|].
  rewrite IH by auto. lra.
Qed.

Lemma apply_orders_lks g phs os : forall rk ro rs rk' ro' rs',
  apply_orders phs os (rk, ro, rs) = Some (rk', ro', rs') -> length rs = length rk ->
  lks g rk' rs' = lks g rk rs.
Proof.
  induction os as [|[nm o] os IH]; intros rk ro rs rk' ro' rs' H H2; simpl in H.
  - injection H as <- <- <-. reflexivity.
  - destruct (species_index phs nm); [|discriminate]. destruct (find_pos n rk).
    + apply IH in H; auto.
    + apply IH in H; [|rewrite !app_length; simpl; lia]. rewrite H. now apply lks_snoc0.
Qed.

Lemma apply_orders_nonneg phs os : forall rk ro rs rk' ro' rs',
  apply_orders phs os (rk, ro, rs) = Some (rk', ro', rs') ->
  Forall (fun s => 0 <= s) rs -> Forall (fun s => 0 <= s) rs'.
Proof.
  induction os as [|[nm o] os IH]; intros rk ro rs rk' ro' rs' H HF; simpl in H.
  - injection H as <- <- <-. assumption.
  - destruct (species_index phs nm); [|discriminate]. destruct (find_pos n rk).
    + now apply IH in H.
    + apply IH in H; [assumption|]. rewrite Forall_app. split; [assumption|]. constructor; [lra|constructor].
Qed.

Lemma indices_lks g phs l ks : indices phs l = Some ks -> lks g ks (map snd l) = weighted phs g l.
Proof.
  revert ks. induction l as [|[nm s] l IH]; simpl; intros ks H; [injection H as <-; reflexivity|].
  unfold weighted. rewrite sum_of_cons. fold (weighted phs g l). unfold at_name.
  destruct (species_index phs nm); [|discriminate]. destruct (indices phs l); [|discriminate].
  injection H as <-. simpl. rewrite IH; reflexivity.
Qed.

Lemma indices_bound phs n l ks : (forall nm k, species_index phs nm = Some k -> (k < n)%nat) ->
  indices phs l = Some ks -> Forall (fun k => (k < n)%nat) ks.
Proof.
  intros HB. revert ks. induction l as [|[nm s] l IH]; simpl; intros ks H; [injection H as <-; constructor|].
  destruct (species_index phs nm) eqn:E; [|discriminate]. destruct (indices phs l); [|discriminate].
  injection H as <-. constructor; eauto.
Qed.

Lemma apply_orders_bound phs n os : (forall nm k, species_index phs nm = Some k -> (k < n)%nat) ->
  forall rk ro rs rk' ro' rs', apply_orders phs os (rk, ro, rs) = Some (rk', ro', rs') ->
  Forall (fun k => (k < n)%nat) rk -> Forall (fun k => (k < n)%nat) rk'.
Proof.
  intros HB. induction os as [|[nm o] os IH]; intros rk ro rs rk' ro' rs' H HF; simpl in H.
  - injection H as <- <- <-. assumption.
  - destruct (species_index phs nm) eqn:E; [|discriminate]. destruct (find_pos n0 rk).
    + now apply IH in H.
    + apply IH in H; [assumption|]. rewrite Forall_app. split; [assumption|]. constructor; [eauto|constructor].
Qed.

Definition accepted (phs : list phase) (f1 f2 : bool) (r : reaction) : Prop :=
  rx_check r = Ok tt /\ check_species phs f1 f2 r = Ok true.

Lemma accepted_known phs f1 f2 r : accepted phs f1 f2 r ->
  known phs (rx_reactants r) /\ known phs (rx_products r) /\ known phs (rx_orders r).
Proof. intros [_ H]. destruct (check_species_known _ _ _ _ _ H eq_refl) as (A & B & C & _). auto. Qed.

Lemma nonneg_snd (l : list (string * R)) : Forall (fun '(_, s) => 0 <= s) l -> Forall (fun s => 0 <= s) (map snd l).
Proof. induction 1 as [|[nm s] l H HF IH]; simpl; constructor; auto. Qed.

Lemma rdecl_shape phs i r : known phs (rx_reactants r) -> known phs (rx_orders r) ->
  exists rk rk' o s, indices phs (rx_reactants r) = Some rk /\
    apply_orders phs (rx_orders r) (rk, map snd (rx_reactants r), map snd (rx_reactants r)) = Some (rk', o, s) /\
    rdecl phs i r = (i, rk', o, s) /\ length o = length rk' /\ length s = length rk'.
Proof.
  intros K1 K2. apply indices_known in K1 as [rk E1].
  destruct (apply_orders_known _ _ K2 (rk, map snd (rx_reactants r), map snd (rx_reactants r))) as [[[rk' o] s] E2].
  exists rk, rk', o, s. unfold rdecl. rewrite E1, E2. pose proof (indices_length _ _ _ E1) as L.
  destruct (apply_orders_length _ _ _ _ _ _ _ _ E2); rewrite ?map_length; auto.
Qed.

Lemma pdecl_shape phs i r : known phs (rx_products r) ->
  exists pk, indices phs (rx_products r) = Some pk /\
    pdecl phs i r = (i, pk, map snd (rx_products r), map snd (rx_products r)) /\
    length (map snd (rx_products r)) = length pk.
Proof.
  intros K1. apply indices_known in K1 as [pk E1]. exists pk. unfold pdecl. rewrite E1.
  pose proof (indices_length _ _ _ E1) as L. now rewrite map_length.
Qed.

Lemma lin_rdecl g phs i r : known phs (rx_reactants r) -> known phs (rx_orders r) -> nonneg_coefs r ->
  lin g (cn_parts (handler (rdecl phs i r))) = weighted phs g (rx_reactants r).
Proof.
  intros K1 K2 [N _]. destruct (rdecl_shape phs i r K1 K2) as (rk & rk' & o & s & E1 & E2 & E3 & L1 & L2).
  rewrite (lin_handled g (handler (rdecl phs i r)) (rdecl phs i r) (handler_handled _)).
  - rewrite E3. unfold d_sp, d_order, d_stoich. simpl. rewrite lin_lks by assumption.
    rewrite (apply_orders_lks g _ _ _ _ _ _ _ _ E2); [|rewrite map_length; symmetry; apply (indices_length _ _ _ E1)].
    now apply indices_lks.
  - rewrite E3. unfold d_stoich. simpl. eapply apply_orders_nonneg; [exact E2|]. now apply nonneg_snd.
Qed.

Lemma lin_pdecl g phs i r : known phs (rx_products r) -> nonneg_coefs r ->
  lin g (cn_parts (handler (pdecl phs i r))) = weighted phs g (rx_products r).
Proof.
  intros K1 [_ N]. destruct (pdecl_shape phs i r K1) as (pk & E1 & E3 & L1).
  rewrite (lin_handled g (handler (pdecl phs i r)) (pdecl phs i r) (handler_handled _)).
  - rewrite E3. unfold d_sp, d_order, d_stoich. simpl. rewrite lin_lks by assumption. now apply indices_lks.
  - rewrite E3. unfold d_stoich. simpl. now apply nonneg_snd.
Qed.

Lemma weighted_coef phs k l : weighted phs (fun k' => if Nat.eqb k' k then 1 else 0) l = coef phs l k.
Proof.
  unfold weighted, coef. apply sum_of_ext. intros [nm s] _. unfold at_name.
  destruct (species_index phs nm); [|lra]. destruct (Nat.eqb n k); lra.
Qed.

Lemma net_formula s e k : inv s -> Forall nonneg_coefs (k_rxns s) ->
  net_production_rates s e k =
  sum_of (fun '(i, r) => (coef (k_phases s) (rx_products r) k - coef (k_phases s) (rx_reactants r) k) * ropnet s e i)
         (numbered (k_rxns s)).
Proof.
  intros HI HN. unfold net_production_rates. rewrite decS_hs, incS_hs.
  rewrite (sumS_mgr _ _ _ _ (inv_r s HI)), (sumS_mgr _ _ _ _ (inv_p s HI)).
  unfold rdecls, pdecls. rewrite !sum_of_map. unfold zeros. rewrite Rplus_0_l, <- sum_of_minus.
  apply sum_of_ext. intros [i r] Hin. rewrite rdecl_rxn, pdecl_rxn. unfold cS.
  apply numbered_in in Hin. apply nth_error_In in Hin.
  pose proof (inv_acc s HI) as HA. rewrite Forall_forall in HA, HN.
  destruct (accepted_known _ _ _ _ (HA r Hin)) as (K1 & K2 & K3).
  rewrite lin_rdecl, lin_pdecl, !weighted_coef; auto. lra.
Qed.

(** ** Global species numbers *)
Lemma total_species_acc phs : forall n, fold_left (fun n p => (n + ph_n p)%nat) phs n = (n + total_species phs)%nat.
Proof.
  unfold total_species. induction phs as [|p phs IH]; intros n; simpl; [lia|]. rewrite IH, (IH (ph_n p)). lia.
Qed.
Lemma total_species_cons p phs : total_species (p :: phs) = (ph_n p + total_species phs)%nat.
Proof. unfold total_species at 1. simpl. now rewrite total_species_acc. Qed.

Lemma species_index_from_shift phs nm : forall st,
  species_index_from st phs nm = option_map (fun k => (k + st)%nat) (species_index_from 0 phs nm).
Proof.
  induction phs as [|p phs IH]; intros st; simpl; [reflexivity|].
  destruct (ph_index p nm); simpl; [f_equal; lia|].
  rewrite IH, (IH (ph_n p)). destruct (species_index_from 0 phs nm); simpl; [f_equal; lia|reflexivity].
Qed.

Lemma species_index_cons p phs nm :
  species_index (p :: phs) nm = match ph_index p nm with
                                | Some k => Some k
                                | None => option_map (fun k => (ph_n p + k)%nat) (species_index phs nm)
                                end.
Proof.
  unfold species_index. simpl. destruct (ph_index p nm); [f_equal; lia|].
  rewrite species_index_from_shift. destruct (species_index_from 0 phs nm); simpl; [f_equal; lia|reflexivity].
Qed.

Lemma species_index_bound phs nm k : phases_ok phs -> species_index phs nm = Some k -> (k < total_species phs)%nat.
Proof.
  intros H. revert k. induction H as [|p phs Hp HF IH]; intros k; [discriminate|].
  rewrite species_index_cons, total_species_cons. destruct (ph_index p nm) eqn:E.
  - intros X. injection X as <-. specialize (Hp _ _ E). lia.
  - destruct (species_index phs nm); [|discriminate]. intros X. injection X as <-.
    specialize (IH _ eq_refl). lia.
Qed.

Lemma sum_coef_weighted phs a l : phases_ok phs -> known phs l ->
  sum_n (fun k => a k * coef phs l k) (total_species phs) = weighted phs a l.
Proof.
  intros HP HK. unfold coef, weighted, sum_n.
  rewrite (sum_of_ext _ (fun k => sum_of (fun x => a k * (let '(nm, s) := x in match species_index phs nm with
      | Some k' => if Nat.eqb k' k then s else 0 | None => 0 end)) l)).
  2:{ intros k _. symmetry. apply sum_of_scal. }
  rewrite sum_of_swap. apply sum_of_ext. intros [nm s] Hin.
  unfold known in HK. rewrite Forall_forall in HK. specialize (HK _ Hin). simpl in HK.
  unfold at_name. destruct (species_index phs nm) as [k|] eqn:E; [|congruence].
  pose proof (species_index_bound _ _ _ HP E) as B.
  match goal with |- sum_of ?f _ = _ => fold (sum_n f (total_species phs)) end.
  rewrite (sum_n_single _ _ k B); [rewrite Nat.eqb_refl; lra|].
  intros j _ Hj. destruct (Nat.eqb_spec k j); [congruence|lra].
Qed.

(** ** C19: weighted sums of the net production rates *)
Lemma weighted_net s e a : inv s -> phases_ok (k_phases s) -> Forall nonneg_coefs (k_rxns s) ->
  sum_n (fun k => a k * net_production_rates s e k) (total_species (k_phases s)) =
  sum_of (fun '(i, r) => delta (k_phases s) a r * ropnet s e i) (numbered (k_rxns s)).
Proof.
  intros HI HP HN.
  rewrite (sum_n_ext _ (fun k => sum_of (fun x => a k * (let '(i, r) := x in (coef (k_phases s) (rx_products r) k - coef (k_phases s) (rx_reactants r) k) * ropnet s e i)) (numbered (k_rxns s)))).
  2:{ intros k _. rewrite net_formula by assumption. symmetry. apply sum_of_scal. }
  unfold sum_n. rewrite sum_of_swap. apply sum_of_ext. intros [i r] Hin.
  apply numbered_in in Hin. apply nth_error_In in Hin.
  pose proof (inv_acc s HI) as HA. rewrite Forall_forall in HA.
  destruct (accepted_known _ _ _ _ (HA r Hin)) as (K1 & K2 & K3).
  unfold delta. rewrite <- (sum_coef_weighted (k_phases s) a (rx_products r)), <- (sum_coef_weighted (k_phases s) a (rx_reactants r)) by assumption.
  unfold sum_n. rewrite <- sum_of_minus, <- sum_of_scal_r. apply sum_of_ext. intros. lra.
Qed.

Lemma conserved s e a : inv s -> phases_ok (k_phases s) -> Forall nonneg_coefs (k_rxns s) ->
  Forall (fun r => delta (k_phases s) a r = 0) (k_rxns s) ->
  sum_n (fun k => a k * net_production_rates s e k) (total_species (k_phases s)) = 0.
Proof.
  intros HI HP HN HB. rewrite weighted_net by assumption. apply sum_of_0. intros [i r] Hin.
  apply numbered_in in Hin. apply nth_error_In in Hin. rewrite Forall_forall in HB. rewrite HB by assumption. lra.
Qed.

(** ** Element balance check *)
Lemma mget_mset l e x e' : mget (mset l e x) e' = if String.eqb e e' then x else mget l e'.
Proof.
  induction l as [|[a y] l IH]; simpl.
  - reflexivity.
  - destruct (String.eqb_spec a e) as [->|Ha]; simpl.
    + destruct (String.eqb_spec e e'); reflexivity.
    + rewrite IH. destruct (String.eqb_spec a e') as [->|]; [|reflexivity].
      destruct (String.eqb_spec e e'); [congruence|reflexivity].
Qed.

Definition keys (l : list (string * R)) : list string := map fst l.
Lemma keys_mset l e x e' : In e' (keys (mset l e x)) <-> e' = e \/ In e' (keys l).
Proof.
  induction l as [|[a y] l IH]; simpl.
  - split; intros [H|H]; auto.
  - destruct (String.eqb_spec a e) as [->|Ha]; simpl.
    + split; intros H; [destruct H; auto|]. destruct H as [->|H]; auto.
    + rewrite IH. split; intros H; repeat destruct H as [H|H]; auto.
Qed.

Definition ecount (m : nat) (els : list string) (atoms : nat -> R) (e : string) : R :=
  sum_of (fun '(m, e') => if String.eqb e' e then atoms m else 0) (combine (seq m (length els)) els).

Lemma mget_add_elems s atoms e els : forall bal m,
  mget (add_elems bal m els s atoms) e = mget bal e + s * ecount m els atoms e.
Proof.
  induction els as [|e0 els IH]; intros bal m; simpl; [unfold ecount, sum_of; simpl; lra|].
  rewrite IH. unfold madd. rewrite mget_mset. unfold ecount. simpl. rewrite sum_of_cons.
  destruct (String.eqb_spec e0 e) as [->|]; lra.
Qed.

Lemma keys_add_elems s atoms e els : forall bal m,
  In e (keys (add_elems bal m els s atoms)) <-> In e els \/ In e (keys bal).
Proof.
  induction els as [|e0 els IH]; intros bal m; simpl; [tauto|].
  rewrite IH. unfold madd. rewrite keys_mset. intuition congruence.
Qed.

Lemma ecount_notin m els atoms e : ~ In e els -> ecount m els atoms e = 0.
Proof.
  revert m. induction els as [|e0 els IH]; intros m H; [reflexivity|].
  unfold ecount. simpl. rewrite sum_of_cons. fold (ecount (S m) els atoms e). rewrite IH by (intros X; apply H; now right).
  destruct (String.eqb_spec e0 e) as [->|]; [exfalso; apply H; now left|lra].
Qed.

Lemma mget_zero_elems e els : forall bal, mget bal e = 0 -> mget (zero_elems bal els) e = 0.
Proof.
  unfold zero_elems. induction els as [|e0 els IH]; intros bal H; simpl; [assumption|].
  apply IH. rewrite mget_mset. destruct (String.eqb e0 e); auto.
Qed.
Lemma keys_zero_elems e els : forall bal, In e (keys (zero_elems bal els)) <-> In e els \/ In e (keys bal).
Proof.
  unfold zero_elems. induction els as [|e0 els IH]; intros bal; simpl; [tauto|].
  rewrite IH, keys_mset. intuition congruence.
Qed.

Lemma species_phase_atoms phs nm p k e : phases_ok phs -> species_phase phs nm = Ok (p, k) ->
  at_name phs (atoms_of phs e) nm = ecount 0 (ph_elems p) (ph_atoms p k) e.
Proof.
  intros HP. unfold at_name. induction HP as [|q phs Hq HF IH]; simpl; [discriminate|].
  rewrite species_index_cons. destruct (ph_index q nm) as [k'|] eqn:E.
  - intros H. injection H as -> ->. specialize (Hq _ _ E).
    apply Nat.ltb_lt in Hq. rewrite Hq. reflexivity.
  - intros H. specialize (IH H). destruct (species_index phs nm) as [j|]; simpl; [|assumption].
    assert ((ph_n q + j <? ph_n q)%nat = false) as -> by (apply Nat.ltb_ge; lia).
    replace (ph_n q + j - ph_n q)%nat with j by lia. exact IH.
Qed.

Lemma bal_products_spec phs e (HP : phases_ok phs) l : forall br bp br' bp',
  bal_products phs l (br, bp) = Ok (br', bp') -> mget br e = 0 ->
  mget br' e = 0 /\ mget bp' e = mget bp e + weighted phs (atoms_of phs e) l /\
  (In e (keys br) -> In e (keys br')) /\ (~ In e (keys br') -> weighted phs (atoms_of phs e) l = 0).
Proof.
  induction l as [|[nm s] l IH]; intros br bp br' bp' H H0; simpl in H.
  - injection H as <- <-. unfold weighted, sum_of. simpl. repeat split; auto; lra.
  - destruct (species_phase phs nm) as [[p k]| | |] eqn:E; try discriminate. simpl in H.
    pose proof (species_phase_atoms phs nm p k e HP E) as HA.
    apply IH in H as (H1 & H2 & H3 & H4); [|now apply mget_zero_elems].
    unfold weighted. rewrite sum_of_cons. fold (weighted phs (atoms_of phs e) l).
    rewrite mget_add_elems in H2. rewrite HA. repeat split.
    + assumption.
    + lra.
    + intros Hk. apply H3. apply keys_zero_elems. now right.
    + intros Hk. rewrite (H4 Hk). rewrite ecount_notin; [lra|].
      intros X. apply Hk, H3, keys_zero_elems. now left.
Qed.

Lemma bal_reactants_spec phs e (HP : phases_ok phs) l : forall br br',
  bal_reactants phs l br = Ok br' ->
  mget br' e = mget br e + weighted phs (atoms_of phs e) l /\
  (In e (keys br) -> In e (keys br')) /\ (~ In e (keys br') -> weighted phs (atoms_of phs e) l = 0).
Proof.
  induction l as [|[nm s] l IH]; intros br br' H; simpl in H.
  - injection H as <-. unfold weighted, sum_of. simpl. repeat split; auto; lra.
  - destruct (species_phase phs nm) as [[p k]| | |] eqn:E; try discriminate. simpl in H.
    pose proof (species_phase_atoms phs nm p k e HP E) as HA.
    apply IH in H as (H2 & H3 & H4).
    unfold weighted. rewrite sum_of_cons. fold (weighted phs (atoms_of phs e) l).
    rewrite mget_add_elems in H2. rewrite HA. repeat split.
    + lra.
    + intros Hk. apply H3. apply keys_add_elems. now right.
    + intros Hk. rewrite (H4 Hk). rewrite ecount_notin; [lra|].
      intros X. apply Hk, H3, keys_add_elems. now left.
Qed.

Lemma balance_spec phs r e : phases_ok phs -> check_balance phs r = Ok tt ->
  let br := weighted phs (atoms_of phs e) (rx_reactants r) in
  let bp := weighted phs (atoms_of phs e) (rx_products r) in
  0 < br + bp -> Rabs (bp - br) <= 1/10000 * (br + bp).
Proof.
  intros HP H br bp Hs. unfold check_balance in H.
  destruct (bal_products phs (rx_products r) ([], [])) as [[br0 bp0]| | |] eqn:E1; try discriminate. simpl in H.
  destruct (bal_reactants phs (rx_reactants r) br0) as [br1| | |] eqn:E2; try discriminate. simpl in H.
  destruct (bal_products_spec phs e HP _ _ _ _ _ E1 eq_refl) as (A1 & A2 & A3 & A4).
  destruct (bal_reactants_spec phs e HP _ _ _ E2) as (B1 & B2 & B3).
  simpl in A2. rewrite A1 in B1. fold bp in A2, A4. fold br in B1, B3.
  destruct (existsb (fun '(e, _) => elem_bad br1 bp0 e) br1) eqn:EX; [discriminate|].
  destruct (in_dec String.string_dec e (keys br1)) as [Hin|Hn].
  - assert (elem_bad br1 bp0 e = false) as Hb.
    { destruct (elem_bad br1 bp0 e) eqn:Eb; [|reflexivity]. rewrite <- EX. symmetry. apply existsb_exists.
      apply in_map_iff in Hin as ([e' x] & <- & Hin). exists (e', x). auto. }
    unfold elem_bad in Hb. rewrite B1, A2 in Hb. replace (0 + br + (0 + bp)) with (br + bp) in Hb by lra.
    replace (0 + bp - (0 + br)) with (bp - br) in Hb by lra.
    assert (Rltb 0 (br + bp) = true) as Hp by now apply Rltb_spec. rewrite Hp in Hb. simpl in Hb.
    apply Rltb_false in Hb. apply Rnot_lt_le in Hb.
    apply (Rmult_le_compat_r (br + bp)) in Hb; [|lra]. unfold Rdiv in Hb.
    rewrite Rmult_assoc, Rinv_l in Hb by lra. lra.
  - rewrite (B3 Hn) in *. assert (bp = 0) as Hbp by (apply A4; intros X; apply Hn; now apply B2).
    subst br bp. lra.
Qed.

Lemma weighted_nonneg phs v l : (forall k, 0 <= v k) -> Forall (fun '(_, s) => 0 <= s) l -> 0 <= weighted phs v l.
Proof.
  intros Hv HF. apply sum_of_nonneg. intros [nm s] Hin. rewrite Forall_forall in HF. specialize (HF _ Hin). simpl in HF.
  unfold at_name. destruct (species_index phs nm); [|lra]. apply Rmult_le_pos; auto.
Qed.

Lemma sum_of_abs {A} (f g : A -> R) l : (forall x, In x l -> Rabs (f x) <= g x) -> Rabs (sum_of f l) <= sum_of g l.
Proof.
  induction l as [|x l IH]; intros H; [unfold sum_of; simpl; rewrite Rabs_R0; lra|].
  rewrite !sum_of_cons. eapply Rle_trans; [apply Rabs_triang|].
  apply Rplus_le_compat; [apply H; now left|]. apply IH. intros y Hy. apply H. now right.
Qed.

Lemma accepted_bound s e el : inv s -> phases_ok (k_phases s) -> Forall nonneg_coefs (k_rxns s) ->
  Forall (fun r => rx_third r = None) (k_rxns s) ->
  (forall k, 0 <= atoms_of (k_phases s) el k) ->
  Rabs (sum_n (fun k => atoms_of (k_phases s) el k * net_production_rates s e k) (total_species (k_phases s)))
  <= 1/10000 * sum_of (fun '(i, r) => (weighted (k_phases s) (atoms_of (k_phases s) el) (rx_reactants r)
                                   + weighted (k_phases s) (atoms_of (k_phases s) el) (rx_products r)) * Rabs (ropnet s e i))
                   (numbered (k_rxns s)).
Proof.
  intros HI HP HN HT HA. rewrite weighted_net by assumption. rewrite <- sum_of_scal. apply sum_of_abs.
  intros [i r] Hin. apply numbered_in in Hin. apply nth_error_In in Hin.
  pose proof (inv_acc s HI) as Hacc. rewrite Forall_forall in Hacc, HN, HT.
  destruct (Hacc r Hin) as [_ HC]. destruct (check_species_known _ _ _ _ _ HC eq_refl) as (_ & _ & _ & HB).
  rewrite (HT r Hin) in HB.
  pose proof (balance_spec _ r el HP HB) as B. simpl in B.
  destruct (HN r Hin) as [N1 N2].
  pose proof (weighted_nonneg (k_phases s) _ _ HA N1) as W1. pose proof (weighted_nonneg (k_phases s) _ _ HA N2) as W2.
  rewrite Rabs_mult. unfold delta.
  set (br := weighted _ _ (rx_reactants r)) in *. set (bp := weighted _ _ (rx_products r)) in *.
  assert (Rabs (bp - br) <= 1/10000 * (br + bp)) as HD.
  { destruct (Rlt_dec 0 (br + bp)); [now apply B|]. replace (bp - br) with 0 by lra. rewrite Rabs_R0. lra. }
  pose proof (Rabs_pos (ropnet s e i)). rewrite <- Rmult_assoc. apply Rmult_le_compat_r; assumption.
Qed.

(** ** C21 *)
Lemma tb_update_app l1 l2 c ct v : tb_update (l1 ++ l2) c ct v = tb_update l2 c ct (tb_update l1 c ct v).
Proof. apply fold_left_app. Qed.
Lemma tb_multiply_app l1 l2 v c : tb_multiply (l1 ++ l2) v c = tb_multiply l2 (tb_multiply l1 v c) c.
Proof. apply fold_left_app. Qed.

Definition tb_of phs skip i r : list tb_entry :=
  match rx_third r with
  | None => []
  | Some tb => match tb_effs phs skip (tb_eff tb) [] with
               | Some effs => [mkTbEntry i (tb_default tb) (tb_mass_action tb)
                                 (map (fun '(k, e) => (k, e - tb_default tb)) effs)]
               | None => []
               end
  end.

Lemma tbs_snoc phs skip rs r : tbs phs skip (rs ++ [r]) = tbs phs skip rs ++ tb_of phs skip (length rs) r.
Proof. unfold tbs. rewrite numbered_snoc, flat_map_app. simpl. now rewrite app_nil_r. Qed.

Lemma tb_update_at phs skip rs c ct v : forall i,
  tb_update (tbs phs skip rs) c ct v i =
  match nth_error rs i with
  | Some r => tb_update (tb_of phs skip i r) c ct v i
  | None => v i
  end.
Proof.
  induction rs as [|r rs IH] using rev_ind; intros i.
  - now destruct i.
  - rewrite tbs_snoc, tb_update_app.
    assert (forall w, tb_update (tb_of phs skip (length rs) r) c ct w i =
      if Nat.eqb i (length rs) then match tb_of phs skip (length rs) r with [] => w i | _ => tb_update (tb_of phs skip (length rs) r) c ct v i end else w i) as HU.
    { intros w. unfold tb_of. destruct (rx_third r); [|simpl; destruct (Nat.eqb i (length rs)); reflexivity].
      destruct (tb_effs _ _ _ _); simpl; [|destruct (Nat.eqb i (length rs)); reflexivity].
      unfold upd. destruct (Nat.eqb i (length rs)); reflexivity. }
    rewrite HU, IH. destruct (Nat.eqb_spec i (length rs)) as [Ei|Hne]; [subst i|].
    + rewrite nth_error_app2, Nat.sub_diag by lia. simpl.
      assert (nth_error rs (length rs) = None) as -> by now apply nth_error_None.
      destruct (tb_of phs skip (length rs) r); reflexivity.
    + destruct (Nat.lt_ge_cases i (length rs)).
      * now rewrite nth_error_app1.
      * assert (nth_error rs i = None) as -> by now apply nth_error_None.
        assert (nth_error (rs ++ [r]) i = None) as -> by (apply nth_error_None; rewrite app_length; simpl; lia).
        reflexivity.
Qed.

Lemma tb_multiply_at phs skip rs v c : forall i,
  tb_multiply (tbs phs skip rs) v c i =
  match nth_error rs i with
  | Some r => tb_multiply (tb_of phs skip i r) v c i
  | None => v i
  end.
Proof.
  induction rs as [|r rs IH] using rev_ind; intros i.
  - now destruct i.
  - rewrite tbs_snoc, tb_multiply_app.
    destruct (Nat.eq_dec i (length rs)) as [->|Hne].
    + rewrite nth_error_app2, Nat.sub_diag by lia. simpl.
      specialize (IH (length rs)). assert (nth_error rs (length rs) = None) as HN by now apply nth_error_None.
      rewrite HN in IH. revert IH. generalize (tb_multiply (tbs phs skip rs) v c) as w. intros w Hw.
      unfold tb_of. destruct (rx_third r); [|exact Hw]. destruct (tb_effs _ _ _ _); [|exact Hw]. simpl.
      destruct (tb_mass_action t); [|exact Hw]. rewrite !upd_same, Hw. reflexivity.
    + transitivity (tb_multiply (tbs phs skip rs) v c i).
      * generalize (tb_multiply (tbs phs skip rs) v c) as w. intros w.
        unfold tb_of. destruct (rx_third r); [|reflexivity]. destruct (tb_effs _ _ _ _); [|reflexivity]. simpl.
        destruct (tb_mass_action t); [|reflexivity]. now rewrite upd_other.
      * rewrite IH. destruct (Nat.lt_ge_cases i (length rs)).
        -- now rewrite nth_error_app1.
        -- assert (nth_error rs i = None) as -> by now apply nth_error_None.
           assert (nth_error (rs ++ [r]) i = None) as -> by (apply nth_error_None; rewrite app_length; simpl; lia).
           reflexivity.
Qed.

Fixpoint nget (d : R) (l : list (nat * R)) (k : nat) : R :=
  match l with [] => d | (k', x) :: l' => if Nat.eqb k' k then x else nget d l' k end.

Lemma nget_nset d l k x k' : nget d (nset l k x) k' = if Nat.eqb k k' then x else nget d l k'.
Proof.
  induction l as [|[a y] l IH]; simpl; [reflexivity|].
  destruct (Nat.eqb_spec a k) as [->|Ha]; simpl.
  - destruct (Nat.eqb k k'); reflexivity.
  - rewrite IH. destruct (Nat.eqb_spec a k') as [->|]; [|reflexivity].
    destruct (Nat.eqb_spec k k'); [congruence|reflexivity].
Qed.

Lemma nset_keys l k x k' : In k' (map fst (nset l k x)) <-> k' = k \/ In k' (map fst l).
Proof.
  induction l as [|[a y] l IH]; simpl.
  - split; intros [H|H]; auto.
  - destruct (Nat.eqb_spec a k) as [->|Ha]; simpl.
    + split; intros H; [destruct H; auto|]. destruct H as [->|H]; auto.
    + rewrite IH. split; intros H; repeat destruct H as [H|H]; auto.
Qed.

Lemma nset_nodup l k x : NoDup (map fst l) -> NoDup (map fst (nset l k x)).
Proof.
  induction l as [|[a y] l IH]; simpl; intros H.
  - repeat constructor. auto.
  - inversion H as [|? ? H1 H2]; subst. destruct (Nat.eqb_spec a k) as [->|Ha]; simpl; constructor; auto.
    rewrite nset_keys. intros [->|X]; [congruence|contradiction].
Qed.

Lemma tb_effs_spec phs skip d effs : forall acc out, tb_effs phs skip effs acc = Some out ->
  NoDup (map fst acc) ->
  NoDup (map fst out) /\
  (forall k, nget d out k = fold_left (fun acc '(nm, e) => match species_index phs nm with
                                 | Some k' => if Nat.eqb k' k then e else acc
                                 | None => acc
                                 end) effs (nget d acc k)) /\
  (forall n, (forall nm k, species_index phs nm = Some k -> (k < n)%nat) ->
     Forall (fun k => (k < n)%nat) (map fst acc) -> Forall (fun k => (k < n)%nat) (map fst out)).
Proof.
  induction effs as [|[nm e] effs IH]; intros acc out H HN; simpl in H.
  - injection H as <-. auto.
  - destruct (species_index phs nm) as [k0|] eqn:E.
    + destruct (IH _ _ H (nset_nodup _ _ _ HN)) as (A & B & C). repeat split; [assumption| |].
      * intros k. rewrite B. simpl. rewrite E, nget_nset. reflexivity.
      * intros n HB HF. apply C; [assumption|]. rewrite Forall_forall in *. intros x Hx.
        apply nset_keys in Hx as [->|Hx]; eauto.
    + destruct skip; [|discriminate]. destruct (IH _ _ H HN) as (A & B & C). repeat split; [assumption| |assumption].
      intros k. rewrite B. simpl. now rewrite E.
Qed.

Lemma eff_sum d effs conc n : NoDup (map fst effs) -> Forall (fun k => (k < n)%nat) (map fst effs) ->
  sum_n (fun k => nget d effs k * conc k) n = d * sum_n conc n + sum_of (fun '(k, e) => (e - d) * conc k) effs.
Proof.
  intros HN HF. induction effs as [|[k e] effs IH]; simpl in *.
  - unfold sum_n. rewrite sum_of_scal, sum_of_nil. lra.
  - inversion HN as [|? ? H1 H2]; subst. inversion HF as [|? ? H3 H4]; subst. specialize (IH H2 H4).
    rewrite sum_of_cons.
    assert (nget d effs k = d) as Hd.
    { clear - H1. induction effs as [|[a y] l IHl]; [reflexivity|]. simpl in *.
      destruct (Nat.eqb_spec a k) as [->|]; [exfalso; auto|]. auto. }
    assert (sum_n (fun k0 => (if Nat.eqb k k0 then e else nget d effs k0) * conc k0) n
      = sum_n (fun k0 => nget d effs k0 * conc k0) n + (e - d) * conc k) as ->; [|lra].
    assert ((e - d) * conc k = sum_n (fun k0 => if Nat.eqb k k0 then (e - d) * conc k0 else 0) n) as ->.
    { rewrite (sum_n_single _ n k H3); [now rewrite Nat.eqb_refl|].
      intros j _ Hj. destruct (Nat.eqb_spec k j); [congruence|reflexivity]. }
    unfold sum_n. rewrite <- sum_of_plus. apply sum_of_ext. intros j _.
    destruct (Nat.eqb_spec k j) as [<-|]; [rewrite Hd|]; lra.
Qed.

Lemma fold_eff (l : list (nat * R)) conc : forall a,
  fold_left (fun sum '(k, e) => sum + e * conc k) l a = a + sum_of (fun '(k, e) => e * conc k) l.
Proof.
  induction l as [|[k e] l IH]; intros a; simpl; [unfold sum_of; simpl; lra|]. rewrite IH, sum_of_cons. lra.
Qed.

Lemma tb_of_ok phs f1 skip i r tb : accepted phs f1 skip r -> rx_third r = Some tb ->
  exists effs, tb_effs phs skip (tb_eff tb) [] = Some effs /\
    tb_of phs skip i r = [mkTbEntry i (tb_default tb) (tb_mass_action tb)
                                 (map (fun '(k, e) => (k, e - tb_default tb)) effs)] /\
    NoDup (map fst effs) /\ (forall k, nget (tb_default tb) effs k = stated_eff phs tb k) /\
    (phases_ok phs -> Forall (fun k => (k < total_species phs)%nat) (map fst effs)).
Proof.
  intros [_ H] Ht. destruct (check_species_known _ _ _ _ _ H eq_refl) as (_ & _ & _ & K). rewrite Ht in K.
  destruct (tb_effs_known phs skip (tb_eff tb) [] K) as [effs E]. exists effs.
  destruct (tb_effs_spec phs skip (tb_default tb) _ _ _ E (NoDup_nil _)) as (A & B & C).
  repeat split; [assumption| |assumption|intros k; rewrite B; reflexivity|].
  - unfold tb_of. now rewrite Ht, E.
  - intros HP. apply C; [|constructor]. intros nm k. now apply species_index_bound.
Qed.

Lemma acc_at s i r : inv s -> nth_error (k_rxns s) i = Some r ->
  accepted (k_phases s) (k_skip_sp s) (k_skip_tb s) r.
Proof.
  intros HI Hn. pose proof (inv_acc s HI) as H. rewrite Forall_forall in H. apply H. now apply nth_error_In in Hn.
Qed.

Lemma concm_val s e i r tb : inv s -> phases_ok (k_phases s) -> nth_error (k_rxns s) i = Some r ->
  rx_third r = Some tb -> e_ctot e = sum_n (e_conc e) (total_species (k_phases s)) ->
  concm s e i = sum_n (fun k => stated_eff (k_phases s) tb k * e_conc e k) (total_species (k_phases s)).
Proof.
  intros HI HP Hn Ht Hc. unfold concm. rewrite (inv_tb s HI), tb_update_at, Hn.
  destruct (tb_of_ok _ _ _ i r tb (acc_at s i r HI Hn) Ht) as (effs & _ & -> & ND & G & B).
  simpl. rewrite upd_same, fold_eff, sum_of_map, Hc.
  rewrite (sum_n_ext (fun k => stated_eff _ _ k * _) (fun k => nget (tb_default tb) effs k * e_conc e k)) by (intros; rewrite G; reflexivity).
  rewrite eff_sum; auto. rewrite Rplus_0_l. f_equal. apply sum_of_ext. now intros [].
Qed.

Lemma multiplier_val s i r tb k : inv s -> phases_ok (k_phases s) -> nth_error (k_rxns s) i = Some r ->
  rx_third r = Some tb -> (k < total_species (k_phases s))%nat ->
  tb_multiplier (k_tb s) (total_species (k_phases s)) i k = stated_eff (k_phases s) tb k.
Proof.
  intros HI HP Hn Ht Hk. unfold tb_multiplier. rewrite (inv_tb s HI).
  assert (tbs (k_phases s) (k_skip_tb s) (k_rxns s) = flat_map (fun '(i, r) => tb_of (k_phases s) (k_skip_tb s) i r) (numbered (k_rxns s))) as -> by reflexivity.
  rewrite sum_of_flat_map.
  destruct (tb_of_ok _ _ _ i r tb (acc_at s i r HI Hn) Ht) as (effs & _ & Etb & ND & G & B).
  match goal with |- sum_of ?F _ = _ => set (F0 := F) end.
  assert (F0 (i, r) = stated_eff (k_phases s) tb k) as HF.
  { unfold F0. rewrite Etb, sum_of_cons, sum_of_nil. simpl. rewrite Nat.eqb_refl.
    apply Nat.ltb_lt in Hk. rewrite Hk, sum_of_map, <- G. clear - ND.
    induction effs as [|[k' x] effs IH]; simpl in *; [rewrite sum_of_nil; lra|].
    inversion ND as [|? ? N1 N2]; subst. rewrite sum_of_cons. specialize (IH N2).
    destruct (Nat.eqb_spec k' k) as [->|]; [|lra].
    rewrite (sum_of_0 _ effs); [lra|]. intros [j y] Hj. destruct (Nat.eqb_spec j k) as [->|]; [|reflexivity].
    exfalso. apply N1. now apply (in_map fst) in Hj. }
  assert (forall j r', j <> i -> F0 (j, r') = 0) as HF0.
  { intros j r' Hj. unfold F0, tb_of. destruct (rx_third r'); [|reflexivity].
    destruct (tb_effs _ _ _ _); [|reflexivity]. rewrite sum_of_cons, sum_of_nil. simpl.
    destruct (Nat.eqb_spec j i); [congruence|lra]. }
  rewrite <- HF. clear -Hn HF0. generalize F0 HF0. clear F0 HF0. intros F HF0.
  revert i Hn HF0. induction (k_rxns s) as [|x rs IH] using rev_ind; intros i Hn HF0; [destruct i; discriminate|].
  rewrite numbered_snoc, sum_of_app, sum_of_cons, sum_of_nil.
  destruct (Nat.lt_ge_cases i (length rs)) as [L|L].
  - rewrite nth_error_app1 in Hn by assumption. rewrite (IH i Hn HF0), (HF0 (length rs) x) by lia. lra.
  - rewrite nth_error_app2 in Hn by assumption.
    destruct (i - length rs)%nat as [|n] eqn:E; [|destruct n; discriminate]. injection Hn as ->.
    assert (i = length rs) by lia. subst i. rewrite sum_of_0; [lra|].
    intros [j r'] Hj. apply numbered_lt in Hj. apply HF0. lia.
Qed.

Lemma rop_base_val s e i r : inv s -> nth_error (k_rxns s) i = Some r ->
  rop_base s e i = e_kf0 e i * e_perturb e i *
    match rx_third r with Some tb => if tb_mass_action tb then concm s e i else 1 | None => 1 end.
Proof.
  intros HI Hn. unfold rop_base. rewrite (inv_tb s HI), tb_multiply_at, Hn.
  destruct (rx_third r) as [tb|] eqn:Et.
  - destruct (tb_of_ok _ _ _ i r tb (acc_at s i r HI Hn) Et) as (effs & _ & -> & _). simpl.
    destruct (tb_mass_action tb); [now rewrite upd_same|unfold rfn; lra].
  - unfold tb_of. rewrite Et. simpl. unfold rfn. lra.
Qed.

(** ** One-reaction sums and products *)
Lemma sum_numbered (F : nat -> reaction -> R) rs i r : nth_error rs i = Some r ->
  sum_of (fun '(j, x) => if Nat.eqb j i then F j x else 0) (numbered rs) = F i r.
Proof.
  revert i. induction rs as [|x rs IH] using rev_ind; intros i Hn; [destruct i; discriminate|].
  rewrite numbered_snoc, sum_of_app, sum_of_cons, sum_of_nil.
  destruct (Nat.lt_ge_cases i (length rs)) as [L|L].
  - rewrite nth_error_app1 in Hn by assumption. rewrite (IH i Hn).
    destruct (Nat.eqb_spec (length rs) i); [lia|lra].
  - rewrite nth_error_app2 in Hn by assumption.
    destruct (i - length rs)%nat as [|n] eqn:E; [|destruct n; discriminate]. injection Hn as ->.
    assert (i = length rs) by lia. subst i. rewrite Nat.eqb_refl, sum_of_0; [lra|].
    intros [j r'] Hj. apply numbered_lt in Hj. destruct (Nat.eqb_spec j (length rs)); [lia|reflexivity].
Qed.

Lemma prod_of_1 {A} (f : A -> R) l : (forall x, In x l -> f x = 1) -> prod_of f l = 1.
Proof.
  induction l as [|x l IH]; intros H; [reflexivity|]. rewrite prod_of_cons, H, IH; [lra| |now left].
  intros y Hy. apply H. now right.
Qed.

Lemma prod_numbered (F : nat -> reaction -> R) rs i r : nth_error rs i = Some r ->
  prod_of (fun '(j, x) => if Nat.eqb j i then F j x else 1) (numbered rs) = F i r.
Proof.
  revert i. induction rs as [|x rs IH] using rev_ind; intros i Hn; [destruct i; discriminate|].
  rewrite numbered_snoc, prod_of_app, prod_of_cons.
  destruct (Nat.lt_ge_cases i (length rs)) as [L|L].
  - rewrite nth_error_app1 in Hn by assumption. rewrite (IH i Hn).
    destruct (Nat.eqb_spec (length rs) i); [lia|unfold prod_of; simpl; lra].
  - rewrite nth_error_app2 in Hn by assumption.
    destruct (i - length rs)%nat as [|n] eqn:E; [|destruct n; discriminate]. injection Hn as ->.
    assert (i = length rs) by lia. subst i. rewrite Nat.eqb_refl, prod_of_1; [unfold prod_of; simpl; lra|].
    intros [j r'] Hj. apply numbered_lt in Hj. destruct (Nat.eqb_spec j (length rs)); [lia|reflexivity].
Qed.

Lemma prod_of_map {A B} (g : A -> B) (f : B -> R) l : prod_of f (map g l) = prod_of (fun x => f (g x)) l.
Proof. induction l as [|x l IH]; [reflexivity|]. simpl. now rewrite !prod_of_cons, IH. Qed.
Lemma prod_of_flat_map {A B} (g : A -> list B) (f : B -> R) l :
  prod_of f (flat_map g l) = prod_of (fun x => prod_of f (g x)) l.
Proof. induction l as [|x l IH]; [reflexivity|]. simpl. now rewrite prod_of_app, !prod_of_cons, IH. Qed.

Lemma mass_rdecls phs rs c i r : nth_error rs i = Some r ->
  mass_action (rdecls phs rs) c i = factors c (d_sp (rdecl phs i r)) (d_order (rdecl phs i r)).
Proof.
  intros H. unfold mass_action, rdecls. rewrite prod_of_map.
  rewrite <- (prod_numbered (fun j x => factors c (d_sp (rdecl phs j x)) (d_order (rdecl phs j x))) rs i r H).
  apply prod_of_ext. intros [j x] _. now rewrite rdecl_rxn.
Qed.

Lemma mass_rpdecls phs rs c i r : nth_error rs i = Some r -> rx_reversible r = true ->
  mass_action (rpdecls phs rs) c i = factors c (d_sp (pdecl phs i r)) (d_order (pdecl phs i r)).
Proof.
  intros H Hr. unfold mass_action, rpdecls. rewrite prod_of_flat_map.
  transitivity (prod_of (fun '(j, x) => if Nat.eqb j i then (if rx_reversible x then factors c (d_sp (pdecl phs j x)) (d_order (pdecl phs j x)) else 1) else 1) (numbered rs)).
  - apply prod_of_ext. intros [j x] _. destruct (rx_reversible x).
    + rewrite prod_of_cons, pdecl_rxn. unfold prod_of. simpl. destruct (Nat.eqb j i); lra.
    + unfold prod_of. simpl. destruct (Nat.eqb j i); reflexivity.
  - rewrite (prod_numbered (fun j x => if rx_reversible x then factors c (d_sp (pdecl phs j x)) (d_order (pdecl phs j x)) else 1) rs i r H).
    now rewrite Hr.
Qed.

Lemma rdecls_wf s : inv s -> phases_ok (k_phases s) -> Forall nonneg_coefs (k_rxns s) ->
  Forall (well_formed (total_species (k_phases s)) (length (k_rxns s))) (rdecls (k_phases s) (k_rxns s)).
Proof.
  intros HI HP HN. unfold rdecls. rewrite Forall_forall in *. intros d Hd.
  apply in_map_iff in Hd as ([i r] & <- & Hin). pose proof (numbered_lt _ _ _ Hin) as L.
  apply numbered_in in Hin. pose proof (acc_at s i r HI Hin) as HA. apply nth_error_In in Hin.
  destruct (accepted_known _ _ _ _ HA) as (K1 & _ & K3).
  destruct (rdecl_shape (k_phases s) i r K1 K3) as (rk & rk' & o & st & E1 & E2 & E3 & L1 & L2).
  rewrite E3. destruct (HN r Hin) as [N _]. repeat split; unfold d_order, d_stoich, d_sp, d_rxn; simpl; auto.
  - eapply apply_orders_nonneg; [exact E2|]. now apply nonneg_snd.
  - eapply apply_orders_bound; [|exact E2|].
    + intros nm k. now apply species_index_bound.
    + eapply indices_bound; [|exact E1]. intros nm k. now apply species_index_bound.
Qed.

Lemma rpdecls_wf s : inv s -> phases_ok (k_phases s) -> Forall nonneg_coefs (k_rxns s) ->
  Forall (well_formed (total_species (k_phases s)) (length (k_rxns s))) (rpdecls (k_phases s) (k_rxns s)).
Proof.
  intros HI HP HN. unfold rpdecls. rewrite Forall_forall in *. intros d Hd.
  apply in_flat_map in Hd as ([i r] & Hin & Hd). destruct (rx_reversible r); [|destruct Hd]. destruct Hd as [<-|[]].
  pose proof (numbered_lt _ _ _ Hin) as L.
  apply numbered_in in Hin. pose proof (acc_at s i r HI Hin) as HA. apply nth_error_In in Hin.
  destruct (accepted_known _ _ _ _ HA) as (_ & K2 & _).
  destruct (pdecl_shape (k_phases s) i r K2) as (pk & E1 & E3 & L1).
  rewrite E3. destruct (HN r Hin) as [_ N]. repeat split; unfold d_order, d_stoich, d_sp, d_rxn; simpl; auto.
  - now apply nonneg_snd.
  - eapply indices_bound; [|exact E1]. intros nm k. now apply species_index_bound.
Qed.

Lemma factors_pos c ks : forall os, (forall k, In k ks -> 0 < c k) ->
  factors c ks os = exp (lks (fun k => ln (c k)) ks os).
Proof.
  induction ks as [|k ks IH]; intros [|o os] H; simpl; try (now rewrite exp_0).
  rewrite factor_pos by (apply H; now left). rewrite IH by (intros; apply H; now right).
  rewrite exp_plus. unfold Rpower. reflexivity.
Qed.

Lemma ropf_val s e i r : inv s -> phases_ok (k_phases s) -> Forall nonneg_coefs (k_rxns s) ->
  (forall k, (k < total_species (k_phases s))%nat -> 0 <= e_act e k) ->
  nth_error (k_rxns s) i = Some r ->
  ropf s e i = rop_base s e i * factors (e_act e) (d_sp (rdecl (k_phases s) i r)) (d_order (rdecl (k_phases s) i r)).
Proof.
  intros HI HP HN HC Hn. unfold ropf.
  rewrite (multiply_mass_action _ _ _ _ _ _ _ (rdecls_wf s HI HP HN) (inv_r s HI) HC).
  now rewrite (mass_rdecls _ _ _ _ r Hn).
Qed.

Lemma ropr_val s e i r : inv s -> phases_ok (k_phases s) -> Forall nonneg_coefs (k_rxns s) ->
  (forall k, (k < total_species (k_phases s))%nat -> 0 <= e_act e k) ->
  nth_error (k_rxns s) i = Some r -> rx_reversible r = true ->
  ropr s e i = rop_base s e i * rkcn s e i * factors (e_act e) (d_sp (pdecl (k_phases s) i r)) (d_order (pdecl (k_phases s) i r)).
Proof.
  intros HI HP HN HC Hn Hr. unfold ropr.
  rewrite (multiply_mass_action _ _ _ _ _ _ _ (rpdecls_wf s HI HP HN) (inv_rp s HI) HC).
  now rewrite (mass_rpdecls _ _ _ _ r Hn Hr).
Qed.

(** ** Reaction orders *)
Lemma amount_indices phs l ks k : indices phs l = Some ks -> amount k ks (map snd l) = coef phs l k.
Proof.
  revert ks. induction l as [|[nm s] l IH]; simpl; intros ks H; [injection H as <-; reflexivity|].
  unfold coef. rewrite sum_of_cons. fold (coef phs l k).
  destruct (species_index phs nm); [|discriminate]. destruct (indices phs l); [|discriminate].
  injection H as <-. simpl. rewrite IH; reflexivity.
Qed.

Lemma amount_notin k ks : forall os, ~ In k ks -> amount k ks os = 0.
Proof.
  induction ks as [|k' ks IH]; intros [|o os] H; simpl; try reflexivity.
  rewrite IH by (intros X; apply H; now right).
  destruct (Nat.eqb_spec k' k); [exfalso; apply H; now left|lra].
Qed.

Lemma amount_snoc k ks : forall os k' o, length os = length ks ->
  amount k (ks ++ [k']) (os ++ [o]) = amount k ks os + (if Nat.eqb k' k then o else 0).
Proof.
  induction ks as [|k0 ks IH]; intros [|o0 os] k' o H; try discriminate; simpl; [lra|].
  rewrite IH by auto. lra.
Qed.

Lemma find_pos_none k ks : find_pos k ks = None -> ~ In k ks.
Proof.
  induction ks as [|k' ks IH]; simpl; [auto|]. destruct (Nat.eqb_spec k' k); [discriminate|].
  destruct (find_pos k ks); [discriminate|]. intros _ [X|X]; [contradiction|now apply IH].
Qed.

Lemma amount_set k n ks : forall os o k', NoDup ks -> length os = length ks -> find_pos k ks = Some n ->
  amount k' ks (set_nth n o os) = if Nat.eqb k k' then o else amount k' ks os.
Proof.
  revert n. induction ks as [|k0 ks IH]; intros n [|o0 os] o k' ND L H; try discriminate.
  inversion ND as [|? ? N1 N2]; subst. simpl in H. destruct (Nat.eqb_spec k0 k) as [->|Hk].
  - injection H as <-. simpl. destruct (Nat.eqb_spec k k') as [->|]; [|lra].
    rewrite amount_notin by assumption. lra.
  - destruct (find_pos k ks) as [m|] eqn:E; [|discriminate]. injection H as <-. simpl.
    rewrite (IH m) by auto. destruct (Nat.eqb_spec k k') as [->|].
    + destruct (Nat.eqb_spec k0 k'); [congruence|lra].
    + reflexivity.
Qed.

Definition over_orders phs k (acc : R) (x : string * R) : R :=
  let '(nm, o) := x in
  match species_index phs nm with Some k' => if Nat.eqb k' k then o else acc | None => acc end.

Lemma apply_orders_amount phs os : forall rk ro rs rk' ro' rs',
  apply_orders phs os (rk, ro, rs) = Some (rk', ro', rs') -> length ro = length rk -> NoDup rk ->
  NoDup rk' /\ forall k, amount k rk' ro' = fold_left (over_orders phs k) os (amount k rk ro).
Proof.
  induction os as [|[nm o] os IH]; intros rk ro rs rk' ro' rs' H L ND; simpl in H.
  - injection H as <- <- <-. auto.
  - destruct (species_index phs nm) as [k0|] eqn:E; [|discriminate]. destruct (find_pos k0 rk) eqn:F.
    + destruct (IH _ _ _ _ _ _ H) as [A B]; [now rewrite set_nth_length|assumption|]. split; [assumption|].
      intros k. rewrite B. simpl. rewrite E, (amount_set k0) by assumption. reflexivity.
    + pose proof (find_pos_none _ _ F) as NI.
      destruct (IH _ _ _ _ _ _ H) as [A B]; [rewrite !app_length; simpl; lia| |].
      * apply NoDup_rev in ND. rewrite <- (rev_involutive (rk ++ [k0])). apply NoDup_rev. rewrite rev_app_distr. simpl.
        constructor; [now rewrite <- in_rev|assumption].
      * split; [assumption|]. intros k. rewrite B. simpl. rewrite E, amount_snoc by assumption.
        f_equal. destruct (Nat.eqb_spec k0 k) as [->|]; [|lra]. rewrite amount_notin by assumption. lra.
Qed.

Lemma factor_0 c : factor c 0 = 1.
Proof. unfold factor. destruct (Req_EM_T 0 0); congruence. Qed.

Lemma prod_single {A} (f : A -> R) l x : NoDup l -> In x l -> (forall y, In y l -> y <> x -> f y = 1) -> prod_of f l = f x.
Proof.
  induction 1 as [|y l N1 N2 IH]; intros Hin H1; [destruct Hin|]. rewrite prod_of_cons.
  destruct Hin as [->|Hin].
  - rewrite prod_of_1; [lra|]. intros z Hz. apply H1; [now right|]. intros ->. contradiction.
  - rewrite IH; [|assumption|intros z Hz; apply H1; now right]. rewrite (H1 y); [lra|now left|].
    intros ->. contradiction.
Qed.

Lemma prod_of_mult {A} (f g : A -> R) l : prod_of (fun x => f x * g x) l = prod_of f l * prod_of g l.
Proof. induction l as [|x l IH]; [unfold prod_of; simpl; lra|]. rewrite !prod_of_cons, IH. lra. Qed.

Lemma factors_amount c n ks : forall os, NoDup ks -> length os = length ks -> Forall (fun k => (k < n)%nat) ks ->
  factors c ks os = prod_of (fun k => factor (c k) (amount k ks os)) (seq 0 n).
Proof.
  induction ks as [|k ks IH]; intros [|o os] ND L HF; try discriminate.
  - simpl. symmetry. apply prod_of_1. intros. apply factor_0.
  - inversion ND as [|? ? N1 N2]; subst. inversion HF; subst. simpl. rewrite IH by auto.
    assert (factor (c k) o = prod_of (fun j => if Nat.eqb j k then factor (c k) o else 1) (seq 0 n)) as ->.
    { symmetry. rewrite (prod_single _ _ k); [now rewrite Nat.eqb_refl|apply seq_NoDup|apply in_seq; lia|].
      intros j _ Hj. destruct (Nat.eqb_spec j k); [contradiction|reflexivity]. }
    rewrite <- prod_of_mult. apply prod_of_ext. intros j _. rewrite (Nat.eqb_sym k j).
    destruct (Nat.eqb_spec j k) as [->|].
    + rewrite (amount_notin k ks os N1), factor_0. rewrite Rplus_0_r. lra.
    + rewrite Rplus_0_l. lra.
Qed.

Lemma indices_nodup phs l ks : indices phs l = Some ks ->
  NoDup (map (fun x => species_index phs (fst x)) l) -> NoDup ks.
Proof.
  assert (forall l ks, indices phs l = Some ks -> map (fun x => species_index phs (fst x)) l = map Some ks) as H.
  { clear. induction l as [|[nm s] l IH]; simpl; intros ks H; [injection H as <-; reflexivity|].
    destruct (species_index phs nm); [|discriminate]. destruct (indices phs l); [|discriminate].
    injection H as <-. simpl. f_equal. auto. }
  intros E. rewrite (H _ _ E). apply NoDup_map_inv.
Qed.

(** ** Deltas *)
Lemma delta_val s v i r : inv s -> nth_error (k_rxns s) i = Some r -> nonneg_coefs r ->
  reaction_delta s v i = delta (k_phases s) v r.
Proof.
  intros HI Hn HN. unfold reaction_delta. rewrite decR_hs, incR_hs.
  rewrite (sumR_mgr _ _ _ _ (inv_r s HI)), (sumR_mgr _ _ _ _ (inv_p s HI)).
  unfold rdecls, pdecls. rewrite !sum_of_map. unfold zeros, delta.
  destruct (accepted_known _ _ _ _ (acc_at s i r HI Hn)) as (K1 & K2 & K3).
  rewrite <- (lin_rdecl v _ i r K1 K3 HN), <- (lin_pdecl v _ i r K2 HN).
  rewrite <- (sum_numbered (fun j x => lin v (cn_parts (handler (rdecl (k_phases s) j x)))) _ i r Hn).
  rewrite <- (sum_numbered (fun j x => lin v (cn_parts (handler (pdecl (k_phases s) j x)))) _ i r Hn).
  rewrite Rplus_0_l. f_equal; apply sum_of_ext; intros [j x] _; now rewrite ?rdecl_rxn, ?pdecl_rxn.
Qed.

Lemma rev_delta_val s v i r : inv s -> nth_error (k_rxns s) i = Some r -> nonneg_coefs r ->
  rx_reversible r = true ->
  rev_reaction_delta s v i = delta (k_phases s) v r.
Proof.
  intros HI Hn HN Hr. unfold rev_reaction_delta. rewrite decR_hs, incR_hs.
  rewrite (sumR_mgr _ _ _ _ (inv_r s HI)), (sumR_mgr _ _ _ _ (inv_rp s HI)).
  unfold rdecls, rpdecls. rewrite sum_of_map, sum_of_flat_map. unfold zeros, delta.
  destruct (accepted_known _ _ _ _ (acc_at s i r HI Hn)) as (K1 & K2 & K3).
  rewrite <- (lin_rdecl v _ i r K1 K3 HN), <- (lin_pdecl v _ i r K2 HN).
  rewrite <- (sum_numbered (fun j x => lin v (cn_parts (handler (rdecl (k_phases s) j x)))) _ i r Hn).
  transitivity (sum_of (fun '(j, x) => if Nat.eqb j i then (if rx_reversible x then lin v (cn_parts (handler (pdecl (k_phases s) j x))) else 0) else 0) (numbered (k_rxns s)) -
    sum_of (fun '(j, x) => if Nat.eqb j i then lin v (cn_parts (handler (rdecl (k_phases s) j x))) else 0) (numbered (k_rxns s))).
  - rewrite Rplus_0_l. f_equal; apply sum_of_ext; intros [j x] _; rewrite ?rdecl_rxn; [|reflexivity].
    destruct (rx_reversible x); rewrite ?sum_of_cons, ?sum_of_nil, ?pdecl_rxn; destruct (Nat.eqb j i); lra.
  - rewrite (sum_numbered (fun j x => if rx_reversible x then lin v (cn_parts (handler (pdecl (k_phases s) j x))) else 0) _ i r Hn).
    now rewrite Hr.
Qed.

Lemma weighted_affine phs a (u w : vec) b l : known phs l ->
  weighted phs (fun k => a + (u k - w k) * b) l =
  a * sum_of snd l + (weighted phs u l - weighted phs w l) * b.
Proof.
  induction 1 as [|[nm s] l H HF IH]; unfold weighted in *.
  - rewrite !sum_of_nil. lra.
  - rewrite !sum_of_cons, IH. unfold at_name. simpl. destruct (species_index phs nm); [lra|congruence].
Qed.

Lemma weighted_ext phs u w l : (forall nm k, species_index phs nm = Some k -> u k = w k) -> weighted phs u l = weighted phs w l.
Proof.
  intros H. apply sum_of_ext. intros [nm s] _. unfold at_name. destruct (species_index phs nm) eqn:E; [|reflexivity].
  now rewrite (H _ _ E).
Qed.

(** ** C22 *)
Lemma detailed_balance s e mu i r :
  inv s -> phases_ok (k_phases s) -> Forall nonneg_coefs (k_rxns s) ->
  nth_error (k_rxns s) i = Some r -> rx_reversible r = true -> rx_orders r = [] ->
  0 < e_rt e ->
  (forall k, (k < total_species (k_phases s))%nat -> e_act e k = exp (e_logc0 e) * exp ((mu k - e_mu0 e k) / e_rt e)) ->
  exp (delta (k_phases s) (e_mu0 e) r / e_rt e - rx_dn r * e_logc0 e) <= BigNumber ->
  ropr s e i = ropf s e i * exp (delta (k_phases s) mu r / e_rt e).
Proof.
  intros HI HP HN Hn Hr Ho Hrt Hact Hbig.
  assert (forall k, (k < total_species (k_phases s))%nat -> 0 < e_act e k) as Hpos.
  { intros k Hk. rewrite Hact by assumption. apply Rmult_lt_0_compat; apply exp_pos. }
  assert (nonneg_coefs r) as HNr by (rewrite Forall_forall in HN; apply HN; now apply nth_error_In in Hn).
  rewrite (ropf_val s e i r), (ropr_val s e i r) by (auto; intros; apply Rlt_le; auto).
  destruct (accepted_known _ _ _ _ (acc_at s i r HI Hn)) as (K1 & K2 & K3).
  rewrite (rkcn_rev s e i r HI Hn Hr), (rev_delta_val s _ i r HI Hn HNr Hr).
  replace (delta (k_phases s) (e_mu0 e) r * (1 / e_rt e)) with (delta (k_phases s) (e_mu0 e) r / e_rt e) by (unfold Rdiv; lra).
  rewrite Rmin_left by assumption.
  destruct (rdecl_shape (k_phases s) i r K1 K3) as (rk & rk' & o & st & E1 & E2 & E3 & L1 & L2).
  rewrite Ho in E2. simpl in E2. injection E2 as <- <- <-.
  destruct (pdecl_shape (k_phases s) i r K2) as (pk & E1' & E3' & L1').
  rewrite E3, E3'. unfold d_sp, d_order. simpl.
  assert (forall nm k, species_index (k_phases s) nm = Some k -> (k < total_species (k_phases s))%nat) as HB
    by (intros nm k; now apply species_index_bound).
  assert (forall l ks, indices (k_phases s) l = Some ks -> factors (e_act e) ks (map snd l) =
     exp (e_logc0 e * sum_of snd l + (weighted (k_phases s) mu l - weighted (k_phases s) (e_mu0 e) l) * / e_rt e)) as HF.
  { intros l ks E. rewrite factors_pos.
    - f_equal. rewrite (indices_lks _ _ _ _ E), <- weighted_affine by (apply indices_known; eauto).
      apply weighted_ext. intros nm k Hk. rewrite Hact by eauto.
      rewrite ln_mult, !ln_exp by apply exp_pos. reflexivity.
    - intros k Hk. apply Hpos. pose proof (indices_bound _ _ _ _ HB E) as X. rewrite Forall_forall in X. auto. }
  rewrite (HF _ _ E1), (HF _ _ E1').
  rewrite !Rmult_assoc. f_equal. rewrite <- !exp_plus. f_equal. unfold delta, rx_dn. unfold Rdiv. lra.
Qed.

(** ** Adding *)
Lemma species_phase_known phs nm : species_index phs nm <> None -> exists x, species_phase phs nm = Ok x.
Proof.
  induction phs as [|p phs IH]; [intros H; exfalso; apply H; reflexivity|].
  rewrite species_index_cons. simpl. destruct (ph_index p nm); [eauto|].
  intros H. apply IH. intros X. apply H. now rewrite X.
Qed.

(** ** Packaged for mechanisms *)
Section Mech.
Context (phs : list phase) (f1 f2 : bool) (rs : list reaction).
Let s := mechanism phs f1 f2 rs.

Lemma mech_inv : inv s.
Proof. apply inv_adds, inv_init. Qed.
Lemma mech_phases : k_phases s = phs.
Proof. apply (phases_adds rs (kin_init phs f1 f2)). Qed.
Lemma mech_f1 : k_skip_sp s = f1.
Proof. apply (phases_adds rs (kin_init phs f1 f2)). Qed.
Lemma mech_f2 : k_skip_tb s = f2.
Proof. apply (phases_adds rs (kin_init phs f1 f2)). Qed.
End Mech.

Lemma order_of_amount phs r k : order_of phs r k = fold_left (over_orders phs k) (rx_orders r) (coef phs (rx_reactants r) k).
Proof. reflexivity. Qed.

Lemma forward_law s e i r : inv s -> phases_ok (k_phases s) -> Forall nonneg_coefs (k_rxns s) ->
  (forall k, (k < total_species (k_phases s))%nat -> 0 <= e_act e k) ->
  e_ctot e = sum_n (e_conc e) (total_species (k_phases s)) ->
  nth_error (k_rxns s) i = Some r -> distinct_species (k_phases s) (rx_reactants r) ->
  ropf s e i = e_kf0 e i * e_perturb e i
     * match rx_third r with
       | Some tb => if tb_mass_action tb then effective_conc (k_phases s) tb (e_conc e) else 1
       | None => 1
       end
     * prod_of (fun k => factor (e_act e k) (order_of (k_phases s) r k)) (seq 0 (total_species (k_phases s))).
Proof.
  intros HI HP HN HC Hct Hn HD. rewrite (ropf_val s e i r HI HP HN HC Hn), (rop_base_val s e i r HI Hn).
  destruct (accepted_known _ _ _ _ (acc_at s i r HI Hn)) as (K1 & K2 & K3).
  destruct (rdecl_shape (k_phases s) i r K1 K3) as (rk & rk' & o & st & E1 & E2 & E3 & L1 & L2).
  rewrite E3. unfold d_sp, d_order. simpl.
  pose proof (indices_nodup _ _ _ E1 HD) as ND. pose proof (indices_length _ _ _ E1) as L.
  destruct (apply_orders_amount _ _ _ _ _ _ _ _ E2) as [ND' HA]; [now rewrite map_length|assumption|].
  assert (Forall (fun k => (k < total_species (k_phases s))%nat) rk') as HB.
  { eapply apply_orders_bound; [|exact E2|].
    - intros nm k. now apply species_index_bound.
    - eapply indices_bound; [|exact E1]. intros nm k. now apply species_index_bound. }
  rewrite (factors_amount _ (total_species (k_phases s)) rk' o ND' L1 HB). f_equal.
  - destruct (rx_third r) as [tb|] eqn:Et; [|reflexivity]. destruct (tb_mass_action tb); [|reflexivity].
    now rewrite (concm_val s e i r tb HI HP Hn Et Hct).
  - apply prod_of_ext. intros k _. rewrite HA, order_of_amount, (amount_indices _ _ _ _ E1). reflexivity.
Qed.

Lemma accepted_rev_orders phs f1 f2 r : accepted phs f1 f2 r -> rx_reversible r = true -> rx_orders r = [].
Proof.
  intros [H _] Hr. unfold rx_check in H. destruct (negb (rx_allow_nonreactant r) && _); [discriminate|].
  destruct (negb (rx_allow_negative r) && _); [discriminate|]. rewrite Hr in H.
  destruct (rx_orders r); [reflexivity|discriminate].
Qed.

Lemma exp_big x : exp x <= BigNumber -> Rmin (exp x) BigNumber = exp x.
Proof. apply Rmin_left. Qed.

(** ** Never undefined *)
Lemma bal_products_known phs l : known phs l -> forall st, exists x, bal_products phs l st = Ok x.
Proof.
  induction 1 as [|[nm x] l H HF IH]; intros [br bp]; simpl; [eauto|].
  destruct (species_phase_known _ _ H) as [[p k] ->]. simpl. apply IH.
Qed.
Lemma bal_reactants_known phs l : known phs l -> forall st, exists x, bal_reactants phs l st = Ok x.
Proof.
  induction 1 as [|[nm x] l H HF IH]; intros br; simpl; [eauto|].
  destruct (species_phase_known _ _ H) as [[p k] ->]. simpl. apply IH.
Qed.

Lemma check_balance_no_ub p phs r : known (p :: phs) (rx_reactants r) -> known (p :: phs) (rx_products r) ->
  check_balance (p :: phs) r <> UB.
Proof.
  intros K1 K2. unfold check_balance.
  destruct (bal_products_known _ _ K2 ([], [])) as [[br bp] ->]. simpl.
  destruct (bal_reactants_known _ _ K1 br) as [br' ->]. simpl.
  destruct (existsb _ br'); [discriminate|].
  repeat (match goal with |- context [match ?x with _ => _ end] => destruct x end; try discriminate).
Qed.

Lemma kin_add_no_ub s r : inv s -> k_phases s <> [] -> snd (kin_add s r) <> Undefined.
Proof.
  intros HI Hph. unfold kin_add.
  destruct (rx_check r) as [[]| | |] eqn:EC; try (simpl; discriminate).
  2:{ unfold rx_check in EC. repeat (match type of EC with context [if ?x then _ else _] => destruct x end; try discriminate). }
  destruct (check_species (k_phases s) (k_skip_sp s) (k_skip_tb s) r) as [[|]| | |] eqn:ES; try (simpl; discriminate).
  - destruct (check_species_known _ _ _ _ _ ES eq_refl) as (Kr & Kp & Ko & Kt).
    apply indices_known in Kr as [rk Erk]. apply indices_known in Kp as [pk Epk]. rewrite Erk, Epk.
    destruct (apply_orders_known _ _ Ko (rk, map snd (rx_reactants r), map snd (rx_reactants r))) as [[[rk' ro] rs'] Eo].
    rewrite Eo. repeat (match goal with |- context [match ?x with _ => _ end] => destruct x end; try discriminate).
  - exfalso. unfold check_species in ES.
    destruct (undeclared (k_phases s) (rx_reactants r)) eqn:E1; [simpl in ES; destruct (k_skip_sp s); discriminate|].
    destruct (undeclared (k_phases s) (rx_products r)) eqn:E2; [simpl in ES; destruct (k_skip_sp s); discriminate|].
    simpl in ES. destruct (undeclared (k_phases s) (rx_orders r)); [destruct (k_skip_sp s); discriminate|].
    destruct (rx_third r).
    + unfold tb_check in ES. repeat (match type of ES with context [if ?x then _ else _] => destruct x end; try discriminate).
    + rewrite undeclared_known in E1, E2. destruct (k_phases s) as [|p ph]; [congruence|].
      pose proof (check_balance_no_ub p ph r E1 E2). destruct (check_balance (p :: ph) r); try discriminate. congruence.
Qed.

Lemma accepted_added s r : inv s -> accepted (k_phases s) (k_skip_sp s) (k_skip_tb s) r -> snd (kin_add s r) = Added.
Proof.
  intros HI [H1 H2]. unfold kin_add. rewrite H1, H2.
  destruct (check_species_known _ _ _ _ _ H2 eq_refl) as (Kr & Kp & Ko & Kt).
  apply indices_known in Kr as [rk Erk]. apply indices_known in Kp as [pk Epk]. rewrite Erk, Epk.
  destruct (apply_orders_known _ _ Ko (rk, map snd (rx_reactants r), map snd (rx_reactants r))) as [[[rk' ro] rs] Eo].
  rewrite Eo.
  pose proof (indices_length _ _ _ Erk) as Lr. pose proof (indices_length _ _ _ Epk) as Lp.
  destruct (apply_orders_length _ _ _ _ _ _ _ _ Eo) as [Lo Ls]; [now rewrite map_length..|].
  destruct (mgr_add_len (k_rmgr s) (length (k_rxns s)) rk' ro rs Lo Ls) as [rm Erm]. rewrite Erm.
  assert (length (map snd (rx_products r)) = length pk) as Lp' by now rewrite map_length.
  destruct (mgr_add_len (k_pmgr s) (length (k_rxns s)) pk _ _ Lp' Lp') as [pm Epm]. rewrite Epm.
  assert (exists rpm, (if rx_reversible r then mgr_add (k_rpmgr s) (length (k_rxns s)) pk (map snd (rx_products r)) (map snd (rx_products r))
                     else Ok (k_rpmgr s)) = Ok rpm) as [rpm Erpm].
  { destruct (rx_reversible r); [now apply mgr_add_len|eauto]. }
  rewrite Erpm. destruct (rx_third r) as [tb|]; [|reflexivity].
  destruct (tb_effs_known (k_phases s) (k_skip_tb s) (tb_eff tb) [] Kt) as [effs Eeff]. now rewrite Eeff.
Qed.

Lemma adds_rxns rs : forall s, inv s -> Forall (accepted (k_phases s) (k_skip_sp s) (k_skip_tb s)) rs ->
  k_rxns (kin_adds s rs) = k_rxns s ++ rs.
Proof.
  induction rs as [|r rs IH]; intros s HI HF; [now rewrite app_nil_r|].
  inversion HF as [|? ? H1 H2]; subst. unfold kin_adds. simpl. fold (kin_adds (fst (kin_add s r)) rs).
  pose proof (accepted_added s r HI H1) as HA. destruct (kin_add_cases s r HI) as [(_ & HI' & HR)|(X & _)]; [|contradiction].
  destruct (phases_const s r) as (E1 & E2 & E3).
  rewrite IH; [rewrite HR, <- app_assoc; reflexivity|assumption|]. now rewrite E1, E2, E3.
Qed.

Lemma mechanism_rxns phs f1 f2 rs : Forall (accepted phs f1 f2) rs -> k_rxns (mechanism phs f1 f2 rs) = rs.
Proof. intros H. apply (adds_rxns rs (kin_init phs f1 f2)); [apply inv_init|exact H]. Qed.

(** The reactions held by a mechanism are those of the list that are accepted, in order. *)
Lemma mechanism_snoc phs f1 f2 rs r :
  k_rxns (mechanism phs f1 f2 (rs ++ [r])) =
  k_rxns (mechanism phs f1 f2 rs) ++
    match snd (kin_add (mechanism phs f1 f2 rs) r) with Added => [r] | _ => [] end.
Proof.
  unfold mechanism, kin_adds. rewrite fold_left_app. simpl.
  fold (kin_adds (kin_init phs f1 f2) rs). fold (mechanism phs f1 f2 rs).
  destruct (kin_add_cases (mechanism phs f1 f2 rs) r (mech_inv _ _ _ _)) as [(-> & _ & ->)|(X & ->)]; [reflexivity|].
  destruct (snd (kin_add (mechanism phs f1 f2 rs) r)); [contradiction|now rewrite app_nil_r..].
Qed.
