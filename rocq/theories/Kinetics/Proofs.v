From Coq Require Import Reals ZArith String List Bool Arith Lia Lra Permutation.
From Verif Require Import Base.Outcome Base.RSum Base.Vec Stoich.Model Stoich.Spec Stoich.Proofs
  Kinetics.Model Kinetics.Spec.
Import ListNotations.
Open Scope R_scope.

(** ** Numbered lists *)
Lemma numbered_snoc rs r : numbered (rs ++ [r]) = numbered rs ++ [(length rs, r)].
Proof.
  unfold numbered. rewrite app_length. simpl. rewrite Nat.add_1_r, seq_S. simpl.
  assert (forall n (l : list reaction) a b, length l = n -> combine (seq a n ++ [b]) (l ++ [r]) = combine (seq a n) l ++ [(b, r)]) as H.
  { induction n as [|n IH]; intros [|x l] a b Hl; try discriminate; simpl; [reflexivity|].
    rewrite IH; [reflexivity|]. simpl in Hl. lia. }
  now apply H.
Qed.

Lemma numbered_in rs i r : In (i, r) (numbered rs) <-> nth_error rs i = Some r.
Proof.
  revert i. induction rs as [|x rs IH] using rev_ind; intros i.
  - simpl. destruct i; simpl; split; [intros []|discriminate|intros []|discriminate].
  - rewrite numbered_snoc, in_app_iff, IH. simpl. split.
    + intros [H|[H|[]]].
      * rewrite nth_error_app1; [assumption|]. apply nth_error_Some. congruence.
      * injection H as <- <-. rewrite nth_error_app2, Nat.sub_diag by lia. reflexivity.
    + intros H. destruct (Nat.lt_ge_cases i (length rs)) as [L|L].
      * left. now rewrite nth_error_app1 in H.
      * rewrite nth_error_app2 in H by assumption.
        destruct (i - length rs)%nat as [|n] eqn:E; simpl in H.
        -- injection H as ->. right. left. f_equal. lia.
        -- destruct n; discriminate.
Qed.

Lemma numbered_lt rs i r : In (i, r) (numbered rs) -> (i < length rs)%nat.
Proof. rewrite numbered_in. intros H. apply nth_error_Some. congruence. Qed.

(** ** Declarations sent to the managers *)
Definition rdecl (phs : list phase) (i : nat) (r : reaction) : decl :=
  match indices phs (rx_reactants r) with
  | Some rk =>
    match apply_orders phs (rx_orders r) (rk, map snd (rx_reactants r), map snd (rx_reactants r)) with
    | Some (rk', o, s) => (i, rk', o, s)
    | None => (i, [], [], [])
    end
  | None => (i, [], [], [])
  end.
Definition pdecl (phs : list phase) (i : nat) (r : reaction) : decl :=
  match indices phs (rx_products r) with
  | Some pk => (i, pk, map snd (rx_products r), map snd (rx_products r))
  | None => (i, [], [], [])
  end.

Definition rdecls phs rs := map (fun '(i, r) => rdecl phs i r) (numbered rs).
Definition pdecls phs rs := map (fun '(i, r) => pdecl phs i r) (numbered rs).
Definition rpdecls phs rs :=
  flat_map (fun '(i, r) => if rx_reversible r then [pdecl phs i r] else []) (numbered rs).

Definition rx_dn (r : reaction) : R :=
  sum_of snd (rx_products r) - sum_of snd (rx_reactants r).

Definition known (phs : list phase) (l : list (string * R)) : Prop :=
  Forall (fun '(nm, _) => species_index phs nm <> None) l.

Definition tbs (phs : list phase) (skip : bool) (rs : list reaction) : list tb_entry :=
  flat_map (fun '(i, r) => match rx_third r with
                           | None => []
                           | Some tb =>
                             match tb_effs phs skip (tb_eff tb) [] with
                             | Some effs => [mkTbEntry i (tb_default tb) (tb_mass_action tb)
                                               (map (fun '(k, e) => (k, e - tb_default tb)) effs)]
                             | None => []
                             end
                           end) (numbered rs).

Record inv (s : kin) : Prop := mkInv {
  inv_r : mgr_adds mgr_init (rdecls (k_phases s) (k_rxns s)) = Ok (k_rmgr s);
  inv_p : mgr_adds mgr_init (pdecls (k_phases s) (k_rxns s)) = Ok (k_pmgr s);
  inv_rp : mgr_adds mgr_init (rpdecls (k_phases s) (k_rxns s)) = Ok (k_rpmgr s);
  inv_dn : k_dn s = map rx_dn (k_rxns s);
  inv_rev : k_revindex s = flat_map (fun '(i, r) => if rx_reversible r then [i] else []) (numbered (k_rxns s));
  inv_irrev : k_irrev s = flat_map (fun '(i, r) => if rx_reversible r then [] else [i]) (numbered (k_rxns s));
  inv_tb : k_tb s = tbs (k_phases s) (k_skip_tb s) (k_rxns s);
  inv_acc : Forall (fun r => rx_check r = Ok tt /\
                    check_species (k_phases s) (k_skip_sp s) (k_skip_tb s) r = Ok true) (k_rxns s)
}.

Lemma undeclared_known phs l : undeclared phs l = false <-> known phs l.
Proof.
  unfold undeclared, known. induction l as [|[nm s] l IH]; simpl; [split; auto|].
  destruct (species_index phs nm) eqn:E; simpl.
  - rewrite IH. split; [intros; constructor; [congruence|assumption]|intros H; now inversion H].
  - split; [discriminate|]. intros H. inversion H; congruence.
Qed.

Lemma indices_known phs l : known phs l <-> exists ks, indices phs l = Some ks.
Proof.
  unfold known. induction l as [|[nm s] l IH]; simpl.
  - split; [eauto|constructor].
  - split.
    + intros H. inversion H as [|? ? H1 H2]; subst. apply IH in H2 as [ks ->].
      destruct (species_index phs nm); [eauto|congruence].
    + intros [ks H]. destruct (species_index phs nm) eqn:E; [|discriminate].
      destruct (indices phs l); [|discriminate]. constructor; [congruence|]. apply IH. eauto.
Qed.

Lemma indices_length phs l ks : indices phs l = Some ks -> length ks = length l.
Proof.
  revert ks. induction l as [|[nm s] l IH]; simpl; intros ks H; [injection H as <-; reflexivity|].
  destruct (species_index phs nm); [|discriminate]. destruct (indices phs l); [|discriminate].
  injection H as <-. simpl. f_equal. now apply IH.
Qed.

Lemma set_nth_length {A} n (x : A) l : length (set_nth n x l) = length l.
Proof. revert n. induction l; intros [|n]; simpl; auto. Qed.

Lemma apply_orders_known phs os : known phs os -> forall st, exists st', apply_orders phs os st = Some st'.
Proof.
  induction 1 as [|[nm o] os H HF IH]; intros [[rk ro] rs]; simpl; [eauto|].
  destruct (species_index phs nm); [|congruence]. destruct (find_pos n rk); apply IH.
Qed.

Lemma apply_orders_length phs os : forall rk ro rs rk' ro' rs',
  apply_orders phs os (rk, ro, rs) = Some (rk', ro', rs') ->
  length ro = length rk -> length rs = length rk ->
  length ro' = length rk' /\ length rs' = length rk'.
Proof.
  induction os as [|[nm o] os IH]; intros rk ro rs rk' ro' rs' H H1 H2; simpl in H.
  - injection H as <- <- <-. auto.
  - destruct (species_index phs nm); [|discriminate]. destruct (find_pos n rk).
    + apply IH in H; auto. now rewrite set_nth_length.
    + apply IH in H; auto; rewrite !app_length; simpl; lia.
Qed.

Lemma mgr_add_len m i k o s : length o = length k -> length s = length k ->
  exists m', mgr_add m i k o s = Ok m'.
Proof.
  intros H1 H2. unfold mgr_add. rewrite H1, H2, Nat.eqb_refl. simpl.
  destruct (is_frac (zip3 k o s) || (3 <? length k)%nat); [eauto|].
  destruct (kRep (zip3 k o s)) as [|a [|b [|c [|]]]]; eauto.
Qed.

Lemma tb_effs_known phs skip effs : forall acc,
  (undeclared phs effs = true -> skip = true) -> exists out, tb_effs phs skip effs acc = Some out.
Proof.
  induction effs as [|[nm e] effs IH]; intros acc H; simpl; [eauto|]. unfold undeclared in H. simpl in H.
  destruct (species_index phs nm) eqn:E.
  - apply IH. exact H.
  - simpl in H. specialize (H eq_refl). subst skip. apply IH. reflexivity.
Qed.

Lemma check_species_known phs f1 f2 r b : check_species phs f1 f2 r = Ok b -> b = true ->
  known phs (rx_reactants r) /\ known phs (rx_products r) /\ known phs (rx_orders r) /\
  match rx_third r with
  | Some tb => undeclared phs (tb_eff tb) = true -> f2 = true
  | None => check_balance phs r = Ok tt
  end.
Proof.
  unfold check_species. intros H ->.
  destruct (undeclared phs (rx_reactants r)) eqn:E1; [simpl in H; destruct f1; discriminate|].
  destruct (undeclared phs (rx_products r)) eqn:E2; [simpl in H; destruct f1; discriminate|].
  simpl in H. destruct (undeclared phs (rx_orders r)) eqn:E3; [destruct f1; discriminate|].
  rewrite undeclared_known in E1, E2, E3. repeat split; auto.
  destruct (rx_third r) as [tb|].
  - unfold tb_check in H. intros Hu. rewrite Hu in H. destruct f2; [reflexivity|discriminate].
  - destruct (check_balance phs r) as [[]| | |]; [reflexivity|discriminate..].
Qed.

Lemma dn_sum (l1 l2 : list (string * R)) :
  fold_left (fun d '(_, x) => d - x) l2 (fold_left (fun d '(_, x) => d + x) l1 0)
  = sum_of snd l1 - sum_of snd l2.
Proof.
  assert (forall (l : list (string * R)) a, fold_left (fun d '(_, x) => d + x) l a = a + sum_of snd l) as H1.
  { induction l as [|[n x] l IH]; intros a; simpl; [unfold sum_of; simpl; lra|]. rewrite IH, sum_of_cons. simpl. lra. }
  assert (forall (l : list (string * R)) a, fold_left (fun d '(_, x) => d - x) l a = a - sum_of snd l) as H2.
  { induction l as [|[n x] l IH]; intros a; simpl; [unfold sum_of; simpl; lra|]. rewrite IH, sum_of_cons. simpl. lra. }
  rewrite H2, H1. lra.
Qed.

Lemma phases_const s r : k_phases (fst (kin_add s r)) = k_phases s /\
  k_skip_sp (fst (kin_add s r)) = k_skip_sp s /\ k_skip_tb (fst (kin_add s r)) = k_skip_tb s.
Proof.
  unfold kin_add. repeat (match goal with |- context [match ?x with _ => _ end] => destruct x end; simpl; auto).
Qed.

(** What addReaction does, in one statement. *)
Lemma kin_add_cases s r :
  inv s ->
  (snd (kin_add s r) = Added /\ inv (fst (kin_add s r)) /\ k_rxns (fst (kin_add s r)) = k_rxns s ++ [r]) \/
  (snd (kin_add s r) <> Added /\ fst (kin_add s r) = s).
Proof.
  intros HI. destruct (phases_const s r) as (Hph & Hf1 & Hf2). revert Hph Hf1 Hf2.
  unfold kin_add at 1 2 3. unfold kin_add.
  destruct (rx_check r) as [[]| | |] eqn:EC; try (intros; right; split; [discriminate|reflexivity]).
  destruct (check_species (k_phases s) (k_skip_sp s) (k_skip_tb s) r) as [[|]| | |] eqn:ES;
    try (intros; right; split; [discriminate|reflexivity]).
  destruct (check_species_known _ _ _ _ _ ES eq_refl) as (Kr & Kp & Ko & Kt).
  apply indices_known in Kr as [rk Erk]. apply indices_known in Kp as [pk Epk]. rewrite Erk, Epk.
  destruct (apply_orders_known _ _ Ko (rk, map snd (rx_reactants r), map snd (rx_reactants r))) as [[[rk' ro] rs] Eo].
  rewrite Eo.
  pose proof (indices_length _ _ _ Erk) as Lr. pose proof (indices_length _ _ _ Epk) as Lp.
  destruct (apply_orders_length _ _ _ _ _ _ _ _ Eo) as [Lo Ls]; [now rewrite map_length..|].
  destruct (mgr_add_len (k_rmgr s) (length (k_rxns s)) rk' ro rs Lo Ls) as [rm Erm]. rewrite Erm.
  assert (length (map snd (rx_products r)) = length pk) as Lp' by now rewrite map_length.
  destruct (mgr_add_len (k_pmgr s) (length (k_rxns s)) pk _ _ Lp' Lp') as [pm Epm]. rewrite Epm.
  assert (exists rpm, (if rx_reversible r then mgr_add (k_rpmgr s) (length (k_rxns s)) pk (map snd (rx_products r)) (map snd (rx_products r))
                     else Ok (k_rpmgr s)) = Ok rpm) as [rpm Erpm].
  { destruct (rx_reversible r); [now apply mgr_add_len|eauto]. }
  rewrite Erpm. intros Hph Hf1 Hf2. left.
  assert (forall t, t = tbs (k_phases s) (k_skip_tb s) (k_rxns s ++ [r]) ->
    inv (mkKin (k_phases s) (k_skip_sp s) (k_skip_tb s) rm pm rpm
                            (k_rxns s ++ [r]) (k_dn s ++ [fold_left (fun d '(_, x) => d - x) (rx_reactants r)
                            (fold_left (fun d '(_, x) => d + x) (rx_products r) 0)])
                            (if rx_reversible r then k_revindex s ++ [length (k_rxns s)] else k_revindex s)
                            (if rx_reversible r then k_irrev s else k_irrev s ++ [length (k_rxns s)]) t)) as HINV.
  { intros t Ht. destruct HI. constructor; simpl.
    - unfold rdecls. rewrite numbered_snoc, map_app, adds_app. fold (rdecls (k_phases s) (k_rxns s)).
      rewrite inv_r0. simpl. unfold rdecl. rewrite Erk, Eo. simpl. now rewrite Erm.
    - unfold pdecls. rewrite numbered_snoc, map_app, adds_app. fold (pdecls (k_phases s) (k_rxns s)).
      rewrite inv_p0. simpl. unfold pdecl. rewrite Epk. simpl. now rewrite Epm.
    - unfold rpdecls. rewrite numbered_snoc, flat_map_app, adds_app. fold (rpdecls (k_phases s) (k_rxns s)).
      rewrite inv_rp0. simpl. unfold pdecl. rewrite Epk. destruct (rx_reversible r); simpl; now rewrite Erpm.
    - now rewrite map_app, dn_sum, inv_dn0.
    - rewrite numbered_snoc, flat_map_app, <- inv_rev0. simpl. destruct (rx_reversible r); now rewrite ?app_nil_r.
    - rewrite numbered_snoc, flat_map_app, <- inv_irrev0. simpl. destruct (rx_reversible r); now rewrite ?app_nil_r.
    - exact Ht.
    - rewrite Forall_app. split; [assumption|]. constructor; [|constructor]. auto. }
  destruct (rx_third r) as [tb|] eqn:Etb.
  - destruct (tb_effs_known (k_phases s) (k_skip_tb s) (tb_eff tb) [] Kt) as [effs Eeff]. rewrite Eeff.
    simpl. split; [reflexivity|]. split; [|reflexivity]. apply HINV.
    unfold tbs. rewrite numbered_snoc, flat_map_app. simpl. rewrite Etb, Eeff.
    unfold tb_install. rewrite (inv_tb s HI). reflexivity.
  - simpl. split; [reflexivity|]. split; [|reflexivity]. apply HINV.
    unfold tbs. rewrite numbered_snoc, flat_map_app. simpl. rewrite Etb, app_nil_r. apply (inv_tb s HI).
Qed.

Lemma inv_init phs f1 f2 : inv (kin_init phs f1 f2).
Proof. constructor; reflexivity || constructor. Qed.

Lemma inv_adds rs : forall s, inv s -> inv (kin_adds s rs).
Proof.
  induction rs as [|r rs IH]; intros s H; [assumption|]. unfold kin_adds. simpl. apply IH.
  destruct (kin_add_cases s r H) as [(_ & Hi & _)|(_ & ->)]; assumption.
Qed.

Lemma phases_adds rs : forall s, k_phases (kin_adds s rs) = k_phases s /\
  k_skip_sp (kin_adds s rs) = k_skip_sp s /\ k_skip_tb (kin_adds s rs) = k_skip_tb s.
Proof.
  induction rs as [|r rs IH]; intros s; [auto|]. unfold kin_adds. simpl.
  destruct (IH (fst (kin_add s r))) as (A & B & C). destruct (phases_const s r) as (A' & B' & C').
  unfold kin_adds in *. rewrite A, B, C. auto.
Qed.

(** ** Linear sums *)
Definition cS (d : decl) (k : nat) : R := lin (fun k' => if Nat.eqb k' k then 1 else 0) (cn_parts (handler d)).

Lemma handler_rxn d : cn_rxn (handler d) = d_rxn d.
Proof. apply (handler_handled d). Qed.

Lemma rdecl_rxn phs i r : d_rxn (rdecl phs i r) = i.
Proof. unfold rdecl. destruct (indices _ _); [|reflexivity]. destruct (apply_orders _ _ _) as [[[]]|]; reflexivity. Qed.
Lemma pdecl_rxn phs i r : d_rxn (pdecl phs i r) = i.
Proof. unfold pdecl. destruct (indices _ _); reflexivity. Qed.

Lemma sumS_mgr ds m v k : mgr_adds mgr_init ds = Ok m ->
  sum_of (contribS k v) (hs m) = sum_of (fun d => cS d k * v (d_rxn d)) ds.
Proof.
  intros H. rewrite (sum_of_perm _ _ _ (adds_handler ds mgr_init m H)). simpl. rewrite app_nil_r, sum_of_map.
  apply sum_of_ext. intros d _. unfold contribS, cS. now rewrite handler_rxn.
Qed.

Lemma sumR_mgr ds m v i : mgr_adds mgr_init ds = Ok m ->
  sum_of (contribR i v) (hs m) = sum_of (fun d => if Nat.eqb (d_rxn d) i then lin v (cn_parts (handler d)) else 0) ds.
Proof.
  intros H. rewrite (sum_of_perm _ _ _ (adds_handler ds mgr_init m H)). simpl. rewrite app_nil_r, sum_of_map.
  apply sum_of_ext. intros d _. unfold contribR. now rewrite handler_rxn.
Qed.

(** ** A zero entry stays zero under multiply *)
Lemma over_zero {A} (f : A -> vec -> vec -> vec) inp i l :
  (forall a out, out i = 0 -> f a inp out i = 0) -> forall out, out i = 0 -> over f l inp out i = 0.
Proof.
  intros Hf. induction l as [|a l IH]; intros out H; unfold over in *; simpl; [assumption|].
  apply IH. now apply Hf.
Qed.

Lemma mul_zero m c out i : out i = 0 -> mgr_multiply m c out i = 0.
Proof.
  intros H. unfold mgr_multiply.
  apply over_zero.
  { intros h o Ho. rewrite cn_mul_val, Ho. lra. }
  apply over_zero.
  { intros h o Ho. unfold c3_mul, upd. destruct (_ || _); eqbs; try assumption; rewrite ?Ho; lra. }
  apply over_zero.
  { intros h o Ho. unfold c2_mul, upd. destruct (_ && _); eqbs; try assumption; rewrite ?Ho; lra. }
  apply over_zero; [|assumption].
  intros h o Ho. unfold c1_mul, upd. eqbs; try assumption; rewrite ?Ho; lra.
Qed.

Lemma fold_upd_in (g : nat -> R) i l : forall v,
  fold_left (fun v j => upd v j (g j)) l v i = if existsb (Nat.eqb i) l then g i else v i.
Proof.
  induction l as [|j l IH]; intros v; simpl; [reflexivity|]. rewrite IH. unfold upd.
  destruct (Nat.eqb_spec i j) as [->|]; simpl; [destruct (existsb _ l); reflexivity|reflexivity].
Qed.

Lemma existsb_eqb i l : existsb (Nat.eqb i) l = true <-> In i l.
Proof.
  rewrite existsb_exists. split.
  - intros (x & H & E). apply Nat.eqb_eq in E. now subst.
  - intros H. exists i. split; [assumption|apply Nat.eqb_refl].
Qed.

Lemma in_flat_if (rs : list reaction) i (b : reaction -> bool) :
  In i (flat_map (fun '(i, r) => if b r then [i] else []) (numbered rs)) <->
  exists r, nth_error rs i = Some r /\ b r = true.
Proof.
  rewrite in_flat_map. split.
  - intros ([j r] & H & Hi). apply numbered_in in H. destruct (b r) eqn:E; [|destruct Hi].
    destruct Hi as [->|[]]. eauto.
  - intros (r & H & E). exists (i, r). split; [now apply numbered_in|]. rewrite E. now left.
Qed.

Lemma flat_swap (rs : list reaction) :
  flat_map (fun '(i, r) => if rx_reversible r then [] else [i]) (numbered rs)
  = flat_map (fun '(i, r) => if negb (rx_reversible r) then [i] else []) (numbered rs).
Proof. apply flat_map_ext. intros [i r]. now destruct (rx_reversible r). Qed.

Lemma rkcn_irrev s e i r : inv s -> nth_error (k_rxns s) i = Some r -> rx_reversible r = false ->
  rkcn s e i = 0.
Proof.
  intros HI Hn Hr. unfold rkcn. rewrite fold_upd_in.
  assert (existsb (Nat.eqb i) (k_irrev s) = true) as ->; [|reflexivity].
  apply existsb_eqb. rewrite (inv_irrev s HI), flat_swap. apply (in_flat_if _ _ (fun r => negb (rx_reversible r))).
  exists r. now rewrite Hr.
Qed.

Lemma rkcn_rev s e i r : inv s -> nth_error (k_rxns s) i = Some r -> rx_reversible r = true ->
  rkcn s e i = Rmin (exp (rev_reaction_delta s (e_mu0 e) i * (1 / e_rt e) - rx_dn r * e_logc0 e)) BigNumber.
Proof.
  intros HI Hn Hr. unfold rkcn. rewrite fold_upd_in.
  destruct (existsb (Nat.eqb i) (k_irrev s)) eqn:E.
  - apply existsb_eqb in E. rewrite (inv_irrev s HI), flat_swap in E.
    apply (in_flat_if _ _ (fun r => negb (rx_reversible r))) in E as (r' & H1 & H2). rewrite Hn in H1.
    injection H1 as <-. rewrite Hr in H2. discriminate.
  - rewrite (fold_upd_in (fun i => Rmin _ _)).
    assert (existsb (Nat.eqb i) (k_revindex s) = true) as ->.
    { apply existsb_eqb. rewrite (inv_rev s HI). apply (in_flat_if _ _ rx_reversible). eauto. }
    assert (nth i (k_dn s) 0 = rx_dn r) as ->; [|reflexivity].
    rewrite (inv_dn s HI). apply nth_error_nth. now apply map_nth_error.
Qed.

Lemma ropr_irrev s e i r : inv s -> nth_error (k_rxns s) i = Some r -> rx_reversible r = false ->
  ropr s e i = 0.
Proof.
  intros HI Hn Hr. unfold ropr. apply mul_zero. rewrite (rkcn_irrev s e i r HI Hn Hr). lra.
Qed.

(** ** C18 *)
Lemma net_creation_destruction s e k : inv s ->
  net_production_rates s e k = creation_rates s e k - destruction_rates s e k.
Proof.
  intros HI. unfold net_production_rates, creation_rates, destruction_rates.
  rewrite !incS_hs, !decS_hs, !incS_hs.
  rewrite !(sumS_mgr _ _ _ _ (inv_r s HI)), !(sumS_mgr _ _ _ _ (inv_p s HI)), !(sumS_mgr _ _ _ _ (inv_rp s HI)).
  unfold rdecls, pdecls, rpdecls. rewrite !sum_of_map, sum_of_flat_map. unfold zeros.
  assert (sum_of (fun a => sum_of (fun d => cS d k * ropr s e (d_rxn d)) (let '(i, r) := a in if rx_reversible r then [pdecl (k_phases s) i r] else [])) (numbered (k_rxns s))
    = sum_of (fun x => cS (let '(i, r) := x in pdecl (k_phases s) i r) k * ropr s e (d_rxn (let '(i, r) := x in pdecl (k_phases s) i r))) (numbered (k_rxns s))) as ->.
  { apply sum_of_ext. intros [i r] Hin. rewrite pdecl_rxn. apply numbered_in in Hin.
    destruct (rx_reversible r) eqn:E.
    - rewrite sum_of_cons, sum_of_nil, pdecl_rxn. lra.
    - rewrite sum_of_nil, (ropr_irrev s e i r HI Hin E). lra. }
  unfold ropnet.
  rewrite (sum_of_ext (fun x => cS (let '(i, r) := x in pdecl (k_phases s) i r) k * (ropf s e (d_rxn (let '(i, r) := x in pdecl (k_phases s) i r)) - ropr s e (d_rxn (let '(i, r) := x in pdecl (k_phases s) i r))))
    (fun x => cS (let '(i, r) := x in pdecl (k_phases s) i r) k * ropf s e (d_rxn (let '(i, r) := x in pdecl (k_phases s) i r)) - cS (let '(i, r) := x in pdecl (k_phases s) i r) k * ropr s e (d_rxn (let '(i, r) := x in pdecl (k_phases s) i r)))) by (intros; lra).
  rewrite (sum_of_ext (fun x => cS (let '(i, r) := x in rdecl (k_phases s) i r) k * (ropf s e (d_rxn (let '(i, r) := x in rdecl (k_phases s) i r)) - ropr s e (d_rxn (let '(i, r) := x in rdecl (k_phases s) i r))))
    (fun x => cS (let '(i, r) := x in rdecl (k_phases s) i r) k * ropf s e (d_rxn (let '(i, r) := x in rdecl (k_phases s) i r)) - cS (let '(i, r) := x in rdecl (k_phases s) i r) k * ropr s e (d_rxn (let '(i, r) := x in rdecl (k_phases s) i r)))) by (intros; lra).
  rewrite !sum_of_minus. lra.
Qed.
