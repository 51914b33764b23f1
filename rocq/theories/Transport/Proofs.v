(** Proofs: the stored quantities are those of the present temperature and composition. *)
From Coq Require Import Reals List Bool Arith Lia Lra.
From Verif Require Import Base.Fp Base.Outcome Base.RSum Base.Vec Transport.Model Transport.Spec.
Import ListNotations.
Open Scope R_scope.

(** ** The order of the pairs *)
Lemma fold_add_acc n l a : fold_left (fun ic ii => (ic + (n - ii))%nat) l a = (a + fold_left (fun ic ii => (ic + (n - ii))%nat) l 0)%nat.
Proof.
  revert a. induction l as [|x l IH]; intros a; simpl; [lia|]. rewrite IH. rewrite (IH (n - x)%nat). lia.
Qed.
Lemma blocks_length n l :
  length (flat_map (fun i => map (pair i) (seq i (n - i))) l) = fold_left (fun ic ii => (ic + (n - ii))%nat) l 0%nat.
Proof.
  induction l as [|x l IH]; [reflexivity|]. simpl. rewrite app_length, map_length, seq_length, IH.
  rewrite (fold_add_acc n l (n - x)). reflexivity.
Qed.
Lemma pair_index_nth n i j : (i <= j < n)%nat -> nth_error (pairs n) (pair_index n i j) = Some (i, j).
Proof.
  intros H. unfold pairs, pair_index. destruct (Nat.leb_spec i j); [|lia].
  assert (E : seq 0 n = seq 0 i ++ i :: seq (S i) (n - 1 - i)).
  { replace n with (i + (1 + (n - 1 - i)))%nat at 1 by lia. rewrite seq_app. reflexivity. }
  rewrite E, flat_map_app, <- blocks_length.
  rewrite nth_error_app2 by lia.
  match goal with |- nth_error _ ?a = _ => replace a with (j - i)%nat by lia end.
  simpl. rewrite nth_error_app1 by (rewrite map_length, seq_length; lia).
  erewrite map_nth_error; [reflexivity|].
  rewrite (nth_error_nth' (seq i (n - i)) 0%nat) by (rewrite seq_length; lia).
  rewrite seq_nth by lia. do 2 f_equal. lia.
Qed.
Lemma pair_index_sym n i j : pair_index n i j = pair_index n j i.
Proof.
  unfold pair_index. destruct (Nat.leb_spec i j), (Nat.leb_spec j i); try lia; try reflexivity.
  now replace j with i by lia.
Qed.
Lemma pair_index_inj n i j a b : (i <= j < n)%nat -> (a <= b < n)%nat ->
  pair_index n i j = pair_index n a b -> i = a /\ j = b.
Proof.
  intros H1 H2 E. apply pair_index_nth in H1, H2. rewrite E, H2 in H1. now inversion H1.
Qed.
Lemma pairs_le n i j : In (i, j) (pairs n) -> (i <= j < n)%nat.
Proof.
  unfold pairs. rewrite in_flat_map. intros (x & Hx & Hy). apply in_map_iff in Hy.
  destruct Hy as (y & E & Hy). inversion E; subst. apply in_seq in Hx, Hy. lia.
Qed.
Lemma pairs_nodup n : NoDup (pairs n).
Proof.
  unfold pairs. generalize (seq_NoDup n 0). generalize (seq 0 n).
  induction l as [|x l IH]; intros H; simpl; [constructor|].
  inversion H as [|? ? Hx Hl]; subst. apply NoDup_nth_error. intros a b Ha E.
  assert (Hnd : NoDup (map (pair x) (seq x (n - x)))).
  { apply FinFun.Injective_map_NoDup; [|apply seq_NoDup]. intros u v Q. now inversion Q. }
  specialize (IH Hl).
  assert (Hdis : forall p, In p (map (pair x) (seq x (n - x))) ->
            ~ In p (flat_map (fun i => map (pair i) (seq i (n - i))) l)).
  { intros p Hp Hq. apply in_map_iff in Hp. destruct Hp as (y & <- & _).
    apply in_flat_map in Hq. destruct Hq as (z & Hz & Hq). apply in_map_iff in Hq.
    destruct Hq as (w & Q & _). inversion Q; subst. contradiction. }
  rewrite app_length in Ha.
  set (l1 := map (pair x) (seq x (n - x))) in *.
  set (l2 := flat_map (fun i => map (pair i) (seq i (n - i))) l) in *.
  destruct (Nat.lt_ge_cases a (length l1)) as [Ha1|Ha1]; destruct (Nat.lt_ge_cases b (length l1)) as [Hb1|Hb1].
  - rewrite !nth_error_app1 in E by lia. apply (proj1 (NoDup_nth_error l1) Hnd); assumption.
  - rewrite nth_error_app1, nth_error_app2 in E by lia. exfalso.
    destruct (nth_error l1 a) as [p|] eqn:Q; [|apply nth_error_None in Q; lia].
    apply (Hdis p); [eapply nth_error_In; exact Q|]. eapply nth_error_In. symmetry. exact E.
  - rewrite nth_error_app2, nth_error_app1 in E by lia. exfalso.
    destruct (nth_error l1 b) as [p|] eqn:Q; [|apply nth_error_None in Q; lia].
    apply (Hdis p); [eapply nth_error_In; exact Q|]. eapply nth_error_In. exact E.
  - rewrite !nth_error_app2 in E by lia.
    assert (a - length l1 = b - length l1)%nat; [|lia].
    apply (proj1 (NoDup_nth_error l2) IH); [lia|assumption].
Qed.

Lemma upd2_same m i j v : upd2 m i j v i j = v.
Proof. unfold upd2. now rewrite Nat.eqb_refl, upd_same. Qed.
Lemma upd2_other m i j v a b : (a, b) <> (i, j) -> upd2 m i j v a b = m a b.
Proof.
  intros H. unfold upd2. destruct (Nat.eqb_spec a i); [|reflexivity]. subst.
  apply upd_other. intros ->. now apply H.
Qed.

Lemma diff_loop_skip val ps : forall ic m a b,
  ~ In (a, b) ps -> ~ In (b, a) ps -> diff_loop val ps ic m a b = m a b.
Proof.
  induction ps as [|[i j] ps IH]; intros ic m a b Ha Hb; simpl; [reflexivity|].
  rewrite IH; [|intros Q; apply Ha; now right|intros Q; apply Hb; now right].
  rewrite upd2_other, upd2_other; [reflexivity| |].
  - intros Q. apply Ha. left. now inversion Q.
  - intros Q. apply Hb. left. now inversion Q.
Qed.
Lemma diff_loop_val val ps : forall ic m p i j,
  NoDup ps -> (forall a b, In (a, b) ps -> (a <= b)%nat) -> nth_error ps p = Some (i, j) ->
  diff_loop val ps ic m i j = val (ic + p)%nat /\ diff_loop val ps ic m j i = val (ic + p)%nat.
Proof.
  induction ps as [|[a b] ps IH]; intros ic m p i j Hnd Hle Hp; [now destruct p|].
  inversion Hnd as [|? ? Hnot Hnd']; subst. destruct p as [|p].
  - simpl in Hp. inversion Hp; subst a b. simpl. rewrite Nat.add_0_r.
    assert (Hij : ~ In (i, j) ps) by assumption.
    assert (Hji : ~ In (j, i) ps).
    { intros Q. assert (j <= i)%nat by (apply Hle; now right).
      assert (i <= j)%nat by (apply Hle; now left).
      replace j with i in * by lia. contradiction. }
    rewrite !diff_loop_skip by assumption. rewrite upd2_same. split; [|now rewrite upd2_same].
    destruct (Nat.eq_dec i j) as [->|Hne]; [now rewrite !upd2_same|].
    rewrite upd2_other by congruence. now rewrite upd2_same.
  - simpl in Hp. simpl. destruct (IH (S ic) (upd2 (upd2 m a b (val ic)) b a (upd2 m a b (val ic) a b)) p i j Hnd') as (E1 & E2); [intros; apply Hle; now right|assumption|].
    rewrite E1, E2. now replace (ic + S p)%nat with (S ic + p)%nat by lia.
Qed.
Lemma diff_loop_pairs val n m i j : (i < n)%nat -> (j < n)%nat ->
  diff_loop val (pairs n) 0 m i j = val (pair_index n i j).
Proof.
  intros Hi Hj. destruct (Nat.le_ge_cases i j) as [H|H].
  - apply (diff_loop_val val (pairs n) 0 m (pair_index n i j) i j); [apply pairs_nodup| |apply pair_index_nth; lia].
    intros a b Q. apply pairs_le in Q. lia.
  - rewrite pair_index_sym.
    apply (diff_loop_val val (pairs n) 0 m (pair_index n j i) j i); [apply pairs_nodup| |apply pair_index_nth; lia].
    intros a b Q. apply pairs_le in Q. lia.
Qed.

(** ** The invariant *)
Section Inv.
  Context (ck : bool) (fitV fitC : list species -> nat -> coef) (fitD : list species -> nat -> nat -> coef).

  Definition sqv_of (u : R) (c : coef) : R :=
    if ck then sqrt (exp (dot4 (ln u) c)) else sqrt (sqrt u) * dot5 (ln u) c.
  Definition visc_of (u : R) (c : coef) : R :=
    if ck then exp (dot4 (ln u) c) else (sqrt (sqrt u) * dot5 (ln u) c) * (sqrt (sqrt u) * dot5 (ln u) c).
  Definition cond_of (u : R) (c : coef) : R :=
    if ck then exp (dot4 (ln u) c) else sqrt u * dot5 (ln u) c.
  Definition diff_of (u : R) (c : coef) : R :=
    if ck then exp (dot4 (ln u) c) else u * sqrt u * dot5 (ln u) c.
  Definition low_of (sk sj wk wj : R) : R :=
    (1 + sk / sj * sqrt (sqrt (wj / wk))) * (1 + sk / sj * sqrt (sqrt (wj / wk))) / (sqrt 8 * sqrt (1 + wk / wj)).
  Definition phi_of (u : R) (tb : tabs) (g : gas) (r c : nat) : R :=
    if (c <? r)%nat then low_of (sqv_of u (tb_v tb r)) (sqv_of u (tb_v tb c)) (wt g r) (wt g c)
    else low_of (sqv_of u (tb_v tb c)) (sqv_of u (tb_v tb r)) (wt g c) (wt g r) /
         (visc_of u (tb_v tb c) / visc_of u (tb_v tb r) * (wt g r / wt g c)).

  Record Tables (g : gas) (n : nat) (tb : tabs) (t : tr) : Prop := {
    tw : forall k, (k < n)%nat -> t_mw t k = wt g k;
    tv : forall k, (k < n)%nat -> t_cv t k = tb_v tb k;
    tc : forall k, (k < n)%nat -> t_cc t k = tb_c tb k;
    td : forall i j, (i < n)%nat -> (j < n)%nat -> t_cd t (pair_index n i j) = tb_d tb i j;
    ts : forall i j, (i < n)%nat -> (j < n)%nat -> tb_d tb i j = tb_d tb j i }.
  Record Stored (g : gas) (n : nat) (u : R) (tb : tabs) (t : tr) : Prop := {
    sv : t_svok t = true -> forall k, (k < n)%nat ->
         t_visc t k = visc_of u (tb_v tb k) /\ t_sqv t k = sqv_of u (tb_v tb k);
    sw : t_wok t = true -> t_svok t = true /\
         forall r c, (r < n)%nat -> (c < n)%nat -> t_phi t r c = phi_of u tb g r c;
    sb : t_bok t = true -> forall i j, (i < n)%nat -> (j < n)%nat -> t_bd t i j = diff_of u (tb_d tb i j);
    sc : t_cok t = true -> forall k, (k < n)%nat -> t_cond t k = cond_of u (tb_c tb k) }.
  Record Inv (g : gas) (h : hist) (t : tr) : Prop := {
    in_n : t_n t = h_n h; in_s : t_size t = h_n h; in_T : t_temp t = h_last h;
    in_le : (h_n h <= nS g)%nat;
    in_data : has_data (g_sp g);
    in_tab : Tables g (h_n h) (h_tabs h) t;
    in_st : forall u, h_last h = Some u -> Stored g (h_n h) u (h_tabs h) t }.

  Lemma fitted_tables g t : t_mw t = wt g -> t_cv t = fitV (g_sp g) -> t_cc t = fitC (g_sp g) ->
    t_cd t = diff_table fitD (g_sp g) ->
    Tables g (nS g) (fitted fitV fitC fitD (g_sp g)) t.
  Proof.
    intros E1 E2 E3 E4. constructor; rewrite ?E1, ?E2, ?E3, ?E4; try reflexivity.
    - intros i j Hi Hj. unfold diff_table. simpl.
      destruct (Nat.le_ge_cases i j) as [H|H].
      + rewrite (nth_error_nth _ _ _ (pair_index_nth (nS g) i j ltac:(lia))).
        now rewrite Nat.min_l, Nat.max_r by lia.
      + rewrite pair_index_sym.
        rewrite (nth_error_nth _ _ _ (pair_index_nth (nS g) j i ltac:(lia))).
        now rewrite Nat.min_r, Nat.max_l by lia.
    - intros i j _ _. simpl. now rewrite Nat.min_comm, Nat.max_comm.
  Qed.

  Lemma data_forallb sp : has_data sp -> forallb sp_tr sp = true.
  Proof. intros H. apply forallb_forall. intros s Hs. eapply Forall_forall in H; eauto. Qed.

  Lemma same_T_false g t : t_temp t <> Some (g_T g) -> same_T g t = false.
  Proof.
    intros H. unfold same_T. destruct (t_temp t) as [u|]; [|reflexivity].
    apply reqb_false. intros E. apply H. now rewrite E.
  Qed.
  Lemma same_T_true g t : t_temp t = Some (g_T g) -> same_T g t = true.
  Proof. intros H. unfold same_T. rewrite H. now apply reqb_true. Qed.

  Lemma update_T_inv g h t : Inv g h t -> safe_ask g h ->
    exists t', update_T fitV fitC fitD g t = (t', true) /\ Inv g (hask fitV fitC fitD g h) t'.
  Proof.
    intros I [Hn|HT].
    - assert (En : (t_n t =? nS g)%nat = true) by (apply Nat.eqb_eq; rewrite (in_n _ _ _ I); lia).
      assert (Hfit : hask fitV fitC fitD g h = Hi (h_n h) (Some (g_T g)) (h_tabs h)).
      { unfold hask, fit. rewrite Hn. now rewrite Nat.eqb_refl. }
      rewrite Hfit. unfold update_T. rewrite En, andb_true_r.
      destruct (same_T g t) eqn:ES.
      + exists t. split; [reflexivity|]. unfold same_T in ES.
        destruct I as [i1 i2 i3 i4 i5 i6 i7]. rewrite i3 in ES.
        destruct (h_last h) as [u|] eqn:El; [|discriminate]. apply reqb_true in ES. subst u.
        constructor; simpl; auto.
      + unfold gas_update_T. rewrite Nat.eqb_sym, En. cbn [negb]. rewrite ES.
        eexists. split; [reflexivity|].
        destruct I as [i1 i2 i3 i4 i5 i6 i7]. constructor; simpl; auto.
        * destruct i6. constructor; simpl; auto.
        * intros u _. constructor; simpl; discriminate.
    - assert (ES : same_T g t = false) by (apply same_T_false; now rewrite (in_T _ _ _ I)).
      unfold update_T. rewrite ES. cbn [andb]. unfold gas_update_T.
      destruct (Nat.eqb_spec (nS g) (t_n t)) as [En|En].
      + cbn [negb]. rewrite ES. eexists. split; [reflexivity|].
        assert (Hfit : hask fitV fitC fitD g h = Hi (h_n h) (Some (g_T g)) (h_tabs h)).
        { unfold hask, fit. rewrite En, (in_n _ _ _ I). now rewrite Nat.eqb_refl. }
        rewrite Hfit.
        destruct I as [i1 i2 i3 i4 i5 i6 i7]. constructor; simpl; auto.
        * destruct i6. constructor; simpl; auto.
        * intros u _. constructor; simpl; discriminate.
      + unfold init. rewrite (data_forallb _ (in_data _ _ _ I)). cbn [negb].
        unfold same_T in ES |- *. cbn [t_temp]. rewrite ES.
        eexists. split; [reflexivity|].
        unfold hask, fit. rewrite (proj2 (Nat.eqb_neq (nS g) (h_n h))) by (rewrite <- (in_n _ _ _ I); lia).
        constructor; simpl; auto.
        * apply (in_data _ _ _ I).
        * apply fitted_tables; reflexivity.
        * intros u _. constructor; simpl; discriminate.
  Qed.

  (** The pieces computed on demand, at the present temperature. *)
  Record Ready (g : gas) (tb : tabs) (t : tr) : Prop := {
    rd_n : t_n t = nS g; rd_s : t_size t = nS g; rd_T : t_temp t = Some (g_T g);
    rd_tab : Tables g (nS g) tb t;
    rd_st : Stored g (nS g) (g_T g) tb t }.

  Lemma ready_inv g h t : has_data (g_sp g) -> Ready g (fit fitV fitC fitD g h) t -> Inv g (hask fitV fitC fitD g h) t.
  Proof.
    intros Hd [r1 r2 r3 r4 r5]. constructor; simpl; auto. intros u [= <-]. assumption.
  Qed.
  Lemma inv_ready g h t : Inv g (hask fitV fitC fitD g h) t -> Ready g (fit fitV fitC fitD g h) t.
  Proof. intros [i1 i2 i3 i4 i5 i6 i7]. constructor; simpl in *; auto. Qed.

  Lemma update_C_ready g tb t : Ready g tb t ->
    exists t', update_C g t = Ok t' /\ Ready g tb t' /\ (forall k, t_x t' k = xf g k) /\ t_cmok t' = false.
  Proof.
    intros [r1 r2 r3 r4 r5]. unfold update_C. rewrite r2, Nat.leb_refl.
    eexists. split; [reflexivity|]. split; [|split; [reflexivity|reflexivity]].
    destruct r4, r5. constructor; auto; constructor; simpl; auto.
  Qed.

  Lemma spvisc_ready g tb t : Ready g tb t ->
    exists t', updateSpeciesViscosities ck t = Ok t' /\ Ready g tb t' /\ t_svok t' = true /\ t_x t' = t_x t /\ t_wok t' = t_wok t.
  Proof.
    intros [r1 r2 r3 r4 r5]. unfold updateSpeciesViscosities. rewrite r1, r2, Nat.leb_refl.
    eexists. split; [reflexivity|]. split; [|repeat split; reflexivity].
    assert (V : forall k, (k < nS g)%nat -> t_cv t k = tb_v tb k) by apply r4.
    destruct r4, r5. constructor; auto; constructor; simpl; auto.
    - intros _ k Hk. unfold logT, t14, sqrtT, tT. rewrite r3. unfold visc_of, sqv_of.
      destruct ck; rewrite (V k Hk); split; reflexivity.
    - intros Hw. destruct (sw0 Hw) as (_ & Hphi). auto.
  Qed.

  Lemma viscT_ready g tb t : Ready g tb t ->
    exists t', updateViscosity_T ck t = Ok t' /\ Ready g tb t' /\ t_wok t' = true /\ t_x t' = t_x t.
  Proof.
    intros Rd. unfold updateViscosity_T.
    assert (X : exists t1, (if t_svok t then Ok t else updateSpeciesViscosities ck t) = Ok t1 /\ Ready g tb t1
                           /\ t_svok t1 = true /\ t_x t1 = t_x t).
    { destruct (t_svok t) eqn:E; [exists t; auto|].
      destruct (spvisc_ready g tb t Rd) as (t1 & E1 & R1 & S1 & X1 & _). exists t1. auto. }
    destruct X as (t1 & E1 & [r1 r2 r3 r4 r5] & S1 & X1). rewrite E1. cbn [obind].
    eexists. split; [reflexivity|]. split; [|split; [reflexivity|exact X1]].
    pose proof (sv _ _ _ _ _ r5 S1) as V. pose proof (tw _ _ _ _ r4) as W.
    destruct r4, r5. constructor; auto; constructor; simpl; auto.
    intros _. split; [assumption|]. intros r c Hr Hc.
    destruct (V r Hr) as (Vr & Sr). destruct (V c Hc) as (Vc & Sc).
    unfold phi_of, phi_low, phi_up, wratkj, wratkj1.
    destruct (c <? r)%nat.
    - rewrite Sr, Sc, (W r Hr), (W c Hc). reflexivity.
    - unfold phi_low, wratkj, wratkj1. rewrite Vr, Vc, Sr, Sc, (W r Hr), (W c Hc). reflexivity.
  Qed.

  Lemma diffT_ready g tb t : Ready g tb t ->
    exists t', (if t_bok t then Ok t else updateDiff_T ck t) = Ok t' /\ Ready g tb t' /\ t_bok t' = true /\ t_x t' = t_x t.
  Proof.
    intros Rd. destruct (t_bok t) eqn:E; [exists t; auto|].
    destruct Rd as [r1 r2 r3 r4 r5]. unfold updateDiff_T. rewrite r1, r2, Nat.leb_refl.
    eexists. split; [reflexivity|]. split; [|split; reflexivity].
    pose proof (td _ _ _ _ r4) as D.
    destruct r4, r5. constructor; auto; constructor; simpl; auto.
    intros _ i j Hi Hj. rewrite diff_loop_pairs by assumption.
    unfold diff_val, logT, sqrtT, tT. rewrite r3, (D i j Hi Hj). unfold diff_of. now destruct ck.
  Qed.

  Lemma condT_ready g tb t : Ready g tb t -> t_cmok t = false ->
    exists t', (if t_cok t then Ok t else updateCond_T ck t) = Ok t' /\ Ready g tb t' /\ t_cok t' = true
               /\ t_x t' = t_x t /\ t_cmok t' = false.
  Proof.
    intros Rd Hm. destruct (t_cok t) eqn:E; [exists t; auto|].
    destruct Rd as [r1 r2 r3 r4 r5]. unfold updateCond_T. rewrite r1, r2, Nat.leb_refl.
    eexists. split; [reflexivity|]. split; [|repeat split; reflexivity].
    pose proof (tc _ _ _ _ r4) as C.
    destruct r4, r5. constructor; auto; constructor; simpl; auto.
    intros _ k Hk. unfold logT, sqrtT, tT. rewrite r3. unfold cond_of. destruct ck; rewrite (C k Hk); reflexivity.
  Qed.

  (** ** The values, in the form in which they are computed *)
  Definition but (k : nat) (f : nat -> R) (n : nat) : R := sum_n (fun j => if (j =? k)%nat then 0 else f j) n.
  Definition vd (g : gas) (tb : tabs) (i j : nat) : R := diff_of (g_T g) (tb_d tb i j).
  Definition vmix (g : gas) (tb : tabs) (k : nat) : R :=
    if (nS g =? 1)%nat then vd g tb 0 0 / g_P g else
    let s := but k (fun j => xf g j / vd g tb j k) (nS g) in
    if negb (rltb 0 s) then vd g tb k k / g_P g else (mmw g - xf g k * wt g k) / (g_P g * mmw g * s).
  Definition vmole (g : gas) (tb : tabs) (k : nat) : R :=
    if (nS g =? 1)%nat then vd g tb 0 0 / g_P g else
    let s := but k (fun j => xf g j / vd g tb j k) (nS g) in
    if negb (rltb 0 s) then vd g tb k k / g_P g else (1 - xf g k) / (g_P g * s).
  Definition vmass (g : gas) (tb : tabs) (k : nat) : fp :=
    if (nS g =? 1)%nat then Fin (vd g tb 0 0 / g_P g) else
    let s1 := but k (fun i => xf g i / vd g tb k i) (nS g) * g_P g in
    let s2 := but k (fun i => xf g i * wt g i / vd g tb k i) (nS g) in
    fdiv (Fin 1) (fadd (Fin s1) (fmul (Fin s2) (fdiv (Fin (g_P g * xf g k)) (Fin (mmw g - wt g k * xf g k))))).
  Definition vflux0 (g : gas) (tb : tabs) (gradX : vec) (k : nat) : R := - g_rho g * wt g k * vmix g tb k * gradX k.
  Definition value (q : query) (g : gas) (tb : tabs) : list fp :=
    match q with
    | QViscosity => [Fin (sum_n (fun k => xf g k * visc_of (g_T g) (tb_v tb k) /
                       sum_n (fun j => phi_of (g_T g) tb g k j * xf g j) (nS g)) (nS g))]
    | QSpeciesViscosities => reals (fun k => visc_of (g_T g) (tb_v tb k)) (nS g)
    | QConductivity => [Fin (1 / 2 * (sum_n (fun k => xf g k * cond_of (g_T g) (tb_c tb k)) (nS g) +
                                     1 / sum_n (fun k => xf g k / cond_of (g_T g) (tb_c tb k)) (nS g)))]
    | QBinary => reals (fun a => 1 / g_P g * vd g tb (a mod nS g)%nat (a / nS g)%nat) (nS g * nS g)
    | QMix => reals (vmix g tb) (nS g)
    | QMixMole => reals (vmole g tb) (nS g)
    | QMixMass => map (vmass g tb) (seq 0 (nS g))
    | QFluxes gradX => reals (fun k => vflux0 g tb gradX k - yk g k * sum_n (vflux0 g tb gradX) (nS g)) (nS g)
    end.

  Lemma reals_ext f f' n : (forall k, (k < n)%nat -> f k = f' k) -> reals f n = reals f' n.
  Proof. intros H. apply map_ext_in. intros k Hk. apply in_seq in Hk. now rewrite H by lia. Qed.

  Section Coefs.
    Context (g : gas) (tb : tabs) (t : tr) (Rd : Ready g tb t) (Hb : t_bok t = true) (Hx : forall k, t_x t k = xf g k).
    Lemma bd_val i j : (i < nS g)%nat -> (j < nS g)%nat -> t_bd t i j = vd g tb i j.
    Proof. intros. apply (sb _ _ _ _ _ (rd_st _ _ _ Rd) Hb); assumption. Qed.
    Lemma mix_val k : (k < nS g)%nat -> mix_coef g t k = vmix g tb k.
    Proof.
      intros Hk. unfold mix_coef, vmix. rewrite (rd_n _ _ _ Rd).
      destruct (nS g =? 1)%nat eqn:E1; [rewrite bd_val; [reflexivity|lia|lia]|]. cbv zeta.
      rewrite !bd_val, Hx, (tw _ _ _ _ (rd_tab _ _ _ Rd)) by assumption.
      replace (sum_but k (fun j => t_x t j / t_bd t j k) (nS g)) with (but k (fun j => xf g j / vd g tb j k) (nS g)); [reflexivity|].
      apply sum_n_ext. intros j Hj. destruct (j =? k)%nat; [reflexivity|]. now rewrite bd_val, Hx.
    Qed.
    Lemma mole_val k : (k < nS g)%nat -> mole_coef g t k = vmole g tb k.
    Proof.
      intros Hk. unfold mole_coef, vmole. rewrite (rd_n _ _ _ Rd).
      destruct (nS g =? 1)%nat eqn:E1; [rewrite bd_val; [reflexivity|lia|lia]|]. cbv zeta.
      rewrite !bd_val, Hx by assumption.
      replace (sum_but k (fun j => t_x t j / t_bd t j k) (nS g)) with (but k (fun j => xf g j / vd g tb j k) (nS g)); [reflexivity|].
      apply sum_n_ext. intros j Hj. destruct (j =? k)%nat; [reflexivity|]. now rewrite bd_val, Hx.
    Qed.
    Lemma mass_val k : (k < nS g)%nat -> mass_coef g t k = vmass g tb k.
    Proof.
      intros Hk. unfold mass_coef, vmass. rewrite (rd_n _ _ _ Rd).
      destruct (nS g =? 1)%nat eqn:E1; [rewrite bd_val; [reflexivity|lia|lia]|]. cbv zeta.
      rewrite Hx, (tw _ _ _ _ (rd_tab _ _ _ Rd)) by assumption.
      replace (sum_but k (fun i => t_x t i / t_bd t k i) (nS g)) with (but k (fun i => xf g i / vd g tb k i) (nS g)).
      2: { apply sum_n_ext. intros j Hj. destruct (j =? k)%nat; [reflexivity|]. now rewrite bd_val, Hx. }
      replace (sum_but k (fun i => t_x t i * t_mw t i / t_bd t k i) (nS g)) with (but k (fun i => xf g i * wt g i / vd g tb k i) (nS g)).
      2: { apply sum_n_ext. intros j Hj. destruct (j =? k)%nat; [reflexivity|].
           now rewrite bd_val, Hx, (tw _ _ _ _ (rd_tab _ _ _ Rd)). }
      reflexivity.
    Qed.
    Lemma flux0_val gradX k : (k < nS g)%nat -> flux0 g t gradX k = vflux0 g tb gradX k.
    Proof. intros Hk. unfold flux0, vflux0. now rewrite mix_val. Qed.
    Lemma flux_val gradX k : (k < nS g)%nat ->
      flux g t gradX k = vflux0 g tb gradX k - yk g k * sum_n (vflux0 g tb gradX) (nS g).
    Proof.
      intros Hk. unfold flux. rewrite flux0_val, (rd_n _ _ _ Rd) by assumption.
      do 2 f_equal. apply sum_n_ext. intros j Hj. now apply flux0_val.
    Qed.
  End Coefs.

  Lemma answer_inv q g h t : Inv g h t -> safe_ask g h ->
    fst (answer ck fitV fitC fitD q g t) = Ok (value q g (fit fitV fitC fitD g h)) /\
    Inv g (hask fitV fitC fitD g h) (snd (answer ck fitV fitC fitD q g t)).
  Proof.
    intros I Hs. destruct (update_T_inv g h t I Hs) as (t1 & E1 & I1).
    apply inv_ready in I1. pose proof (in_data _ _ _ I) as Hd. clear I Hs.
    set (tb := fit fitV fitC fitD g h) in *.
    assert (K : forall a t2, Ready g tb t2 -> a = value q g tb ->
       forall r, r = (Ok a, t2) -> fst r = Ok (value q g tb) /\ Inv g (hask fitV fitC fitD g h) (snd r)).
    { intros a t2 R2 -> r ->. split; [reflexivity|]. apply ready_inv; assumption. }
    assert (D : forall (f : tr -> list fp) (a : list fp),
       (forall t2, Ready g tb t2 -> t_bok t2 = true -> (forall k, t_x t2 k = xf g k) -> f t2 = a) ->
       exists t2, obind (update_C g t1) (fun t => withDiff ck t f) = Ok (a, t2) /\ Ready g tb t2).
    { intros f a Hf. destruct (update_C_ready g tb t1 I1) as (t2 & E2 & R2 & X2 & _). rewrite E2. cbn [obind].
      destruct (diffT_ready g tb t2 R2) as (t3 & E3 & R3 & B3 & X3). unfold withDiff. rewrite E3. cbn [obind].
      exists t3. rewrite (Hf t3) by (try assumption; intros; rewrite X3; apply X2). auto. }
    destruct q; unfold answer, withT; rewrite E1.
    - destruct (update_C_ready g tb t1 I1) as (t2 & E2 & R2 & X2 & _). rewrite E2. cbn [obind].
      assert (X : exists t3, (if t_wok t2 then Ok t2 else updateViscosity_T ck t2) = Ok t3 /\ Ready g tb t3 /\ t_wok t3 = true /\ t_x t3 = t_x t2).
      { destruct (t_wok t2) eqn:Ew; [exists t2; auto|]. apply viscT_ready. assumption. }
      destruct X as (t3 & E3 & R3 & W3 & X3). rewrite E3. cbn [obind].
      eapply K; [exact R3| |reflexivity]. unfold value, reals. simpl map. do 2 f_equal.
      rewrite (rd_n _ _ _ R3). destruct (sw _ _ _ _ _ (rd_st _ _ _ R3) W3) as (S3 & P3).
      apply sum_n_ext. intros k Hk. rewrite X3, X2.
      destruct (sv _ _ _ _ _ (rd_st _ _ _ R3) S3 k Hk) as (-> & _). unfold Rdiv. do 2 f_equal.
      apply sum_n_ext. intros j Hj. now rewrite X2, P3.
    - destruct (viscT_ready g tb t1 I1) as (t2 & E2 & R2 & W2 & _). rewrite E2. cbn [obind].
      eapply K; [exact R2| |reflexivity]. unfold value. rewrite (rd_s _ _ _ R2).
      destruct (sw _ _ _ _ _ (rd_st _ _ _ R2) W2) as (S2 & _).
      apply reals_ext. intros k Hk. apply (sv _ _ _ _ _ (rd_st _ _ _ R2) S2 k Hk).
    - destruct (update_C_ready g tb t1 I1) as (t2 & E2 & R2 & X2 & M2). rewrite E2. cbn [obind].
      destruct (condT_ready g tb t2 R2 M2) as (t3 & E3 & R3 & C3 & X3 & M3). rewrite E3. cbn [obind].
      rewrite M3.
      cbv zeta beta iota.
      match goal with |- context [(Ok ?a, ?t)] => apply (K a t) with (r := (Ok a, t)) end; [| |reflexivity].
      + destruct R3 as [r1 r2 r3 r4 r5]. destruct r4, r5. constructor; auto; constructor; simpl; auto.
      + unfold value, reals. simpl map. do 2 f_equal. rewrite (rd_n _ _ _ R3).
        pose proof (sc _ _ _ _ _ (rd_st _ _ _ R3) C3) as C. do 2 f_equal; [|f_equal];
        apply sum_n_ext; intros k Hk; now rewrite X3, X2, C.
    - destruct (diffT_ready g tb t1 I1) as (t3 & E3 & R3 & B3 & X3). unfold withDiff. rewrite E3. cbn [obind].
      eapply K; [exact R3| |reflexivity]. unfold value. rewrite (rd_n _ _ _ R3).
      apply reals_ext. intros a Ha. assert (nS g <> 0)%nat by (intros Q; rewrite Q in Ha; simpl in Ha; lia).
      f_equal. apply (bd_val g tb t3 R3 B3); [now apply Nat.mod_upper_bound|].
      apply Nat.div_lt_upper_bound; lia.
    - destruct (D (fun t => reals (mix_coef g t) (t_n t)) (value QMix g tb)) as (t3 & E3 & R3).
      { intros t2 R2 B2 X2. unfold value. rewrite (rd_n _ _ _ R2). apply reals_ext. intros k Hk. now apply mix_val. }
      rewrite E3. eapply K; [exact R3|reflexivity|reflexivity].
    - destruct (D (fun t => reals (mole_coef g t) (t_n t)) (value QMixMole g tb)) as (t3 & E3 & R3).
      { intros t2 R2 B2 X2. unfold value. rewrite (rd_n _ _ _ R2). apply reals_ext. intros k Hk. now apply mole_val. }
      rewrite E3. eapply K; [exact R3|reflexivity|reflexivity].
    - destruct (D (fun t => map (mass_coef g t) (seq 0 (t_n t))) (value QMixMass g tb)) as (t3 & E3 & R3).
      { intros t2 R2 B2 X2. unfold value. rewrite (rd_n _ _ _ R2). apply map_ext_in. intros k Hk.
        apply in_seq in Hk. apply mass_val; try assumption. lia. }
      rewrite E3. eapply K; [exact R3|reflexivity|reflexivity].
    - destruct (D (fun t => reals (flux g t gradX) (t_n t)) (value (QFluxes gradX) g tb)) as (t3 & E3 & R3).
      { intros t2 R2 B2 X2. unfold value. rewrite (rd_n _ _ _ R2). apply reals_ext. intros k Hk. now apply flux_val. }
      rewrite E3. eapply K; [exact R3|reflexivity|reflexivity].
  Qed.

  (** ** Every operation keeps the invariant *)
  Lemma wt_app g s k : (k < nS g)%nat -> wt (add_species g s) k = wt g k.
  Proof. intros Hk. unfold wt, add_species. simpl. now rewrite app_nth1. Qed.

  Lemma tables_ext g g' n tb t : (forall k, (k < n)%nat -> wt g' k = wt g k) -> Tables g n tb t -> Tables g' n tb t.
  Proof. intros H []. constructor; auto. intros k Hk. rewrite H by assumption. auto. Qed.
  Lemma phi_ext g g' n u tb r c : (forall k, (k < n)%nat -> wt g' k = wt g k) -> (r < n)%nat -> (c < n)%nat ->
    phi_of u tb g' r c = phi_of u tb g r c.
  Proof. intros H Hr Hc. unfold phi_of. now rewrite !H by assumption. Qed.
  Lemma stored_ext g g' n u tb t : (forall k, (k < n)%nat -> wt g' k = wt g k) -> Stored g n u tb t -> Stored g' n u tb t.
  Proof.
    intros H []. constructor; auto. intros Hw. destruct (sw0 Hw) as (S1 & P1). split; [assumption|].
    intros r c Hr Hc. rewrite (phi_ext g g' n) by assumption. auto.
  Qed.

  Lemma step_inv g h t o : Inv g h t ->
    match o with Ask _ => safe_ask g h | AddSpecies s => sp_tr s = true | _ => True end ->
    let (g1, t1) := step ck fitV fitC fitD (g, t) o in
    let (g2, h2) := hstep fitV fitC fitD (g, h) o in g1 = g2 /\ Inv g1 h2 t1.
  Proof.
    intros I H. destruct o as [T P rho x|s|q|i c|i c|i j c]; cbn [step hstep].
    - split; [reflexivity|]. destruct I as [i1 i2 i3 i4 i5 i6 i7]. constructor; auto.
      + eapply tables_ext; [|exact i6]. reflexivity.
      + intros u Hu. eapply stored_ext; [|exact (i7 u Hu)]. reflexivity.
    - split; [reflexivity|]. destruct I as [i1 i2 i3 i4 i5 i6 i7].
      assert (W : forall k, (k < h_n h)%nat -> wt (add_species g s) k = wt g k) by (intros; apply wt_app; lia).
      constructor; auto.
      + unfold nS, add_species in *. simpl. rewrite app_length. simpl. lia.
      + unfold has_data, add_species in *. simpl. apply Forall_app. split; [assumption|]. constructor; [assumption|constructor].
      + eapply tables_ext; eassumption.
      + intros u Hu. eapply stored_ext; [exact W|auto].
    - split; [reflexivity|]. now apply answer_inv.
    - split; [reflexivity|]. unfold setViscosityPolynomial. rewrite (in_n _ _ _ I).
      destruct (i <? h_n h)%nat; [|assumption].
      destruct I as [i1 i2 i3 i4 i5 i6 i7]. constructor; simpl; auto; [|discriminate].
      destruct i6. constructor; simpl; auto. intros k Hk. unfold updc. destruct (k =? i)%nat; auto.
    - split; [reflexivity|]. unfold setConductivityPolynomial. rewrite (in_n _ _ _ I).
      destruct (i <? h_n h)%nat; [|assumption].
      destruct I as [i1 i2 i3 i4 i5 i6 i7]. constructor; simpl; auto; [|discriminate].
      destruct i6. constructor; simpl; auto. intros k Hk. unfold updc. destruct (k =? i)%nat; auto.
    - split; [reflexivity|]. unfold setBinDiffusivityPolynomial. rewrite (in_n _ _ _ I).
      destruct ((i <? h_n h)%nat && (j <? h_n h)%nat) eqn:E; [|assumption].
      apply andb_prop in E. destruct E as (Hi & Hj). apply Nat.ltb_lt in Hi, Hj.
      destruct I as [i1 i2 i3 i4 i5 i6 i7]. constructor; simpl; auto; [|discriminate].
      destruct i6. constructor; simpl; auto.
      + intros a b Ha Hb. unfold updc.
        destruct (Nat.eqb_spec (pair_index (h_n h) a b) (pair_index (h_n h) i j)) as [E|E].
        * assert (X : (a = i /\ b = j) \/ (a = j /\ b = i)).
          { destruct (Nat.le_ge_cases a b), (Nat.le_ge_cases i j).
            - left. apply (pair_index_inj (h_n h)); try lia.
            - rewrite (pair_index_sym _ i j) in E. right. apply (pair_index_inj (h_n h)); try lia.
            - rewrite (pair_index_sym _ a b) in E.
              destruct (pair_index_inj (h_n h) b a i j ltac:(lia) ltac:(lia) E). lia.
            - rewrite (pair_index_sym _ a b), (pair_index_sym _ i j) in E.
              destruct (pair_index_inj (h_n h) b a j i ltac:(lia) ltac:(lia) E). lia. }
          destruct X as [[-> ->] | [-> ->]]; rewrite !Nat.eqb_refl; cbn [andb]; [reflexivity|].
          now rewrite orb_true_r.
        * destruct (Nat.eqb_spec a i), (Nat.eqb_spec b j), (Nat.eqb_spec a j), (Nat.eqb_spec b i); subst; cbn [andb orb];
            try (apply td0; assumption); try congruence; exfalso; apply E; apply pair_index_sym.
      + intros a b Ha Hb.
        rewrite (andb_comm (b =? i)%nat), (andb_comm (b =? j)%nat), (orb_comm ((a =? j)%nat && _)).
        destruct (_ || _); [reflexivity|]. auto.
  Qed.

  Lemma run_inv ops : forall g h t, Inv g h t -> safe fitV fitC fitD ops g h ->
    let (g1, t1) := fold_left (step ck fitV fitC fitD) ops (g, t) in
    let (g2, h2) := fold_left (hstep fitV fitC fitD) ops (g, h) in g1 = g2 /\ Inv g1 h2 t1.
  Proof.
    induction ops as [|o ops IH]; intros g h t I S; cbn [fold_left]; [auto|].
    cbn [safe] in S. destruct S as (S1 & S2). pose proof (step_inv g h t o I S1) as X.
    destruct (step ck fitV fitC fitD (g, t) o) as [g1 t1]. destruct (hstep fitV fitC fitD (g, h) o) as [g2 h2].
    destruct X as (-> & X). now apply IH.
  Qed.

  Lemma start_inv g : has_data (g_sp g) -> Inv g (hstart fitV fitC fitD g) (fst (init fitV fitC fitD g blank)).
  Proof.
    intros Hd. unfold init. rewrite (data_forallb _ Hd). constructor; simpl; auto; [|discriminate].
    apply fitted_tables; reflexivity.
  Qed.

  Lemma run_ok g0 ops : has_data (g_sp g0) -> safe fitV fitC fitD ops g0 (hstart fitV fitC fitD g0) ->
    fst (run ck fitV fitC fitD g0 ops) = fst (hrun fitV fitC fitD g0 ops) /\
    Inv (fst (hrun fitV fitC fitD g0 ops)) (snd (hrun fitV fitC fitD g0 ops)) (snd (run ck fitV fitC fitD g0 ops)).
  Proof.
    intros Hd S. pose proof (run_inv ops g0 _ _ (start_inv g0 Hd) S) as X.
    unfold run, hrun. destruct (fold_left (step ck fitV fitC fitD) _ _) as [g1 t1].
    destruct (fold_left (hstep fitV fitC fitD) _ _) as [g2 h2]. destruct X as (-> & X). auto.
  Qed.

  (** ** From the computed form to the specification *)
  Lemma dot4_poly T c : dot4 (ln T) c = poly4 T c.
  Proof. unfold dot4, poly4. ring. Qed.
  Lemma dot5_poly T c : dot5 (ln T) c = poly5 T c.
  Proof. unfold dot5, poly5. rewrite dot4_poly. ring. Qed.
  Lemma visc_spec T c : visc_of T c = species_viscosity ck T c.
  Proof.
    unfold visc_of, species_viscosity. rewrite dot4_poly, dot5_poly. destruct ck; [reflexivity|].
    rewrite <- (sqrt_sqrt (sqrt T)) at 3 by apply sqrt_pos. ring.
  Qed.
  Lemma cond_spec T c : cond_of T c = species_conductivity ck T c.
  Proof. unfold cond_of, species_conductivity. now rewrite dot4_poly, dot5_poly. Qed.
  Lemma diff_spec T c : diff_of T c = unit_diffusivity ck T c.
  Proof. unfold diff_of, unit_diffusivity. now rewrite dot4_poly, dot5_poly. Qed.

  Lemma but_others k f n : but k f n = sum_of f (others k n).
  Proof.
    unfold but, others, sum_n. induction (seq 0 n) as [|x l IH]; [reflexivity|].
    simpl. rewrite sum_of_cons. destruct (x =? k)%nat; simpl; rewrite ?sum_of_cons, IH; lra.
  Qed.

  Lemma low_wilke sk sj wk wj : 0 < sk -> 0 < sj -> 0 < wk -> 0 < wj ->
    low_of sk sj wk wj = wilke (sk * sk) (sj * sj) wk wj.
  Proof.
    intros Hk Hj Wk Wj. unfold low_of, wilke.
    replace (sk * sk / (sj * sj)) with ((sk / sj) * (sk / sj)) by (field; lra).
    rewrite sqrt_square by (apply Rlt_le, Rdiv_lt_0_compat; assumption).
    rewrite <- sqrt_mult_alt by lra. simpl. now rewrite Rmult_1_r.
  Qed.
  Lemma wilke_swap ek ej wk wj : 0 < ek -> 0 < ej -> 0 < wk -> 0 < wj ->
    wilke ek ej wk wj / (ek / ej * (wj / wk)) = wilke ej ek wj wk.
  Proof.
    intros Hk Hj Wk Wj. unfold wilke.
    assert (Hr : 0 < ek / ej) by (apply Rdiv_lt_0_compat; assumption).
    assert (Hw : 0 < wj / wk) by (apply Rdiv_lt_0_compat; assumption).
    replace (ej / ek) with (/ (ek / ej)) by (field; lra).
    replace (wk / wj) with (/ (wj / wk)) by (field; lra).
    revert Hr Hw. generalize (ek / ej) as r. generalize (wj / wk) as w. intros w r Hr Hw.
    rewrite !sqrt_inv.
    assert (Hsr : 0 < sqrt r) by (now apply sqrt_lt_R0).
    assert (Hsw : 0 < sqrt w) by (now apply sqrt_lt_R0).
    assert (Hssw : 0 < sqrt (sqrt w)) by (now apply sqrt_lt_R0).
    replace (8 * (1 + / w)) with ((8 * (1 + w)) * (/ w)) by (field; lra).
    rewrite sqrt_mult_alt by nra. rewrite sqrt_inv.
    assert (H8 : 0 < sqrt (8 * (1 + w))) by (apply sqrt_lt_R0; lra).
    replace (r * w) with ((sqrt r * sqrt r) * (sqrt w * sqrt w)) by (rewrite !sqrt_sqrt by lra; ring).
    set (b := sqrt (sqrt w)) in *. set (a := sqrt r) in *. set (d := sqrt (8 * (1 + w))) in *.
    assert (Eb : sqrt w = b * b) by (unfold b; rewrite sqrt_sqrt by lra; reflexivity).
    rewrite Eb in *. field. repeat split; nra || lra.
  Qed.

  Lemma sqv_visc u c : visc_of u c = sqv_of u c * sqv_of u c.
  Proof.
    unfold visc_of, sqv_of. destruct ck; [|reflexivity]. rewrite sqrt_sqrt; [reflexivity|].
    apply Rlt_le, exp_pos.
  Qed.
  Lemma sqv_pos g tb k : physical ck g tb -> (k < nS g)%nat -> 0 < sqv_of (g_T g) (tb_v tb k).
  Proof.
    intros (HT & Hw & Hp) Hk. unfold sqv_of. destruct ck.
    - apply sqrt_lt_R0, exp_pos.
    - rewrite dot5_poly. apply Rmult_lt_0_compat; [|now apply Hp]. do 2 apply sqrt_lt_R0. assumption.
  Qed.
  Lemma eta_sq g tb k : eta ck g tb k = sqv_of (g_T g) (tb_v tb k) * sqv_of (g_T g) (tb_v tb k).
  Proof. unfold eta. now rewrite <- visc_spec, sqv_visc. Qed.
  Lemma eta_pos g tb k : physical ck g tb -> (k < nS g)%nat -> 0 < eta ck g tb k.
  Proof. intros Hp Hk. rewrite eta_sq. pose proof (sqv_pos g tb k Hp Hk). nra. Qed.

  Lemma phi_wilke g tb r c : physical ck g tb -> (r < nS g)%nat -> (c < nS g)%nat ->
    phi_of (g_T g) tb g r c = wilke (eta ck g tb r) (eta ck g tb c) (wt g r) (wt g c).
  Proof.
    intros Hp Hr Hc. pose proof (sqv_pos g tb r Hp Hr). pose proof (sqv_pos g tb c Hp Hc).
    destruct Hp as (_ & Hw & _). pose proof (Hw r Hr). pose proof (Hw c Hc).
    unfold phi_of. rewrite !low_wilke by assumption. rewrite !eta_sq, !sqv_visc.
    destruct (c <? r)%nat; [reflexivity|]. apply wilke_swap; nra.
  Qed.

End Inv.
