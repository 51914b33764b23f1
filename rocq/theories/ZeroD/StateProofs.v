From Coq Require Import List Bool Reals Arith Lra Lia.
From Verif Require Import Base.Outcome Base.RSum Base.Fp ZeroD.NetModel ZeroD.HistoryProofs ZeroD.FrameProofs ZeroD.StateModel ZeroD.StateSpec.
Import ListNotations.
Local Open Scope R_scope.
Local Open Scope list_scope.

Lemma get_one sf v mol : surf_ok sf -> length v = sf_nk sf ->
  get_surf mol (sf_set sf (if mol then map (fun p => fst p * (1 / sf_area sf) * snd p * (1 / sf_dens sf)) (combine v (sf_sizes sf)) else v)) = v.
Proof.
  intros (_ & A & D & Z) L. unfold get_surf. destruct mol; [|reflexivity]. cbn [sf_set sf_cov sf_sizes sf_area sf_dens]. unfold sf_nk in L.
  revert v L. induction Z as [|z zs Hz Z IH]; intros [|x v] L; try discriminate L; [reflexivity|]. injection L as L.
  cbn [combine map fst snd]. rewrite IH by exact L. f_equal. field. auto.
Qed.
Lemma get_surfs_upd mol : forall ss y, Forall surf_ok ss -> length y = list_sum (map sf_nk ss) -> get_surfs mol (upd_surfs mol y ss) = y.
Proof.
  induction ss as [|sf ss IH]; intros y F L.
  - destruct y; [reflexivity | discriminate L].
  - inversion F as [|? ? F1 F2]; subst. assert (L' : length y = (sf_nk sf + list_sum (map sf_nk ss))%nat) by exact L.
    cbn [upd_surfs]. change (get_surfs mol (?a :: ?b)) with (get_surf mol a ++ get_surfs mol b). rewrite IH; [|exact F2|rewrite skipn_length; lia].
    rewrite get_one; [apply firstn_skipn | exact F1 | rewrite firstn_length; lia].
Qed.
Lemma get_surf_length (mol : bool) (sf : surf) : surf_ok sf -> length (get_surf mol sf) = sf_nk sf.
Proof.
  intros (L & _). unfold get_surf, sf_nk. destruct mol; [|exact L]. rewrite map_length, combine_length. lia.
Qed.
Lemma put_one (sf : surf) (mol : bool) : surf_ok sf ->
  (if mol then map (fun p => fst p * (1 / sf_area sf) * snd p * (1 / sf_dens sf)) (combine (get_surf mol sf) (sf_sizes sf)) else get_surf mol sf) = sf_cov sf.
Proof.
  intros (L & A & D & Z). unfold get_surf. destruct mol; [|reflexivity]. revert L. generalize (sf_cov sf).
  induction Z as [|z zs Hz Z IH]; intros [|x v] L; try discriminate L; [reflexivity|]. injection L as L.
  cbn [combine map fst snd]. rewrite IH by exact L. f_equal. field. auto.
Qed.
Lemma upd_surfs_get mol : forall ss, Forall surf_ok ss -> upd_surfs mol (get_surfs mol ss) ss = ss.
Proof.
  induction ss as [|sf ss IH]; intros F; [reflexivity|]. inversion F as [|? ? F1 F2]; subst.
  cbn [upd_surfs]. change (get_surfs mol (sf :: ss)) with (get_surf mol sf ++ get_surfs mol ss).
  assert (LG := get_surf_length mol sf F1).
  replace (firstn (sf_nk sf) (get_surf mol sf ++ get_surfs mol ss)) with (get_surf mol sf)
    by (rewrite <- LG, firstn_app, firstn_all, Nat.sub_diag, firstn_O, app_nil_r; reflexivity).
  replace (skipn (sf_nk sf) (get_surf mol sf ++ get_surfs mol ss)) with (get_surfs mol ss)
    by (rewrite <- LG, skipn_app, skipn_all, Nat.sub_diag, skipn_O; reflexivity).
  rewrite put_one by exact F1. rewrite IH by exact F2.
  destruct sf; reflexivity.
Qed.

Lemma vec_split y : forall a n m, length y = (a + n + m)%nat -> y = map (at_ y) (seq 0 a) ++ sub y a n ++ skipn (n + a) y.
Proof.
  intros a n m L. unfold sub. assert (F : map (at_ y) (seq 0 a) = firstn a y).
  { assert (La : (a <= length y)%nat) by lia. clear L m n. revert y La. induction a as [|a IH]; intros [|x y] La; cbn [length] in La; try lia; try reflexivity.
    cbn [seq map firstn]. f_equal. rewrite <- seq_shift, map_map. rewrite <- IH by lia. apply map_ext. reflexivity. }
  rewrite F. replace (skipn (n + a) y) with (skipn n (skipn a y)).
  - rewrite firstn_skipn, firstn_skipn. reflexivity.
  - clear. revert y. induction a as [|a IH]; intros y; [rewrite Nat.add_0_r; reflexivity|]. rewrite Nat.add_succ_r. destruct y; cbn [skipn]; [apply skipn_nil|apply IH].
Qed.
Lemma sub_length y a n m : length y = (a + n + m)%nat -> length (sub y a n) = n.
Proof. intros L. unfold sub. rewrite firstn_length, skipn_length. lia. Qed.

(* ---------------- moles ---------------- *)
Lemma moles_back mw ns : length mw = length ns -> Forall (fun w => w <> 0) mw -> mass_of_moles mw ns <> 0 ->
  map (fun p => mass_of_moles mw ns * (1 / fst p) * snd p) (combine mw (Y_of_moles mw ns)) = ns.
Proof.
  intros L F. unfold Y_of_moles. generalize (mass_of_moles mw ns). intros m M. revert mw L F.
  induction ns as [|x ns IH]; intros [|w mw] L F; try discriminate L; [reflexivity|]. injection L as L. inversion F as [|? ? W F2]; subst.
  cbn [combine map fst snd]. rewrite IH by auto. f_equal. field. auto.
Qed.
Lemma mass_of_getMoles mw : forall Y m, length mw = length Y -> Forall (fun w => w <> 0) mw ->
  mass_of_moles mw (map (fun p => m * (1 / fst p) * snd p) (combine mw Y)) = m * rsum Y.
Proof.
  unfold mass_of_moles. induction mw as [|w mw IH]; intros [|y Y] m L F; try discriminate L.
  - cbn. ring.
  - injection L as L. inversion F as [|? ? W F2]; subst. cbn [combine map fst snd rsum]. rewrite IH by auto. field. auto.
Qed.
Lemma Y_of_getMoles mw Y m : length mw = length Y -> Forall (fun w => w <> 0) mw -> rsum Y = 1 -> m <> 0 ->
  Y_of_moles mw (map (fun p => m * (1 / fst p) * snd p) (combine mw Y)) = Y.
Proof.
  intros L F S1 M. unfold Y_of_moles. rewrite mass_of_getMoles by auto. rewrite S1. clear S1. revert Y L. induction F as [|w mw W F IH]; intros [|y Y] L; try discriminate L; [reflexivity|].
  injection L as L. cbn [combine map fst snd]. rewrite IH by auto. f_equal. field. auto.
Qed.

(* ---------------- a reactor after updateState ---------------- *)
Definition node_after (n : node) (ts : tstate) (y : list R) : node :=
  let th := n_th n in
  n_setsurf (n_state n (ts_mass ts) (ts_vol ts) (ts_T ts) (ts_rho ts) (ts_Y ts)
              (if constP (n_kind n) then n_press n else th_p th (ts_T ts) (ts_rho ts) (ts_Y ts))
              (th_h th (ts_T ts) (ts_rho ts) (ts_Y ts)))
            (upd_surfs (molar (n_kind n)) (skipn (surf_at n) y) (n_surf n)).
Lemma updateState_node s i y s' : updateState s i y = (Ok tt, s') ->
  exists ts, new_state (w_nodes s i) (w_phT s (n_phase (w_nodes s i))) y = Ok ts /\ w_nodes s' i = node_after (w_nodes s i) ts y.
Proof.
  unfold updateState. destruct (new_state _ _ _) as [ts| | |]; try discriminate. unfold upd_connected.
  destruct (upd_devs _ _ _ _ _) as [[u| | |] devs]; try discriminate. intros E. injection E as <-. exists ts. split; [reflexivity|].
  cbn [s_nodes s_walls s_devs s_phT w_nodes]. rewrite !updf_same. reflexivity.
Qed.

Lemma read_back s i y s' : updateState s i y = (Ok tt, s') -> let n := w_nodes s i in let n' := w_nodes s' i in
  sized n -> faithful (n_th n) -> length y = neq n -> alive n' ->
  length (getState n') = length y /\
  forall j, (n_energy n = true \/ energy_slot (n_kind n) <> Some j) -> nth j (getState n') 0 = nth j y 0.
Proof.
  intros E n n'. destruct (updateState_node s i y s' E) as (ts & N & NA). fold n in N, NA. fold n' in NA.
  set (phT := w_phT s (n_phase n)) in N. clearbody phT.
  clearbody n n'. clear E s s' i. intros (K & LY & LW & FW & FS) (FU & FH) L (AV & AR). subst n'.
  unfold getState, node_after in *. cbn [n_setsurf n_state n_kind n_th n_T n_rho n_Y n_vol n_surf] in *.
  unfold neq, nsurf, surf_at in *.
  unfold getMoles. cbn [n_setsurf n_state n_kind n_th n_T n_rho n_Y n_vol n_surf].
  unfold new_state in N. destruct (n_kind n) eqn:KD; [contradiction| | | | | | | |]; cbn [molar] in *.
  - (* KReactor *)
    destruct (if n_energy n then _ else _) as [T| | |] eqn:ST in N; try discriminate N. cbn [obind] in N. injection N as <-.
    cbn [ts_mass ts_vol ts_T ts_rho ts_Y] in *. rewrite get_surfs_upd by (auto; rewrite skipn_length; lia).
    replace (at_ y 0 / at_ y 1 * at_ y 1) with (at_ y 0) by (field; auto).
    assert (SP := vec_split y 3 (n_nsp n) (list_sum (map sf_nk (n_surf n))) ltac:(lia)). cbn [seq map app] in SP. cbn [app].
    set (u := th_u _ _ _ _ * _).
    split; [|intros j H]; [eapply eq_trans; [|symmetry; exact (f_equal (@length R) SP)]; reflexivity|]. etransitivity; [|symmetry; exact (f_equal (fun v => nth j v 0) SP)]. destruct j as [|[|[|j]]]; try reflexivity.
    destruct H as [H|H]; [|exfalso; apply H; reflexivity]. rewrite H in ST. cbn [nth]. subst u. apply FU in ST; [exact ST| |exact AV]. intros Z. apply AR. rewrite Z. field. exact AV.
  - injection N as <-. cbn [ts_mass ts_vol ts_T ts_rho ts_Y] in *. rewrite get_surfs_upd by (auto; rewrite skipn_length; lia).
    replace (at_ y 0 / at_ y 1 * at_ y 1) with (at_ y 0) by (field; auto).
    assert (SP := vec_split y 3 (n_nsp n) (list_sum (map sf_nk (n_surf n))) ltac:(lia)). cbn [seq map app] in SP. cbn [app].
    rewrite <- SP. auto.
  - destruct (if n_energy n then _ else _) as [[T rho]| | |] eqn:ST in N; try discriminate N. cbn [obind fst snd] in N. injection N as <-.
    cbn [ts_mass ts_vol ts_T ts_rho ts_Y] in *. rewrite get_surfs_upd by (auto; rewrite skipn_length; lia).
    assert (SP := vec_split y 2 (n_nsp n) (list_sum (map sf_nk (n_surf n))) ltac:(lia)). cbn [seq map app] in SP. cbn [app].
    replace (rho * (at_ y 0 / rho)) with (at_ y 0) by (field; auto). set (u := th_h _ _ _ _ * _ * _).
    split; [|intros j H]; [eapply eq_trans; [|symmetry; exact (f_equal (@length R) SP)]; reflexivity|]. etransitivity; [|symmetry; exact (f_equal (fun v => nth j v 0) SP)]. destruct j as [|[|j]]; try reflexivity.
    destruct H as [H|H]; [|exfalso; apply H; reflexivity]. rewrite H in ST. cbn [nth]. subst u. apply FH in ST. rewrite ST.
    assert (at_ y 0 <> 0) by (intros Z; apply AV; rewrite Z; field; auto). field. auto.
  - injection N as <-. cbn [ts_mass ts_vol ts_T ts_rho ts_Y] in *. rewrite get_surfs_upd by (auto; rewrite skipn_length; lia).
    match goal with |- context [?r * (at_ y 0 / ?r)] => replace (r * (at_ y 0 / r)) with (at_ y 0) by (field; auto) end.
    assert (SP := vec_split y 2 (n_nsp n) (list_sum (map sf_nk (n_surf n))) ltac:(lia)). cbn [seq map app] in SP. cbn [app].
    rewrite <- SP. auto.
  - destruct (if n_energy n then _ else _) as [T| | |] eqn:ST in N; try discriminate N. cbn [obind] in N. injection N as <-.
    cbn [ts_mass ts_vol ts_T ts_rho ts_Y] in *. rewrite get_surfs_upd by (auto; rewrite skipn_length; lia).
    set (m := mass_of_moles _ _) in *. replace (m / at_ y 1 * at_ y 1) with m by (field; auto).
    assert (M0 : m <> 0) by (intros Z; apply AR; rewrite Z; field; auto).
    assert (SP := vec_split y 2 (n_nsp n) (list_sum (map sf_nk (n_surf n))) ltac:(lia)). cbn [seq map app] in SP. cbn [app].
    assert (LS := sub_length y 2 (n_nsp n) (list_sum (map sf_nk (n_surf n))) ltac:(lia)).
    unfold m. rewrite moles_back by (auto; lia). fold m. set (u := th_u _ _ _ _ * _).
    split; [|intros j H]; [eapply eq_trans; [|symmetry; exact (f_equal (@length R) SP)]; reflexivity|]. etransitivity; [|symmetry; exact (f_equal (fun v => nth j v 0) SP)]. destruct j as [|[|j]]; try reflexivity.
    destruct H as [H|H]; [|exfalso; apply H; reflexivity]. rewrite H in ST. cbn [nth]. subst u. apply FU in ST; [exact ST|exact M0|exact AV].
  - injection N as <-. cbn [ts_mass ts_vol ts_T ts_rho ts_Y] in *. rewrite get_surfs_upd by (auto; rewrite skipn_length; lia).
    set (m := mass_of_moles _ _) in *. replace (m / at_ y 1 * at_ y 1) with m by (field; auto).
    assert (M0 : m <> 0) by (intros Z; apply AR; rewrite Z; field; auto).
    assert (SP := vec_split y 2 (n_nsp n) (list_sum (map sf_nk (n_surf n))) ltac:(lia)). cbn [seq map app] in SP. cbn [app].
    assert (LS := sub_length y 2 (n_nsp n) (list_sum (map sf_nk (n_surf n))) ltac:(lia)).
    unfold m. rewrite moles_back by (auto; lia). rewrite <- SP. auto.
  - destruct (if n_energy n then _ else _) as [[T rho]| | |] eqn:ST in N; try discriminate N. cbn [obind fst snd] in N. injection N as <-.
    cbn [ts_mass ts_vol ts_T ts_rho ts_Y] in *. rewrite get_surfs_upd by (auto; rewrite skipn_length; lia).
    set (m := mass_of_moles _ _) in *. replace (rho * (m / rho)) with m by (field; auto).
    assert (M0 : m <> 0) by (intros Z; apply AV; rewrite Z; field; auto).
    assert (SP := vec_split y 1 (n_nsp n) (list_sum (map sf_nk (n_surf n))) ltac:(lia)). cbn [seq map app] in SP. cbn [app].
    assert (LS := sub_length y 1 (n_nsp n) (list_sum (map sf_nk (n_surf n))) ltac:(lia)).
    unfold m. rewrite moles_back by (auto; lia). fold m. set (u := th_h _ _ _ _ * _ * _).
    split; [|intros j H]; [eapply eq_trans; [|symmetry; exact (f_equal (@length R) SP)]; reflexivity|]. etransitivity; [|symmetry; exact (f_equal (fun v => nth j v 0) SP)]. destruct j as [|j]; try reflexivity.
    destruct H as [H|H]; [|exfalso; apply H; reflexivity]. rewrite H in ST. cbn [nth]. subst u. apply FH in ST. rewrite ST. field. auto.
  - injection N as <-. cbn [ts_mass ts_vol ts_T ts_rho ts_Y] in *. rewrite get_surfs_upd by (auto; rewrite skipn_length; lia).
    set (m := mass_of_moles _ _) in *.
    match goal with |- context [?r * (m / ?r)] => replace (r * (m / r)) with m by (field; auto); assert (M0 : m <> 0) by (intros Z; apply AV; rewrite Z; field; auto) end.
    assert (SP := vec_split y 1 (n_nsp n) (list_sum (map sf_nk (n_surf n))) ltac:(lia)). cbn [seq map app] in SP. cbn [app].
    assert (LS := sub_length y 1 (n_nsp n) (list_sum (map sf_nk (n_surf n))) ltac:(lia)).
    unfold m. rewrite moles_back by (auto; lia). rewrite <- SP. auto.
Qed.

Lemma read_back_eq s i y s' : updateState s i y = (Ok tt, s') -> let n := w_nodes s i in let n' := w_nodes s' i in
  sized n -> faithful (n_th n) -> length y = neq n -> alive n' -> n_energy n = true \/ energy_slot (n_kind n) = None -> getState n' = y.
Proof.
  intros E n n' SZ FA L AL H. destruct (read_back s i y s' E SZ FA L AL) as (LL & NN). fold n n' in LL, NN.
  apply (nth_ext _ _ 0 0 LL). intros j _. apply NN. destruct H as [H|H]; [left; exact H|right; rewrite H; discriminate].
Qed.

(* ---------------- putting a state back ---------------- *)
Lemma skip_at (P Y S : list R) a n : length P = a -> length Y = n -> skipn (n + a) (P ++ Y ++ S) = S.
Proof.
  intros <- <-. rewrite skipn_app, skipn_all2, app_nil_l by lia. rewrite skipn_app, skipn_all2, app_nil_l by lia.
  replace (_ - _ - _)%nat with 0%nat by lia. reflexivity.
Qed.
Lemma sub_at (P Y S : list R) a n : length P = a -> length Y = n -> sub (P ++ Y ++ S) a n = Y.
Proof.
  intros <- <-. unfold sub. rewrite skipn_app, skipn_all, Nat.sub_diag, skipn_O, app_nil_l, firstn_app, firstn_all, Nat.sub_diag, firstn_O. apply app_nil_r.
Qed.
Lemma getMoles_length n m : length (th_mw (n_th n)) = n_nsp n -> length (n_Y n) = n_nsp n -> length (getMoles n m) = n_nsp n.
Proof. intros A B. unfold getMoles. rewrite map_length, combine_length. lia. Qed.

Lemma new_state_get n phT : sized n -> alive n -> coherent phT n -> (molar (n_kind n) = true -> rsum (n_Y n) = 1) ->
  new_state n phT (getState n) = Ok (TS (n_rho n * n_vol n) (n_vol n) (n_T n) (n_rho n) (n_Y n)) /\
  skipn (surf_at n) (getState n) = get_surfs (molar (n_kind n)) (n_surf n).
Proof.
  intros (K & LY & LW & FW & FS) (AV & AR) (CP & CH & CK) S1.
  assert (M0 : n_rho n * n_vol n <> 0) by (apply Rmult_integral_contrapositive; auto).
  assert (LM := getMoles_length n (n_rho n * n_vol n) LW LY).
  assert (MM : molar (n_kind n) = true -> mass_of_moles (th_mw (n_th n)) (getMoles n (n_rho n * n_vol n)) = n_rho n * n_vol n).
  { intros Q. unfold getMoles. rewrite mass_of_getMoles by (auto; lia). rewrite S1 by exact Q. ring. }
  assert (MY : molar (n_kind n) = true -> Y_of_moles (th_mw (n_th n)) (getMoles n (n_rho n * n_vol n)) = n_Y n).
  { intros Q. unfold getMoles. apply Y_of_getMoles; auto; lia. }
  unfold new_state, surf_at, getState. destruct (n_kind n) eqn:KD; [contradiction| | | | | | | |]; cbn [molar] in *; rewrite <- app_assoc;
    (split; [|apply skip_at; [reflexivity|assumption]]); rewrite (sub_at _ _ _ _ (n_nsp n)) by (reflexivity || assumption);
    try (specialize (MM eq_refl)); try (specialize (MY eq_refl)); cbn [at_ nth app]; unfold at_; cbn [nth].
  - replace (n_rho n * n_vol n / n_vol n) with (n_rho n) by (field; auto).
    destruct (n_energy n); [rewrite CK | rewrite CK]; reflexivity.
  - replace (n_rho n * n_vol n / n_vol n) with (n_rho n) by (field; auto). reflexivity.
  - replace (th_h (n_th n) (n_T n) (n_rho n) (n_Y n) * n_rho n * n_vol n / (n_rho n * n_vol n)) with (th_h (n_th n) (n_T n) (n_rho n) (n_Y n)) by (field; auto).
    destruct (n_energy n).
    + rewrite CK. cbn [obind fst snd]. do 2 f_equal. field. auto.
    + destruct CK as [-> CK]. rewrite CK. cbn [obind fst snd]. do 2 f_equal. field. auto.
  - rewrite CK. do 2 f_equal. field. auto.
  - rewrite MM, MY. replace (n_rho n * n_vol n / n_vol n) with (n_rho n) by (field; auto).
    destruct (n_energy n); [rewrite CK | rewrite CK]; reflexivity.
  - rewrite MM, MY. replace (n_rho n * n_vol n / n_vol n) with (n_rho n) by (field; auto). reflexivity.
  - rewrite MM, MY.
    replace (th_h (n_th n) (n_T n) (n_rho n) (n_Y n) * n_rho n * n_vol n / (n_rho n * n_vol n)) with (th_h (n_th n) (n_T n) (n_rho n) (n_Y n)) by (field; auto).
    destruct (n_energy n).
    + rewrite CK. cbn [obind fst snd]. do 2 f_equal. field. auto.
    + destruct CK as [-> CK]. rewrite CK. cbn [obind fst snd]. do 2 f_equal. field. auto.
  - rewrite MM, MY, CK. do 2 f_equal. field. auto.
Qed.

Lemma put_back s i s' : let n := w_nodes s i in
  sized n -> alive n -> coherent (w_phT s (n_phase n)) n -> (molar (n_kind n) = true -> rsum (n_Y n) = 1) ->
  updateState s i (getState n) = (Ok tt, s') -> w_nodes s' i = with_mass n (n_rho n * n_vol n).
Proof.
  intros n SZ AL CO S1 E. destruct (updateState_node s i _ s' E) as (ts & N & NA). fold n in N, NA.
  destruct (new_state_get n _ SZ AL CO S1) as (N' & SK). rewrite N' in N. injection N as <-. rewrite NA. unfold node_after.
  cbn [ts_mass ts_vol ts_T ts_rho ts_Y]. rewrite SK, upd_surfs_get by apply SZ. destruct CO as (CP & CH & _). rewrite <- CP, <- CH.
  destruct n as [k]. cbn. destruct (constP k); reflexivity.
Qed.

(* ---------------- the network ---------------- *)
Lemma updateAll_other : forall order s y s' j, updateAll s order y = (Ok tt, s') -> ~ In j order -> w_nodes s' j = w_nodes s j.
Proof.
  induction order as [|i order IH]; intros s y s' j E NI; cbn [updateAll] in E; [injection E as <-; reflexivity|].
  destruct (updateState s i _) as [[u| | |] s1] eqn:E1; try discriminate E.
  rewrite (IH _ _ _ _ E) by (intros H; apply NI; right; exact H).
  destruct (updateState_frame s i (firstn (neq (w_nodes s i)) y)) as (F & _). rewrite E1 in F. cbn [snd] in F. apply F. intros ->. apply NI. left. reflexivity.
Qed.

Lemma network_back : forall order s y s', NoDup order -> updateAll s order y = (Ok tt, s') ->
  length y = list_sum (map (fun i => neq (w_nodes s i)) order) ->
  (forall i, In i order -> sized (w_nodes s i) /\ faithful (n_th (w_nodes s i)) /\ alive (w_nodes s' i) /\
     (n_energy (w_nodes s i) = true \/ energy_slot (n_kind (w_nodes s i)) = None)) ->
  getAll s' order = y.
Proof.
  induction order as [|i order IH]; intros s y s' ND E L H; cbn [updateAll] in E.
  - destruct y; [reflexivity | discriminate L].
  - inversion ND as [|? ? NI ND2]; subst. destruct (updateState s i _) as [[[]| | |] s1] eqn:E1; try discriminate E.
    assert (L' : length y = (neq (w_nodes s i) + list_sum (map (fun i => neq (w_nodes s i)) order))%nat) by exact L.
    destruct (updateState_frame s i (firstn (neq (w_nodes s i)) y)) as (F & _). rewrite E1 in F. cbn [snd] in F.
    assert (FO : forall j, In j order -> w_nodes s1 j = w_nodes s j) by (intros j Hj; apply F; intros ->; contradiction).
    assert (NE : map (fun i => neq (w_nodes s1 i)) order = map (fun i => neq (w_nodes s i)) order)
      by (apply map_ext_in; intros j Hj; rewrite FO by exact Hj; reflexivity).
    cbn [getAll]. rewrite (IH _ _ _ ND2 E).
    + rewrite (updateAll_other _ _ _ _ i E NI). destruct (H i (or_introl eq_refl)) as (SZ & FA & AL & EN).
      rewrite (updateAll_other _ _ _ _ i E NI) in AL.
      rewrite (read_back_eq s i _ s1 E1) by (auto; rewrite firstn_length; lia). apply firstn_skipn.
    + rewrite NE, skipn_length. lia.
    + intros j Hj. rewrite FO by exact Hj. apply H. right. exact Hj.
Qed.

(* ---------------- sizes are kept ---------------- *)
Lemma upd_surfs_ok mol : forall ss y, Forall surf_ok ss -> length y = list_sum (map sf_nk ss) -> Forall surf_ok (upd_surfs mol y ss).
Proof.
  induction ss as [|sf ss IH]; intros y F L; [constructor|]. inversion F as [|? ? (C & A & D & Z) F2]; subst.
  assert (L' : length y = (sf_nk sf + list_sum (map sf_nk ss))%nat) by exact L. cbn [upd_surfs]. constructor.
  - split; [|split; [exact A|split; [exact D|exact Z]]]. cbn [sf_set sf_cov sf_sizes]. unfold sf_nk in *. destruct mol.
    + rewrite map_length, combine_length, firstn_length. lia.
    + rewrite firstn_length. lia.
  - apply IH; [exact F2|]. rewrite skipn_length. lia.
Qed.
Lemma sized_kept s i y s' : updateState s i y = (Ok tt, s') -> sized (w_nodes s i) -> length y = neq (w_nodes s i) -> sized (w_nodes s' i).
Proof.
  intros E. destruct (updateState_node s i y s' E) as (ts & N & NA). rewrite NA. clear NA E. set (n := w_nodes s i) in *.
  set (phT := w_phT s (n_phase n)) in N. clearbody n phT. clear s s' i. intros (K & LY & LW & FW & FS) L.
  unfold node_after. split; [exact K|]. split; [|split; [exact LW|split; [exact FW|]]].
  - cbn [n_setsurf n_state n_Y]. change (length (ts_Y ts) = n_nsp n). unfold neq, nsurf, surf_at in L.
    unfold new_state in N. destruct (n_kind n); [contradiction| | | | | | | |];
      try (destruct (if n_energy n then _ else _) as [x| | |] in N; try discriminate N); cbn [obind] in N; injection N as <-; cbn [ts_Y];
      unfold Y_of_moles; rewrite ?map_length, ?combine_length; unfold sub; rewrite firstn_length, skipn_length; lia.
  - cbn [n_setsurf n_state n_surf]. apply upd_surfs_ok; [exact FS|]. rewrite skipn_length. unfold neq in L. fold (nsurf n). lia.
Qed.
