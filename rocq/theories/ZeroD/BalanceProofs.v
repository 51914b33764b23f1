(* Balances of one reactor and of the network. *)
From Coq Require Import String List Bool Reals Lra Lia Arith Permutation.
From Verif Require Import Base.Outcome Base.RSum ZeroD.NetModel ZeroD.NetSpec ZeroD.FrameProofs ZeroD.EvalProofs.
Import ListNotations.
Local Open Scope R_scope.
Local Open Scope list_scope.

Lemma is_at_true o i : is_at o i = true <-> o = Some i.
Proof.
  unfold is_at. destruct o as [j|]; [|split; discriminate]. rewrite Nat.eqb_eq. split; [congruence|].
  intros H. injection H. auto.
Qed.
Lemma down_Some s d i : down s d = Some i <-> exists a, dv_ends (w_devs s d) = Some (a, i).
Proof.
  unfold down. destruct (dv_ends (w_devs s d)) as [[a b]|]; cbn.
  - split; [intros H; injection H as ->; exists a; reflexivity|intros (x & H); congruence].
  - split; [discriminate|intros (x & H); discriminate].
Qed.
Lemma up_Some s d i : up s d = Some i <-> exists b, dv_ends (w_devs s d) = Some (i, b).
Proof.
  unfold up. destruct (dv_ends (w_devs s d)) as [[a b]|]; cbn.
  - split; [intros H; injection H as ->; exists b; reflexivity|intros (x & H); congruence].
  - split; [discriminate|intros (x & H); discriminate].
Qed.

Lemma inlet_sum s i f : linked s -> sum_of f (n_inlet (w_nodes s i)) = arriving s i f.
Proof.
  intros L. unfold arriving. apply sum_of_select; [apply (lk_in_nd _ L)|..].
  - intros d. rewrite is_at_true, down_Some. apply (lk_in _ L).
  - intros d H. apply (lk_in _ L) in H. destruct H as (a & H). apply (lk_dev _ L) in H. tauto.
Qed.
Lemma outlet_sum s i f : linked s -> sum_of f (n_outlet (w_nodes s i)) = leaving s i f.
Proof.
  intros L. unfold leaving. apply sum_of_select; [apply (lk_out_nd _ L)|..].
  - intros d. rewrite is_at_true, up_Some. apply (lk_out _ L).
  - intros d H. apply (lk_out _ L) in H. destruct H as (a & H). apply (lk_dev _ L) in H. tauto.
Qed.

Lemma in_sum s i ins g h : linked s -> oseq (flow_of s) (n_inlet (w_nodes s i)) = Ok ins ->
  (forall d a f, dv_ends (w_devs s d) = Some (a, i) -> flow_of s d = Ok f -> g f = h d) ->
  sum_of g ins = arriving s i h.
Proof.
  intros L E H. rewrite <- inlet_sum by exact L. eapply sum_oseq; [exact E|].
  intros d f Hd Ef. apply (lk_in _ L) in Hd. destruct Hd as (a & Hd). eapply H; eauto.
Qed.
Lemma out_sum s i outs g h : linked s -> oseq (flow_of s) (n_outlet (w_nodes s i)) = Ok outs ->
  (forall d b f, dv_ends (w_devs s d) = Some (i, b) -> flow_of s d = Ok f -> g f = h d) ->
  sum_of g outs = leaving s i h.
Proof.
  intros L E H. rewrite <- outlet_sum by exact L. eapply sum_oseq; [exact E|].
  intros d f Hd Ef. apply (lk_out _ L) in Hd. destruct Hd as (a & Hd). eapply H; eauto.
Qed.

Lemma flow_mdot s d f : flow_of s d = Ok f -> fl_mdot f = mflow s d.
Proof.
  unfold flow_of, mflow. destruct (dv_mdot _); [|discriminate]. destruct (dv_ends _) as [[a b]|]; [|discriminate].
  intros H. injection H as <-. reflexivity.
Qed.
Lemma flow_h s d a b f : dv_ends (w_devs s d) = Some (a, b) -> flow_of s d = Ok f -> fl_h f = n_enth (w_nodes s a).
Proof.
  unfold flow_of. destruct (dv_mdot _); [|discriminate]. intros ->.
  intros H. injection H as <-. reflexivity.
Qed.
Lemma flow_spec s d a b f k : linked s -> dv_ends (w_devs s d) = Some (a, b) -> flow_of s d = Ok f ->
  (k < n_nsp (w_nodes s b))%nat -> fl_spec f k = carried s d (name (w_nodes s b) k).
Proof.
  intros L E Hf Hk. destruct (lk_dev _ L d a b E) as (_ & _ & _ & M).
  unfold flow_of in Hf. unfold carried, up, mflow. rewrite E in *. cbn [option_map fst].
  destruct (dv_mdot (w_devs s d)) as [m|]; [|discriminate]. injection Hf as <-. cbn [fl_spec]. rewrite M.
  unfold name, n_nsp, th_nsp, names in *. rewrite nth_error_map.
  rewrite nth_error_nth' with (d := EmptyString) by exact Hk. cbn [option_map]. unfold by_name.
  destruct (find_name _ _); [reflexivity|lra].
Qed.

Lemma find_name_nth l k : NoDup l -> (k < length l)%nat -> find_name l (nth k l EmptyString) = Some k.
Proof.
  intros ND. revert k. induction ND as [|x l Hx ND IH]; intros k Hk; [cbn in Hk; lia|].
  destruct k as [|k]; cbn [nth find_name]; [rewrite String.eqb_refl; reflexivity|].
  cbn [length] in Hk. destruct (String.eqb_spec x (nth k l EmptyString)) as [E|_].
  - exfalso. apply Hx. rewrite E. apply nth_In. lia.
  - rewrite IH by lia. reflexivity.
Qed.
Lemma by_name_nth n f k : names_distinct n -> (k < n_nsp n)%nat -> by_name n f (name n k) = f k.
Proof.
  intros ND Hk. unfold by_name, name. rewrite find_name_nth; [reflexivity|exact ND|exact Hk].
Qed.
Lemma find_name_None l s : ~ In s l -> find_name l s = None.
Proof.
  induction l as [|x l IH]; intros H; [reflexivity|]. cbn.
  destruct (String.eqb_spec x s) as [->|_]; [exfalso; apply H; left; reflexivity|].
  rewrite IH; [reflexivity|]. intros C. apply H. right. exact C.
Qed.

(** * Surfaces *)
Lemma evalSurfaces_sdot m n ss : forall sd r sd', evalSurfaces m n ss sd = (r, sd') -> length sd = n_nsp n ->
  length sd' = n_nsp n /\
  forall k, (k < n_nsp n)%nat -> at_ sd' k = at_ sd k +
     sum_of (fun sf => at_ (sf_rates sf (n_T n) (n_rho n) (n_Y n) (sf_cov sf)) (sf_bulk sf + k) * sf_area sf) ss.
Proof.
  induction ss as [|x ss IH]; intros sd r sd' H E.
  - cbn in H. injection H as <- <-. split; [exact E|]. intros k Hk. rewrite sum_of_nil. lra.
  - cbn [evalSurfaces] in H. set (sd1 := map _ (seq 0 (n_nsp n))) in H.
    destruct (evalSurfaces m n ss sd1) as [r1 sd2] eqn:E1. cbn [fst snd] in H. injection H as _ <-.
    destruct (IH _ _ _ E1) as [L1 IH1]. { unfold sd1. rewrite map_length, seq_length. reflexivity. }
    split; [exact L1|]. intros k Hk. rewrite IH1 by exact Hk. unfold sd1. rewrite at_map_seq by exact Hk.
    rewrite sum_of_cons. lra.
Qed.
Lemma sdot_spec n r sd : evalSurfaces (molar (n_kind n)) n (n_surf n) (repeat 0 (n_nsp n)) = (r, sd) ->
  length sd = n_nsp n /\ forall k, (k < n_nsp n)%nat -> at_ sd k = from_surfaces n k.
Proof.
  intros H. apply evalSurfaces_sdot in H; [|apply repeat_length]. destruct H as [L H]. split; [exact L|].
  intros k Hk. rewrite H by exact Hk. unfold at_ at 1. rewrite nth_repeat. unfold from_surfaces. lra.
Qed.
Lemma surface_mass_dot n sd : length sd = n_nsp n -> (forall k, (k < n_nsp n)%nat -> at_ sd k = from_surfaces n k) ->
  dot sd (th_mw (n_th n)) = surface_mass n.
Proof.
  intros L H. rewrite dot_sum, L. unfold surface_mass. apply sum_n_ext. intros k Hk. rewrite H by exact Hk. reflexivity.
Qed.

(** * Components of the quotient *)
Lemma quot_cons a b l r : quot (a :: l, b :: r) = b / a :: quot (l, r).
Proof. reflexivity. Qed.
Lemma at_0 x l : at_ (x :: l) 0 = x. Proof. reflexivity. Qed.
Lemma at_S x l k : at_ (x :: l) (S k) = at_ l k. Proof. reflexivity. Qed.
Lemma quot_at l r k : length l = length r -> at_ (quot (l, r)) k = at_ r k / at_ l k.
Proof.
  unfold quot. cbn [fst snd]. revert r k. induction l as [|a l IH]; intros [|b r] k H; try discriminate.
  - cbn [combine map]. rewrite !at_nil. unfold Rdiv. lra.
  - injection H as H. cbn [combine map fst snd]. destruct k as [|k]; [reflexivity|]. rewrite !at_S. apply IH. exact H.
Qed.
Lemma quot_species c nsp f ls r k : (k < nsp)%nat -> length ls = length r ->
  at_ (quot (repeat c nsp ++ ls, map f (seq 0 nsp) ++ r)) k = f k / c.
Proof.
  intros Hk E. rewrite quot_at by (rewrite !app_length, repeat_length, map_length, seq_length, E; reflexivity).
  unfold at_. rewrite !app_nth1 by (rewrite ?repeat_length, ?map_length, ?seq_length; exact Hk).
  assert (X : nth k (map f (seq 0 nsp)) 0 = f k) by exact (at_map_seq f nsp k Hk).
  rewrite X. f_equal. rewrite nth_indep with (d' := c) by (rewrite repeat_length; exact Hk).
  f_equal. apply nth_repeat.
Qed.
Lemma len_ones n : length (ones n) = n. Proof. apply repeat_length. Qed.

(* The species part and the leading entries of v. *)
Definition lead (n : node) (e : env) : list R :=
  match n_kind n with
  | KReservoir => []
  | KReactor => [dmdt n e; en_vdot e; dUdt n e]
  | KIdealGas => [dmdt n e; en_vdot e; mcvdTdt n e / (if n_energy n then n_mass n * cv n else 1)]
  | KConstP => [dmdt n e; dHdt n e]
  | KIGConstP => [dmdt n e; mcpdTdt n e / (if n_energy n then n_mass n * cp n else 1)]
  | KMole => [dUdt n e; en_vdot e]
  | KIGMole => [mcvdTdt n e / (if n_energy n then n_mass n * cv n else 1); en_vdot e]
  | KConstPMole => [dHdt n e]
  | KIGConstPMole => [mcpdTdt n e / (if n_energy n then n_mass n * cp n else 1)]
  end.
Lemma quot_lead n e k : n_kind n <> KReservoir -> (k < species_at n)%nat ->
  at_ (quot (evalNode n e)) k = at_ (lead n e) k.
Proof.
  unfold species_at, evalNode, lead. cbv zeta. intros NR.
  destruct (n_kind n); try congruence; intros Hk; cbn [app];
  rewrite ?quot_cons; destruct k as [|[|[|k]]]; try lia; cbn [at_ nth]; try lra; reflexivity.
Qed.
Lemma quot_spec n e k : n_kind n <> KReservoir -> (k < n_nsp n)%nat ->
  at_ (quot (evalNode n e)) (species_at n + k) =
  if molar (n_kind n) then dndt n e k else mdYdt n e k / n_mass n.
Proof.
  unfold species_at, evalNode, species. cbv zeta. intros NR Hk.
  destruct (n_kind n); try congruence; cbn [app molar plus]; rewrite !quot_cons, ?at_S;
  unfold ones at 1; rewrite quot_species by (try exact Hk; apply len_ones); try reflexivity; lra.
Qed.

(** * One reactor *)
Section One.
Context (s : net) (i : nat) (v : list R).
Context (L : linked s) (S : settled s i v) (NR : n_kind (w_nodes s i) <> KReservoir).
Notation n := (w_nodes s i).

Lemma arriving_plus f g : arriving s i (fun d => f d + g d) = arriving s i f + arriving s i g.
Proof. unfold arriving, sum_n. rewrite <- sum_of_plus. apply sum_of_ext. intros d _. destruct (is_at _ _); lra. Qed.
Lemma arriving_minus f g : arriving s i (fun d => f d - g d) = arriving s i f - arriving s i g.
Proof. unfold arriving, sum_n. rewrite <- sum_of_minus. apply sum_of_ext. intros d _. destruct (is_at _ _); lra. Qed.
Lemma arriving_scal c f : arriving s i (fun d => f d * c) = arriving s i f * c.
Proof. unfold arriving, sum_n. rewrite <- sum_of_scal_r. apply sum_of_ext. intros d _. destruct (is_at _ _); lra. Qed.
Lemma leaving_scal c f : leaving s i (fun d => f d * c) = leaving s i f * c.
Proof. unfold leaving, sum_n. rewrite <- sum_of_scal_r. apply sum_of_ext. intros d _. destruct (is_at _ _); lra. Qed.

Lemma reactor_dmdt e : evalSurfaces (molar (n_kind n)) n (n_surf n) (repeat 0 (n_nsp n)) = (en_surf e, en_sdot e) ->
  oseq (flow_of s) (n_outlet n) = Ok (en_out e) -> oseq (flow_of s) (n_inlet n) = Ok (en_in e) ->
  dmdt n e = arriving s i (mflow s) - leaving s i (mflow s) + surface_mass n.
Proof.
  intros Hs Ho Hi. destruct (sdot_spec _ _ _ Hs) as [L1 L2]. unfold dmdt.
  rewrite fold_plus, fold_minus, (surface_mass_dot _ _ L1 L2).
  rewrite (in_sum s i _ _ (mflow s) L Hi) by (intros; apply flow_mdot; assumption).
  rewrite (out_sum s i _ _ (mflow s) L Ho) by (intros; apply flow_mdot; assumption). lra.
Qed.

Lemma reactor_mass_lead : molar (n_kind n) = false ->
  mass_rate n v = arriving s i (mflow s) - leaving s i (mflow s) + surface_mass n.
Proof.
  intros M. destruct S as (e & -> & Hw & _ & Hv & Ho & Hi & Hs). unfold mass_rate. rewrite M.
  rewrite <- (reactor_dmdt e Hs Ho Hi), quot_lead.
  - unfold lead. destruct (n_kind n); try discriminate; try congruence; reflexivity.
  - exact NR.
  - unfold species_at. destruct (n_kind n); try discriminate; try congruence; lia.
Qed.

Lemma reactor_species k : (k < n_nsp n)%nat ->
  (if molar (n_kind n) then at_ (th_mw (n_th n)) k <> 0 /\ same_species_downstream s i /\ names_distinct n
   else n_mass n <> 0) ->
  species_mass_rate n v k =
    (from_reactions n k + from_surfaces n k) * at_ (th_mw (n_th n)) k
    + arriving s i (fun d => carried s d (name n k)) - leaving s i (mflow s) * at_ (n_Y n) k.
Proof.
  intros Hk H. destruct S as (e & -> & Hw & _ & Hv & Ho & Hi & Hs).
  destruct (sdot_spec _ _ _ Hs) as [L1 L2].
  assert (Ci : sum_of (fun f => fl_spec f k) (en_in e) = arriving s i (fun d => carried s d (name n k))).
  { apply (in_sum s i _ _ _ L Hi). intros d a f E Ef. exact (flow_spec s d a i f k L E Ef Hk). }
  assert (Cm : sum_of fl_mdot (en_in e) = arriving s i (mflow s)).
  { apply (in_sum s i _ _ _ L Hi). intros. apply flow_mdot; assumption. }
  pose proof (reactor_dmdt e Hs Ho Hi) as D.
  unfold species_mass_rate. rewrite quot_spec by assumption.
  destruct (molar (n_kind n)) eqn:M.
  - destruct H as (Hm & Hn & ND). unfold dndt. rewrite fold_plus, fold_minus.
    rewrite !sum_of_scal_r, Ci.
    assert (Co : sum_of (fun f => fl_spec f k) (en_out e) = leaving s i (mflow s) * at_ (n_Y n) k).
    { rewrite <- leaving_scal. apply (out_sum s i _ _ _ L Ho). intros d b f E Ef.
      assert (Eb : th_names (n_th (w_nodes s b)) = th_names (n_th n)) by (apply (Hn d); exact E).
      assert (Hkb : (k < n_nsp (w_nodes s b))%nat) by (unfold n_nsp, th_nsp; rewrite Eb; exact Hk).
      rewrite (flow_spec s d i b f k L E Ef Hkb). unfold carried, up. rewrite E. cbn [option_map fst].
      f_equal. unfold name. rewrite Eb. apply by_name_nth; assumption. }
    rewrite Co, Hw, L2 by exact Hk. unfold from_reactions. field. exact Hm.
  - unfold mdYdt. rewrite fold_plus, sum_of_minus, sum_of_scal_r, Ci, Cm.
    rewrite Hw, L2, (surface_mass_dot _ _ L1 L2) by exact Hk.
    assert (E0 : at_ (quot (evalNode n e)) 0 = dmdt n e).
    { rewrite quot_lead; [|exact NR|].
      - unfold lead. destruct (n_kind n); try discriminate; try congruence; reflexivity.
      - unfold species_at. destruct (n_kind n); try discriminate; try congruence; lia. }
    rewrite E0, D. unfold from_reactions. field. exact H.
Qed.

Lemma arriving_swap (f : nat -> nat -> R) m :
  sum_n (fun k => arriving s i (f k)) m = arriving s i (fun d => sum_n (fun k => f k d) m).
Proof.
  unfold arriving, sum_n. rewrite sum_of_swap. apply sum_of_ext. intros d _.
  destruct (is_at _ _); [reflexivity|]. apply sum_of_0. reflexivity.
Qed.
Lemma arriving_ext f g : (forall d a, dv_ends (w_devs s d) = Some (a, i) -> f d = g d) -> arriving s i f = arriving s i g.
Proof.
  intros H. unfold arriving. apply sum_n_ext. intros d _. destruct (is_at (down s d) i) eqn:E; [|reflexivity].
  apply is_at_true, down_Some in E. destruct E as (a & E). eapply H; eauto.
Qed.
Lemma leaving_ext f g : (forall d b, dv_ends (w_devs s d) = Some (i, b) -> f d = g d) -> leaving s i f = leaving s i g.
Proof.
  intros H. unfold leaving. apply sum_n_ext. intros d _. destruct (is_at (up s d) i) eqn:E; [|reflexivity].
  apply is_at_true, up_Some in E. destruct E as (a & E). eapply H; eauto.
Qed.
Lemma leaving_0 : leaving s i (fun _ => 0) = 0.
Proof. unfold leaving, sum_n. apply sum_of_0. intros d _. destruct (is_at _ _); reflexivity. Qed.
End One.

(* Sum over the species of the downstream reactor of what flows in, by name. *)
Lemma known_sum (na nb : node) w : names_distinct na -> names_distinct nb ->
  incl (th_names (n_th na)) (th_names (n_th nb)) ->
  sum_n (fun k => w (name nb k) * by_name na (at_ (n_Y na)) (name nb k)) (n_nsp nb) = amount na w (at_ (n_Y na)).
Proof.
  intros Na Nb I. unfold amount, sum_n, n_nsp, th_nsp.
  assert (X : forall n (g : string -> R), sum_of (fun k => g (name n k)) (seq 0 (length (th_names (n_th n)))) =
                                          sum_of g (th_names (n_th n))).
  { intros n0 g. unfold name. generalize (th_names (n_th n0)). intros l. rewrite <- (sum_of_map (fun k => nth k l EmptyString) g).
    f_equal. induction l as [|x l IH]; [reflexivity|]. cbn [length seq map nth]. f_equal. rewrite <- seq_shift, map_map. exact IH. }
  rewrite (X nb (fun nm => w nm * by_name na (at_ (n_Y na)) nm)).
  assert (Y : sum_of (fun k => w (name na k) * at_ (n_Y na) k) (seq 0 (length (th_names (n_th na)))) =
              sum_of (fun nm => w nm * by_name na (at_ (n_Y na)) nm) (th_names (n_th na))).
  { rewrite <- X. apply sum_of_ext. intros k Hk. apply in_seq in Hk. rewrite by_name_nth; [reflexivity|exact Na|].
    unfold n_nsp, th_nsp. lia. }
  rewrite Y. clear X Y. unfold names_distinct in *.
  set (g := fun nm => w nm * by_name na (at_ (n_Y na)) nm).
  assert (Z : forall nm, ~ In nm (th_names (n_th na)) -> g nm = 0).
  { intros nm H. unfold g, by_name. rewrite (find_name_None _ _ H). lra. }
  set (inb := fun nm => existsb (String.eqb nm) (th_names (n_th na))).
  assert (F : sum_of g (th_names (n_th nb)) = sum_of g (filter inb (th_names (n_th nb)))).
  { clear I Nb. induction (th_names (n_th nb)) as [|x l IH]; [reflexivity|]. cbn [filter]. rewrite sum_of_cons, IH.
    destruct (inb x) eqn:E; [rewrite sum_of_cons; reflexivity|]. rewrite Z; [lra|]. intros C.
    assert (T : inb x = true). { apply existsb_exists. exists x. split; [exact C|apply String.eqb_refl]. } congruence. }
  rewrite F. apply sum_of_perm. apply NoDup_Permutation; [apply NoDup_filter; exact Nb|exact Na|].
  intros nm. rewrite filter_In. split.
  - intros [_ E]. apply existsb_exists in E. destruct E as (x & Hx & E). apply String.eqb_eq in E. subst. exact Hx.
  - intros H. split; [apply I; exact H|]. apply existsb_exists. exists nm. split; [exact H|apply String.eqb_refl].
Qed.
