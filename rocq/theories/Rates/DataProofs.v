(* Shared data containers: perturb and restore; MultiRate derivatives. *)
From Coq Require Import Reals List Lra Lia Bool Sorted.
From Verif Require Import Base.Outcome Base.Fp Base.RSum Rates.Model Rates.Spec
  Rates.PlogProofs Rates.PlogProofs2.
Import ListNotations.
Local Open Scope R_scope.

Lemma rltb_t x y : x < y -> rltb x y = true.
Proof. apply rltb_true. Qed.
Lemma rltb_f x y : y <= x -> rltb x y = false.
Proof. apply rltb_false. Qed.

(* ---------------- PlogData / ChebyshevData ---------------- *)

Definition pinv (T P : R) (M : list R) (d : rdata) : Prop :=
  ((rd_Tbuf d = -1 /\ rd_T d = T) \/ rd_Tbuf d = T) /\
  rd_logT d = ln (rd_T d) /\ rd_recipT d = / rd_T d /\
  ((rd_Pbuf d = -1 /\ rd_P d = P) \/ rd_Pbuf d = P) /\
  rd_logP d = ln (rd_P d) /\ rd_M d = M /\ rd_pert d = false.

Lemma pinv_step T P M d o :
  0 < T -> 0 < P -> plog_op o -> pinv T P M d -> pinv T P M (dstep d o).
Proof.
  intros HT HP Ho (H1 & H2 & H3 & H4 & H5 & H6 & H7). destruct o as [x|x|x]; [| |destruct Ho].
  - unfold dstep, perturbT. destruct (rltb 0 (rd_Tbuf d)) eqn:E; cbn [try].
    + repeat (split; [assumption|]); assumption.
    + apply rltb_false in E. destruct H1 as [[H1 H1']|H1]; [|lra].
      unfold pinv, upd_T, set_Tbuf. cbn.
      split; [right; exact H1'|]. split; [reflexivity|]. split; [reflexivity|].
      split; [exact H4|]. split; [exact H5|]. split; assumption.
  - unfold dstep, perturbP. destruct (rltb 0 (rd_Pbuf d)) eqn:E; cbn [try].
    + repeat (split; [assumption|]); assumption.
    + apply rltb_false in E. destruct H4 as [[H4 H4']|H4]; [|lra].
      unfold pinv, upd_TP, upd_T, set_Pbuf. cbn.
      split; [exact H1|]. split; [reflexivity|]. split; [reflexivity|].
      split; [right; exact H4'|]. split; [reflexivity|]. split; assumption.
Qed.

Lemma pinv_steps T P M ops : forall d,
  0 < T -> 0 < P -> Forall plog_op ops -> pinv T P M d -> pinv T P M (fold_left dstep ops d).
Proof.
  induction ops as [|o ops IH]; intros d HT HP Ho H; [exact H|].
  inversion Ho; subst. apply IH; [assumption|assumption|assumption|].
  apply pinv_step; assumption.
Qed.

Lemma pinv_restore T P M d :
  0 < T -> 0 < P -> pinv T P M d ->
  obs (restoreP d) = (T, ln T, / T, P, ln P, M) /\ clean (restoreP d).
Proof.
  intros HT HP (H1 & H2 & H3 & H4 & H5 & H6 & H7).
  unfold restoreP.
  assert (A : rd_T (restoreT d) = T /\ rd_logT (restoreT d) = ln T /\
    rd_recipT (restoreT d) = / T /\ rd_Tbuf (restoreT d) = -1 /\
    rd_P (restoreT d) = rd_P d /\ rd_logP (restoreT d) = rd_logP d /\
    rd_Pbuf (restoreT d) = rd_Pbuf d /\ rd_M (restoreT d) = rd_M d /\
    rd_pert (restoreT d) = rd_pert d).
  { unfold restoreT. destruct H1 as [[E1 E2]|E1].
    - rewrite E1, rltb_t by lra. rewrite H2, H3, E2. repeat (split; [first [reflexivity|assumption]|]).
      reflexivity.
    - rewrite rltb_f by lra. unfold set_Tbuf, upd_T. cbn. rewrite E1.
      repeat (split; [reflexivity|]). reflexivity. }
  destruct A as (A1 & A2 & A3 & A4 & A5 & A6 & A7 & A8 & A9).
  destruct H4 as [[E1 E2]|E1].
  - rewrite A7, E1, rltb_t by lra. unfold obs, clean. rewrite A1, A2, A3, A5, A6, A8, H5, E2, H6.
    split; [reflexivity|]. rewrite A4, A7, A9, E1, H7. repeat split.
  - rewrite A7, rltb_f by lra. unfold obs, clean, set_Pbuf, upd_TP, upd_T. cbn.
    rewrite A1, A8, A4, A9, E1, H6, H7. repeat split.
Qed.

Lemma upd_TP_pinv T P d : clean d -> pinv T P (rd_M d) (upd_TP T P d).
Proof.
  intros (C1 & C2 & C3). unfold pinv, upd_TP, upd_T. cbn.
  split; [left; split; [exact C1|reflexivity]|]. split; [reflexivity|]. split; [reflexivity|].
  split; [left; split; [exact C2|reflexivity]|]. split; [reflexivity|]. split; [reflexivity|exact C3].
Qed.

(* ---------------- FalloffData ---------------- *)

Definition minv (T P lP : R) (M : list R) (d : rdata) : Prop :=
  ((rd_Tbuf d = -1 /\ rd_T d = T) \/ rd_Tbuf d = T) /\
  rd_logT d = ln (rd_T d) /\ rd_recipT d = / rd_T d /\
  rd_P d = P /\ rd_logP d = lP /\ rd_Pbuf d = -1 /\
  (if rd_pert d then rd_Mbuf d = M else rd_M d = M).

Lemma minv_steps T P lP M ops : forall d,
  0 < T -> Forall falloff_op ops -> minv T P lP M d -> minv T P lP M (fold_left dstep ops d).
Proof.
  induction ops as [|o ops IH]; intros d HT Ho H; [exact H|].
  inversion Ho as [|? ? O1 O2]; subst. apply IH; [exact HT|exact O2|].
  destruct H as (H1 & H2 & H3 & H4 & H5 & H6 & H7). cbn [fold_left].
  destruct o as [x|x|x]; [|destruct O1|].
  - unfold dstep, perturbT. destruct (rltb 0 (rd_Tbuf d)) eqn:E; cbn [try].
    + repeat (split; [assumption|]); assumption.
    + apply rltb_false in E. destruct H1 as [[H1 H1']|H1]; [|lra].
      unfold minv, upd_T, set_Tbuf. cbn.
      split; [right; exact H1'|]. split; [reflexivity|]. split; [reflexivity|].
      split; [exact H4|]. split; [exact H5|]. split; assumption.
  - unfold dstep, perturbM. destruct (rd_pert d) eqn:E; cbn [try].
    + split; [exact H1|]. split; [exact H2|]. split; [exact H3|]. split; [exact H4|].
      split; [exact H5|]. split; [exact H6|]. rewrite E. exact H7.
    + unfold minv. cbn. repeat (split; [assumption|]). exact H7.
Qed.

Lemma minv_restore T P lP M d :
  0 < T -> minv T P lP M d ->
  obs (restoreM d) = (T, ln T, / T, P, lP, M) /\ clean (restoreM d).
Proof.
  intros HT (H1 & H2 & H3 & H4 & H5 & H6 & H7).
  unfold restoreM.
  assert (A : rd_T (restoreT d) = T /\ rd_logT (restoreT d) = ln T /\
    rd_recipT (restoreT d) = / T /\ rd_Tbuf (restoreT d) = -1 /\
    rd_P (restoreT d) = rd_P d /\ rd_logP (restoreT d) = rd_logP d /\
    rd_Pbuf (restoreT d) = rd_Pbuf d /\ rd_M (restoreT d) = rd_M d /\
    rd_pert (restoreT d) = rd_pert d /\ rd_Mbuf (restoreT d) = rd_Mbuf d).
  { unfold restoreT. destruct H1 as [[E1 E2]|E1].
    - rewrite E1, rltb_t by lra. rewrite H2, H3, E2. repeat (split; [first [reflexivity|assumption]|]).
      reflexivity.
    - rewrite rltb_f by lra. unfold set_Tbuf, upd_T. cbn. rewrite E1.
      repeat (split; [reflexivity|]). reflexivity. }
  destruct A as (A1 & A2 & A3 & A4 & A5 & A6 & A7 & A8 & A9 & A10).
  rewrite A9. destruct (rd_pert d) eqn:E.
  - unfold obs, clean. cbn. rewrite A1, A2, A3, A4, A5, A6, A7, A10, H4, H5, H6, H7. repeat split.
  - unfold obs, clean. rewrite A1, A2, A3, A4, A5, A6, A7, A8, A9, H4, H5, H6, H7. repeat split.
Qed.

(* ---------------- MultiRate ---------------- *)

Lemma adjacent_unique m lo hi lo' hi' x :
  ksorted m -> adjacent m lo hi -> adjacent m lo' hi' ->
  fst lo <= x < fst hi -> fst lo' <= x < fst hi' -> lo = lo' /\ hi = hi'.
Proof.
  intros Hs A A' Hx Hx'.
  assert (In1 : forall l h, adjacent m l h -> In l m /\ In h m).
  { intros l h (m1 & m2 & ->). split; apply in_or_app; right; [left|right; left]; reflexivity. }
  assert (E : fst lo = fst lo').
  { destruct (adjacent_none m lo hi lo' Hs A (proj1 (In1 _ _ A'))) as [B|B];
    destruct (adjacent_none m lo' hi' lo Hs A' (proj1 (In1 _ _ A))) as [C|C]; lra. }
  assert (E' : fst hi = fst hi').
  { destruct (adjacent_none m lo hi hi' Hs A (proj2 (In1 _ _ A'))) as [B|B];
    destruct (adjacent_none m lo' hi' hi Hs A' (proj2 (In1 _ _ A))) as [C|C]; lra. }
  assert (U : forall a b, In a m -> In b m -> fst a = fst b -> a = b).
  { clear - Hs. unfold ksorted in Hs. induction m as [|e m IH]; intros a b Ha Hb E; [destruct Ha|].
    apply StronglySorted_inv in Hs as [Hs1 Hs2]. rewrite Forall_forall in Hs2.
    destruct Ha as [<-|Ha], Hb as [<-|Hb].
    - reflexivity.
    - specialize (Hs2 b Hb). lra.
    - specialize (Hs2 a Ha). lra.
    - apply IH; assumption. }
  split; apply U; try assumption; try apply (In1 _ _ A); try apply (In1 _ _ A').
Qed.

Lemma eval_unique m rs s1 s2 lT rT :
  ksorted m -> cache m rs s1 -> cache m rs s2 -> located m s1 -> located m s2 ->
  pl_logP s1 = pl_logP s2 -> plog_eval lT rT s1 = plog_eval lT rT s2.
Proof.
  intros Hs (_ & R1 & _) (_ & R2 & _) (lo & hi & L1 & L2 & L3 & L4 & L5 & L6 & L7)
    (lo' & hi' & M1 & M2 & M3 & M4 & M5 & M6 & M7) E.
  rewrite <- E in M7.
  destruct (adjacent_unique m lo hi lo' hi' _ Hs L1 M1 L7 M7) as [<- <-].
  unfold plog_eval. rewrite R1, R2, L4, M4, L5, M5, L2, M2, L6, M6, E. reflexivity.
Qed.

Definition tbl (tab : list (R * arr)) := pl_pressures (plog_of tab).
Definition trs (tab : list (R * arr)) := pl_rates (plog_of tab).

Lemma tbl_facts tab :
  usable_table tab ->
  ksorted (tbl tab) /\ cache (tbl tab) (trs tab) (plog_of tab) /\
  (exists e0 m', tbl tab = e0 :: m' /\ fst e0 = -1000 /\ exists e, In e m' /\ fst e = 1000).
Proof.
  intros Hu. destruct (plog_of_shape tab Hu) as (ps & E & H1 & H2 & H3).
  assert (Et : tbl tab = extended ps) by (unfold tbl; rewrite E; reflexivity).
  split; [|split].
  - rewrite Et. apply extended_sorted; [apply H2|exact H3].
  - split; [reflexivity|]. split; [reflexivity|]. left. rewrite E. repeat split.
  - rewrite Et. apply extended_ends.
Qed.

Definition holds (logP : R) (x : nat * list (R * arr)) (y : nat * plog) : Prop :=
  fst x = fst y /\ cache (tbl (snd x)) (trs (snd x)) (snd y) /\
  located (tbl (snd x)) (snd y) /\ pl_logP (snd y) = logP.
Definition ready (x : nat * list (R * arr)) (y : nat * plog) : Prop :=
  fst x = fst y /\ cache (tbl (snd x)) (trs (snd x)) (snd y).

Lemma refresh_rates l rs x :
  usable_all l -> Forall2 ready l rs -> -1000 < x < 1000 ->
  exists rs', mu_update_rates x rs = Ok rs' /\ Forall2 (holds x) l rs'.
Proof.
  intros Hu H Hx. revert Hu. induction H as [|[i tab] [j s] l rs H0 H IH]; intros Hu.
  - exists []. split; [reflexivity|constructor].
  - inversion Hu; subst. destruct IH as (rs' & E1 & E2); [assumption|].
    destruct H0 as [Ei Hc]. cbn [fst snd] in *. subst j.
    destruct (tbl_facts tab) as (F1 & F2 & F3); [assumption|].
    destruct (update_located _ _ s x Hc F3 Hx) as (s' & U1 & U2 & U3 & U4).
    exists ((i, s') :: rs'). cbn [mu_update_rates]. rewrite U1. cbn [obind]. rewrite E1.
    split; [reflexivity|]. constructor; [|exact E2].
    split; [reflexivity|]. cbn [fst snd]. split; [exact U2|]. split; assumption.
Qed.

Lemma holds_ready x l rs : Forall2 (holds x) l rs -> Forall2 ready l rs.
Proof.
  induction 1 as [|a b l rs H0 H IH]; constructor; [|exact IH].
  destruct H0 as (A & B & _). split; assumption.
Qed.

Lemma consts_of l rs T P sh :
  usable_all l -> Forall2 (holds (ln P)) l rs -> in_double_range P ->
  rd_logT sh = ln T -> rd_recipT sh = / T ->
  mu_consts sh rs = constants l T P.
Proof.
  intros Hu H HP H1 H2. revert Hu. induction H as [|[i tab] [j s] l rs H0 H IH]; intros Hu.
  - reflexivity.
  - inversion Hu; subst. destruct H0 as (Ei & Hc & Hl & HL). cbn [fst snd] in *. subst j.
    cbn [mu_consts constants]. rewrite H1, H2, IH by assumption.
    destruct (tbl_facts tab) as (F1 & F2 & F3); [assumption|].
    unfold plog_value. cbn [plog_hist obind]. unfold plog_at.
    destruct (update_located _ _ (plog_of tab) (ln P) F2 F3 (ln_range P HP)) as (s' & U1 & U2 & U3 & U4).
    rewrite U1. cbn [obind].
    rewrite (eval_unique _ _ s s' (ln T) (/ T) F1 Hc U2 Hl U3) by congruence.
    destruct (plog_eval (ln T) (/ T) s') as [k| | |]; reflexivity.
Qed.

Definition evaluator (l : list (nat * list (R * arr))) (T P : R) (m : multi) : Prop :=
  Forall2 (holds (ln P)) l (mu_rates m) /\ clean (mu_sh m) /\
  obs (mu_sh m) = (T, ln T, / T, P, ln P, []).

Lemma obs_fields d T lT rT P lP M :
  obs d = (T, lT, rT, P, lP, M) ->
  rd_T d = T /\ rd_logT d = lT /\ rd_recipT d = rT /\ rd_P d = P /\ rd_logP d = lP /\ rd_M d = M.
Proof. unfold obs. intros E. injection E as <- <- <- <- <- <-. repeat split. Qed.

Lemma update_evaluator l m T P :
  usable_all l -> Forall2 ready l (mu_rates m) -> clean (mu_sh m) -> rd_M (mu_sh m) = [] ->
  in_double_range P ->
  exists m', mu_update T P m = Ok m' /\ evaluator l T P m'.
Proof.
  intros Hu Hr Hc HM HP. unfold mu_update, mu_refresh. cbn [mu_sh mu_rates].
  destruct (refresh_rates l (mu_rates m) (ln P) Hu Hr (ln_range P HP)) as (rs & E1 & E2).
  replace (rd_logP (upd_TP T P (mu_sh m))) with (ln P) by reflexivity.
  rewrite E1. cbn [obind]. eexists. split; [reflexivity|].
  split; [exact E2|]. split; [exact Hc|]. unfold obs. cbn. rewrite HM. reflexivity.
Qed.

Lemma updates_evaluator l h : forall m,
  usable_all l -> Forall2 ready l (mu_rates m) -> clean (mu_sh m) -> rd_M (mu_sh m) = [] ->
  hist_ok h ->
  exists m', updates h m = Ok m' /\ Forall2 ready l (mu_rates m') /\ clean (mu_sh m') /\
    rd_M (mu_sh m') = [].
Proof.
  induction h as [|[T P] h IH]; intros m Hu Hr Hc HM Hh.
  - exists m. repeat (split; [first [reflexivity|assumption]|]). assumption.
  - cbn [updates].
    destruct (update_evaluator l m T P Hu Hr Hc HM) as (m' & E1 & E2 & E3 & E4).
    { apply (Hh T). left. reflexivity. }
    rewrite E1. cbn [obind]. apply IH; [exact Hu|eapply holds_ready; exact E2|exact E3| |].
    + apply obs_fields in E4. apply E4.
    + intros T' P' H. apply (Hh T'). right. exact H.
Qed.

Lemma mu_of_ready l : usable_all l -> Forall2 ready l (mu_rates (mu_of l)).
Proof.
  unfold mu_of. cbn [mu_rates]. induction l as [|[i tab] l IH]; intros Hu; constructor.
  - split; [reflexivity|]. cbn [snd]. inversion Hu; subst. apply tbl_facts. assumption.
  - inversion Hu; subst. apply IH. assumption.
Qed.

Lemma perturbP_ok dP d :
  clean d -> exists d', perturbP dP d = Ok d' /\
    obs d' = (rd_T d, ln (rd_T d), / rd_T d, rd_P d * (1 + dP), ln (rd_P d * (1 + dP)), rd_M d).
Proof.
  intros (C1 & C2 & C3). unfold perturbP. rewrite C2, rltb_f by lra.
  eexists. split; [reflexivity|]. reflexivity.
Qed.
Lemma perturbT_ok dT d :
  clean d -> exists d', perturbT dT d = Ok d' /\
    obs d' = (rd_T d * (1 + dT), ln (rd_T d * (1 + dT)), / (rd_T d * (1 + dT)),
              rd_P d, rd_logP d, rd_M d).
Proof.
  intros (C1 & C2 & C3). unfold perturbT. rewrite C1, rltb_f by lra.
  eexists. split; [reflexivity|]. reflexivity.
Qed.

Lemma evaluator_pinv l T P m : evaluator l T P m -> pinv T P [] (mu_sh m).
Proof.
  intros (_ & (C1 & C2 & C3) & O). apply obs_fields in O as (O1 & O2 & O3 & O4 & O5 & O6).
  unfold pinv. rewrite O1, O2, O3, O4, O5, O6.
  split; [left; auto|]. split; [reflexivity|]. split; [reflexivity|].
  split; [left; auto|]. split; [reflexivity|]. split; [reflexivity|exact C3].
Qed.

Lemma process_ddP_spec l T P m dP kf :
  usable_all l -> evaluator l T P m -> 0 < T -> in_double_range P ->
  in_double_range (P * (1 + dP)) ->
  forall ks, constants l T (P * (1 + dP)) = Ok ks ->
  exists m', process_ddP dP kf m = Ok (m', fd_list (/ (P * dP)) kf ks) /\ evaluator l T P m'.
Proof.
  intros Hu HE HT HP HP' ks Hks.
  assert (PP : 0 < P) by (destruct HP; pose proof (exp_pos (-1000)); lra).
  pose proof (evaluator_pinv _ _ _ _ HE) as Hpi.
  destruct HE as (E1 & E2 & E3). pose proof (obs_fields _ _ _ _ _ _ _ E3) as (O1 & O2 & O3 & O4 & O5 & O6).
  unfold process_ddP.
  pose proof (pinv_step T P [] (mu_sh m) (DPertP dP) HT PP I Hpi) as Hp1.
  cbn [dstep] in Hp1.
  destruct (perturbP_ok dP (mu_sh m) E2) as (sh1 & P1 & P2). rewrite P1 in Hp1 |- *.
  cbn [obind try] in *. apply obs_fields in P2 as (Q1 & Q2 & Q3 & Q4 & Q5 & Q6).
  rewrite O1, O4 in *.
  unfold mu_refresh at 1. cbn [mu_sh mu_rates]. rewrite Q5.
  destruct (refresh_rates l (mu_rates m) _ Hu (holds_ready _ _ _ E1) (ln_range _ HP')) as (rs1 & R1 & R2).
  rewrite R1. cbn [obind]. unfold getRateConstants. cbn [mu_sh mu_rates].
  rewrite (consts_of l rs1 T (P * (1 + dP)) sh1 Hu R2 HP' Q2 Q3), Hks. cbn [obind].
  destruct (pinv_restore T P [] sh1 HT PP Hp1) as [Ob Cl].
  pose proof (obs_fields _ _ _ _ _ _ _ Ob) as (S1 & S2 & S3 & S4 & S5 & S6).
  unfold mu_refresh. cbn [mu_sh mu_rates]. rewrite S5.
  destruct (refresh_rates l rs1 _ Hu (holds_ready _ _ _ R2) (ln_range _ HP)) as (rs2 & T1 & T2).
  rewrite T1. cbn [obind]. eexists. split; [reflexivity|]. split; [exact T2|]. split; assumption.
Qed.

Lemma process_ddT_spec l T P m dT kf :
  usable_all l -> evaluator l T P m -> 0 < T -> in_double_range P ->
  forall ks, constants l (T * (1 + dT)) P = Ok ks ->
  exists m', process_ddT dT kf m = Ok (m', fd_list (/ (T * dT)) kf ks) /\ evaluator l T P m'.
Proof.
  intros Hu HE HT HP ks Hks.
  assert (PP : 0 < P) by (destruct HP; pose proof (exp_pos (-1000)); lra).
  pose proof (evaluator_pinv _ _ _ _ HE) as Hpi.
  destruct HE as (E1 & E2 & E3). pose proof (obs_fields _ _ _ _ _ _ _ E3) as (O1 & O2 & O3 & O4 & O5 & O6).
  unfold process_ddT.
  pose proof (pinv_step T P [] (mu_sh m) (DPertT dT) HT PP I Hpi) as Hp1.
  cbn [dstep] in Hp1.
  destruct (perturbT_ok dT (mu_sh m) E2) as (sh1 & P1 & P2). rewrite P1 in Hp1 |- *.
  cbn [obind try] in *. apply obs_fields in P2 as (Q1 & Q2 & Q3 & Q4 & Q5 & Q6).
  rewrite O1, O4, O5 in *.
  unfold mu_refresh at 1. cbn [mu_sh mu_rates]. rewrite Q5.
  destruct (refresh_rates l (mu_rates m) _ Hu (holds_ready _ _ _ E1) (ln_range _ HP)) as (rs1 & R1 & R2).
  rewrite R1. cbn [obind]. unfold getRateConstants. cbn [mu_sh mu_rates].
  rewrite (consts_of l rs1 (T * (1 + dT)) P sh1 Hu R2 HP Q2 Q3), Hks. cbn [obind].
  destruct (pinv_restore T P [] sh1 HT PP Hp1) as [Ob Cl].
  pose proof (obs_fields _ _ _ _ _ _ _ Ob) as (S1 & S2 & S3 & S4 & S5 & S6).
  unfold mu_refresh. cbn [mu_sh mu_rates]. rewrite S5.
  destruct (refresh_rates l rs1 _ Hu (holds_ready _ _ _ R2) (ln_range _ HP)) as (rs2 & T1 & T2).
  rewrite T1. cbn [obind]. eexists. split; [reflexivity|]. split; [exact T2|]. split; assumption.
Qed.

Lemma constants_total l T P : usable_all l -> in_double_range P -> exists ks, constants l T P = Ok ks.
Proof.
  intros Hu HP. induction l as [|[i tab] l IH]; [exists []; reflexivity|].
  inversion Hu; subst. destruct IH as [ks E]; [assumption|]. cbn [constants]. rewrite E.
  cbn [snd] in *.
  destruct (table_cache tab) as (ps & P1 & P2 & P3 & P4); [assumption|].
  unfold plog_value. cbn [plog_hist obind]. unfold plog_at.
  destruct (update_located _ _ (plog_of tab) (ln P) P4 (extended_ends ps) (ln_range P HP))
    as (s' & U1 & U2 & U3 & U4).
  rewrite U1. cbn [obind].
  destruct (eval_located tab ltac:(assumption) ps s' T P2 P1 U2 U3)
    as (lo & hi & p1 & p2 & _ & _ & _ & _ & Ev).
  rewrite Ev. cbn [obind omap snd]. eexists. reflexivity.
Qed.
