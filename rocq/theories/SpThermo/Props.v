(* C35: species thermo parameterisations; C60: the thermo data of all species. *)
From Coquelicot Require Import Coquelicot.
From Coq Require Import Reals ZArith List Bool Arith Lia Lra.
From Verif Require Import Base.Outcome Base.Fp SpThermo.Model SpThermo.Spec SpThermo.Proofs SpThermo.MuProofs SpThermo.TripProofs SpThermo.MgrProofs.
Import ListNotations.
Local Open Scope list_scope.
Local Open Scope R_scope.

(* ================================================================ *)
(** * C35 *)
(* Any object made by the factory and changed in any way gives, away from the temperatures where
   its formula changes, heat capacities that are the derivative of the enthalpy and T times the
   derivative of the entropy. *)
Theorem C35_derivatives : forall ty lo hi p c l t T v, made ty lo hi p c l t -> update_temp t T = Ok v -> 0 < T ->
  ~ In T (breaks t) -> (forall b, In b (breaks t) -> 0 < b) ->
  is_derive (h_R t) T (cp_R t T) /\ is_derive (s_R t) T (cp_R t T / T).
Proof.
  intros ty lo hi p c l t T v M U P NB PB. assert (W := made_wf _ _ _ _ _ _ _ M).
  apply derivatives; auto.
  - unfold wf9. unfold update_temp in U. destruct (t_kind t) eqn:K; auto. intros ->. cbn in U. discriminate.
  - unfold wf in W. destruct (t_kind t) eqn:K; auto. destruct W as (h0 & pts & W). destruct (mu0_fields _ _ _ W) as (A & B & C & D & E). lia.
Qed.
(* Nothing is undefined as long as a nine-coefficient object has a region. *)
Theorem C35_defined : forall ty lo hi p c l t T, made ty lo hi p c l t -> (ty = 513%Z -> 1 <= c_ c 0) -> exists v, update_temp t T = Ok v.
Proof.
  intros ty lo hi p c l t T (t0 & N & C) H. apply update_total. apply made_same in C. apply factory in N.
  unfold wf9. destruct C as (_ & _ & _ & C). destruct (t_kind t) eqn:K; auto.
  destruct N; cbn [t_kind] in C; try contradiction. subst regions. specialize (H H0).
  assert (X : (1 <= cast (c_ c 0))%nat).
  { unfold cast. destruct (archimed (c_ c 0)) as [A _]. assert (IZR 1 < IZR (up (c_ c 0))) by lra. apply lt_IZR in H3. lia. }
  destruct (cast (c_ c 0)); [lia|]. discriminate.
Qed.
(* The two ways of evaluating agree. *)
Theorem C35_poly : forall t T, update_tt t (tpoly t T) = update_temp t T.
Proof. intros. apply tt_temp. reflexivity. Qed.

Lemma seg_all : forall l, length l = 7%nat -> seg l 0 7 = l.
Proof. intros l H. unfold seg. rewrite skipn_O. apply firstn_all2. lia. Qed.
(* The values are those of the documented formulas, with the coefficients in the documented order. *)
Theorem C35_formula : forall lo hi p mid low high t T, length low = 7%nat -> length high = 7%nat -> 0 < T ->
  (new_stit 256 lo hi p low = Ok t -> values t T = nasa7 low T) /\
  (new_stit 128 lo hi p low = Ok t -> scale GasConstant GasConstant GasConstant (values t T) = scale 1000 (1000 * 1000) 1000 (nist low T)) /\
  (new_stit 4 lo hi p (mid :: high ++ low) = Ok t -> values t T = nasa7 (pick mid low high T) T) /\
  (new_stit 8 lo hi p (mid :: low ++ high) = Ok t ->
     scale GasConstant GasConstant GasConstant (values t T) = scale 1000 (1000 * 1000) 1000 (nist (pick mid low high T) T)).
Proof.
  intros lo hi p mid low high t T L H P. assert (N : T <> 0) by lra. repeat split; intros E; apply factory in E.
  - destruct E; try discriminate; try lia. erewrite values_eq by (unfold update_temp; cbn [t_kind]; reflexivity). cbn [p7_c poly7_of].
    rewrite (seg_all low L). symmetry. apply nasa7_eq. auto.
  - destruct E; try discriminate; try lia. erewrite values_eq by (unfold update_temp; cbn [t_kind]; reflexivity). cbn [p7_c poly7_of shomate_of].
    rewrite (seg_all low L). symmetry. apply nist_eq. auto.
  - destruct E; try discriminate; try lia. erewrite values_eq by (unfold update_temp; cbn [t_kind]; reflexivity). rewrite pick_eq. unfold pick.
    unfold c_; cbn [nth].
    replace (seg (mid :: high ++ low) 8 7) with low by (symmetry; replace (mid :: high ++ low) with ((mid :: high) ++ low ++ []) by (rewrite app_nil_r; reflexivity); apply seg_at; cbn [length]; lia).
    replace (seg (mid :: high ++ low) 1 7) with high by (symmetry; change (mid :: high ++ low) with ([mid] ++ high ++ low); apply seg_at; cbn [length]; lia).
    destruct (Rle_dec T mid); symmetry; apply nasa7_eq; auto.
  - destruct E; try discriminate; try lia. erewrite values_eq by (unfold update_temp; cbn [t_kind]; reflexivity). rewrite pick_eq. unfold pick.
    unfold c_; cbn [nth].
    replace (seg (mid :: low ++ high) 8 7) with high by (symmetry; replace (mid :: low ++ high) with ((mid :: low) ++ high ++ []) by (rewrite app_nil_r; reflexivity); apply seg_at; cbn [length]; lia).
    replace (seg (mid :: low ++ high) 1 7) with low by (symmetry; change (mid :: low ++ high) with ([mid] ++ low ++ high); apply seg_at; cbn [length]; lia).
    destruct (Rle_dec T mid); symmetry; apply nist_eq; auto.
Qed.
Theorem C35_formula9 : forall lo hi p rs t i r T, Forall (fun r => length (r_c r) = 9%nat) rs -> 0 < T ->
  new_stit 513 lo hi p (INR (length rs) :: flat_map (fun r => r_min r :: r_max r :: r_c r) rs) = Ok t ->
  nth_error rs i = Some r -> (i = 0%nat \/ r_min r <= T) -> (forall r', nth_error rs (S i) = Some r' -> T < r_min r') ->
  values t T = nasa9 (r_c r) T.
Proof.
  intros lo hi p rs t i r T F P E NI LO HI. apply factory in E. destruct E as [E|E|[E|E]|? E|E|E|E L K]; try discriminate E.
  unfold c_ in *; cbn [nth skipn] in *. rewrite cast_INR in *. fold (flat rs) in *. rewrite regions_flat in * by auto.
  rewrite nasa9_eq by lra. apply values_eq. unfold update_temp; cbn [t_kind].
  rewrite (region_at rs i r T K NI LO HI), NI. reflexivity.
Qed.
Theorem C35_formula_cp : forall lo hi p t0 h0 s0 cp0 t T, 0 < t0 -> 0 < T -> new_stit 1 lo hi p [t0; h0; s0; cp0] = Ok t ->
  scale GasConstant GasConstant GasConstant (values t T) = (cp0, h0 + cp0 * (T - t0), s0 + cp0 * ln (T / t0)).
Proof.
  intros lo hi p t0 h0 s0 cp0 t T P0 P E. injection E as <-. erewrite values_eq by (unfold update_temp; cbn [t_kind]; reflexivity). cbn [cc_cp cc_h cc_s cc_t0 cc_logt0 constcp_of].
  unfold scale, c_; cbn [nth fst snd]. replace (ln (T / t0)) with (ln T - ln t0) by (unfold Rdiv; rewrite ln_mult by (auto; apply Rinv_0_lt_compat; auto); rewrite ln_Rinv by auto; ring).
  generalize G_neq; intros. f_equal; [f_equal|]; field; auto. split; [auto|lra].
Qed.

(* The reported heat of formation is the enthalpy at 298.15 K. *)
Theorem C35_report : forall t h, reportHf298 t = Ok h -> h = GasConstant * h_R t (298.15).
Proof.
  intros t h H. apply report_eq in H. exact H.
Qed.
(* Giving it a new value makes it that value, moves the enthalpy by the same amount at every
   temperature, and leaves heat capacity, entropy and limits alone. *)
Theorem C35_modify : forall ty lo hi p c l t h t', made ty lo hi p c l t -> modifyHf298 t h = Ok t' ->
  reportHf298 t' = Ok h /\ t_min t' = t_min t /\ t_max t' = t_max t /\ t_pref t' = t_pref t /\
  exists h0, reportHf298 t = Ok h0 /\
    forall T, 0 < T -> cp_R t' T = cp_R t T /\ s_R t' T = s_R t T /\ GasConstant * h_R t' T = GasConstant * h_R t T + (h - h0).
Proof.
  intros ty lo hi p c l t h t' M E. assert (W := made_wf _ _ _ _ _ _ _ M).
  destruct (modify_moved t h t' W E) as (h0 & R0 & MV). destruct (modify_type t h t' E) as (_ & A & B & C).
  split.
  - assert (X : exists h', reportHf298 t' = Ok h').
    { clear - E. destruct t as [a b c k]. unfold modifyHf298 in E; cbn [t_kind] in E.
      destruct k; try discriminate E; injection E as <-; unfold reportHf298, set_kind; cbn [t_kind]; eauto. }
    destruct X as [h' X]. rewrite X. f_equal. rewrite (report_eq _ _ X).
    assert (T298 <> 0) by (unfold T298; lra). destruct (MV T298 H) as (_ & _ & MH). rewrite MH.
    rewrite Rmult_plus_distr_l. rewrite <- (report_eq _ _ R0). field. apply G_neq.
  - repeat (split; [assumption|]). exists h0. split; [exact R0|]. intros T P. destruct (MV T ltac:(lra)) as (U & V & X).
    rewrite U, V, X. repeat split. field. apply G_neq.
Qed.
(* Resetting undoes any changes, for polynomials. *)
Theorem C35_reset : forall ty lo hi p c l t0 t, In ty [4; 8; 128; 256]%Z -> new_stit ty lo hi p c = Ok t0 -> changes t0 l = Ok t ->
  resetHf298 t = Ok t0.
Proof.
  intros ty lo hi p c l t0 t TY N C. apply made_same in C. apply factory in N. destruct t as [a b d k].
  destruct C as (C1 & C2 & C3 & C); cbn [t_min t_max t_pref] in C1, C2, C3; subst a b d. unfold resetHf298, set_kind; cbn [t_kind t_min t_max t_pref] in *.
  destruct N as [E|E|E|? E|E|E|E]; cbn [t_kind t_min t_max t_pref] in *;
    try (exfalso; cbn [In] in TY; lia); destruct k; try contradiction; repeat f_equal.
  - apply reset_eq; auto.
  - apply reset_eq; auto.
  - apply C.
  - apply reset_eq; apply C.
  - apply reset_eq; apply C.
  - apply C.
  - apply reset_eq; apply C.
  - apply reset_eq; apply C.
Qed.
(* With a constant heat capacity it does not: whatever enthalpy the object was made with, the
   enthalpy at the base temperature is zero afterwards. *)
Theorem C35_reset_refuted : forall lo hi p t0 h0 s0 cp0 t l t', 0 < t0 -> new_stit 1 lo hi p [t0; h0; s0; cp0] = Ok t -> changes t l = Ok t' ->
  h_R t t0 = h0 / GasConstant /\ exists t'', resetHf298 t' = Ok t'' /\ h_R t'' t0 = 0.
Proof.
  intros lo hi p t0 h0 s0 cp0 t l t' P N C.
  assert (W : wf t') by (eapply changes_wf; [eapply new_wf; exact N | exact C]).
  apply made_same in C. injection N as <-. destruct C as (_ & _ & _ & C).
  unfold c_ in C; cbn [nth t_kind constcp_of cc_t0] in C.
  split.
  - unfold h_R, h_RT, value, update_temp, c_; cbn [t_kind nth fst snd cc_h cc_t0 cc_cp constcp_of]. field. generalize G_neq; split; auto; lra.
  - unfold wf in W. unfold resetHf298. destruct (t_kind t') as [| | | |cc| |] eqn:K; try contradiction. destruct C as (C1 & _). destruct W as [W1 W2].
    eexists. split; [reflexivity|]. unfold h_R, h_RT, value, update_temp, set_kind; cbn [t_kind fst snd cc_h cc_t0 cc_cp].
    rewrite C1, W2. field. lra.
Qed.
(* The other two kinds have no heat of formation to report or change. *)
Theorem C35_unsupported : forall ty lo hi p c t h, In ty [64; 513]%Z -> new_stit ty lo hi p c = Ok t ->
  reportHf298 t = Err /\ modifyHf298 t h = Err /\ resetHf298 t = Err.
Proof.
  intros ty lo hi p c t h TY N. apply factory in N. destruct N as [E|E|E|? E|E|E|E]; try (exfalso; cbn [In] in TY; lia); cbn; auto.
Qed.

(* The reported parameters make an object with the same values and limits. *)
Theorem C35_roundtrip : forall ty lo hi p c l t, made ty lo hi p c l t -> ty <> 128%Z ->
  exists t', remade t = Ok t' /\ t_min t' = t_min t /\ t_max t' = t_max t /\ t_pref t' = t_pref t /\ type_of t' = type_of t /\
    (forall T, update_temp t' T = update_temp t T) /\ reportParameters t' = reportParameters t.
Proof.
  intros ty lo hi p c l t M N. apply roundtrip; [eapply made_wf; eauto|].
  intros q K. destruct M as (t0 & F & C). apply made_same in C as (_ & _ & _ & C). rewrite K in C. apply factory in F.
  destruct F; cbn [t_kind] in C; try contradiction; congruence.
Qed.
(* Not so for one Shomate polynomial: the type it reports needs more coefficients than it reports. *)
Theorem C35_roundtrip_refuted : forall lo hi p c t, new_stit 128 lo hi p c = Ok t -> length (reportParameters t) = 7%nat /\ remade t = UB.
Proof.
  intros lo hi p c t N. assert (W := new_wf _ _ _ _ _ _ N). apply factory in N. destruct N; try discriminate; try lia.
  unfold remade, wf, wf7, type_of, reportParameters, shomate_report in *; cbn [t_kind t_min t_max t_pref] in *.
  assert (L : length (map (fun a => a * GasConstant / 1000) (p7_c (shomate_of (seg c 0 7)))) = 7%nat) by (rewrite map_length; exact W).
  split; [exact L|]. unfold new_stit; cbn [Z.eqb Pos.eqb orb]. unfold need. rewrite L. reflexivity.
Qed.
(* Reporting fills exactly as many places as announced. *)
Theorem C35_count : forall ty lo hi p c l t n, made ty lo hi p c l t -> nCoeffs t = Ok n -> length (reportParameters t) = n.
Proof. intros ty lo hi p c l t n M. apply count. eapply made_wf; eauto. Qed.

(* Piecewise Gibbs energies: the points given are met, the enthalpy at 298.15 K is the one given,
   and enthalpy and entropy do not jump. The array is [n; h0; T1; mu1; ...; Tn; mun]. *)
Theorem C35_mu0 : forall lo hi p h0 pts t, increasing pts -> (forall q, In q pts -> 0 < fst q) ->
  new_stit 64 lo hi p (INR (length pts) :: h0 :: flat_map (fun q => [fst q; snd q]) pts) = Ok t ->
  (forall T mu, In (T, mu) pts -> gibbs t T = mu) /\
  In 298.15 (map fst pts) /\ GasConstant * h_R t (298.15) = h0 /\
  (forall T, 0 < T -> continuous (h_R t) T /\ continuous (s_R t) T).
Proof.
  intros lo hi p h0 pts t I P N. apply factory in N. destruct N as [E|E|[E|E]|m E L M|E|E|E]; try discriminate E.
  unfold c_ in *; cbn [nth skipn] in *. rewrite cast_INR in *.
  assert (PP : pairs_of (length pts) (flat_map (fun q => [fst q; snd q]) pts) = pts).
  { clear. induction pts as [|[a b] pts IH]; [reflexivity|]. cbn [flat_map length pairs_of app skipn fst snd]. unfold c_; cbn [nth]. rewrite IH. reflexivity. }
  rewrite PP, map_of_id in M by auto.
  destruct (mu0_rows h0 pts m I P M) as (rows & -> & C & G & F & r & R1 & R2 & R3).
  assert (NE : rows <> []) by (intros ->; destruct R1).
  assert (LR : length rows = length pts) by (transitivity (length (map fst rows)); [symmetry; apply map_length | rewrite F; apply map_length]).
  assert (U : forall T, update_temp (ST lo hi p (KMu0 (of_rows (length pts - 1) (h0 / GasConstant) rows))) T = Ok (eval rows T)).
  { intros T. unfold update_temp; cbn [t_kind]. rewrite eval_eq; [reflexivity | exact NE | rewrite LR; reflexivity]. }
  set (t := ST _ _ _ _) in *.
  split; [|split; [|split]].
  - intros T mu H. assert (X : In (T, mu / GasConstant) (map fst rows)).
    { rewrite F. apply in_map_iff. exists (T, mu). auto. }
    apply in_map_iff in X as (r' & X1 & X2). assert (XT : rT r' = T) by (unfold rT; rewrite X1; reflexivity).
    assert (XM : rmu r' = mu / GasConstant) by (unfold rmu; rewrite X1; reflexivity).
    destruct (eval_at rows r' C X2) as [A B]. rewrite XT in A, B.
    unfold gibbs, h_RT, s_R, value. rewrite U, A, B. rewrite Forall_forall in G. specialize (G r' X2). unfold good in G. rewrite XM, XT in G.
    assert (0 < T) by (apply (P (T, mu)); auto).
    replace (GasConstant * T * (rh r' / T - rs_ r')) with (GasConstant * (rh r' - T * rs_ r')) by (field; lra). rewrite <- G. field. apply G_neq.
  - apply in_map_iff. assert (X : In (fst r) (map fst rows)) by (apply in_map; auto). rewrite F in X. apply in_map_iff in X as (q & X1 & X2).
    exists q. split; [|exact X2]. unfold rT in R2. rewrite <- X1 in R2. cbn [fst] in R2. rewrite R2. unfold T298. lra.
  - replace (298.15) with (rT r) by (rewrite R2; unfold T298; lra).
    destruct (eval_at rows r C R1) as [A B]. unfold h_R, h_RT, value. rewrite U, A, R3.
    field. split; [|]; [apply G_neq || (rewrite R2; unfold T298; lra) | apply G_neq || (rewrite R2; unfold T298; lra)].
  - intros T PT. destruct (cont_eval rows T C NE PT) as [A B]. split.
    + apply (continuous_ext (fun x => x * snd (fst (eval rows x)))).
      * intros x. unfold h_R, h_RT, value. rewrite U. reflexivity.
      * apply (continuous_mult (fun x : R => x) (fun x => snd (fst (eval rows x)))); [apply continuous_id | exact A].
    + apply (continuous_ext (fun x => snd (eval rows x))); [|exact B]. intros x. unfold s_R, value. rewrite U. reflexivity.
Qed.
(* Giving such an object parameters a second time writes outside its arrays. *)
Theorem C35_mu0_again_refuted : forall h0 pts m h1 pts1 m1, mu0_set [] h0 pts = Ok m -> mu0_set [] h1 pts1 = Ok m1 -> (length pts1 <= length pts)%nat ->
  mu0_set (combine (m_t m) (m_mu m)) h1 pts1 = UB.
Proof.
  intros h0 pts m h1 pts1 m1 M M1 L. destruct (mu0_fields _ _ _ M) as (_ & _ & _ & D & _).
  clear M. unfold mu0_set in *. revert M1. destruct (Nat.ltb_spec (length pts1) 2); intros M1; [discriminate M1|].
  destruct (split298 (rev []) _) as [[[b1 q1] a1]|] eqn:S1; [|discriminate]. clear M1.
  assert (X : forall l b, split298 b l <> None -> forall b', exists bb q a, split298 b' l = Some (bb, q, a) /\ (length b' <= length bb)%nat).
  { induction l as [|q l IH]; intros b H1 b'; cbn [split298] in *; [congruence|]. destruct (reqb (fst q) T298); [eauto 10|].
    destruct (IH (q :: b) H1 (q :: b')) as (bb & q0 & a & E & LE). exists bb, q0, a. cbn [length] in LE. split; [auto|lia]. }
  destruct (X _ (rev []) ltac:(rewrite S1; discriminate) (rev (combine (m_t m) (m_mu m)))) as (bb & [qT qmu] & a & E & LE).
  rewrite E. rewrite rev_length, D, map_length in LE. destruct (Nat.leb_spec (length pts1) (length bb)); [reflexivity | lia].
Qed.

(* ---------------- examples ---------------- *)
Definition ex_mu : list R := [3; 1000; 200; -5000; 298.15; -6000; 500; -9000].
Lemma r29815 : 298.15 = T298. Proof. unfold T298. lra. Qed.
(* Oxygen-like seven-coefficient data in two ranges. *)
Definition ex_c : list R := [1000; 3; 1; 2; 3; 4; -1000; 5;   3.5; -1; 2; -3; 4; -900; 6].
Example ex_nasa : exists t, new_stit 4 200 3500 101325 ex_c = Ok t /\ length (reportParameters t) = 15%nat.
Proof. eexists. split; reflexivity. Qed.
Example ex_made : exists t, made 4 200 3500 101325 ex_c [Modify 5; Reset; Modify 7] t /\ ~ In 300 (breaks t).
Proof.
  eexists. split; [eexists; split; [reflexivity|]; cbn [changes change1 obind modifyHf298 resetHf298 t_kind set_kind]; reflexivity|].
  cbn [breaks t_kind set_kind]. unfold c_, ex_c; cbn [nth]. intros [E|[]]. lra.
Qed.
Example ex_mu0 : exists t, new_stit 64 200 500 101325 (INR (length [(200, -5000); (298.15, -6000); (500, -9000)]) :: 1000 :: flat_map (fun q => [fst q; snd q]) [(200, -5000); (298.15, -6000); (500, -9000)]) = Ok t /\
  increasing [(200, -5000); (298.15, -6000); (500, -9000)].
Proof.
  assert (I : increasing [(200, -5000); (298.15, -6000); (500, -9000)]) by (cbn; repeat split; lra).
  cut (exists m, mu0_set [] 1000 [(200, -5000); (298.15, -6000); (500, -9000)] = Ok m).
  - intros [m M]. exists (ST 200 500 101325 (KMu0 m)). split; [|exact I].
    unfold new_stit; cbn [Z.eqb Pos.eqb orb]. unfold need, c_; cbn [nth]. rewrite cast_INR.
    cbn [length flat_map app Nat.leb Nat.mul Nat.add skipn pairs_of fst snd]. unfold c_; cbn [nth].
    rewrite (map_of_id _ I). rewrite M. reflexivity.
  - unfold mu0_set. cbn [length Nat.ltb Nat.leb map fst snd rev split298].
    rewrite (proj2 (reqb_false 200 T298)) by (unfold T298; lra).
    rewrite (proj2 (reqb_true (298.15) T298)) by (unfold T298; lra). cbn [length Nat.leb]. eexists. reflexivity.
Qed.
Example ex_9 : exists t, new_stit 513 200 6000 101325 (INR (length [Region 200 1000 [1;2;3;4;5;6;7;8;9]; Region 1000 6000 [9;8;7;6;5;4;3;2;1]]) ::
  flat_map (fun r => r_min r :: r_max r :: r_c r) [Region 200 1000 [1;2;3;4;5;6;7;8;9]; Region 1000 6000 [9;8;7;6;5;4;3;2;1]]) = Ok t.
Proof.
  set (rs := [Region 200 1000 _; _]). unfold new_stit; cbn [Z.eqb Pos.eqb orb]. unfold need, c_; cbn [nth]. rewrite cast_INR.
  fold (flat rs). assert (F : Forall (fun r => length (r_c r) = 9%nat) rs) by (repeat constructor).
  change (length (INR (length rs) :: flat rs)) with (S (length (flat rs))).
  rewrite (proj2 (Nat.leb_le 1 (S (length (flat rs))))) by lia.
  rewrite (proj2 (Nat.leb_le (1 + 11 * length rs) (S (length (flat rs))))) by (rewrite (flat_length rs F); lia).
  cbn [skipn]. rewrite (regions_flat rs F). unfold rs. cbn [regions_ok r_min r_max].
  rewrite (proj2 (rltb_true 200 1000)) by lra. rewrite (proj2 (rltb_false _ _)) by (rewrite Rminus_eq_0, Rabs_R0; lra).
  eexists. reflexivity.
Qed.
Example ex_cp : exists t, new_stit 1 200 500 101325 [298.15; -241826000; 100; 33000] = Ok t.
Proof. eexists. reflexivity. Qed.
Example ex_sh1 : exists t, new_stit 128 200 500 101325 [1; 2; 3; 4; 5; 6; 7] = Ok t.
Proof. eexists. reflexivity. Qed.

(* ================================================================ *)
(** * C60 *)
(* Whatever has been done before, an operation succeeds exactly when it may, and then changes the
   entry of its species only. *)
Theorem C60_effect : forall ops o g', step (run ops) o = Ok g' -> effect (run ops) o g'.
Proof. intros ops o g' E. eapply step_ok; eauto. apply run_inv. Qed.
Theorem C60_accept : forall ops o, (exists g', step (run ops) o = Ok g') <-> accepts (run ops) o.
Proof.
  intros ops o. assert (I := run_inv ops). set (g := run ops) in *. clearbody g. split.
  - intros [g' E]. destruct o as [k t|k t|k h|k]; cbn [accepts].
    + destruct (install_ok g k t g' I E) as (_ & A & _ & B & _). auto.
    + destruct (step_ok g _ g' I E) as (_ & [A _] & _). exact A.
    + destruct (step_ok g _ g' I E) as (_ & A & _). cbn [effect] in A. intros t P. rewrite P in A. destruct A as (t' & A & _). eauto.
    + destruct (step_ok g _ g' I E) as (_ & A & _). cbn [effect] in A. intros t P. rewrite P in A. destruct A as (t' & A & _). eauto.
  - destruct o as [k t|k t|k h|k]; cbn [accepts step]; intros H.
    + destruct H as [H1 H2]. apply provide_loc in H1; auto. unfold install. rewrite H1.
      replace (reqb (g_p0 g) 0 || negb (rltb (/ 10 ^ 6) (Rabs (g_p0 g - t_pref t))))%bool with true; [eauto|].
      symmetry. apply orb_true_iff. destruct H2 as [H2|H2]; [left; apply reqb_true; auto|].
      right. apply negb_true_iff. apply rltb_false. exact H2.
    + destruct H as (t0 & P & T & LO & HI). unfold modifySpecies. unfold provide in P.
      destruct (loc_find (g_loc g) k) as [[ty j]|] eqn:L; [|discriminate].
      assert (X := proj1 (i_loc g I k ty j) L). destruct X as [t1 X]. rewrite X in P. cbn in P. injection P as ->.
      rewrite T, (i_type g I ty k t0) by (eapply nth_error_In; eauto). rewrite Z.eqb_refl. cbn [negb].
      cbn [minTemp maxTemp] in LO, HI.
      rewrite (proj2 (rltb_false _ _) LO), (proj2 (rltb_false _ _) HI). eauto.
    + unfold g_modifyHf298. destruct (provide g k) as [t|] eqn:P; [|eauto]. destruct (H t eq_refl) as [t' E]. rewrite E. cbn. eauto.
    + unfold g_resetHf298. destruct (provide g k) as [t|] eqn:P; [|eauto]. destruct (H t eq_refl) as [t' E]. rewrite E. cbn. eauto.
Qed.
(* Evaluating all species at once writes, for each species, once, what evaluating it alone gives. *)
Theorem C60_update : forall ops T, let g := run ops in (forall k t, provide g k = Some t -> exists p, update_temp t T = Ok p) ->
  exists out, update g T = Ok out /\ NoDup (map fst out) /\
    (forall k p, In (k, p) out <-> update_single g k T = Ok (Some p)).
Proof.
  intros ops T g U. destruct (update_ok g T (run_inv ops) U) as (out & E & N & H). exists out. repeat split; auto.
  - intros X. apply H in X as (t & P & V). unfold update_single. rewrite P, V. reflexivity.
  - intros X. apply H. unfold update_single in X. destruct (provide g k) as [t|] eqn:P; [|discriminate].
    destruct (update_temp t T) eqn:V; try discriminate. injection X as ->. eauto.
Qed.
(* The limits of the phase hold for every species, and are not stricter than they need have been. *)
Theorem C60_limits : forall ops k t, provide (run ops) k = Some t ->
  minTemp (run ops) (Some k) = t_min t /\ maxTemp (run ops) (Some k) = t_max t /\ t_min t <= minTemp (run ops) None /\ maxTemp (run ops) None <= t_max t.
Proof.
  intros ops k t P. assert (I := run_inv ops). split; [cbn [minTemp]; rewrite P; reflexivity|]. split; [cbn [maxTemp]; rewrite P; reflexivity|].
  apply provide_in in P as [ty P]; auto. exact (i_lim _ I _ _ _ P).
Qed.
Theorem C60_limits_attained : forall ops,
  (minTemp (run ops) None = 0 \/ exists k t, In (OInstall k t) ops /\ t_min t = minTemp (run ops) None) /\
  (maxTemp (run ops) None = 10 ^ 30 \/ exists k t, In (OInstall k t) ops /\ t_max t = maxTemp (run ops) None).
Proof.
  intros ops. cbn [minTemp maxTemp]. induction ops as [|o ops IH] using rev_ind; [cbn; auto|].
  assert (MO : forall (f : stit -> R) (x z : R), (x = z \/ exists k t, In (OInstall k t) ops /\ f t = x) -> (x = z \/ exists k t, In (OInstall k t) (ops ++ [o]) /\ f t = x)).
  { intros f x z [H|(k & t & H1 & H2)]; [auto|]. right. exists k, t. split; [apply in_or_app; auto | auto]. }
  destruct IH as [A B]. apply MO in A, B. clear MO.
  rewrite run_snoc. unfold next. destruct (step (run ops) o) as [g'| | |] eqn:E; auto.
  destruct o as [k t|k t|k h|k].
  2-4: destruct (step_ok _ _ g' (run_inv ops) E) as (_ & _ & L & H & _); rewrite L, H; auto.
  destruct (install_ok _ k t g' (run_inv ops) E) as (_ & _ & _ & _ & _ & L & H).
  assert (X : In (OInstall k t) (ops ++ [OInstall k t])) by (apply in_or_app; right; left; reflexivity).
  rewrite L, H. split.
  - destruct (rmax2_spec (t_min t) (g_low (run ops))) as (_ & _ & [->| ->]); eauto.
  - destruct (rmin2_spec (t_max t) (g_high (run ops))) as (_ & _ & [->| ->]); eauto.
Qed.
(* One reference pressure: true if no species has none and no species' data is replaced. *)
Definition keeps_p (o : op) : Prop := match o with OInstall _ t => t_pref t <> 0 | OModify _ _ => False | _ => True end.
Theorem C60_pressure : forall ops k t, Forall keeps_p ops -> provide (run ops) k = Some t -> Rabs (g_p0 (run ops) - t_pref t) <= / 10 ^ 6.
Proof.
  intros ops. enough (G : Forall keeps_p ops -> (forall k t, provide (run ops) k = Some t -> g_p0 (run ops) <> 0 /\ Rabs (g_p0 (run ops) - t_pref t) <= / 10 ^ 6)).
  { intros k t F P. apply (G F k t P). }
  induction ops as [|o ops IH] using rev_ind; intros F k t P; [discriminate P|].
  apply Forall_app in F as [F1 F2]. inversion F2 as [|? ? K _]; subst. specialize (IH F1). rewrite run_snoc in *. unfold next in *.
  destruct (step (run ops) o) as [g'| | |] eqn:E; try (apply (IH k t P)).
  destruct o as [k' t'|k' t'|k' h'|k'].
  - destruct (install_ok _ k' t' g' (run_inv ops) E) as (_ & _ & PR & C & P0 & _). rewrite PR in P. rewrite P0. unfold override in P. cbn in K.
    destruct (reqb (g_p0 (run ops)) 0) eqn:Z0.
    + apply reqb_true in Z0. destruct (Nat.eqb k k'); [|destruct (IH k t P); congruence]. injection P as <-.
      split; [exact K|]. rewrite Rminus_eq_0, Rabs_R0. apply Rlt_le, Rinv_0_lt_compat. apply pow_lt. lra.
    + apply reqb_false in Z0. destruct (Nat.eqb k k'); [|exact (IH k t P)]. injection P as <-. destruct C as [C|C]; [congruence|auto].
  - destruct K.
  - destruct (step_ok _ _ g' (run_inv ops) E) as (_ & EF & _ & _ & P0). rewrite P0. cbn [effect] in EF.
    destruct (provide (run ops) k') as [u|] eqn:PU; [|subst; exact (IH k t P)]. destruct EF as (u' & M & PR). rewrite PR in P. unfold override in P.
    destruct (Nat.eqb_spec k k') as [->|]; [|exact (IH k t P)]. injection P as <-. destruct (modify_type _ _ _ M) as (_ & _ & _ & ->). exact (IH _ _ PU).
  - destruct (step_ok _ _ g' (run_inv ops) E) as (_ & EF & _ & _ & P0). rewrite P0. cbn [effect] in EF.
    destruct (provide (run ops) k') as [u|] eqn:PU; [|subst; exact (IH k t P)]. destruct EF as (u' & M & PR). rewrite PR in P. unfold override in P.
    destruct (Nat.eqb_spec k k') as [->|]; [|exact (IH k t P)]. injection P as <-. destruct (reset_type _ _ M) as (_ & _ & _ & ->). exact (IH _ _ PU).
Qed.
(* Otherwise species can differ by any amount: replaced data is not checked ... *)
Definition cps (p : R) : stit := ST 0 1000 p (KConst (constcp_of 300 0 0 0)).
Theorem C60_pressure_refuted : forall p, p <> 0 -> forall q, exists g, step (run [OInstall 0 (cps p)]) (OModify 0 (cps q)) = Ok g /\ g_p0 g = p /\
  (exists t, provide g 0 = Some t /\ t_pref t = q).
Proof.
  intros p NP q. set (g1 := run [OInstall 0 (cps p)]).
  assert (E1 : step mgr0 (OInstall 0 (cps p)) = Ok g1).
  { unfold g1, run. cbn [fold_left]. unfold next, step, install, cps. cbn [mgr0 g_loc loc_find g_p0].
    rewrite (proj2 (reqb_true 0 0) eq_refl). reflexivity. }
  destruct (install_ok mgr0 0 (cps p) g1 inv0 E1) as (I & _ & PR & _ & P0 & L & H).
  assert (PV : provide g1 0 = Some (cps p)) by (rewrite PR; reflexivity).
  destruct (proj2 (C60_accept [OInstall 0 (cps p)] (OModify 0 (cps q)))) as [g E].
  { exists (cps p). split; [exact PV|]. split; [reflexivity|].
    destruct (C60_limits [OInstall 0 (cps p)] 0 (cps p) PV) as (_ & _ & A & B). split; [exact A | exact B]. }
  exists g. split; [exact E|]. destruct (step_ok g1 _ g I E) as (_ & [_ PR2] & _ & _ & P0').
  split.
  - rewrite P0', P0. cbn [mgr0 g_p0]. rewrite (proj2 (reqb_true 0 0) eq_refl). reflexivity.
  - exists (cps q). split; [rewrite PR2; reflexivity | reflexivity].
Qed.
(* Resetting all species of a phase resets each of them. *)
Theorem C60_reset_all : forall ops n g', reset_all (run ops) n = Ok g' ->
  forall k, match provide (run ops) k with
            | Some t => if (k <? n)%nat then exists t', resetHf298 t = Ok t' /\ provide g' k = Some t' else provide g' k = Some t
            | None => provide g' k = None end.
Proof. intros ops n g' E. eapply reset_all_ok; eauto. apply run_inv. Qed.
(* In a solid of several lattices, asking for a new heat of formation of any species changes
   nothing, and neither does resetting it. *)
Theorem C60_lattice_refuted : forall ls k h, (forall g m, In (g, m) ls -> forall i, (m <= i)%nat -> provide g i = None) ->
  lattice_modifyHf298 ls k h = Ok ls /\ lat_reset ls ls 0 k = Ok ls.
Proof. intros ls k h H. split; [apply lat_modify_nothing; auto | apply lat_reset_nothing; auto]. Qed.

(* ---------------- examples ---------------- *)
Definition sh (lo : R) : stit := ST lo 2000 101325 (KShomate1 (poly7_of [1; 2; 3; 4; 5; 6; 7])).
Definition na (lo : R) : stit := ST lo 3000 101325 (KNasa2 1000 (poly7_of [1; 2; 3; 4; 5; 6; 7]) (poly7_of [7; 6; 5; 4; 3; 2; 1])).
Definition ex_ops : list op := [OInstall 0 (na 200); OInstall 1 (sh 300); OInstall 2 (na 250); OSetHf 2 5; OModify 0 (na 100); OResetHf 2].
Lemma p_ok : forall g k t, provide g k = None -> inv g -> (g_p0 g = 0 \/ g_p0 g = t_pref t) -> exists g', install g k t = Ok g' /\ inv g' /\ (forall i, provide g' i = override (provide g) k t i) /\ (t_pref t <> 0 -> g_p0 g' = t_pref t).
Proof.
  intros g k t P I C. apply provide_loc in P; auto.
  assert (E : exists g', install g k t = Ok g').
  { unfold install. rewrite P. replace (reqb (g_p0 g) 0 || negb (rltb (/ 10 ^ 6) (Rabs (g_p0 g - t_pref t))))%bool with true; [eauto|].
    symmetry. apply orb_true_iff. destruct C as [C|C]; [left; apply reqb_true; auto|]. right. rewrite C, Rminus_eq_0, Rabs_R0.
    apply negb_true_iff, rltb_false. apply Rlt_le, Rinv_0_lt_compat, pow_lt. lra. }
  destruct E as [g' E]. exists g'. destruct (install_ok g k t g' I E) as (A & B & D & F & G & _). split; [exact E|]. split; [exact A|]. split; [exact D|].
  intros N. rewrite G. destruct (reqb (g_p0 g) 0) eqn:Z0; auto. apply reqb_false in Z0. destruct C; congruence.
Qed.
(* Both installs succeed, with the species found where they were put. *)
Example ex_install : provide (run [OInstall 0 (na 200); OInstall 1 (sh 300)]) 0 = Some (na 200) /\ provide (run [OInstall 0 (na 200); OInstall 1 (sh 300)]) 1 = Some (sh 300).
Proof.
  destruct (p_ok mgr0 0 (na 200) eq_refl inv0 (or_introl eq_refl)) as (g1 & E1 & I1 & P1 & Q1).
  assert (N1 : provide g1 1 = None) by (rewrite P1; reflexivity).
  destruct (p_ok g1 1 (sh 300) N1 I1) as (g2 & E2 & I2 & P2 & Q2); [right; rewrite Q1; [reflexivity|cbn; lra]|].
  unfold run. cbn [fold_left next step]. unfold next, step. rewrite E1, E2. split; rewrite P2; unfold override; cbn [Nat.eqb]; [rewrite P1; reflexivity | reflexivity].
Qed.
Example ex_keeps : Forall keeps_p [OInstall 0 (na 200); OInstall 1 (sh 300); OSetHf 0 5].
Proof. repeat constructor; cbn; lra. Qed.
(* A lattice phase of one species each. *)
Example ex_lattice : exists g, provide g 0 = Some (na 200) /\ (forall i, (1 <= i)%nat -> provide g i = None) /\
  lattice_modifyHf298 [(g, 1%nat)] 0 5 = Ok [(g, 1%nat)].
Proof.
  destruct (p_ok mgr0 0 (na 200) eq_refl inv0 (or_introl eq_refl)) as (g1 & E1 & I1 & P1 & Q1).
  assert (N : forall i, (1 <= i)%nat -> provide g1 i = None) by (intros i L; rewrite P1; unfold override; destruct (Nat.eqb_spec i 0); [lia | reflexivity]).
  exists g1. split; [rewrite P1; reflexivity|]. split; [exact N|].
  apply C60_lattice_refuted. intros g m [E|[]] i L. injection E as <- <-. auto.
Qed.

Print Assumptions C35_derivatives.
Print Assumptions C35_defined.
Print Assumptions C35_poly.
Print Assumptions C35_formula.
Print Assumptions C35_formula9.
Print Assumptions C35_formula_cp.
Print Assumptions C35_report.
Print Assumptions C35_modify.
Print Assumptions C35_reset.
Print Assumptions C35_reset_refuted.
Print Assumptions C35_unsupported.
Print Assumptions C35_roundtrip.
Print Assumptions C35_roundtrip_refuted.
Print Assumptions C35_count.
Print Assumptions C35_mu0.
Print Assumptions C35_mu0_again_refuted.
Print Assumptions C60_effect.
Print Assumptions C60_accept.
Print Assumptions C60_update.
Print Assumptions C60_limits.
Print Assumptions C60_limits_attained.
Print Assumptions C60_pressure.
Print Assumptions C60_pressure_refuted.
Print Assumptions C60_reset_all.
Print Assumptions C60_lattice_refuted.
