(* C04: a property read from an object is the property of its present state. *)
From Coq Require Import Reals ZArith List Bool Arith Lia Lra.
From Verif Require Import Base.Fp Base.Outcome Base.Map2 Units.Model Cache.Model Cache.Spec Cache.Proofs Cache.BulkProofs.
From Verif Require Phase.CompModel Units.Proofs.
Import ListNotations.
Local Open Scope R_scope.
Local Open Scope list_scope.
#[local] Arguments feqb _ _ : simpl never.

(* Any object with any number of memoised methods, after any history in which the cache was cleared at
   some point: if since then states with equal keys have equal values and no evaluation threw, each
   read returns the value of the present state. *)
Theorem C04_value_cache : forall S A (dflt : A) (keysof : nat -> S -> keys) (compute : nat -> S -> outcome A)
    (s0 : S) (m0 : cache A) (h1 h2 : list (event S)) id v,
  (forall i s s', shape (keysof i s) = shape (keysof i s')) ->
  (forall i s, counter_ok (keysof i s)) ->
  let s1 := last_state s0 h1 in
  no_clear h2 ->
  (forall i s s', In s (states s1 h2) -> In s' (states s1 h2) -> keys_eq (keysof i s) (keysof i s') = true -> compute i s = compute i s') ->
  (forall i s, In (i, s) (reads s1 h2) -> exists v, compute i s = Ok v) ->
  compute id (last_state s1 h2) = Ok v ->
  fst (ostep dflt keysof compute (oruns dflt keysof compute (s0, m0) (h1 ++ EClear :: h2)) (ERead id)) = Some (Ok v).
Proof. intros. apply (read_fresh dflt keysof compute H H0 h1 h2); auto. Qed.
Print Assumptions C04_value_cache.

(* Two methods of an object with temperature and pressure: keys (T) and (T, P). *)
Definition ex_keys (i : nat) (s : R * R) : keys := match i with O => KD (Fin (fst s)) | _ => KDD (Fin (fst s)) (Fin (snd s)) end.
Definition ex_compute (i : nat) (s : R * R) : outcome R := Ok (match i with O => 2 * fst s | _ => fst s * snd s end).
Example ex_value_cache :
  fst (ostep 0 ex_keys ex_compute (oruns 0 ex_keys ex_compute ((300, 1), empty)
     ([ERead 0%nat; ERead 1%nat] ++ EClear :: [ERead 1%nat; EState (300, 2); ERead 0%nat; ERead 1%nat; EState (400, 2); ERead 0%nat]))
     (ERead 1%nat)) = Some (Ok (400 * 2)).
Proof.
  apply (C04_value_cache (R * R) R 0 ex_keys ex_compute).
  - intros [|i] s s'; reflexivity.
  - intros [|i] s; exact I.
  - intros X. repeat (destruct X as [X|X]; [discriminate|]). exact X.
  - intros [|i] [a b] [c d] _ _ E; cbn in *.
    + apply feqb_eq in E. injection E as ->. reflexivity.
    + apply andb_prop in E. destruct E as [E F]. apply feqb_eq in E. apply feqb_eq in F. injection E as ->. injection F as ->. reflexivity.
  - intros i s _. eexists. reflexivity.
  - reflexivity.
Qed.

(* The identifiers handed out are distinct: iterating getId never repeats one. *)
Theorem C04_ids_distinct : forall last i j, Nat.iter (S i) getId last = Nat.iter (S j) getId last -> i = j.
Proof.
  intros last i j. assert (H : forall n, Nat.iter n getId last = (n + last)%nat). { induction n; cbn; auto. }
  rewrite !H. lia.
Qed.
Print Assumptions C04_ids_distinct.

(* If the evaluation throws, the next read in the same state returns the value of another state. *)
Theorem C04_after_exception_refuted : exists (keysof : nat -> R -> keys) (compute : nat -> R -> outcome R) h,
  let o := oruns 0 keysof compute (300, empty) h in
  fst o = 200 /\ compute 0%nat 200 = Err /\
  fst (ostep 0 keysof compute o (ERead 0%nat)) = Some Err /\
  fst (ostep 0 keysof compute (oruns 0 keysof compute (300, empty) (h ++ [ERead 0%nat])) (ERead 0%nat)) = Some (Ok 600).
Proof.
  exists (fun _ s => KD (Fin s)), (fun _ s => if rltb s 273 then Err else Ok (2 * s)), [ERead 0%nat; EState 200].
  assert (A : rltb 300 273 = false) by (apply rltb_false; lra). assert (B : rltb 200 273 = true) by (apply rltb_true; lra).
  assert (C : feqb (Fin 300) (Fin 200) = false). { unfold feqb. apply reqb_false. lra. }
  assert (E : feqb (Fin 200) (Fin 200) = true). { unfold feqb. apply reqb_true. lra. }
  assert (N : feqb NaN (Fin 300) = false) by reflexivity.
  split; [reflexivity|]. split; [rewrite B; reflexivity|].
  cbn [oruns app ostep fst snd]. unfold memo. cbn [getEntry empty cval0 validate k1]. rewrite N. cbn [fst snd]. rewrite A. cbn [fst snd].
  unfold getEntry, setEntry. cbn [Nat.eqb validate k1 k2 kn val]. rewrite C. rewrite B. cbn [fst snd Nat.eqb validate k1 k2 kn val].
  rewrite E. cbn. split; [reflexivity|]. reflexivity.
Qed.
Print Assumptions C04_after_exception_refuted.

(* Ideal gas: after any calls that set temperatures, change species data or read properties, the
   reference-state properties read are those of the present data and temperature. *)
Theorem C04_ideal_gas : forall D (eval : D -> fp -> nat -> R * R * R) d h,
  let s := fold_left (g_step eval) h (g_init d) in
  let T := T_after (Fin (1 / 1000)) h in let d' := D_after d h in
  forall k, g_v (g_update eval s) k = eval d' T k /\ g_g (g_update eval s) k = snd (fst (eval d' T k)) - snd (eval d' T k).
Proof.
  intros D eval d h s T d' k.
  assert (OK : g_ok eval s). { apply g_run_ok. intros X. cbn in X. congruence. }
  pose proof (g_update_fresh eval s OK) as [A B]. rewrite A, B. unfold s. rewrite g_run_T, g_run_D. split; reflexivity.
Qed.
Print Assumptions C04_ideal_gas.

(* Plasma: likewise, the electron e at its own temperature. *)
Theorem C04_plasma : forall D (eval : D -> fp -> nat -> R * R * R) d e Te0 h,
  let s := fold_left (p_step eval e) h (p_init d Te0) in
  let T := lT_after (Fin (1 / 1000)) h in let Te := lTe_after Te0 h in let d' := lD_after d h in
  Te <> NaN ->
  forall k, let v := eval d' (if Nat.eqb k e then Te else T) k in
    g_v (p_gas (p_update eval e s)) k = v /\ g_g (p_gas (p_update eval e s)) k = snd (fst v) - snd v.
Proof.
  intros D eval d e Te0 h s T Te d' NTe k v.
  assert (OK : p_ok eval e s). { apply p_run_ok. split; cbn; congruence. }
  destruct (p_run_obs eval e h (p_init d Te0)) as (A & B & C). fold s in A, B, C. cbn in A, B, C. fold T in A. fold Te in C. fold d' in B.
  assert (NT : T <> NaN).
  { unfold T, lT_after. assert (X : Fin (1 / 1000) <> NaN) by discriminate. revert X. generalize (Fin (1 / 1000)). clear. induction h as [|o h IH]; intros t X; cbn [fold_left]; auto.
    apply IH. destruct o; auto. destruct (good_T t0) eqn:G; auto. intros ->. discriminate. }
  destruct (p_update_fresh eval e s OK) as (X & Y & Z). { rewrite A. exact NT. } { rewrite C. exact NTe. }
  rewrite Z. assert (Q : g_v (p_gas (p_update eval e s)) k = v).
  { unfold v. clear v. destruct (Nat.eqb_spec k e) as [->|K]; [rewrite Y, B, C; reflexivity|]. rewrite X by auto. rewrite A, B. reflexivity. }
  rewrite Q. split; reflexivity.
Qed.
Print Assumptions C04_plasma.

Definition ex_eval (d : R) (t : fp) (k : nat) : R * R * R := (d, d + INR k, match t with Fin x => x | _ => 0 end).
Example ex_gas : let h := [PT (Fin 300); PRead; PT (Fin 400); PData 7; PRead; PT (Fin 300); PT (Fin (-5))] in
  g_v (g_update ex_eval (fold_left (g_step ex_eval) h (g_init 1))) 2%nat = (7, 7 + 2, 300).
Proof.
  intros h. destruct (C04_ideal_gas R ex_eval 1 h 2%nat) as [A _]. rewrite A. unfold T_after, h, good_T. cbn -[fltb Rplus].
  assert (E : forall x, 0 < x -> fltb (Fin 0) (Fin x) = true) by (intros; apply rltb_true; lra).
  assert (F : fltb (Fin 0) (Fin (-5)) = false) by (apply rltb_false; lra). rewrite F, !E by lra. unfold ex_eval. reflexivity.
Qed.

(* Phases that remember the temperature of the last evaluation (m_tlast): exactly when a read is
   fresh. T0 is the temperature of the last read and n how often species data changed since. *)
Theorem C04_last_temperature : forall D (eval : D -> fp -> nat -> R * R * R) d h1 h2 T0 T,
  no_read h2 ->
  let h := h1 ++ PRead :: h2 in
  let read h := t_v (t_update eval (fold_left (t_step eval) h (t_init d))) in
  T_after (Fin (1 / 1000)) h1 = Fin T0 -> T_after (Fin (1 / 1000)) h = Fin T ->
  (T <> T0 + INR (changes h2) * (1234 / 10000) -> read h = eval (D_after d h) (Fin T)) /\
  (T = T0 + INR (changes h2) * (1234 / 10000) -> read h = read h1).
Proof.
  intros D eval d h1 h2 T0 T N h read E0 E1.
  pose proof (t_read_exact eval h1 h2 d N) as X. cbn zeta in X. fold h in X. rewrite E0, E1 in X. specialize (X ltac:(discriminate)).
  fold (read h) in X. fold (read h1) in X. rewrite shifted_fin in X. unfold feqb, shift in X. split; intros Y.
  - destruct (reqb _ _) eqn:F; auto. apply reqb_true in F. lra.
  - destruct (reqb _ _) eqn:F; auto. apply reqb_false in F. lra.
Qed.
Print Assumptions C04_last_temperature.

(* In particular after changing the data of a species at one temperature, a read is fresh. *)
Theorem C04_same_temperature : forall D (eval : D -> fp -> nat -> R * R * R) d h1 h2 T,
  no_read h2 -> (0 < changes h2)%nat ->
  let h := h1 ++ PRead :: h2 in
  T_after (Fin (1 / 1000)) h1 = Fin T -> T_after (Fin (1 / 1000)) h = Fin T ->
  t_v (t_update eval (fold_left (t_step eval) h (t_init d))) = eval (D_after d h) (Fin T).
Proof.
  intros D eval d h1 h2 T N P h E0 E1. apply (proj1 (C04_last_temperature D eval d h1 h2 T T N E0 E1)).
  pose proof (lt_0_INR _ P). lra.
Qed.
Print Assumptions C04_same_temperature.

(* A change of data followed by a temperature change of 0.1234 K goes unnoticed. *)
Theorem C04_last_temperature_refuted : exists h,
  T_after (Fin (1 / 1000)) h = Fin (300 + 1234 / 10000) /\ D_after 1 h = 7 /\
  t_v (t_update ex_eval (fold_left (t_step ex_eval) h (t_init 1))) 2%nat = (1, 1 + 2, 300).
Proof.
  assert (E : forall x, 0 < x -> fltb (Fin 0) (Fin x) = true) by (intros; apply rltb_true; lra).
  exists ([PT (Fin 300)] ++ PRead :: [PData 7; PT (Fin (300 + 1234 / 10000))]).
  assert (E0 : T_after (D := R) (Fin (1 / 1000)) [PT (Fin 300)] = Fin 300). { unfold T_after, good_T. cbn -[fltb]. rewrite E by lra. reflexivity. }
  assert (E1 : T_after (D := R) (Fin (1 / 1000)) ([PT (Fin 300)] ++ PRead :: [PData 7; PT (Fin (300 + 1234 / 10000))]) = Fin (300 + 1234 / 10000)).
  { unfold T_after, good_T. cbn -[fltb Rplus Rdiv]. rewrite E by lra. reflexivity. }
  split; [exact E1|]. split; [reflexivity|].
  pose proof (C04_last_temperature R ex_eval 1 [PT (Fin 300)] [PData 7; PT (Fin (300 + 1234 / 10000))] 300 (300 + 1234 / 10000)) as X.
  cbn zeta in X. destruct X as [_ X]; auto. { repeat constructor; discriminate. }
  rewrite X; [|cbn; lra].
  cbn [fold_left]. unfold t_step, good_T. rewrite E by lra. unfold t_update, t_init. cbn [t_last t_T t_d].
  assert (F : feqb (Fin 0) (Fin 300) = false). { unfold feqb. apply reqb_false. lra. }
  rewrite F. reflexivity.
Qed.
Print Assumptions C04_last_temperature_refuted.

(* Variable-pressure phases: the standard-state properties are always fresh, the reference-state ones
   under the same condition as above. *)
Theorem C04_standard_states : forall D (eval : D -> fp -> nat -> R * R * R) evals d h,
  finite_Ts h ->
  let s := fold_left (v_step eval evals) h (v_init d) in
  v_ss (v_update eval evals s) = evals (vD_after d h) (vT_after (Fin (1 / 1000)) h) (vP_after (Fin 101325) h).
Proof.
  intros D eval evals d h F s.
  assert (J : v_inv evals s). { apply v_run_inv; auto. split; [eexists; reflexivity|]. exists 0, (-1), 0%nat. cbn. rewrite !Rmult_0_l, !Rplus_0_r. auto. }
  rewrite (v_update_fresh eval evals s J). unfold s. destruct (v_run_obs eval evals h (v_init d)) as (A & B & C). cbn zeta in A, B, C. rewrite A, B, C. reflexivity.
Qed.
Print Assumptions C04_standard_states.

Theorem C04_standard_states_reference : forall D (eval : D -> fp -> nat -> R * R * R) evals d h1 h2 T0 T,
  vno_read h2 ->
  let h := h1 ++ VRead :: h2 in
  let read h := v_ref (v_update eval evals (fold_left (v_step eval evals) h (v_init d))) in
  vT_after (Fin (1 / 1000)) h1 = Fin T0 -> vT_after (Fin (1 / 1000)) h = Fin T ->
  (T <> T0 + INR (vchanges h2) * (1234 / 10000) -> read h = eval (vD_after d h) (Fin T)) /\
  (T = T0 + INR (vchanges h2) * (1234 / 10000) -> read h = read h1).
Proof.
  intros D eval evals d h1 h2 T0 T N h read E0 E1.
  pose proof (v_ref_exact eval evals h1 h2 d N) as X. cbn zeta in X. fold h in X. rewrite E0, E1 in X.
  fold (read h) in X. fold (read h1) in X. rewrite shifted_fin in X. unfold feqb, shift in X. split; intros Y.
  - destruct (reqb _ _) eqn:F; auto. apply reqb_true in F. lra.
  - destruct (reqb _ _) eqn:F; auto. apply reqb_false in F. lra.
Qed.
Print Assumptions C04_standard_states_reference.

Definition ex_evals (d : R) (t p : fp) (k : nat) : R * R * R := (d, match p with Fin x => x | _ => 0 end, match t with Fin x => x | _ => 0 end).
Example ex_standard_states :
  let h := [VT (Fin 300); VRead; VData 7; VT (Fin (300 + 1234 / 10000)); VPr (Fin 5)] in
  v_ss (v_update ex_eval ex_evals (fold_left (v_step ex_eval ex_evals) h (v_init 1))) 0%nat = (7, 5, 300 + 1234 / 10000).
Proof.
  intros h. unfold h. rewrite C04_standard_states by (repeat constructor). unfold vT_after, good_T. cbn -[fltb Rplus Rdiv].
  assert (E : forall x, 0 < x -> fltb (Fin 0) (Fin x) = true) by (intros; apply rltb_true; lra). rewrite !E by lra. reflexivity.
Qed.

(* Coverage-dependent surfaces: as long as no reference-state property is read, the
   coverage-dependent part is fresh; the reference part is that of the theorems above. *)
Theorem C04_coverage : forall D C (eval : D -> fp -> nat -> R * R * R) (covdep : fp -> C -> nat -> R * R * R) d c h,
  Forall (fun o => is_refread o = false) h ->
  let s := fold_left (c_step eval covdep) h (c_init d c) in
  c_cov (c_update eval covdep s) = covdep (cT_after (Fin (1 / 1000)) h) (cC_after c h) /\
  c_t (c_update eval covdep s) = t_update eval (fold_left (t_step eval) (flat_map ref_part h) (t_init d)).
Proof.
  intros D C eval covdep d c h F s.
  assert (OK : c_ok covdep s). { apply c_run_ok; auto. split; cbn; lia. }
  split.
  - rewrite (c_update_cov_fresh eval covdep s OK). unfold s. destruct (c_run_obs eval covdep h (c_init d c)) as (A & _ & B). cbn zeta in A, B. rewrite A, B. reflexivity.
  - change (t_init d) with (c_t (c_init d c)). rewrite <- (c_run_t eval covdep h (c_init d c)). fold s.
    unfold c_update. cbn [c_t]. unfold c_update_cov. destruct (_ || _); reflexivity.
Qed.
Print Assumptions C04_coverage.

(* Reading a reference-state property after a temperature change hides that change from the
   coverage-dependent part. *)
Definition ex_cov (t : fp) (c : R) (k : nat) : R * R * R := (0, c * match t with Fin x => x | _ => 0 end, 0).
Theorem C04_coverage_refuted : exists h h',
  h' = filter (fun o => negb (is_refread o)) h /\
  cT_after (Fin (1 / 1000)) h = Fin 500 /\
  c_cov (c_update ex_eval ex_cov (fold_left (c_step ex_eval ex_cov) h (c_init 1 2))) 0%nat = (0, 2 * 300, 0) /\
  c_cov (c_update ex_eval ex_cov (fold_left (c_step ex_eval ex_cov) h' (c_init 1 2))) 0%nat = (0, 2 * 500, 0).
Proof.
  assert (E : forall x, 0 < x -> good_T (Fin x) = true) by (intros; apply rltb_true; lra).
  assert (F : feqb (Fin 0) (Fin 300) = false) by (apply reqb_false; lra).
  assert (G : feqb (Fin 300) (Fin 500) = false) by (apply reqb_false; lra).
  assert (H : feqb (Fin 500) (Fin 500) = true) by (apply reqb_true; lra).
  exists [CT (Fin 300); CRead; CT (Fin 500); CReadRef]. eexists. split; [reflexivity|]. split.
  { unfold cT_after. cbn -[good_T]. rewrite !E by lra. reflexivity. }
  split.
  - cbn -[good_T feqb Rmult]. rewrite !E by lra. unfold c_update, c_update_cov, t_update. cbn -[good_T feqb Rmult].
    repeat first [rewrite F | rewrite G | rewrite H | rewrite E by lra | progress cbn -[good_T feqb Rmult]]. reflexivity.
  - cbn [filter is_refread negb]. destruct (C04_coverage R R ex_eval ex_cov 1 2 [CT (Fin 300); CRead; CT (Fin 500)]) as [X _]; [repeat constructor|].
    cbn zeta in X. rewrite X. unfold cT_after. cbn -[good_T]. rewrite !E by lra. reflexivity.
Qed.
Print Assumptions C04_coverage_refuted.

(* The Debye-Hueckel coefficient: with a constant set, every read returns it; with the water model,
   after the cache was cleared and as long as no evaluation threw, reads return the model's value. *)
Theorem C04_debye : forall adebye s h,
  (forall a, 0 <= a -> (forall o, In o h -> match o with HSet _ => False | _ => True end) ->
     forall T P, fst (h_read adebye (fold_left (h_step adebye) h (h_setA s a)) T P) = Ok a) /\
  (forall a, a < 0 -> (forall o, In o h -> match o with HSet _ => False | HClear => True | HRead T P => exists v, adebye T P = Ok v end) ->
     forall T P, fst (h_read adebye (fold_left (h_step adebye) h (h_step adebye (h_setA s a) HClear)) T P) = adebye T P).
Proof.
  intros adebye s h. split; intros a Ha O.
  - assert (X : forall s, h_A s = Some a -> h_water s = false -> h_A (fold_left (h_step adebye) h s) = Some a /\ h_water (fold_left (h_step adebye) h s) = false).
    { clear s Ha. induction h as [|o h IH]; intros s A B; cbn; auto.
      destruct (h_const_inv adebye a s o A B (O o (or_introl eq_refl))). apply IH; auto. intros o' I. apply O. right; auto. }
    unfold h_setA. destruct (rltb a 0) eqn:R; [apply rltb_true in R; lra|].
    destruct (X (HM (Some a) false (h_c s)) eq_refl eq_refl) as [A B]. intros T P. unfold h_read. rewrite A, B. destruct (validate _ _) as [[] c]; reflexivity.
  - assert (X : forall s, h_good adebye s -> h_good adebye (fold_left (h_step adebye) h s)).
    { clear s Ha. induction h as [|o h IH]; intros s A; cbn; auto. apply IH; [intros o' I; apply O; right; auto|]. apply h_water_step; auto. apply O. left; auto. }
    intros T P. apply h_water_read, X. unfold h_setA. destruct (rltb a 0) eqn:R; [|apply rltb_false in R; lra]. split; auto. intros T' P' Y. discriminate.
Qed.
Print Assumptions C04_debye.

Definition ex_water (T P : fp) : outcome R := match T with Fin t => if rltb t 273 then Err else Ok (t / 300) | _ => Err end.
Example ex_debye :
  fst (h_read ex_water (fold_left (h_step ex_water) [HRead (Fin 300) (Fin 1); HRead (Fin 600) (Fin 1)] (h_step ex_water (h_setA h_init (-1)) HClear)) (Fin 300) (Fin 1)) = Ok 1.
Proof.
  destruct (C04_debye ex_water h_init [HRead (Fin 300) (Fin 1); HRead (Fin 600) (Fin 1)]) as [_ H]. rewrite H; [|lra|].
  - cbn. destruct (rltb 300 273) eqn:E; [apply rltb_true in E; lra|]. f_equal. lra.
  - intros o [<-|[<-|[]]]; cbn; [destruct (rltb 300 273) eqn:E|destruct (rltb 600 273) eqn:E]; try (apply rltb_true in E; lra); eauto.
Qed.

(* Without clearing: switching from a constant to the water model is not noticed at the state last
   read; neither is an evaluation that threw; and without A_Debye in the input the coefficient is
   read uninitialised. *)
Theorem C04_debye_refuted :
  (exists h T P, fst (h_read ex_water (fold_left (h_step ex_water) h h_init) T P) = Ok 5 /\ ex_water T P = Ok 2 /\
     exists h', h = h' ++ [HSet (-1)]) /\
  (exists h T P, ex_water T P = Err /\ fst (h_read ex_water (fold_left (h_step ex_water) (h ++ [HRead T P]) h_init) T P) = Ok 1 /\ In (HSet (-1)) h) /\
  (forall T P, fst (h_read ex_water h_init T P) = UB).
Proof.
  assert (A : rltb (-1) 0 = true) by (apply rltb_true; lra). assert (B : rltb 5 0 = false) by (apply rltb_false; lra).
  assert (C : forall x, 300 <= x -> rltb x 273 = false) by (intros; apply rltb_false; lra). assert (D : rltb 200 273 = true) by (apply rltb_true; lra).
  assert (E : forall x, feqb (Fin x) (Fin x) = true) by (intros; apply reqb_true; reflexivity).
  assert (F : feqb (Fin 300) (Fin 200) = false) by (apply reqb_false; lra).
  assert (N : forall x, feqb NaN x = false) by (intros []; reflexivity).
  split; [|split].
  - exists ([HSet 5; HRead (Fin 600) (Fin 1)] ++ [HSet (-1)]), (Fin 600), (Fin 1). split; [|split; [cbn; rewrite C by lra; f_equal; lra|eauto]].
    cbn [app fold_left h_step]. unfold h_setA at 2. rewrite B. unfold h_read at 2. cbn [validate h_c cval0 k1 k2 h_init]. rewrite N. cbn.
    unfold h_setA. rewrite A. unfold h_read. cbn. rewrite !E. reflexivity.
  - exists [HSet (-1); HRead (Fin 300) (Fin 1)], (Fin 200), (Fin 1). split; [cbn; rewrite D; reflexivity|]. split; [|left; reflexivity].
    cbn [app fold_left h_step]. unfold h_setA. rewrite A. unfold h_read at 3. cbn [validate h_c cval0 k1 k2 h_init]. rewrite N. cbn [andb ex_water h_water].
    rewrite C by lra. cbn. unfold h_read at 2. cbn. rewrite F. cbn. rewrite D. unfold h_read. cbn. rewrite !E. cbn. f_equal. lra.
  - intros T P. unfold h_read. cbn [validate h_c cval0 k1 k2 h_init]. rewrite N. reflexivity.
Qed.
Print Assumptions C04_debye_refuted.

(* The composition counter: over any calls on a phase, of which no setConcentrations threw, states
   with the same number have the same composition. *)
Theorem C04_counter : forall mw kd c ops,
  run_clean mw kd c ops ->
  forall a b, In a (run_states mw kd c ops) -> In b (run_states mw kd c ops) ->
  CompModel.s_num a = CompModel.s_num b -> composition a = composition b.
Proof. intros mw kd c ops H a b A B E. destruct (run_counter mw kd ops c H a b A B E) as (X & Y & Z). unfold composition. congruence. Qed.
Print Assumptions C04_counter.

Import CompModel.
(* A setConcentrations that throws changes the composition under the same number. *)
Theorem C04_counter_refuted : exists c c',
  c = init_state [2; 3] Compressible /\ c' = snd (step [2; 3] Compressible c (SetC [Fin 0; Fin 0])) /\
  s_num c = s_num c' /\ getMassFractions c <> getMassFractions c'.
Proof.
  exists (init_state [2; 3] Compressible), (snd (step [2; 3] Compressible (init_state [2; 3] Compressible) (SetC [Fin 0; Fin 0]))).
  split; [reflexivity|]. split; [reflexivity|].
  assert (Z : fltb (Fin 0) (Fin 0) = false) by (apply rltb_false; lra).
  assert (Z' : fltb (Fin 0) (Fin (0 + 0 * 2 + 0 * 3)) = false) by (apply rltb_false; lra).
  cbn [step]. unfold setConcentrations. cbn [is_compressible negb map]. unfold fmax. rewrite Z.
  unfold andthen, setDensity. cbn [is_compressible negb map2]. unfold fsum, fmul. cbn [fold_left fadd]. rewrite Z'. cbn.
  split; [reflexivity|]. intros X. injection X. lra.
Qed.
Print Assumptions C04_counter_refuted.

(* Rates of progress of a gas, over any interleaving of phase calls, multipliers, changed reactions,
   invalidations and reads: each read returns the rates of the present state. *)
Section GasRates.
Context {W KF M Q R' : Type} (mw : list R) (nus : list (list R)) (g0 : R -> list R) (p0 : R)
  (conc : st -> Q) (arrhenius : nat -> bool) (kf : nat -> W -> st -> outcome KF) (rop : list KF -> M -> Q -> list R -> R').
Notation kc := (gas_rkcn nus g0 p0).
Notation bk := (bulk (list R) Q W KF M R').
Definition pnum (c : st) : Z := Z.of_nat (s_num c).
Definition rates_read (s : st * bk) : outcome R' := b_read s_T s_D pnum kc conc (eval_keys arrhenius) kf rop s.
Definition gcall_step (s : st * bk) (o : gcall W M) : st * bk :=
  match o with
  | GPhase o => (snd (step mw Compressible (fst s) o), snd s)
  | GMult m => b_step s_T s_D pnum kc conc (eval_keys arrhenius) kf rop s (BMult m)
  | GModify j w => b_step s_T s_D pnum kc conc (eval_keys arrhenius) kf rop s (BModify j w)
  | GInvalidate => b_step s_T s_D pnum kc conc (eval_keys arrhenius) kf rop s BInvalidate
  | GRead => b_step s_T s_D pnum kc conc (eval_keys arrhenius) kf rop s BRead
  end.
Definition phase_ops (h : list (gcall W M)) : list op := flat_map (fun o => match o with GPhase o => [o] | _ => [] end) h.
Definition mult_after (m : M) (h : list (gcall W M)) : M := fold_left (fun m o => match o with GMult m' => m' | _ => m end) h m.
Definition params_after (w : nat -> W) (h : list (gcall W M)) (i : nat) : W :=
  fold_left (fun w o => match o with GModify j w' => if Nat.eqb i j then w' else w | _ => w end) h (w i).

Fixpoint to_bops (c : st) (h : list (gcall W M)) : list (bop st W M) :=
  match h with
  | [] => []
  | GPhase o :: h => BState (snd (step mw Compressible c o)) :: to_bops (snd (step mw Compressible c o)) h
  | GMult m :: h => BMult m :: to_bops c h
  | GModify j w :: h => BModify j w :: to_bops c h
  | GInvalidate :: h => BInvalidate :: to_bops c h
  | GRead :: h => BRead :: to_bops c h
  end.
Lemma to_bops_run h : forall s, fold_left gcall_step h s = fold_left (b_step s_T s_D pnum kc conc (eval_keys arrhenius) kf rop) (to_bops (fst s) h) s.
Proof. induction h as [|o h IH]; intros [c s]; auto. destruct o; cbn [to_bops fold_left]; rewrite IH; reflexivity. Qed.
Lemma to_bops_states h : forall c, bstates c (to_bops c h) = run_states mw Compressible c (phase_ops h).
Proof. induction h as [|o h IH]; intros c; auto. destruct o; cbn; auto. f_equal. apply IH. Qed.
Lemma to_bops_obs h : forall c, bP_after c (to_bops c h) = run mw Compressible c (phase_ops h) /\
  (forall m, bM_after m (to_bops c h) = mult_after m h) /\ (forall w i, bW_after w (to_bops c h) i = params_after w h i).
Proof.
  induction h as [|o h IH]; intros c; [auto|]. unfold bP_after, bM_after, bW_after, mult_after, params_after in *.
  destruct o; cbn [to_bops phase_ops flat_map app]; destruct (IH c) as (A & B & C); try (split; [exact A|]; split; [intros; apply B|intros; apply C]).
  - destruct (IH (snd (step mw Compressible c o))) as (A' & B' & C'). split; [exact A'|]. split; [intros; apply B'|intros; apply C'].
  - split; [exact A|]. split; [intros; apply B|]. intros w' i. exact (C (set_at w' j w) i).
Qed.

Theorem C04_gas_rates : forall c0 n k q v w m r h,
  let s := fold_left gcall_step h (c0, b_init n k q v w m r) in
  let c := run mw Compressible c0 (phase_ops h) in
  run_clean mw Compressible c0 (phase_ops h) ->
  Forall physical (run_states mw Compressible c0 (phase_ops h)) ->
  0 < p0 -> (forall nu T, In nu nus -> length nu = length (g0 T)) ->
  (* concentrations are a function of temperature, density and composition *)
  (forall a b, s_T a = s_T b -> s_D a = s_D b -> composition a = composition b -> conc a = conc b) ->
  (* rate constants of the two kinds are functions of temperature, or of temperature, molar density and composition *)
  (forall i w a b, s_T a = s_T b -> (arrhenius i = false -> molarDensity a = molarDensity b /\ composition a = composition b) -> kf i w a = kf i w b) ->
  (forall i w a, exists v, kf i w a = Ok v) ->
  fst s = c /\ exists vals, length vals = n /\
    (forall i x, nth_error vals i = Some x -> kf i (params_after w h i) c = Ok x) /\
    rates_read s = Ok (rop vals (mult_after m h) (conc c) (kc c)).
Proof.
  intros c0 n k q v w m r h s c CL PH P0 LN HC HK HT.
  set (vs := run_states mw Compressible c0 (phase_ops h)).
  assert (PHv : forall x, In x vs -> physical x) by (apply Forall_forall; exact PH).
  pose proof (run_counter mw Compressible (phase_ops h) c0 CL) as CNT. fold vs in CNT.
  assert (COMP : forall a b, In a vs -> In b vs -> s_num a = s_num b -> composition a = composition b).
  { intros a b A B E. destruct (CNT a b A B E) as (X & Y & Z). unfold composition. congruence. }
  assert (Hkc : forall a b, In a vs -> In b vs -> feqb (s_T a) (s_T b) = true -> feqb (s_D a) (s_D b) = true -> kc a = kc b).
  { intros a b A B E1 E2. apply feqb_eq in E1. apply feqb_eq in E2. unfold gas_rkcn. apply map_ext_in. intros nu I.
    destruct (PHv a A) as (T & D & m1 & Q1 & Q2 & Q3 & Q4 & Q5 & Q6). destruct (PHv b B) as (T' & D' & m2 & S1 & S2 & S3 & S4 & S5 & S6).
    unfold gas_pressure. rewrite <- E1, Q1, Q2, Q3, S2, S3. cbn [toR]. pose proof Units.Proofs.GasConstant_pos as G.
    rewrite !ig_rkcn_T; auto; try (apply Rmult_lt_0_compat; auto; try apply Rmult_lt_0_compat; auto; apply Rdiv_lt_0_compat; auto). }
  assert (Hconc : forall a b, In a vs -> In b vs -> feqb (s_T a) (s_T b) = true -> feqb (s_D a) (s_D b) = true -> pnum a = pnum b -> conc a = conc b).
  { intros a b A B E1 E2 E3. apply feqb_eq in E1. apply feqb_eq in E2. apply HC; auto. apply COMP; auto. unfold pnum in E3. lia. }
  assert (Hkf : forall i w a b, In a vs -> In b vs -> same_keys (eval_keys arrhenius i a) (eval_keys arrhenius i b) = true -> kf i w a = kf i w b).
  { intros i w' a b A B E. unfold eval_keys in E. destruct (arrhenius i) eqn:AR; cbn in E.
    - rewrite andb_true_r in E. apply feqb_eq in E. apply HK; auto. congruence.
    - repeat (apply andb_prop in E; let X := fresh in destruct E as [X E]; apply feqb_eq in X). apply HK; auto. intros _. split; auto.
      apply COMP; auto. injection H1. apply INR_eq. }
  pose proof (read_ok s_T s_D pnum kc conc (eval_keys arrhenius) kf rop vs Hkc Hconc Hkf (fun i w a _ => HT i w a) (to_bops c0 h) c0 n k q v w m r) as X.
  cbn zeta in X. rewrite to_bops_states in X. specialize (X (incl_refl _)).
  pose proof (to_bops_run h (c0, b_init n k q v w m r)) as TB. cbn [fst] in TB. rewrite <- TB in X. fold s in X.
  destruct (to_bops_obs h c0) as (A & B & C). rewrite A, B in X. fold c in X. destruct X as [X1 (vals & L & RA & RD)].
  split; auto. exists vals. split; auto. split; [|exact RD].
  intros i x E. assert (G : forall j l, rates_at kf j (bW_after w (to_bops c0 h)) c l -> forall i x, nth_error l i = Some x -> kf (j + i)%nat (params_after w h (j + i)%nat) c = Ok x).
  { clear - C. intros j l. revert j. induction l as [|y l IH]; intros j RA i x E; [destruct i; discriminate|]. destruct RA as [RA1 RA2].
    destruct i; cbn in E.
    - injection E as ->. rewrite Nat.add_0_r, <- C. exact RA1.
    - replace (j + S i)%nat with (S j + i)%nat by lia. apply IH; auto. }
  exact (G 0%nat vals RA i x E).
Qed.
End GasRates.
Print Assumptions C04_gas_rates.

(* A gas of two species with the reaction A <=> 2 B, one rate of each kind. *)
Definition ex_kf (i : nat) (w : R) (c : st) : outcome R :=
  Ok (match i with O => w * toR (s_T c) | _ => w * toR (molarDensity c) end).
Lemma ex_fsum (a b : R) : fsum [Fin a; Fin b] = Fin (0 + a + b).
Proof. reflexivity. Qed.
Example ex_gas_rates :
  let h := [GPhase (SetT (Fin 300)); GRead; GMult 2; GPhase (SetX [Fin 1; Fin 3]); GRead; GModify 0 7; GPhase (SetD (Fin 5))] in
  let s := fold_left (gcall_step [2; 1] [[-1; 2]] (fun T => [T; 1]) 101325 s_YM (fun i => Nat.eqb i 0) ex_kf (fun v m q k => (v, m, q, k)))
             h (init_state [2; 1] Compressible, b_init 2 [] [] 0 (fun _ => 1) 1 ([], 1, [], [])) in
  exists vals, length vals = 2%nat /\ nth_error vals 0 = Some (7 * 300) /\
    rates_read [[-1; 2]] (fun T => [T; 1]) 101325 s_YM (fun i => Nat.eqb i 0) ex_kf (fun v m q k => (v, m, q, k)) s =
      Ok (vals, 2, s_YM (fst s), gas_rkcn [[-1; 2]] (fun T => [T; 1]) 101325 (fst s)).
Proof.
  intros h s.
  assert (E : forall x, 0 < x -> fltb (Fin 0) (Fin x) = true) by (intros; apply rltb_true; lra).
  assert (Z : forall a b, b <> 0 -> fdiv (Fin a) (Fin b) = Fin (a / b)). { intros. cbn. destruct (reqb b 0) eqn:Q; auto. apply reqb_true in Q. contradiction. }
  assert (M0 : forall x, 0 < x -> fmax (Fin x) (Fin 0) = Fin x). { intros x X. unfold fmax. replace (fltb (Fin x) (Fin 0)) with false; auto. symmetry. apply rltb_false. lra. }
  set (c0 := init_state [2; 1] Compressible).
  assert (X0 : physical c0). { unfold c0, init_state. rewrite Z by lra. exists (1 / 1000), (1 / 1000), (1 / (1 / 2)). cbn. repeat split; lra. }
  set (c1 := with_T c0 (Fin 300)).
  assert (S1 : step [2; 1] Compressible c0 (SetT (Fin 300)) = (Ok tt, c1)). { cbn [step]. unfold setTemperature. rewrite E by lra. reflexivity. }
  assert (X1 : physical c1). { unfold c1, c0, init_state. rewrite Z by lra. exists 300, (1 / 1000), (1 / (1 / 2)). cbn. repeat split; lra. }
  set (c2 := snd (step [2; 1] Compressible c1 (SetX [Fin 1; Fin 3]))).
  assert (X2 : physical c2).
  { unfold c2. cbn [step]. unfold setMoleFractions. cbn [map]. rewrite !M0 by lra. cbn [map2 fmul]. rewrite !ex_fsum, !Z by lra.
    exists 300, (1 / 1000), ((0 + 2 * 1 + 1 * 3) / (0 + 1 + 3)). cbn. repeat split; lra. }
  assert (S3 : step [2; 1] Compressible c2 (SetD (Fin 5)) = (Ok tt, with_D c2 (Fin 5))). { cbn [step]. unfold setDensity. cbn [is_compressible negb]. rewrite E by lra. reflexivity. }
  assert (X3 : physical (with_D c2 (Fin 5))). { destruct X2 as (T & D & m & A & B & C & P1 & P2 & P3). exists T, 5, m. cbn. repeat split; auto; lra. }
  assert (RUN : run [2; 1] Compressible c0 (phase_ops h) = with_D c2 (Fin 5)).
  { unfold run, phase_ops, h. cbn [flat_map app fold_left]. rewrite S1. cbn [snd]. fold c2. rewrite S3. reflexivity. }
  destruct (C04_gas_rates [2; 1] [[-1; 2]] (fun T => [T; 1]) 101325 s_YM (fun i => Nat.eqb i 0) ex_kf (fun v m q k => (v, m, q, k))
             c0 2 [] [] 0 (fun _ => 1) 1 ([], 1, [], []) h) as [A (vals & L & B & C)].
  - unfold phase_ops, h. cbn [flat_map app run_clean]. rewrite S1. cbn [snd]. fold c2. cbn [conc_throws]. auto.
  - unfold phase_ops, h. cbn [flat_map app run_states]. rewrite S1. cbn [snd]. fold c2. rewrite S3. cbn [snd]. repeat constructor; auto.
  - lra.
  - intros nu T [<-|[]]. reflexivity.
  - intros a b _ _ Q. unfold composition in Q. congruence.
  - intros i w a b T Q. unfold ex_kf. destruct i; [rewrite T; reflexivity|]. destruct Q as [Q _]; auto. rewrite Q. reflexivity.
  - intros i w a. eexists. reflexivity.
  - exists vals. split; auto. rewrite RUN in *. assert (A' : fst s = with_D c2 (Fin 5)) by exact A. split; [|rewrite A'; exact C].
    destruct vals as [|x l]; [discriminate|]. specialize (B 0%nat x eq_refl). cbn in B. unfold params_after, h in B. cbn in B. injection B as <-. reflexivity.
Qed.

(* In an incompressible phase a pressure change leaves temperature, density and composition alone, and
   the old equilibrium constants are used. *)
Definition ex_ss_kc (c : st) : R := ss_rkcn [-1; 1] [0; 0] [1; 2] (GasConstant * toR (s_T c)) (toR (s_P c)) 101325.
Theorem C04_pressure_refuted : exists c c' h,
  c = init_state [1; 1] (SolidSoln [1; 2]) /\ step [1; 1] (SolidSoln [1; 2]) c (SetP (Fin 0)) = (Ok tt, c') /\
  h = [BRead; BState c'] /\ ex_ss_kc c' <> ex_ss_kc c /\
  b_read (Q := unit) (KF := unit) (M := unit) s_T s_D pnum ex_ss_kc (fun _ => tt) (fun _ c => [s_T c]) (fun _ (_ : unit) _ => Ok tt) (fun _ _ _ k => k)
    (fold_left (b_step s_T s_D pnum ex_ss_kc (fun _ => tt) (fun _ c => [s_T c]) (fun _ (_ : unit) _ => Ok tt) (fun _ _ _ k => k))
       h (c, b_init 1 0 tt tt (fun _ => tt) tt 0)) = Ok (ex_ss_kc c).
Proof.
  set (c := init_state [1; 1] (SolidSoln [1; 2])).
  assert (Ec : c = mk_st (Fin (1 / 1000)) (Fin (1 / 1)) (Fin 101325) [Fin 1; Fin 0] [Fin (1 / 1); Fin 0] (Fin (1 / (1 / 1))) 0).
  { unfold c, init_state. cbn. destruct (reqb (1 / 1) 0) eqn:Q; auto. apply reqb_true in Q. lra. }
  set (c' := mk_st (Fin (1 / 1000)) (Fin (1 / 1)) (Fin 0) [Fin 1; Fin 0] [Fin (1 / 1); Fin 0] (Fin (1 / (1 / 1))) 0).
  assert (S : step [1; 1] (SolidSoln [1; 2]) c (SetP (Fin 0)) = (Ok tt, c')).
  { rewrite Ec. cbn [step]. unfold setPressure, calcDensity, with_P, mean_X. cbn [s_mmw s_YM map map2 fmul]. rewrite ex_fsum. cbn [fmul].
    unfold fdiv. replace (reqb (1 / (1 / 1) * (0 + 1 / 1 * 1 + 0 * 2)) 0) with false by (symmetry; apply reqb_false; lra).
    unfold assignDensity. replace (fltb (Fin 0) (Fin (1 / (1 / 1) / (1 / (1 / 1) * (0 + 1 / 1 * 1 + 0 * 2))))) with true.
    - replace (1 / (1 / 1) / (1 / (1 / 1) * (0 + 1 / 1 * 1 + 0 * 2))) with (1 / 1) by (field; lra). reflexivity.
    - symmetry. apply rltb_true. apply Rdiv_lt_0_compat; lra. }
  exists c, c', [BRead; BState c']. split; [reflexivity|]. split; [exact S|]. split; [reflexivity|].
  pose proof Units.Proofs.GasConstant_pos as G. split.
  - unfold ex_ss_kc, ss_rkcn, rkcn, ss_mu0. rewrite Ec. unfold c'. cbn [s_T s_P toR map2 dot fold_right].
    assert (B1 : 1 < BigNumber) by (unfold BigNumber; lra).
    set (RT := GasConstant * (1 / 1000)). assert (P : 0 < RT) by (unfold RT; lra).
    replace ((-1 * (RT * 0 + (101325 - 101325) * 1) + (1 * (RT * 0 + (101325 - 101325) * 2) + 0)) * (1 / RT) - (-1 + (1 + 0)) * ln 1) with 0 by (field; lra).
    replace ((-1 * (RT * 0 + (0 - 101325) * 1) + (1 * (RT * 0 + (0 - 101325) * 2) + 0)) * (1 / RT) - (-1 + (1 + 0)) * ln 1) with (- (101325 / RT)) by (field; lra).
    rewrite exp_0. rewrite (Rmin_left 1) by lra. intros Q. pose proof (Rmin_l (exp (- (101325 / RT))) BigNumber) as L. rewrite Q in L.
    assert (exp (- (101325 / RT)) < exp 0). { apply exp_increasing. assert (0 < 101325 / RT) by (apply Rdiv_lt_0_compat; lra). lra. }
    rewrite exp_0 in H. lra.
  - rewrite Ec. unfold c'. generalize ex_ss_kc. intros kc.
    assert (E : forall x, feqb (Fin x) (Fin x) = true) by (intros; apply reqb_true; reflexivity).
    assert (N : forall x, feqb NaN x = false) by (intros []; reflexivity).
    cbn -[feqb Rdiv Rinv Rmult Rplus]. unfold updateROP. cbn -[feqb Rdiv]. rewrite !N. cbn -[feqb Rdiv].
    unfold b_read, updateROP. cbn -[feqb Rdiv]. rewrite !E. cbn -[feqb Rdiv]. reflexivity.
Qed.
Print Assumptions C04_pressure_refuted.

(* A rate whose evaluation throws: the second read returns the rate of the state before. *)
Definition ex_throw (i : nat) (w : unit) (p : R) : outcome R := if rltb p 273 then Err else Ok p.
Definition ex_bulk (h : list (bop R unit unit)) : R * bulk unit unit unit R unit (list R) :=
  fold_left (b_step (fun p => Fin p) (fun _ => Fin 1) (fun _ => 0%Z) (fun _ => tt) (fun _ => tt) (fun _ p => [Fin p]) ex_throw (fun v _ _ _ => v))
    h (300, b_init 1 tt tt 0 (fun _ => tt) tt []).
Definition ex_bread := b_read (fun p => Fin p) (fun _ => Fin 1) (fun _ => 0%Z) (fun _ => tt) (fun _ => tt) (fun _ p => [Fin p]) ex_throw (M := unit) (fun v _ _ _ => v).
Theorem C04_rates_after_exception_refuted : exists h,
  fst (ex_bulk h) = 200 /\ ex_throw 0 tt 200 = Err /\
  ex_bread (ex_bulk h) = Err /\ ex_bread (ex_bulk (h ++ [BRead])) = Ok [300].
Proof.
  exists [BRead; BState 200].
  assert (A : rltb 300 273 = false) by (apply rltb_false; lra). assert (B : rltb 200 273 = true) by (apply rltb_true; lra).
  assert (C : feqb (Fin 300) (Fin 200) = false) by (apply reqb_false; lra).
  assert (E : forall x, feqb (Fin x) (Fin x) = true) by (intros; apply reqb_true; reflexivity).
  assert (N : forall x, feqb NaN x = false) by (intros []; reflexivity).
  split; [reflexivity|]. split; [unfold ex_throw; rewrite B; reflexivity|].
  assert (X : ex_bulk [BRead; BState 200] = (200, BK (CV (Fin 300) (Fin 1) 0%Z tt) tt tt [([Fin 300], 300)] (fun _ => tt) tt true [300])).
  { unfold ex_bulk. cbn -[feqb]. unfold updateROP. cbn -[feqb]. rewrite !N. cbn -[feqb]. unfold ex_throw. rewrite A. reflexivity. }
  split.
  - rewrite X. unfold ex_bread, b_read, updateROP. cbn -[feqb]. rewrite !C. cbn -[feqb]. unfold ex_throw. rewrite B. reflexivity.
  - unfold ex_bulk. rewrite fold_left_app. fold (ex_bulk [BRead; BState 200]). rewrite X. cbn -[feqb]. unfold updateROP. cbn -[feqb]. rewrite !C. cbn -[feqb].
    unfold ex_throw at 1. rewrite B. cbn -[feqb]. unfold ex_bread, b_read, updateROP. cbn -[feqb]. rewrite !E. cbn -[feqb]. reflexivity.
Qed.
Print Assumptions C04_rates_after_exception_refuted.

Example ex_plasma : let h := [LTe (Fin 9000); LT (Fin 300); LRead; LData 7; LTe (Fin 10000); LRead; LT (Fin 400)] in
  let s := fold_left (p_step ex_eval 1%nat) h (p_init 1 (Fin 300)) in
  g_v (p_gas (p_update ex_eval 1%nat s)) 1%nat = (7, 7 + 1, 10000) /\ g_v (p_gas (p_update ex_eval 1%nat s)) 2%nat = (7, 7 + 2, 400).
Proof.
  intros h s. assert (E : forall x, 0 < x -> good_T (Fin x) = true) by (intros; apply rltb_true; lra).
  pose proof (fun k => C04_plasma R ex_eval 1 1 (Fin 300) h ltac:(discriminate) k) as H. fold s in H.
  split; [destruct (H 1%nat) as [A _]|destruct (H 2%nat) as [A _]]; rewrite A; unfold lT_after, h; cbn -[good_T Rplus]; rewrite ?E by lra; reflexivity.
Qed.
