(** C69: rates at an interface. *)
From Coq Require Import Reals ZArith String List Bool Lra Lia.
From Verif Require Import Base.Fp Base.RSum Units.Model Excess.Proofs Interface.Model Interface.Spec.
Import ListNotations.
Open Scope R_scope.

(** ** Coverage dependence *)

Lemma add_deps_spec st deps : forall r r', add_deps st deps r = Some r' ->
  i_cov r' = i_cov r ++ map d_name deps /\ i_ac r' = i_ac r ++ map d_a deps
  /\ i_mc r' = i_mc r ++ map d_m deps /\ i_lindep r' = i_lindep r ++ map (fun d => is_lin (d_E d)) deps
  /\ (exists es, i_ec r' = i_ec r ++ es /\ Forall2 (fun d e => energies (d_E d) = Some e) deps es)
  /\ (deps <> [] -> i_indices r' = []) /\ (deps = [] -> r' = r)
  /\ i_comp r' = (if st then i_comp r else match deps with [] => i_comp r | _ => true end).
Proof.
  induction deps as [|d rest IH]; intros r r' H; cbn in H.
  - injection H as <-. cbn. rewrite !app_nil_r. repeat split; try tauto; [|now destruct st].
    exists []. split; [now rewrite app_nil_r|constructor].
  - destruct (energies (d_E d)) as [e|] eqn:Ee; [|discriminate].
    unfold add_cov in H. cbn [i_cov i_ac i_ec i_mc i_lindep i_indices i_comp] in H.
    destruct (existsb _ _); [discriminate|].
    apply IH in H. cbn [i_cov i_ac i_ec i_mc i_lindep i_indices i_comp map] in H.
    destruct H as (H1 & H2 & H3 & H4 & (es & H5 & H5') & H6 & H7 & H8).
    rewrite H1, H2, H3, H4, <- !app_assoc. cbn [app]. repeat split; try tauto.
    + exists (e :: es). split; [rewrite H5, <- app_assoc; reflexivity|]. now constructor.
    + intros _. destruct rest as [|d2 rest2]; [now rewrite (H7 eq_refl)|apply H6; discriminate].
    + discriminate.
    + rewrite H8. destruct st; [reflexivity|]. now destruct rest.
Qed.

Lemma nth_at {A B} (f : A -> B) pre x suf d : nth (length pre) (map f (pre ++ x :: suf)) d = f x.
Proof. rewrite map_app, app_nth2; rewrite map_length; [|lia]. now rewrite Nat.sub_diag. Qed.
Lemma coverage_pos species theta sp i : find_pos sp species = Some i -> length theta = length species ->
  nth i theta 0 = coverage_of species theta sp.
Proof.
  revert theta i. induction species as [|s ss IH]; intros theta i H L; [discriminate|].
  destruct theta as [|t ts]; [discriminate|]. cbn in H |- *. destruct (String.eqb s sp).
  - injection H as <-. reflexivity.
  - destruct (find_pos sp ss) as [j|] eqn:E; [|discriminate]. injection H as <-. cbn. apply IH; [reflexivity || exact E|cbn in L; lia].
Qed.
Lemma energies_eval E e x : energies E = Some e ->
  (if is_lin E then nth 1 e 0 * x else poly4 x e) = energy_at E x.
Proof.
  destruct E as [c|es]; cbn [is_lin energies energy_at].
  - intros H; injection H as <-. reflexivity.
  - destruct ((1 <=? length es)%nat && (length es <=? 4)%nat) eqn:L; [|discriminate].
    apply andb_prop in L. destruct L as [L1 L2]. apply Nat.leb_le in L1, L2.
    intros H; injection H as <-.
    destruct es as [|e1 [|e2 [|e3 [|e4 [|e5 es]]]]]; cbn in L1, L2; try lia; unfold poly4; cbn; ring.
Qed.
Lemma forall2_nth {A B} (P : A -> B -> Prop) pre x suf es d :
  Forall2 P (pre ++ x :: suf) es -> P x (nth (length pre) es d).
Proof.
  revert es. induction pre as [|y pre IH]; intros es H; inversion H; subst; cbn; [assumption|]. now apply IH.
Qed.

Lemma cov_loop_sum r species theta deps : length theta = length species ->
  i_ac r = map d_a deps -> i_mc r = map d_m deps -> i_lindep r = map (fun d => is_lin (d_E d)) deps ->
  Forall2 (fun d e => energies (d_E d) = Some e) deps (i_ec r) ->
  forall suf pre ix a e m, deps = pre ++ suf -> index_from (length pre) (map d_name suf) species = Some ix ->
  cov_loop r (fun i => nth i theta 0) ix a e m
  = CVal (a + sum_of (fun d => d_a d * coverage_of species theta (d_name d)) suf)
         (e + sum_of (fun d => energy_at (d_E d) (coverage_of species theta (d_name d))) suf)
         (m + sum_of (fun d => d_m d * log_cov (coverage_of species theta (d_name d))) suf).
Proof.
  intros L Ha Hm Hl He. induction suf as [|d suf IH]; intros pre ix a e m Hd Hix; cbn in Hix.
  - injection Hix as <-. cbn [cov_loop]. rewrite !sum_of_nil, !Rplus_0_r. reflexivity.
  - destruct (find_pos (d_name d) species) as [i|] eqn:Ei; [|discriminate].
    destruct (index_from _ _ _) as [ix'|] eqn:Ex; [|discriminate]. injection Hix as <-. cbn [cov_loop].
    assert (En : nth_error (i_lindep r) (length pre) = Some (is_lin (d_E d))).
    { rewrite Hl, Hd, map_app, nth_error_app2; rewrite map_length; [|lia]. now rewrite Nat.sub_diag. }
    rewrite En, Ha, Hm. pattern deps at 1 2. rewrite Hd, !nth_at.
    rewrite (coverage_pos species theta _ i Ei L).
    assert (Ee := He). rewrite Hd in Ee. apply (forall2_nth _ _ _ _ _ []) in Ee.
    rewrite (energies_eval _ _ _ Ee).
    rewrite (IH (pre ++ [d]) ix').
    + rewrite !sum_of_cons. f_equal; ring.
    + rewrite Hd, <- app_assoc. reflexivity.
    + rewrite app_length. cbn. replace (length pre + 1)%nat with (S (length pre)) by lia. exact Ex.
Qed.
Lemma index_length k cov species ix : index_from k cov species = Some ix -> length ix = length cov.
Proof.
  revert k ix. induction cov as [|c cov IH]; intros k ix H; cbn in H; [now injection H as <-|].
  destruct (find_pos c species); [|discriminate].
  destruct (index_from (S k) cov species) as [ix'|] eqn:E; [|discriminate]. injection H as <-. cbn. f_equal. eauto.
Qed.

(* Once the dependencies are given and the species of the surface are known, the rate is the documented
   product, whatever was there before. *)
Theorem C69_coverage : forall st deps species theta r0 r1 r2, length theta = length species ->
  set_cov st deps r0 = Some r1 -> set_species species r1 = Some r2 ->
  exists a e m, cov_terms r2 (fun i => nth i theta 0) = CVal a e m
  /\ forall base T volt, 0 < T -> interface_rate base T a e m false volt = documented base T species theta deps.
Proof.
  intros st deps species theta r0 r1 r2 L H1 H2. unfold set_cov in H1. apply add_deps_spec in H1.
  cbn in H1. destruct H1 as (C1 & C2 & C3 & C4 & (es & C5 & C6) & _ & _ & _).
  unfold set_species in H2. destruct (index_from 0 (i_cov r1) species) as [ix|] eqn:Ex; [|discriminate].
  injection H2 as <-. unfold cov_terms. cbn [i_indices i_cov].
  rewrite (index_length _ _ _ _ Ex), Nat.eqb_refl. rewrite C1 in Ex.
  do 3 eexists. split.
  - apply (cov_loop_sum _ species theta deps L) with (pre := []); cbn; try assumption; try reflexivity.
    * rewrite C5. exact C6.
    * exact Ex.
  - intros base T volt HT. unfold interface_rate, documented. f_equal. rewrite !Rplus_0_l.
    clear - HT. induction deps as [|d deps IH].
    + rewrite !sum_of_nil. cbn [prod_of fold_right map]. replace (ln 10 * 0 - 0 * / T + 0) with 0 by ring. apply exp_0.
    + rewrite !sum_of_cons, prod_of_cons, <- IH. set (th := coverage_of species theta (d_name d)).
      unfold factor, Rpower. rewrite <- !exp_plus. f_equal. unfold log_cov, Tiny. field. lra.
Qed.
Print Assumptions C69_coverage.

(* Reading the dependencies back and setting them again changes nothing. *)
Definition canon (d : dep) : dep :=
  Dep (d_name d) (d_a d) (d_m d)
    (match d_E d with ELin e => ELin e
     | EPoly es => match energies (EPoly es) with Some e => EPoly (map (fun i => nth (S i) e 0) (seq 0 4)) | None => EPoly es end end).
Lemma canon_energies d e : energies (d_E d) = Some e -> energies (d_E (canon d)) = Some e /\ is_lin (d_E (canon d)) = is_lin (d_E d).
Proof.
  unfold canon. cbn [d_E]. destruct (d_E d) as [c|es]; [cbn; auto|]. intros H. rewrite H. split; [|reflexivity].
  cbn [energies] in H. destruct ((1 <=? length es)%nat && (length es <=? 4)%nat) eqn:L; [|discriminate].
  apply andb_prop in L. destruct L as [L1 L2]. apply Nat.leb_le in L1, L2. injection H as <-.
  destruct es as [|e1 [|e2 [|e3 [|e4 [|e5 es]]]]]; cbn in L1, L2; try lia; reflexivity.
Qed.
Lemma add_deps_canon st deps : forall r r', add_deps st deps r = Some r' -> add_deps st (map canon deps) r = Some r'.
Proof.
  induction deps as [|d rest IH]; intros r r' H; [exact H|]. cbn in H |- *.
  destruct (energies (d_E d)) as [e|] eqn:Ee; [|discriminate].
  destruct (canon_energies d e Ee) as [E1 E2]. cbn in E1, E2. rewrite E1, E2.
  destruct (add_cov _ _ _ _ _ _); [|discriminate]. now apply IH.
Qed.
Lemma get_cov_canon deps r : i_cov r = map d_name deps -> i_ac r = map d_a deps -> i_mc r = map d_m deps ->
  i_lindep r = map (fun d => is_lin (d_E d)) deps ->
  Forall2 (fun d e => energies (d_E d) = Some e) deps (i_ec r) -> get_cov r = map canon deps.
Proof.
  intros Hc Ha Hm Hl He. unfold get_cov. rewrite Hc, map_length.
  assert (K : forall suf pre, deps = pre ++ suf -> map (get_one r) (seq (length pre) (length suf)) = map canon suf).
  { induction suf as [|d suf IH]; intros pre Hd; [reflexivity|]. cbn [length seq map]. f_equal.
    - unfold get_one, canon. rewrite Hc, Ha, Hm, Hl. pattern deps at 1 2 3 4. rewrite Hd, !nth_at.
      assert (Ee := He). rewrite Hd in Ee. apply (forall2_nth _ _ _ _ _ []) in Ee. cbv beta in Ee.
      destruct (d_E d) as [c|es]; cbn [is_lin].
      + cbn in Ee. injection Ee as <-. reflexivity.
      + rewrite Ee. reflexivity.
    - replace (S (length pre)) with (length (pre ++ [d])) by (rewrite app_length; cbn; lia).
      apply IH. rewrite Hd, <- app_assoc. reflexivity. }
  exact (K deps [] eq_refl).
Qed.
Theorem C69_roundtrip : forall st deps r0 r1 r, set_cov st deps r0 = Some r1 ->
  exists r2, set_cov st (get_cov r1) r = Some r2 /\ i_cov r2 = i_cov r1 /\ i_ac r2 = i_ac r1
    /\ i_ec r2 = i_ec r1 /\ i_mc r2 = i_mc r1 /\ i_lindep r2 = i_lindep r1.
Proof.
  intros st deps r0 r1 r H. assert (H0 := H). unfold set_cov in H0. apply add_deps_spec in H0.
  cbn in H0. destruct H0 as (C1 & C2 & C3 & C4 & (es & C5 & C6) & _ & _ & _).
  assert (Eg : get_cov r1 = map canon deps) by (apply get_cov_canon; try assumption; now rewrite C5).
  rewrite Eg. unfold set_cov.
  assert (Hx : forall deps ra rb r', i_cov ra = i_cov rb -> add_deps st deps ra = Some r' -> exists r'', add_deps st deps rb = Some r'').
  { clear. induction deps as [|d rest IH]; intros ra rb r' E H; [cbn; eauto|]. cbn in H |- *.
    destruct (energies (d_E d)); [|discriminate]. unfold add_cov in H |- *. cbn in H |- *. rewrite <- E.
    destruct (existsb _ _); [discriminate|]. eapply IH; [|exact H]. cbn. now rewrite E. }
  unfold set_cov in H. apply add_deps_canon in H.
  destruct (Hx (map canon deps) (Irate [] [] [] [] [] (i_indices r0) (i_comp r0)) (Irate [] [] [] [] [] (i_indices r) (i_comp r)) r1 eq_refl H) as [r2 E2].
  exists r2. split; [exact E2|].
  apply add_deps_spec in E2. apply add_deps_spec in H. cbn in E2, H.
  destruct E2 as (D1 & D2 & D3 & D4 & (es2 & D5 & D6) & _). destruct H as (F1 & F2 & F3 & F4 & (es3 & F5 & F6) & _).
  rewrite D1, D2, D3, D4, D5, F1, F2, F3, F4, F5. repeat split; try reflexivity.
  clear - D6 F6. revert es3 F6. induction D6; intros es3 F6; inversion F6; subst; [reflexivity|]. f_equal; [congruence|auto].
Qed.
Print Assumptions C69_roundtrip.

(* Removing all dependencies from a rate in use turns it into NaN. *)
Theorem C69_removed_refuted : forall st deps species theta r1 r2, deps <> [] ->
  set_cov st deps new_rate = Some r1 -> set_species species r1 = Some r2 ->
  exists r3, set_cov st [] r2 = Some r3 /\ get_cov r3 = [] /\ cov_terms r3 theta = CNaN.
Proof.
  intros st deps species theta r1 r2 Hd H1 H2. unfold set_cov in H1. apply add_deps_spec in H1. destruct H1 as (C1 & _).
  cbn in C1. unfold set_species in H2. destruct (index_from 0 (i_cov r1) species) as [ix|] eqn:Ex; [|discriminate].
  injection H2 as <-. apply index_length in Ex. rewrite C1, map_length in Ex.
  eexists. split; [reflexivity|]. split; [reflexivity|]. unfold cov_terms. cbn.
  destruct ix; [destruct deps; [congruence|discriminate]|reflexivity].
Qed.
Print Assumptions C69_removed_refuted.
(* A dependence added by addCoverageDependence makes the rate read beyond the end of a vector. *)
Theorem C69_added_refuted : forall st sp a m e species theta, In sp species ->
  exists r1 r2, add_cov st sp a m e new_rate = Some r1 /\ set_species species r1 = Some r2
    /\ cov_terms r2 theta = CUndef.
Proof.
  intros st sp a m e species theta Hin. eexists. 
  assert (Hf : exists i, find_pos sp species = Some i).
  { clear - Hin. induction species as [|s ss IH]; [destruct Hin|]. cbn. destruct (String.eqb_spec s sp); [eauto|].
    destruct Hin as [|Hin]; [congruence|]. destruct (IH Hin) as [i ->]. cbn. eauto. }
  destruct Hf as [i Hi]. eexists. split; [reflexivity|]. unfold set_species. cbn [i_cov app new_rate].
  cbn [index_from]. rewrite Hi. split; [reflexivity|]. reflexivity.
Qed.
Print Assumptions C69_added_refuted.
(* Interface rates with coverage dependence are marked as such, sticking rates are not: composition
   derivatives are then computed although they are not supported. *)
Theorem C69_marked : forall deps r r1, deps <> [] -> set_cov false deps r = Some r1 ->
  i_comp r1 = true /\ forall s el, ds_cov s = false -> deriv_valid s (i_comp r1) el = false.
Proof.
  intros deps r r1 Hd H. unfold set_cov in H. apply add_deps_spec in H. destruct H as (_ & _ & _ & _ & _ & _ & _ & H).
  assert (E : i_comp r1 = true) by (rewrite H; destruct deps; [congruence|reflexivity]).
  split; [exact E|]. intros s el Hs. rewrite E. unfold deriv_valid. rewrite Hs. reflexivity.
Qed.
Print Assumptions C69_marked.
Theorem C69_sticking_marked_refuted : forall deps r1, set_cov true deps new_rate = Some r1 ->
  i_comp r1 = false /\ deriv_valid (Dsettings false false default_rtol) (i_comp r1) false = true.
Proof.
  intros deps r1 H. unfold set_cov in H. apply add_deps_spec in H. destruct H as (_ & _ & _ & _ & _ & _ & _ & H).
  cbn in H. rewrite H. split; reflexivity.
Qed.
Print Assumptions C69_sticking_marked_refuted.

(* The derivative settings read back are exchanged: writing back what was read exchanges them. *)
Theorem C69_settings : forall c e x s, set_deriv (Dinput (Some c) (Some e) (Some x)) s = Dsettings c e x
  /\ set_deriv (Dinput None None None) s = Dsettings false false default_rtol
  /\ set_deriv (Dinput (Some c) None None) s = Dsettings c (ds_elec s) (ds_rtol s)
  /\ set_deriv (Dinput None (Some e) None) s = Dsettings (ds_cov s) e (ds_rtol s).
Proof. repeat split. Qed.
Print Assumptions C69_settings.
Theorem C69_settings_refuted : forall c e x s, c <> e ->
  let s1 := set_deriv (Dinput (Some c) (Some e) (Some x)) s in
  di_cov (get_deriv s1) <> Some c /\ di_elec (get_deriv s1) <> Some e
  /\ set_deriv (get_deriv s1) s1 = Dsettings e c x /\ set_deriv (get_deriv s1) s1 <> s1.
Proof.
  intros c e x s H. cbn. repeat split; congruence.
Qed.
Print Assumptions C69_settings_refuted.

(** ** Charge transfer *)

Lemma delta_pot_change phi T phase_of charge reac prod : 
  delta_potential_RT phi T (net_charges phase_of charge (stoich_coeffs reac prod))
  = Faraday * reaction_change (fun k => charge k * phi (phase_of k)) reac prod / (GasConstant * T).
Proof.
  unfold delta_potential_RT, net_charges, stoich_coeffs, reaction_change, Rdiv. f_equal.
  rewrite map_app, sum_of_app, !sum_of_map. cbn [fst snd]. unfold Rminus.
  rewrite Rmult_plus_distr_l, Rplus_comm. f_equal.
  - rewrite <- sum_of_scal. apply sum_of_ext. intros [k nu] _. cbn. ring.
  - transitivity (sum_of (fun p => - Faraday * (snd p * (charge (fst p) * phi (phase_of (fst p))))) reac).
    + apply sum_of_ext. intros [k nu] _. cbn. ring.
    + rewrite sum_of_scal. ring.
Qed.
(* The potentials multiply the forward rate by the Butler-Volmer factor. *)
Theorem C69_voltage : forall base T a e m beta phi phase_of charge reac prod dg pc,
  interface_rate base T a e m true
    (voltage beta (delta_potential_RT phi T (net_charges phase_of charge (stoich_coeffs reac prod))) false dg pc)
  = interface_rate base T a e m false 0
    * exp (- beta * (Faraday * reaction_change (fun k => charge k * phi (phase_of k)) reac prod / (GasConstant * T))).
Proof.
  intros. rewrite delta_pot_change. set (q := Faraday * _ / _).
  unfold interface_rate, voltage. destruct (reqb q 0) eqn:E; [|reflexivity].
  apply reqb_true in E. rewrite E, Rmult_0_r, exp_0. reflexivity.
Qed.
Print Assumptions C69_voltage.

Lemma pick_phase nph (f : nat -> R) n : (n < nph)%nat ->
  sum_of (fun i => if Nat.eqb n i then f i else 0) (seq 0 nph) = f n.
Proof.
  intros H. assert (K : forall len a, (a <= n < a + len)%nat -> sum_of (fun i => if Nat.eqb n i then f i else 0) (seq a len) = f n).
  { induction len as [|len IH]; intros a Ha; [lia|]. cbn [seq]. rewrite sum_of_cons.
    destruct (Nat.eqb_spec n a) as [->|K].
    - rewrite sum_of_0; [ring|]. intros x Hx. apply in_seq in Hx. destruct (Nat.eqb_spec a x); [lia|reflexivity].
    - rewrite IH by lia. ring. }
  apply K. lia.
Qed.
Lemma by_phase nph phase_of charge phi l : (forall p, In p l -> (phase_of (fst p) < nph)%nat) ->
  sum_of (fun p : nat * R => snd p * (charge (fst p) * phi (phase_of (fst p)))) l
  = sum_of (fun n => phi n * sum_of (fun p => if Nat.eqb (phase_of (fst p)) n then snd p * charge (fst p) else 0) l) (seq 0 nph).
Proof.
  intros H.
  transitivity (sum_of (fun n => sum_of (fun p : nat * R => if Nat.eqb (phase_of (fst p)) n then phi n * (snd p * charge (fst p)) else 0) l) (seq 0 nph)).
  - rewrite sum_of_swap. apply sum_of_ext. intros [k nu] Hp. cbn [fst snd].
    rewrite (pick_phase nph (fun n => phi n * (nu * charge k))); [ring|]. exact (H _ Hp).
  - apply sum_of_ext. intros n _. rewrite <- sum_of_scal. apply sum_of_ext. intros [k nu] _. cbn.
    destruct (Nat.eqb _ _); ring.
Qed.
(* A reaction that moves no charge between phases is not treated as charge transfer, and the potentials
   would not matter; one that is treated so moves charge into some phase. *)
Theorem C69_transfer : forall nph phase_of charge reac prod,
  (forall p, In p (reac ++ prod) -> (phase_of (fst p) < nph)%nat) ->
  ((forall n, (n < nph)%nat -> charge_into phase_of charge reac prod n = 0) ->
     uses_electro nph phase_of charge reac prod = false
     /\ forall phi T, delta_potential_RT phi T (net_charges phase_of charge (stoich_coeffs reac prod)) = 0)
  /\ (uses_electro nph phase_of charge reac prod = true <->
      exists n, (n < nph)%nat /\ / 10 ^ 4 < Rabs (charge_into phase_of charge reac prod n)).
Proof.
  intros nph phase_of charge reac prod Hin.
  assert (Ec : forall n, e_counter phase_of charge reac prod n = charge_into phase_of charge reac prod n).
  { intros n. unfold e_counter, charge_into, reaction_change.
    apply f_equal2; apply sum_of_ext; intros [k nu] _; cbn; destruct (Nat.eqb _ _); ring. }
  split.
  - intros H0. split.
    + unfold uses_electro. apply not_true_is_false. intros K. apply existsb_exists in K.
      destruct K as (n & Hn & K). apply in_seq in Hn. apply rltb_true in K.
      rewrite Ec, H0, Rabs_R0 in K by lia. assert (0 < / 10 ^ 4) by (apply Rinv_0_lt_compat, pow_lt; lra). lra.
    + intros phi T. rewrite delta_pot_change. unfold reaction_change.
      rewrite (by_phase nph), (by_phase nph).
      * rewrite <- sum_of_minus. rewrite sum_of_0; [unfold Rdiv; ring|]. intros n Hn. apply in_seq in Hn.
        specialize (H0 n ltac:(lia)). rewrite <- Ec in H0. unfold e_counter in H0.
        rewrite <- Rmult_minus_distr_l, H0. ring.
      * intros p Hp. apply Hin, in_or_app. now left.
      * intros p Hp. apply Hin, in_or_app. now right.
  - unfold uses_electro. rewrite existsb_exists. split.
    + intros (n & Hn & K). apply in_seq in Hn. apply rltb_true in K. rewrite Ec in K. exists n. split; [lia|exact K].
    + intros (n & Hn & K). exists n. split; [apply in_seq; lia|]. apply rltb_true. now rewrite Ec.
Qed.
Print Assumptions C69_transfer.
Example C69_coverage_example : exists r1 r2,
  set_cov false [Dep "O(S)" 0 0 (ELin 7000); Dep "H(S)" (1/10) 1 (EPoly [1; 2])] new_rate = Some r1
  /\ set_species ["PT(S)"; "H(S)"; "O(S)"]%string r1 = Some r2 /\ i_comp r2 = true.
Proof. do 2 eexists. split; [reflexivity|]. split; reflexivity. Qed.
Example C69_transfer_example :
  uses_electro 2 (fun k => k) (fun k => if Nat.eqb k 0 then -1 else 1) [(0%nat, 1)] [(1%nat, 1)] = true.
Proof.
  unfold uses_electro. apply existsb_exists. exists 0%nat. split; [cbn; auto|]. apply rltb_true.
  unfold e_counter, sum_of. cbn. rewrite Rabs_right by lra. assert (1 <= 10 ^ 4) by (apply pow_R1_Rle; lra).
  assert (/ 10 ^ 4 <= 1) by (rewrite <- Rinv_1; apply Rinv_le_contravar; lra).
  lra.
Qed.
