(** Units (C10), unit strings (C12), unit systems (C11, C50) and unit stacks (C49). *)
From Coq Require Import Reals Lra ZArith Lia String Ascii List Bool Arith FunctionalExtensionality.
From Verif Require Import Base.Outcome Base.Fp Strings.Model Strings.Spec Strings.Proofs Strings.CompProofs Units.Model Units.Spec Units.Proofs Units.SysProofs.
Import ListNotations.
Open Scope R_scope.

(** ** C10: units as in dimensional analysis *)
(** Conversion succeeds exactly between units of the same dimensions, and then scales by the ratio. *)
Theorem C10_convertible u v x : fac v <> 0 ->
  ((exists y, convert x u v = Ok y) <-> same_dims u v) /\ (~ same_dims u v -> convert x u v = Err) /\
  (same_dims u v -> exists y, convert x u v = Ok y /\ y * fac v = x * fac u).
Proof.
  intros Hv. unfold convert. destruct (convertible u v) eqn:E.
  - apply convertible_iff in E. split; [split; eauto|]. split; [tauto|]. intros _. eexists. split; [reflexivity|]. field. auto.
  - apply convertible_false in E. split; [split; [intros (y&H); discriminate|tauto]|]. tauto.
Qed.
Print Assumptions C10_convertible.

Theorem C10_round_trip u v x : fac u <> 0 -> fac v <> 0 -> same_dims u v ->
  obind (convert x u v) (fun y => convert y v u) = Ok x.
Proof.
  intros Hu Hv H. unfold convert. rewrite (proj2 (convertible_iff u v) H). cbn [obind].
  rewrite (proj2 (convertible_iff v u)) by (intros b; symmetry; apply H). f_equal. field. auto.
Qed.
Print Assumptions C10_round_trip.

Theorem C10_transitive u v w x : fac v <> 0 -> fac w <> 0 -> same_dims u v ->
  obind (convert x u v) (fun y => convert y v w) = convert x u w.
Proof.
  intros Hv Hw H. unfold convert. rewrite (proj2 (convertible_iff u v) H). cbn [obind].
  destruct (convertible v w) eqn:E1, (convertible u w) eqn:E2; auto.
  - f_equal. field. auto.
  - apply convertible_iff in E1. apply convertible_false in E2. exfalso. apply E2. intros b. now rewrite H.
  - apply convertible_false in E1. apply convertible_iff in E2. exfalso. apply E1. intros b. now rewrite <- H.
Qed.
Print Assumptions C10_transitive.

(** Products, powers: dimensions add and scale, factors multiply and are raised. *)
Theorem C10_algebra u v (e e' : R) : 0 < fac u ->
  (forall b, dim (mul u v) b = dim u b + dim v b) /\ fac (mul u v) = fac u * fac v /\
  (forall b, dim (upow u e) b = dim u b * e) /\ fac (upow u e) = Rpower (fac u) e /\
  mul u v = mul v u /\
  fac (upow (upow u e) e') = fac (upow u (e * e')) /\ (forall b, dim (upow (upow u e) e') b = dim (upow u (e * e')) b) /\
  fac (mul (upow u e) (upow u e')) = fac (upow u (e + e')) /\ (forall b, dim (mul (upow u e) (upow u e')) b = dim (upow u (e + e')) b).
Proof.
  intros Hu. assert (0 < Rpower (fac u) e) as Hp by apply exp_pos. unfold upow, mul. rewrite !make_dim, !make_fac, !cpow_pos by (rewrite ?cpow_pos by auto; auto).
  cbn [fac dim].
  split; [auto|]. split; [auto|]. split; [auto|]. split; [auto|]. split.
  { f_equal; try ring. apply functional_extensionality. intros b. ring. }
  split; [now rewrite Rpower_mult|]. split; [intros b; ring|].
  split; [now rewrite Rpower_plus|]. intros b. ring.
Qed.
Print Assumptions C10_algebra.
Theorem C10_mul_assoc u v w : mul (mul u v) w = mul u (mul v w).
Proof. unfold mul. cbn [fac dim pdim edim]. f_equal; try ring. apply functional_extensionality. intros b. ring. Qed.
Print Assumptions C10_mul_assoc.
Theorem C10_power_of_product u v e : 0 < fac u -> 0 < fac v ->
  fac (upow (mul u v) e) = fac (mul (upow u e) (upow v e)) /\ same_dims (upow (mul u v) e) (mul (upow u e) (upow v e)).
Proof.
  intros Hu Hv. unfold same_dims, upow, mul. cbn [fac dim]. rewrite !make_dim, !make_fac, !cpow_pos by (auto; now apply Rmult_lt_0_compat).
  split; [now rewrite Rpower_mult_distr|]. intros b. ring.
Qed.
Print Assumptions C10_power_of_product.

(** Conversion respects products: two quantities converted separately and multiplied are their product converted. *)
Theorem C10_conversion_multiplicative u v u' v' x y a b : fac u' <> 0 -> fac v' <> 0 ->
  convert x u u' = Ok a -> convert y v v' = Ok b -> convert (x * y) (mul u v) (mul u' v') = Ok (a * b).
Proof.
  intros Hu Hv. unfold convert. destruct (convertible u u') eqn:E1; [|discriminate]. destruct (convertible v v') eqn:E2; [|discriminate].
  apply convertible_iff in E1, E2. intros A B. injection A as <-. injection B as <-.
  rewrite (proj2 (convertible_iff (mul u v) (mul u' v'))) by (intros c; unfold mul; cbn [dim]; now rewrite E1, E2).
  f_equal. unfold mul. cbn [fac]. field. auto.
Qed.
Print Assumptions C10_conversion_multiplicative.

Example C10_example : same_dims (mul uM uM) (upow uM 2) /\ ~ same_dims uKg uM /\ 0 < fac uM /\
  convert 3 (make (1/1000) (dims6 1 0 0 0 0 0)) uKg = Ok (3 * (1/1000) / 1).
Proof.
  split; [intros b; unfold mul, upow, uM; cbn [dim]; rewrite !make_dim; destruct b; simpl; ring|].
  split; [intros H; specialize (H Mass); unfold uKg, uM in H; rewrite !make_dim in H; simpl in H; lra|].
  split; [unfold uM; rewrite make_fac; lra|].
  unfold convert. assert (convertible (make (1/1000) (dims6 1 0 0 0 0 0)) uKg = true) as ->.
  { apply convertible_iff. intros b. unfold uKg. now rewrite !make_dim. }
  unfold uKg. now rewrite !make_fac.
Qed.

(** In a system whose pressure and energy units are those formed from its base units, converting from default
    units depends on the dimensions only. *)
Theorem C10_system_coherent s v d : 0 < fM s -> 0 < fL s -> 0 < fT s -> 0 < fQ s -> coherent s ->
  convertTo s v d = v / fac d * Rpower (fM s) (dim d Mass) * Rpower (fL s) (dim d Length) * Rpower (fT s) (dim d Time) * Rpower (fQ s) (dim d Quantity).
Proof.
  intros HM HL HT HQ (HP&HE). unfold convertTo.
  assert (0 < fL s * (fT s * fT s)) as H1 by (repeat apply Rmult_lt_0_compat; auto).
  assert (0 < fP s) as HPp by (rewrite HP; now apply Rdiv_lt_0_compat).
  assert (0 < fE s) as HEp by (rewrite HE; apply Rdiv_lt_0_compat; repeat apply Rmult_lt_0_compat; auto).
  rewrite !cpow_pos by auto.
  assert (forall x y, 0 < x -> 0 < y -> ln (x / y) = ln x - ln y) as lnd.
  { intros x y Hx Hy. unfold Rdiv. rewrite ln_mult, ln_Rinv by auto using Rinv_0_lt_compat. ring. }
  assert (forall p, Rpower (fP s) p = Rpower (fM s) p * Rpower (fL s) (- p) * Rpower (fT s) (- (2 * p))) as EP.
  { intros p. unfold Rpower. rewrite <- !exp_plus. f_equal. rewrite HP, lnd, !ln_mult by auto using Rmult_lt_0_compat. ring. }
  assert (forall p, Rpower (fE s) p = Rpower (fM s) p * Rpower (fL s) (2 * p) * Rpower (fT s) (- (2 * p))) as EE.
  { intros p. unfold Rpower. rewrite <- !exp_plus. f_equal. rewrite HE, lnd, !ln_mult by auto 6 using Rmult_lt_0_compat. ring. }
  rewrite EP, EE. set (m := dim d Mass). set (l := dim d Length). set (t := dim d Time). set (p := pdim d). set (e := edim d).
  replace m with ((m - p - e) + p + e) at 2 by ring. replace l with ((l + p - 2 * e) + - p + 2 * e) at 2 by ring.
  replace t with ((t + 2 * p + 2 * e) + - (2 * p) + - (2 * e)) at 2 by ring. rewrite !Rpower_plus. ring.
Qed.
Print Assumptions C10_system_coherent.
Example C10_coherent_example : coherent sys0 /\ coherent (mkS (1/1000) (1/100) 1 (1/10) (1/10000000) 1 1 false (fun _ => None)).
Proof. unfold coherent, sys0. simpl. split; split; field. Qed.

(** FALSE in the code: raising a unit to the first power is not harmless.  The product of a pressure and a
    temperature remembers the pressure; its first power does not, and in a system with its own pressure unit
    the two are converted differently. *)
Theorem C10_power_loses_pressure_refuted :
  exists s u v, 0 < fac u /\ same_dims u (upow u 1) /\ fac (upow u 1) = fac u /\ convertTo s v u <> convertTo s v (upow u 1).
Proof.
  set (s := mkS 1 1 1 2 1 1 1 false (fun _ => None)). exists s, (mul uPa uK), 1.
  assert (fac (mul uPa uK) = 1) as F by (unfold mul, uPa, uK; cbn [fac]; rewrite !make_fac; ring).
  assert (fac (upow (mul uPa uK) 1) = 1) as F1 by (unfold upow; rewrite make_fac, F, cpow_1; reflexivity).
  split; [rewrite F; lra|]. split; [intros b; unfold upow; rewrite make_dim; ring|]. split; [congruence|].
  destruct ref_pseudo as (_&_&_&_&(P1&P2)&_).
  assert (pdim uK = 0 /\ edim uK = 0) as (P3&P4).
  { unfold uK. destruct (make_cases 1 (dims6 0 0 0 1 0 0)) as [((A&_)&_)|[(_&(A&_)&_)|(_&_&->)]]; auto; exfalso; apply A; reflexivity. }
  assert (pdim (upow (mul uPa uK) 1) = 0 /\ edim (upow (mul uPa uK) 1) = 0) as (P5&P6).
  { unfold upow. destruct (make_cases (cpow (fac (mul uPa uK)) 1) (fun b => dim (mul uPa uK) b * 1)) as [((_&_&_&A&_)&_)|[(_&(_&_&_&A&_)&_)|(_&_&->)]]; auto;
    exfalso; unfold mul, uPa, uK in A; cbn [dim] in A; rewrite !make_dim in A; simpl in A; lra. }
  unfold convertTo. rewrite P5, P6, F, F1. cbn [mul pdim edim]. rewrite P1, P2, P3, P4. simpl fM. simpl fL. simpl fT. simpl fQ. simpl fP. simpl fE.
  assert (forall y, cpow 1 y = 1) as C1. { intros y. rewrite cpow_pos by lra. unfold Rpower. rewrite ln_1, Rmult_0_r. apply exp_0. }
  rewrite !C1. replace (1 + 0) with 1 by ring. rewrite cpow_1, cpow_0. lra.
Qed.
Print Assumptions C10_power_loses_pressure_refuted.

(** ** C12: unit strings *)
(** A string of the grammar denotes its factor times the product of the powers of its symbols. *)
Theorem C12_parses t fv l us : unit_text t fv l -> Forall2 (fun p u => unit_symbol (fst p) u) l us ->
  exists u, Units t = Ok u /\ fac u = fv * prod_pow (combine us (map snd l)) /\
    (forall b, dim u b = sum_dim (fun v => dim v b) (combine us (map snd l))) /\
    pdim u = sum_dim pdim (combine us (map snd l)) /\ edim u = sum_dim edim (combine us (map snd l)).
Proof.
  intros T F. rewrite (parse_text_units _ _ _ _ T F). eexists. split; [reflexivity|].
  destruct (fold_times _ (num fv) (symbols_ok _ _ F)) as (A&B&C&D). destruct (num_vals fv) as (N1&N2&N3&N4).
  rewrite A, C, D, N1, N3, N4. split; [reflexivity|]. split; [|split; ring]. intros b. rewrite B, N2. ring.
Qed.
Print Assumptions C12_parses.

Theorem C12_unknown_rejected t fv l n e : unit_text t fv l -> In (n, e) l -> (forall u, ~ unit_symbol n u) -> Units t = Err.
Proof. intros T Hin H. eapply parse_unknown_units; eauto. Qed.
Print Assumptions C12_unknown_rejected.

(** Any string at all gives a unit or a CanteraError. *)
Theorem C12_total t : (exists u, Units t = Ok u) \/ Units t = Err.
Proof. apply units_total. Qed.
Print Assumptions C12_total.

(** "2.5 cm^3/mol / s" *)
Example C12_example : exists l us, unit_text (tx "2.5 cm^3/mol / s") (5/2) l /\ map fst l = [tx "cm"; tx "mol"; tx "s"] /\ map snd l = [3; -1; -1] /\
  Forall2 (fun p u => unit_symbol (fst p) u) l us /\ forall u, ~ unit_symbol (tx "furlong") u.
Proof.
  exists [(tx "cm", 3); (tx "mol", -1); (tx "s", -1)],
    [mkU (1 * powerRZ 10 (-2)) (dim uM) (pdim uM) (edim uM); make (1/1000) (dims6 0 0 0 0 0 1); uS].
  split; [|split; [reflexivity|split; [reflexivity|split]]].
  - change (tx "2.5 cm^3/mol / s") with (tx "2.5" ++ (tx " cm^3" ++ "/"%char :: (tx "mol " ++ "/"%char :: tx " s"))).
    apply ut; [| |simpl; intuition discriminate].
    + replace (5/2) with (1 * (IZR 25 * powerRZ 10 (- Z.of_nat (length [ "5"%char ])))) by (simpl; lra).
      change (tx "2.5") with ([] ++ tx "2.5"). apply (fx_some [] 1 (tx "2.5") (tx "2") ["5"%char]).
      * constructor.
      * change (tx "2.5") with (tx "2" ++ "."%char :: tx "5"). eapply (ma_frac (tx "2") (tx "5")); eapply decimal_iff; split; try reflexivity; repeat constructor.
      * apply decimal_iff. split; [repeat constructor|reflexivity].
      * discriminate.
    + assert (forall s z, all_digits s -> z = dval s 0 -> s <> [] -> number s (IZR z)) as Nm.
      { intros s z Hd -> Hne. replace (IZR (dval s 0)) with (1 * (IZR (dval s 0) * powerRZ 10 (0 - Z.of_nat (length (@nil ascii))))) by (simpl; ring).
        replace s with ([] ++ s ++ []) at 1 by (rewrite app_nil_r; reflexivity). apply (Strings.Spec.num [] 1 s s [] (dval s 0) [] 0%Z).
        - constructor.
        - eapply ma_int. apply decimal_iff. split; eauto.
        - apply decimal_iff. rewrite app_nil_r. auto.
        - now rewrite app_nil_r.
        - constructor. }
      replace 3 with (signed false 3) at 1 by reflexivity.
      apply (gs_more false (tx " cm^3") (tx "cm") 3 "/"%char true (tx "mol " ++ "/"%char :: tx " s")); [|constructor|].
      * change (tx " cm^3") with (tx " " ++ tx "cm" ++ [] ++ "^"%char :: [] ++ tx "3" ++ []). apply ug_power; [|constructor| |constructor| |constructor].
        -- constructor; [apply isspace_iff; reflexivity|constructor].
        -- simple_name.
        -- apply (Nm (tx "3") 3%Z); [repeat constructor|reflexivity|discriminate].
      * replace (-1) with (signed true 1) by (unfold signed; ring).
        apply (gs_more true (tx "mol ") (tx "mol") 1 "/"%char true (tx " s")); [|constructor|].
        -- change (tx "mol ") with ([] ++ tx "mol" ++ tx " "). apply ug_plain; [constructor| |simple_name].
           constructor; [apply isspace_iff; reflexivity|constructor].
        -- apply (gs_one true (tx " s") (tx "s") 1). change (tx " s") with (tx " " ++ tx "s" ++ []). apply ug_plain; [|constructor|simple_name].
           constructor; [apply isspace_iff; reflexivity|constructor].
  - constructor; [|constructor; [|constructor; [|constructor]]].
    + cbn [fst]. assert (1 = fac uM) as -> by (unfold uM; now rewrite make_fac). apply us_prefixed; reflexivity.
    + apply us_known. reflexivity.
    + apply us_known. reflexivity.
  - intros u H. apply unit_of_symbol in H. discriminate.
Qed.

(** The symbols are those of the catalogue (and "1" and the empty name, which are the number one), with its values; the
    prefixes are the metric ones. *)
Definition entry_ok (e : String.string * R * (R * R * R * R * R * R)) : Prop :=
  let '(n, f, (m, l, t, k, a, q)) := e in
  exists u, known (tx n) = Some u /\ fac u = f /\ dim u Mass = m /\ dim u Length = l /\ dim u Time = t /\
    dim u Temperature = k /\ dim u Current = a /\ dim u Quantity = q.
Lemma tx_eq a b : text_eqb a b = true -> b = a.
Proof. unfold text_eqb. destruct (list_eq_dec _ a b); congruence. Qed.
Theorem C12_catalogue : Forall entry_ok catalogue /\
  (forall n u, known n = Some u -> In n (map (fun e => tx (fst (fst e))) catalogue) \/ (In n [tx ""; tx "1"] /\ fac u = 1 /\ forall b, dim u b = 0)) /\
  Forall (fun p => prefix (fst p) = Some (snd p)) metric_prefixes /\
  (forall c k, prefix c = Some k -> In c (map fst metric_prefixes)).
Proof.
  split; [|split; [|split]].
  - unfold catalogue. repeat (apply Forall_cons; [eexists; split; [reflexivity|]; rewrite make_fac, !make_dim; repeat split;
      try reflexivity; unfold Avogadro, ElectronCharge, OneAtm; simpl; first [lra|field; fail|field; lra]|]). apply Forall_nil.
  - intros n u H. unfold known in H. unfold knownUnits in H.
    repeat (cbn [lookup] in H; match type of H with (if text_eqb ?x n then _ else _) = _ =>
      let E := fresh in destruct (text_eqb x n) eqn:E; [apply tx_eq in E; subst n;
        first [left; unfold catalogue; cbn [map fst]; repeat (first [left; reflexivity|right]); fail
              |right; assert (u = num 1) by congruence; subst u; split; [cbn [In]; tauto|]; destruct (num_vals 1) as (N1 & N2 & _); split; [exact N1|exact N2]]|] end).
    discriminate.
  - unfold metric_prefixes. repeat (apply Forall_cons; [unfold prefix; cbn [fst snd]; simpl lookup; cbn [option_map]; f_equal; simpl; field|]). apply Forall_nil.
  - intros c k H. unfold prefix in H. unfold prefixes in H.
    repeat (cbn [lookup] in H; match type of H with option_map _ (if Ascii.eqb ?x c then _ else _) = _ =>
      let E := fresh in destruct (Ascii.eqb x c) eqn:E; [apply Ascii.eqb_eq in E; subst c; unfold metric_prefixes; cbn [map fst]; repeat (first [left; reflexivity|right]); fail|] end).
    discriminate.
Qed.
Print Assumptions C12_catalogue.

(** FALSE in the code: that a unit string must name units.  A bare prefix is accepted as a number, and so is a
    missing unit between two operators. *)
Theorem C12_names_required_refuted : (exists u, Units (tx "k") = Ok u /\ fac u = 1000 /\ forall b, dim u b = 0) /\
  (exists u, Units (tx "m//s") = Ok u /\ fac u = 1 /\ same_dims u (mul uM (upow uS (-1)))).
Proof.
  split.
  - assert (unit_symbol (tx "k") (mkU (fac (num 1) * powerRZ 10 3) (dim (num 1)) (pdim (num 1)) (edim (num 1)))) as H
      by (apply us_prefixed; reflexivity).
    assert (uname (tx "k")) as Hn by simple_name.
    assert (no_number_head ([] ++ tx "k" ++ [])) as Hh by (simpl; intuition discriminate).
    destruct (single [] (tx "k") [] _ ltac:(constructor) ltac:(constructor) Hn Hh H) as (w&W1&W2&W3&_).
    rewrite app_nil_r in W1. cbn [app] in W1. exists w. split; auto. destruct (num_vals 1) as (N1&N2&_). split; [rewrite W2; cbn [fac]; rewrite N1; simpl; lra|].
      intros b. rewrite W3. cbn [dim]. apply N2.
  - assert (unit_text ([] ++ (tx "m" ++ "/"%char :: ([] ++ "/"%char :: tx "s"))) 1 [(tx "m", signed false 1); ([], signed true 1); (tx "s", signed true 1)]) as T.
    { apply ut; [constructor| |simpl; intuition discriminate].
      apply (gs_more false (tx "m") (tx "m") 1 "/"%char true); [|constructor|].
      - change (tx "m") with ([] ++ tx "m" ++ []) at 1. apply ug_plain; [constructor|constructor|simple_name].
      - apply (gs_more true [] [] 1 "/"%char true); [|constructor|].
        + change (@nil ascii) with ([] ++ [] ++ @nil ascii) at 1. apply ug_plain; [constructor|constructor|simple_name].
        + apply (gs_one true (tx "s") (tx "s") 1). change (tx "s") with ([] ++ tx "s" ++ []) at 1. apply ug_plain; [constructor|constructor|simple_name]. }
    destruct (C12_parses _ _ _ [uM; num 1; uS] T) as (u&U1&U2&U3&_).
    { constructor; [apply us_known; reflexivity|]. constructor; [apply us_known; reflexivity|]. constructor; [apply us_known; reflexivity|constructor]. }
    exists u. split; [exact U1|]. destruct (num_vals 1) as (N1&N2&_).
    assert (forall e, Rpower 1 e = 1) as R1 by (intros e; unfold Rpower; rewrite ln_1, Rmult_0_r; apply exp_0).
    split.
    + rewrite U2. cbn [map snd combine prod_pow]. unfold uM, uS. rewrite !make_fac, N1, !R1. ring.
    + intros b. rewrite U3. cbn [map snd combine sum_dim]. rewrite N2. unfold mul, upow. cbn [dim]. rewrite !make_dim. unfold signed. ring.
Qed.
Print Assumptions C12_names_required_refuted.

(** ** C11: unit systems *)
(** After any history of calls, even one in which some throw: the default reported for each of the six
    adjustable dimensions is a unit of that dimension, and it is the one used: a value in default units is
    that unit's factor times as much in SI units. *)
Theorem C11_defaults_hold ops k r : reference k = Some r -> let s := fst (urun sys0 ops) in
  exists n u, defaults s k = Some n /\ Units n = Ok u /\ same_dims u r /\ forall x, convertTo s x r = x * fac u.
Proof.
  intros Hr s. pose proof (urun_inv ops sys0 Inv0) as HI. fold s in HI.
  assert (exists f, sys_factor s k = Some f) as (f&Hf) by (destruct k; try discriminate; simpl; eauto).
  specialize (HI k f r Hf Hr).
  assert (exists n u, defaults s k = Some n /\ Units n = Ok u /\ same_dims u r /\ f = fac u) as (n&u&A&B&C&D).
  { unfold default_ok in HI. destruct (defs s k) as [n|] eqn:Ed.
    - destruct HI as (u&U1&U2&U3). exists n, u. split; [now apply defaults_of|]. auto.
    - destruct std_names as (NM&NL&NT&NP&NE&NQ).
      assert (forall nm, std_default k = Some (tx nm) -> k <> KActE -> defaults s k = Some (tx nm)) as DD.
      { intros nm H Hk. unfold defaults. destruct k; rewrite ?Ed; auto. congruence. }
      destruct k; try discriminate; injection Hr as <-; subst f.
      + destruct NM as (w&W1&W2&W3). exists (tx "kg"), w. rewrite W2. split; [apply DD; [reflexivity|discriminate]|auto].
      + destruct NL as (w&W1&W2&W3). exists (tx "m"), w. rewrite W2. split; [apply DD; [reflexivity|discriminate]|auto].
      + destruct NT as (w&W1&W2&W3). exists (tx "s"), w. rewrite W2. split; [apply DD; [reflexivity|discriminate]|auto].
      + destruct NQ as (w&W1&W2&W3). exists (tx "kmol"), w. rewrite W2. split; [apply DD; [reflexivity|discriminate]|auto].
      + destruct NP as (w&W1&W2&W3). exists (tx "Pa"), w. rewrite W2. split; [apply DD; [reflexivity|discriminate]|auto].
      + destruct NE as (w&W1&W2&W3). exists (tx "J"), w. rewrite W2. split; [apply DD; [reflexivity|discriminate]|auto]. }
  exists n, u. split; [exact A|]. split; [exact B|]. split; [exact C|]. intros x. rewrite <- D. clear - Hf Hr.
  destruct ref_pseudo as ((p1&e1)&(p2&e2)&(p3&e3)&(p4&e4)&(p5&e5)&(p6&e6)). unfold convertTo.
  destruct k; simpl in Hr, Hf; try discriminate; injection Hr as <-; injection Hf as Hf;
    rewrite ?p1, ?e1, ?p2, ?e2, ?p3, ?e3, ?p4, ?e4, ?p5, ?e5, ?p6, ?e6;
    unfold uKg, uM, uS, uKmol, uPa, uJ; rewrite !make_dim, make_fac; unfold dims6;
    repeat match goal with |- context [cpow ?x ?e] => lazymatch e with 0 => fail | 1 => fail
      | _ => first [replace e with 0 by lra | replace e with 1 by lra] end end;
    rewrite ?cpow_0, ?cpow_1, Hf; field.
Qed.
Print Assumptions C11_defaults_hold.

(** One default unit is converted to one, if the default is a single symbol. *)
Theorem C11_default_is_one ops k r n u : reference k = Some r -> defaults (fst (urun sys0 ops)) k = Some n ->
  uname n -> no_number_head n -> unit_symbol n u ->
  exists w, Units n = Ok w /\ convertTo (fst (urun sys0 ops)) 1 w = 1 /\ convertFrom (fst (urun sys0 ops)) 1 w = 1.
Proof.
  intros Hr Hd Hn Hh Hu. destruct (C11_defaults_hold ops k r Hr) as (n'&w&A&B&C&D). set (s := fst (urun sys0 ops)) in *.
  rewrite Hd in A. injection A as <-. exists w. split; auto.
  assert (no_number_head ([] ++ n ++ [])) as Hh' by (now rewrite app_nil_r).
  destruct (single [] n [] u ltac:(constructor) ltac:(constructor) Hn Hh' Hu) as (w'&W1&W2&W3&W4&W5). rewrite app_nil_r in W1. cbn [app] in W1.
  rewrite B in W1. injection W1 as <-. destruct (symbol_ok _ _ Hu) as (Hp&Pu).
  assert (exists f d, r = make f d) as (f&d&Er) by (destruct k; try discriminate; injection Hr as <-; unfold uKg, uM, uS, uKmol, uPa, uJ; eauto).
  assert (same_dims u r) as Hur by (intros b; rewrite <- W3; apply C).
  rewrite Er in Hur. destruct (pure_same u f d Pu Hur) as (P1&P2).
  pose proof (urun_inv ops sys0 Inv0) as HI. fold s in HI.
  assert (sys_factor s k = Some (fac w)) as Hf.
  { assert (exists g, sys_factor s k = Some g) as (g&Hg) by (destruct k; try discriminate; simpl; eauto). rewrite Hg. f_equal.
    specialize (HI k g r Hg Hr). unfold default_ok in HI. destruct (defs s k) as [m|] eqn:Ed.
    - apply defaults_of in Ed. rewrite Hd in Ed. injection Ed as <-. destruct HI as (u2&V1&_&->). congruence.
    - subst g. clear - Hd Ed B Hr. destruct std_names as ((w1&X1&Y1&_)&(w2&X2&Y2&_)&(w3&X3&Y3&_)&(w4&X4&Y4&_)&(w5&X5&Y5&_)&(w6&X6&Y6&_)).
      unfold defaults in Hd. destruct k; try discriminate; rewrite Ed in Hd; cbn [std_default] in Hd.
      all: match type of Hd with Some ?t = Some ?m => assert (m = t) as Em by congruence end; rewrite Em in B; congruence. }
  assert (fac w <> 0) as Hw by (rewrite W2; lra). assert (pdim w = pdim r) as Q1 by (rewrite W4, Er; exact P1). assert (edim w = edim r) as Q2 by (rewrite W5, Er; exact P2).
  destruct (one_unit s k r w Hr Hf Hw C Q1 Q2) as (O1&O2). split; [exact O1|]. apply O2. now rewrite W2.
Qed.
Print Assumptions C11_default_is_one.

(** FALSE in the code without the restriction: "g/m/s^2" is accepted as pressure unit, but is not converted with
    the pressure factor it sets; one default unit of pressure then is 1000 pressure units. *)
Lemma parse_gms2 : exists w, Units (tx "g/m/s^2") = Ok w /\ fac w = 1/1000 /\ same_dims w uPa /\ pdim w = 0 /\ edim w = 0.
Proof.
  assert (unit_text ([] ++ (tx "g" ++ "/"%char :: (tx "m" ++ "/"%char :: tx "s^2"))) 1 [(tx "g", signed false 1); (tx "m", signed true 1); (tx "s", signed true 2)]) as T.
  { apply ut; [constructor| |simpl; intuition discriminate].
    apply (gs_more false (tx "g") (tx "g") 1 "/"%char true); [|constructor|].
    - change (tx "g") with ([] ++ tx "g" ++ []) at 1. apply ug_plain; [constructor|constructor|simple_name].
    - apply (gs_more true (tx "m") (tx "m") 1 "/"%char true); [|constructor|].
      + change (tx "m") with ([] ++ tx "m" ++ []) at 1. apply ug_plain; [constructor|constructor|simple_name].
      + apply (gs_one true (tx "s^2") (tx "s") 2). change (tx "s^2") with ([] ++ tx "s" ++ [] ++ "^"%char :: [] ++ tx "2" ++ []).
        apply ug_power; [constructor|constructor|simple_name|constructor| |constructor].
        replace 2 with (1 * (IZR 2 * powerRZ 10 (0 - Z.of_nat (length (@nil ascii))))) by (simpl; ring).
        change (tx "2") with ([] ++ tx "2" ++ []). apply (Strings.Spec.num [] 1 (tx "2") (tx "2") [] 2%Z [] 0%Z).
        * constructor.
        * eapply ma_int. apply decimal_iff. split; [repeat constructor|reflexivity].
        * apply decimal_iff. split; [repeat constructor|reflexivity].
        * discriminate.
        * constructor. }
  destruct (C12_parses _ _ _ [make (1/1000) (dims6 1 0 0 0 0 0); uM; uS] T) as (u&U1&U2&U3&U4&U5).
  { constructor; [apply us_known; reflexivity|]. constructor; [apply us_known; reflexivity|]. constructor; [apply us_known; reflexivity|constructor]. }
  exists u. split; [exact U1|].
  assert (forall e, Rpower 1 e = 1) as R1 by (intros e; unfold Rpower; rewrite ln_1, Rmult_0_r; apply exp_0).
  assert (pdim (make (1/1000) (dims6 1 0 0 0 0 0)) = 0 /\ edim (make (1/1000) (dims6 1 0 0 0 0 0)) = 0) as (G1&G2).
  { destruct (make_cases (1/1000) (dims6 1 0 0 0 0 0)) as [((_&A&_)&_)|[(_&(_&A&_)&_)|(_&_&->)]]; auto; simpl in A; lra. }
  destruct ref_pseudo as (_&(p2&e2)&(p3&e3)&_).
  rewrite U2, U4, U5. cbn [map snd combine prod_pow sum_dim]. rewrite G1, G2, p2, p3, e2, e3. unfold uM, uS, signed. rewrite !make_fac, !R1, Rpower_1 by lra.
  split; [field|]. split; [|split; ring]. intros b. rewrite U3. cbn [map snd combine sum_dim]. unfold uPa, uM, uS. rewrite !make_dim. destruct b; simpl; ring.
Qed.
Theorem C11_default_is_one_refuted :
  exists ops s n u, runs ops s /\ defaults s KPressure = Some n /\ Units n = Ok u /\ convertTo s 1 u = 1000.
Proof.
  destruct parse_gms2 as (w&W1&W2&W3&W4&W5).
  assert (convertible w uPa = true) as C by now apply convertible_iff.
  set (n := tx "g/m/s^2") in *.
  exists [SetMap [(KPressure, n)]], (derive_act (setP sys0 (fac w) n)), n, w.
  assert (ustep sys0 (SetMap [(KPressure, n)]) = (derive_act (setP sys0 (fac w) n), true)) as E.
  { simpl. unfold set_map. cbn [set_entries]. unfold set_entry. rewrite W1, C. reflexivity. }
  split; [unfold runs; cbn [urun]; rewrite E; reflexivity|]. split; [reflexivity|]. split; [auto|].
  unfold convertTo. rewrite W4, W5, W2.
  replace (fM (derive_act (setP sys0 (1/1000) n))) with 1 by reflexivity. replace (fL (derive_act (setP sys0 (1/1000) n))) with 1 by reflexivity.
  replace (fT (derive_act (setP sys0 (1/1000) n))) with 1 by reflexivity. replace (fQ (derive_act (setP sys0 (1/1000) n))) with 1 by reflexivity.
  assert (forall y, cpow 1 y = 1) as C1. { intros y. rewrite cpow_pos by lra. unfold Rpower. rewrite ln_1, Rmult_0_r. apply exp_0. }
  rewrite !C1, !cpow_0. field.
Qed.
Print Assumptions C11_default_is_one_refuted.

(** To and from default units are inverse to each other. *)
Lemma names_pos ops : positive_names ops -> Pos (fst (urun sys0 ops)).
Proof. intros H. apply urun_pos; [|apply Pos0]. intros o n Ho Hn u Hu. eapply H; eauto. Qed.
Theorem C11_to_from_inverse ops u v : positive_names ops -> fac u <> 0 ->
  convertFrom (fst (urun sys0 ops)) (convertTo (fst (urun sys0 ops)) v u) u = v /\
  convertTo (fst (urun sys0 ops)) (convertFrom (fst (urun sys0 ops)) v u) u = v.
Proof. intros H Hu. apply to_from; auto. now apply names_pos. Qed.
Print Assumptions C11_to_from_inverse.

(** The default reported for a dimension is the one set last. *)
Theorem C11_set_and_reported ops1 o ops2 k n s : runs (ops1 ++ o :: ops2) s -> assigns o k n ->
  (forall o', In o' ops2 -> ~ touches o' k) -> defaults s k = Some n.
Proof.
  intros Hr Ha Ht. apply urun_app in Hr. destruct Hr as (s1&_&H2). cbn [urun] in H2.
  destruct (ustep s1 o) as [s2 []] eqn:E; [|destruct (urun s2 ops2); discriminate].
  apply defaults_of. rewrite (untouched_run ops2 k (assigns_kind _ _ _ Ha) Ht s2 s H2). eapply assigned; eauto.
Qed.
Print Assumptions C11_set_and_reported.
Theorem C11_initial k : defaults sys0 k = std_default k.
Proof. destruct k; reflexivity. Qed.
Print Assumptions C11_initial.

(** Activation energies: both ways, for every unit of one of the three kinds; anything else is an error. *)
Theorem C11_activation_inverse ops u f v : positive_names ops -> act_energy u f -> fac u <> 0 -> let s := fst (urun sys0 ops) in
  obind (convertActivationEnergyTo s v u) (fun w => convertActivationEnergyFrom s w u) = Ok v /\
  obind (convertActivationEnergyFrom s v u) (fun w => convertActivationEnergyTo s w u) = Ok v.
Proof.
  intros Hp Hu Hn s. pose proof (names_pos _ Hp) as (_&_&_&_&_&HA&_). fold s in HA.
  assert (fA s <> 0) as HA' by lra. pose proof GasConstant_pos as G. pose proof Avogadro_pos as N.
  unfold convertActivationEnergyTo, convertActivationEnergyFrom.
  destruct (convertible u uJkmol) eqn:E1; [cbn [obind]; split; f_equal; field; lra|].
  destruct (convertible u uK) eqn:E2; [cbn [obind]; split; f_equal; field; lra|].
  destruct (convertible u uEV) eqn:E3; [cbn [obind]; split; f_equal; field; split; lra|].
  exfalso. apply convertible_false in E1, E2, E3. destruct Hu; contradiction.
Qed.
Print Assumptions C11_activation_inverse.
Theorem C11_activation_rejects s u v : (forall f, ~ act_energy u f) ->
  convertActivationEnergyTo s v u = Err /\ convertActivationEnergyFrom s v u = Err.
Proof.
  intros H. unfold convertActivationEnergyTo, convertActivationEnergyFrom.
  destruct (convertible u uJkmol) eqn:E1; [apply convertible_iff in E1; exfalso; eapply H; now apply ae_molar|].
  destruct (convertible u uK) eqn:E2; [apply convertible_iff in E2; exfalso; eapply H; now apply ae_kelvin|].
  destruct (convertible u uEV) eqn:E3; [apply convertible_iff in E3; exfalso; eapply H; now apply ae_molecule|]. auto.
Qed.
Print Assumptions C11_activation_rejects.

(** Between explicit units: the values represent the same energy. *)
Lemma act_fun u f g : act_energy u f -> act_energy u g -> f = g.
Proof.
  assert (forall w f, act_energy w f -> (same_dims w uJkmol /\ f = fac w) \/ (same_dims w uK /\ f = GasConstant * fac w) \/ (same_dims w uEV /\ f = Avogadro * fac w)) as Cs.
  { intros w h [x A|x A|x A]; auto. }
  intros A B. apply Cs in A, B.
  assert (forall v w, same_dims u v -> same_dims u w -> forall b, dim v b = dim w b) as S by (intros v w H1 H2 b; rewrite <- H1; apply H2).
  assert (~ (same_dims u uJkmol /\ same_dims u uK)) as N1.
  { intros (H1&H2). pose proof (S _ _ H1 H2 Mass) as X. unfold uJkmol, uK in X. rewrite !make_dim in X. simpl in X. lra. }
  assert (~ (same_dims u uJkmol /\ same_dims u uEV)) as N2.
  { intros (H1&H2). pose proof (S _ _ H1 H2 Quantity) as X. unfold uJkmol, uEV in X. rewrite !make_dim in X. simpl in X. lra. }
  assert (~ (same_dims u uK /\ same_dims u uEV)) as N3.
  { intros (H1&H2). pose proof (S _ _ H1 H2 Mass) as X. unfold uK, uEV in X. rewrite !make_dim in X. simpl in X. lra. }
  destruct A as [(A&->)|[(A&->)|(A&->)]], B as [(B&->)|[(B&->)|(B&->)]]; auto; exfalso; tauto.
Qed.
Lemma act_branch u f : act_energy u f -> (convertible u uJkmol = true /\ f = fac u) \/
  (convertible u uJkmol = false /\ convertible u uK = true /\ f = GasConstant * fac u) \/
  (convertible u uJkmol = false /\ convertible u uK = false /\ convertible u uEV = true /\ f = Avogadro * fac u).
Proof.
  intros H. destruct (convertible u uJkmol) eqn:E1.
  - left. split; auto. apply convertible_iff in E1. apply (act_fun u); auto. now apply ae_molar.
  - destruct (convertible u uK) eqn:E2.
    + right. left. split; auto. split; auto. apply convertible_iff in E2. apply (act_fun u); auto. now apply ae_kelvin.
    + right. right. split; auto. split; auto. apply convertible_false in E1, E2. destruct H; try contradiction.
      split; auto. now apply convertible_iff.
Qed.
Theorem C11_activation_explicit src dest us ud fs fd v : Units src = Ok us -> Units dest = Ok ud ->
  act_energy us fs -> act_energy ud fd -> fac ud <> 0 ->
  exists w, convertActivationEnergy v src dest = Ok w /\ w * fd = v * fs.
Proof.
  intros Hs Hd As Ad Hn. unfold convertActivationEnergy. rewrite Hs, Hd. cbn [obind]. unfold act_to, act_from.
  pose proof GasConstant_pos as G. pose proof Avogadro_pos as N.
  apply act_branch in As. apply act_branch in Ad.
  destruct As as [(->&->)|[(->&->&->)|(->&->&->&->)]]; cbn [obind];
  destruct Ad as [(->&->)|[(->&->&->)|(->&->&->&->)]]; eexists; (split; [reflexivity|]); field; lra.
Qed.
Print Assumptions C11_activation_explicit.

(** From default units, in a history without errors: the default set explicitly if there is one, and otherwise
    the default energy over the default quantity.  Units of temperature other than the kelvin are excluded. *)
Definition plain_kelvin (u : units) : Prop := same_dims u uK -> fac u = 1.
Theorem C11_activation_default ops s v ud fd : runs ops s -> act_energy ud fd -> fac ud <> 0 -> plain_kelvin ud ->
  (Exists sets_act ops -> forall n un fn, defaults s KActE = Some n -> Units n = Ok un -> plain_kelvin un -> act_energy un fn ->
     exists w, convertActivationEnergyTo s v ud = Ok w /\ w * fd = v * fn) /\
  (~ Exists sets_act ops -> forall e q ue uq, defaults s KEnergy = Some e -> defaults s KQuantity = Some q -> Units e = Ok ue -> Units q = Ok uq ->
     fac uq <> 0 -> exists w, convertActivationEnergyTo s v ud = Ok w /\ w * fd = v * (fac ue / fac uq)).
Proof.
  intros Hr Ad Hn Hk. pose proof GasConstant_pos as G. pose proof Avogadro_pos as N.
  assert (exists w, convertActivationEnergyTo s v ud = Ok w /\ w * fd = v * fA s) as (w&W1&W2).
  { unfold convertActivationEnergyTo. apply act_branch in Ad. destruct Ad as [(->&->)|[(->&E&->)|(->&->&->&->)]].
    - eexists. split; [reflexivity|]. field. auto.
    - rewrite E. eexists. split; [reflexivity|]. apply convertible_iff in E. rewrite (Hk E). field. lra.
    - eexists. split; [reflexivity|]. field. split; lra. }
  pose proof (urun_true ops sys0 s Hr ActInv0) as (HA&HB). pose proof (urun_expl ops sys0 s Hr) as HX.
  assert (~ expl sys0 = true) as HX0 by discriminate.
  split.
  - intros Hex n un fn Hd Hu Hkn Hf. exists w. split; auto. rewrite W2. f_equal.
    assert (expl s = true) as Es by tauto. unfold ActE in HA. rewrite Es in HA. destruct HA as (n'&u'&D1&D2&D3).
    apply defaults_of in D1. rewrite Hd in D1. injection D1 as <-. rewrite Hu in D2. injection D2 as <-.
    apply act_branch in Hf. destruct D3 as [(D&->)|[(D&->)|(D&->)]]; destruct Hf as [(E1&->)|[(E1&E2&->)|(E1&E2&E3&->)]];
      rewrite ?convertible_iff, ?convertible_false in E1; try rewrite ?convertible_iff, ?convertible_false in E2;
      try rewrite convertible_iff in E3; try contradiction; try ring.
    + exfalso. pose proof (D Mass) as X1. rewrite E1 in X1. unfold uK, uJkmol in X1. rewrite !make_dim in X1. simpl in X1. lra.
    + rewrite Hkn by auto. ring.
    + exfalso. pose proof (D Quantity) as X1. rewrite E1 in X1. unfold uEV, uJkmol in X1. rewrite !make_dim in X1. simpl in X1. lra.
    + exfalso. pose proof (D Mass) as X1. rewrite E2 in X1. unfold uEV, uK in X1. rewrite !make_dim in X1. simpl in X1. lra.
  - intros Hex e q ue uq De Dq Ue Uq Hq. exists w. split; auto. rewrite W2. f_equal.
    assert (expl s = false) as Es by (destruct (expl s); auto; tauto). rewrite (HB Es).
    assert (s = fst (urun sys0 ops)) as Ef by (unfold runs in Hr; now rewrite Hr).
    destruct (C11_defaults_hold ops KEnergy uJ eq_refl) as (e'&ue'&E1&E2&E3&E4).
    destruct (C11_defaults_hold ops KQuantity uKmol eq_refl) as (q'&uq'&Q1&Q2&Q3&Q4). rewrite <- Ef in *.
    assert (ue' = ue) by congruence. assert (uq' = uq) by congruence. subst.
    specialize (E4 1). specialize (Q4 1). destruct ref_pseudo as (_&_&_&(p4&e4)&_&(p6&e6)).
    assert (convertTo (fst (urun sys0 ops)) 1 uJ = fE (fst (urun sys0 ops))) as R1.
    { unfold convertTo. rewrite p6, e6. unfold uJ. rewrite !make_dim, make_fac. unfold dims6.
      repeat match goal with |- context [cpow ?x ?e] => lazymatch e with 0 => fail | 1 => fail | _ => first [replace e with 0 by lra | replace e with 1 by lra] end end.
      rewrite !cpow_0, cpow_1. field. }
    assert (convertTo (fst (urun sys0 ops)) 1 uKmol = fQ (fst (urun sys0 ops))) as R2.
    { unfold convertTo. rewrite p4, e4. unfold uKmol. rewrite !make_dim, make_fac. unfold dims6.
      repeat match goal with |- context [cpow ?x ?e] => lazymatch e with 0 => fail | 1 => fail | _ => first [replace e with 0 by lra | replace e with 1 by lra] end end.
      rewrite !cpow_0, cpow_1. field. }
    rewrite <- R1, <- R2, E4, Q4. field. auto.
Qed.
Print Assumptions C11_activation_default.

(** FALSE in the code without the restriction: a default of one kilokelvin is used as one kelvin. *)
Theorem C11_activation_kelvin_refuted :
  exists s n un fn, runs [SetAct n] s /\ defaults s KActE = Some n /\ Units n = Ok un /\ act_energy un fn /\
    exists w, convertActivationEnergyTo s 1 uJkmol = Ok w /\ fn = 1000 * w /\ w <> 0.
Proof.
  assert (unit_symbol (tx "kK") (mkU (fac uK * powerRZ 10 3) (dim uK) (pdim uK) (edim uK))) as H by (apply us_prefixed; reflexivity).
  assert (uname (tx "kK")) as Hn by simple_name. assert (no_number_head ([] ++ tx "kK" ++ [])) as Hh by (simpl; intuition discriminate).
  destruct (single [] (tx "kK") [] _ ltac:(constructor) ltac:(constructor) Hn Hh H) as (w&W1&W2&W3&_). rewrite app_nil_r in W1. cbn [app] in W1.
  assert (same_dims w uK) as Hk by (intros b; now rewrite W3). pose proof (proj2 (convertible_iff w uK) Hk) as Ck.
  assert (convertible w uJkmol = false) as Cj.
  { apply convertible_false. intros X. specialize (X Mass). rewrite Hk in X. unfold uK, uJkmol in X. rewrite !make_dim in X. simpl in X. lra. }
  set (s := mkS 1 1 1 1 1 GasConstant 1 true (dset (fun _ => None) KActE (tx "kK"))).
  exists s, (tx "kK"), w, (GasConstant * fac w). split; [|split; [reflexivity|split; [exact W1|split; [now apply ae_kelvin|]]]].
  - unfold runs. cbn [urun ustep]. unfold set_act. rewrite W1, Cj, Ck. reflexivity.
  - exists GasConstant. unfold convertActivationEnergyTo. assert (convertible uJkmol uJkmol = true) as -> by (apply convertible_iff; intros b; auto).
    split; [unfold uJkmol; rewrite make_fac; simpl; f_equal; field|]. split; [|pose proof GasConstant_pos; lra]. rewrite W2. cbn [fac]. unfold uK. rewrite make_fac. simpl. ring.
Qed.
Print Assumptions C11_activation_kelvin_refuted.

(** FALSE in the code: that a call that throws leaves the reported defaults alone.  setDefaultActivationEnergy
    records the name before it finds that the unit will not do. *)
Theorem C11_failed_call_refuted :
  exists s n, ustep sys0 (SetAct n) = (s, false) /\ defaults s KActE = Some n /\ defaults sys0 KActE <> Some n /\
    (forall v u, convertActivationEnergyTo s v u = convertActivationEnergyTo sys0 v u) /\ exists u, Units n = Ok u /\ forall f, ~ act_energy u f.
Proof.
  destruct std_names as (_&(w&W1&W2&W3)&_).
  assert (forall f, ~ act_energy w f) as Na.
  { intros f A. assert (dim w Length = 1) as L by (rewrite W3; unfold uM; now rewrite make_dim).
    destruct A as [u X|u X|u X]; rewrite X in L; unfold uJkmol, uK, uEV in L; rewrite make_dim in L; simpl in L; lra. }
  exists (mkS 1 1 1 1 1 1 1 false (dset (fun _ => None) KActE (tx "m"))), (tx "m").
  split; [|split; [reflexivity|split; [discriminate|split; [reflexivity|eauto]]]].
  cbn [ustep]. destruct (set_act_cases sys0 (tx "m")) as [X|[(u&U1&U2&X)|(u&f&U1&U2&X)]].
  - exfalso. unfold set_act in X. rewrite W1 in X. assert (defs (fst (sys0, false)) KActE = Some (tx "m")); [|discriminate].
    rewrite <- X. destruct (convertible w uJkmol); [reflexivity|]. destruct (convertible w uK); [reflexivity|]. destruct (convertible w uEV); reflexivity.
  - exact X.
  - exfalso. rewrite W1 in U1. injection U1 as <-. destruct U2 as [(A&B)|[(A&B)|(A&B)]]; eapply Na; [now apply ae_molar|now apply ae_kelvin|now apply ae_molecule].
Qed.
Print Assumptions C11_failed_call_refuted.

(** A value with explicit units is converted from those, whatever the defaults. *)
Theorem C11_explicit_units s lit v c un u d : number lit v -> Units (c :: un) = Ok u ->
  convert_any s (AStr (lit ++ " "%char :: c :: un)) d = convert v u d.
Proof.
  intros N U. unfold convert_any, split_unit.
  assert (find_idx is_space_char (lit ++ " "%char :: c :: un) = Some (length lit)) as E.
  { pose proof (loose_tight lit (loose_of_number _ _ N)) as (_&_&_&F). clear - F. induction lit as [|a l IH]; [reflexivity|].
    inversion F as [|? ? (Ha&_) F']; subst. cbn [app find_idx length]. unfold is_space_char at 1.
    assert (Ascii.eqb a " " = false) as ->.
    { destruct (Ascii.eqb a " ") eqn:E; auto. apply Ascii.eqb_eq in E. subst. discriminate. }
    now rewrite (IH F'). }
  rewrite E. rewrite firstn_app, firstn_all, Nat.sub_diag. cbn [firstn]. rewrite app_nil_r.
  assert (fpValueCheck lit = Ok v) as ->.
  { replace lit with ([] ++ lit ++ []) by (rewrite app_nil_r; reflexivity). apply check_number; auto; constructor. }
  cbn [obind]. assert (skipn (S (length lit)) (lit ++ " "%char :: c :: un) = c :: un) as ->.
  { clear. induction lit; simpl; auto. }
  rewrite U. reflexivity.
Qed.
Print Assumptions C11_explicit_units.
Theorem C11_bare_number s v d : convert_any s (ANum v) d = Ok (convertTo s v d).
Proof. reflexivity. Qed.
Print Assumptions C11_bare_number.

(** FALSE in the code: that a rate constant whose units are not known yet is accepted as it stands only in the
    default unit system.  Only the length and quantity units are looked at; a default time unit of one minute
    passes. *)
Theorem C11_undefined_rate_units_refuted :
  exists s u, runs [SetNames [tx "min"]] s /\ defaults s KTime = Some (tx "min") /\ Units (tx "min") = Ok u /\ fac u = 60 /\
    forall x, convertRateCoeff s (ANum x) (num 0) = Ok x.
Proof.
  destruct (simple_std (tx "min") (make 60 (dims6 0 0 1 0 0 0)) ltac:(simple_name) ltac:(simpl; intuition discriminate) eq_refl) as (w&W1&W2&W3&_).
  rewrite make_fac in W2.
  assert (forall b, dim w b = dims6 0 0 1 0 0 0 b) as Hd by (intros b; rewrite W3; now rewrite make_dim).
  exists (derive_act (setT sys0 60 (tx "min"))), w. split; [|split; [reflexivity|split; [exact W1|split; [exact W2|]]]].
  - unfold runs. cbn [urun ustep set_names]. unfold set_one. rewrite W1.
    assert (convertible w uKg = false) as ->.
    { apply convertible_false. intros X. specialize (X Mass). rewrite Hd in X. unfold uKg in X. rewrite make_dim in X. simpl in X. lra. }
    assert (convertible w uM = false) as ->.
    { apply convertible_false. intros X. specialize (X Length). rewrite Hd in X. unfold uM in X. rewrite make_dim in X. simpl in X. lra. }
    assert (convertible w uS = true) as -> by (apply convertible_iff; intros b; rewrite Hd; unfold uS; now rewrite make_dim).
    rewrite W2. reflexivity.
  - intros x. unfold convertRateCoeff. destruct (num_vals 0) as (N1&_). rewrite N1.
    assert (reqb 0 0 = true) as -> by now apply reqb_true. cbn [negb]. cbn [split_unit obind].
    assert (reqb (fL (derive_act (setT sys0 60 (tx "min")))) 1 = true) as -> by now apply reqb_true.
    assert (reqb (fQ (derive_act (setT sys0 60 (tx "min")))) 1 = true) as -> by now apply reqb_true. reflexivity.
Qed.
Print Assumptions C11_undefined_rate_units_refuted.

(** A history: {"cm", "mol"}, then activation energies in K, then {pressure: atm}. *)
Example C11_example : exists s, runs [SetNames [tx "cm"; tx "mol"]; SetAct (tx "K"); SetMap [(KPressure, tx "atm")]] s /\
  assigns (SetMap [(KPressure, tx "atm")]) KPressure (tx "atm") /\ assigns (SetAct (tx "K")) KActE (tx "K") /\
  ~ touches (SetMap [(KPressure, tx "atm")]) KActE /\ positive_names [SetNames [tx "cm"; tx "mol"]; SetAct (tx "K"); SetMap [(KPressure, tx "atm")]].
Proof.
  assert (unit_symbol (tx "cm") (mkU (fac uM * powerRZ 10 (-2)) (dim uM) (pdim uM) (edim uM))) as H by (apply us_prefixed; reflexivity).
  assert (uname (tx "cm")) as Hn by simple_name. assert (no_number_head ([] ++ tx "cm" ++ [])) as Hh by (simpl; intuition discriminate).
  destruct (single [] (tx "cm") [] _ ltac:(constructor) ltac:(constructor) Hn Hh H) as (w1&A1&A2&A3&_). rewrite app_nil_r in A1. cbn [app] in A1.
  destruct (simple_std (tx "mol") (make (1/1000) (dims6 0 0 0 0 0 1)) ltac:(simple_name) ltac:(simpl; intuition discriminate) eq_refl) as (w2&B1&B2&B3&_).
  destruct (simple_std (tx "K") uK ltac:(simple_name) ltac:(simpl; intuition discriminate) eq_refl) as (w3&C1&C2&C3&_).
  destruct (simple_std (tx "atm") (make OneAtm (dims6 1 (-1) (-2) 0 0 0)) ltac:(simple_name) ltac:(simpl; intuition discriminate) eq_refl) as (w4&D1&D2&D3&_).
  assert (forall b, dim w1 b = dims6 0 1 0 0 0 0 b) as A4 by (intros b; rewrite A3; cbn [dim]; unfold uM; now rewrite make_dim).
  assert (forall b, dim w2 b = dims6 0 0 0 0 0 1 b) as B4 by (intros b; rewrite B3; now rewrite make_dim).
  eexists. split; [|split; [|split; [constructor|split]]].
  - unfold runs. cbn [urun ustep set_names]. unfold set_one at 1. rewrite A1.
    assert (convertible w1 uKg = false) as ->.
    { apply convertible_false. intros X. specialize (X Mass). rewrite A4 in X. unfold uKg in X. rewrite make_dim in X. simpl in X. lra. }
    assert (convertible w1 uM = true) as -> by (apply convertible_iff; intros b; rewrite A4; unfold uM; now rewrite make_dim).
    unfold set_one. rewrite B1.
    assert (convertible w2 uKg = false) as ->.
    { apply convertible_false. intros X. specialize (X Mass). rewrite B4 in X. unfold uKg in X. rewrite make_dim in X. simpl in X. lra. }
    assert (convertible w2 uM = false) as ->.
    { apply convertible_false. intros X. specialize (X Length). rewrite B4 in X. unfold uM in X. rewrite make_dim in X. simpl in X. lra. }
    assert (convertible w2 uS = false) as ->.
    { apply convertible_false. intros X. specialize (X Time). rewrite B4 in X. unfold uS in X. rewrite make_dim in X. simpl in X. lra. }
    assert (convertible w2 uKmol = true) as -> by (apply convertible_iff; intros b; rewrite B4; unfold uKmol; now rewrite make_dim).
    unfold set_act at 1. rewrite C1.
    assert (convertible w3 uJkmol = false) as ->.
    { apply convertible_false. intros X. specialize (X Mass). rewrite C3 in X. unfold uJkmol, uK in X. rewrite !make_dim in X. simpl in X. lra. }
    assert (convertible w3 uK = true) as -> by now apply convertible_iff.
    unfold set_map. cbn [set_entries]. unfold set_entry. rewrite D1.
    assert (convertible w4 uPa = true) as -> by (apply convertible_iff; intros b; rewrite D3; unfold uPa; now rewrite !make_dim).
    cbn [lookup dimk_eqb]. reflexivity.
  - apply as_map; [repeat constructor; simpl; tauto|now left|]. left. discriminate.
  - simpl. intros [X|[]]. discriminate.
  - intros o n u Ho Hin Hu. cbn [In] in Ho. destruct Ho as [<-|[<-|[<-|[]]]]; cbn [op_names map snd In] in Hin.
    + destruct Hin as [<-|[<-|[]]].
      * assert (u = w1) as -> by congruence. rewrite A2. cbn [fac]. unfold uM. rewrite make_fac. simpl. lra.
      * assert (u = w2) as -> by congruence. rewrite B2, make_fac. lra.
    + destruct Hin as [<-|[]]. assert (u = w3) as -> by congruence. rewrite C2. unfold uK. rewrite make_fac. lra.
    + destruct Hin as [<-|[]]. assert (u = w4) as -> by congruence. rewrite D2, make_fac. unfold OneAtm. lra.
Qed.

(** ** C49: unit stacks *)
(** After any joins and updates the product is the product of all the powers that were joined. *)
Theorem C49_product u0 ops : 0 < fac u0 -> Forall (fun p => 0 < fac (fst p)) (factors u0 ops) ->
  exists st, obind (setStandardUnits [] u0) (fun s => stack_run s ops) = Ok st /\ standardUnits st = u0 /\
    fac (product st) = prod_pow (factors u0 ops) /\ (forall b, dim (product st) b = sum_dim (fun v => dim v b) (factors u0 ops)).
Proof.
  intros H0 Hf. cbn [setStandardUnits obind]. destruct (stack_val ops u0 0 [] H0 ltac:(constructor) Hf) as (e1&s1&A&B&C&D).
  exists ((u0, e1) :: s1). split; auto. split; [reflexivity|].
  destruct (product_val ((u0, e1) :: s1)) as (P1&P2); [discriminate|constructor; auto|].
  split.
  - rewrite P1, C. cbn [prod_pow]. rewrite Rpower_O by auto. ring.
  - intros b. rewrite P2, D. cbn [sum_dim]. ring.
Qed.
Print Assumptions C49_product.
(** The pressure and energy parts too, if the units joined are not themselves products. *)
Theorem C49_pseudo u0 ops st : 0 < fac u0 -> Forall (fun p => 0 < fac (fst p)) (factors u0 ops) ->
  (exists f d, u0 = make f d) -> Forall (fun p => exists f d, fst p = make f d) (factors u0 ops) ->
  obind (setStandardUnits [] u0) (fun s => stack_run s ops) = Ok st ->
  pdim (product st) = sum_dim pdim (factors u0 ops) /\ edim (product st) = sum_dim edim (factors u0 ops).
Proof.
  intros H0 Hf (f0&d0&E0) Hm E. cbn [setStandardUnits obind] in E. destruct (stack_val ops u0 0 [] H0 ltac:(constructor) Hf) as (e1&s1&A&B&C&D).
  rewrite E in A. injection A as ->.
  assert (forall l, Forall (fun p : units * R => exists f d, fst p = make f d) l -> Forall (fun p => pure (fst p)) l) as Hpure.
  { intros l. apply Forall_impl. intros p (f&d&->). apply make_pure. }
  destruct (product_pseudo ((u0, e1) :: s1)) as (P1&P2); [discriminate|constructor; auto| |].
  - apply (stack_all pure ops u0 (Hpure _ Hm) [(u0, 0)]); [discriminate| |exact E]. constructor; [|constructor]. simpl. rewrite E0. apply make_pure.
  - rewrite P1, P2, !D. cbn [sum_dim]. split; ring.
Qed.
Print Assumptions C49_pseudo.
(** Standard units can be replaced only while their exponent is zero; an empty stack cannot be joined. *)
Theorem C49_standard_units_fixed u0 e0 s u e : (e0 <> 0 -> setStandardUnits ((u0, e0) :: s) u = Err) /\
  (e0 = 0 -> setStandardUnits ((u0, e0) :: s) u = Ok ((u, e0) :: s)) /\ join [] e = Err.
Proof.
  cbn [setStandardUnits]. split; [|split; [|reflexivity]].
  - intros H. assert (reqb e0 0 = false) as -> by now apply reqb_false. reflexivity.
  - intros H. assert (reqb e0 0 = true) as -> by now apply reqb_true. reflexivity.
Qed.
Print Assumptions C49_standard_units_fixed.
Example C49_example : let conc := make 1 (dims6 0 (-3) 0 0 0 1) in let ops := [Join (-1); Update uS (-1); Update conc 2; Update uS 3] in
  0 < fac conc /\ Forall (fun p => 0 < fac (fst p)) (factors conc ops) /\ Forall (fun p => exists f d, fst p = make f d) (factors conc ops) /\
  factors conc ops = [(conc, -1); (uS, -1); (conc, 2); (uS, 3)].
Proof.
  cbv zeta. split; [rewrite make_fac; lra|]. split; [|split; [|reflexivity]]; unfold factors; simpl.
  - repeat (apply Forall_cons; [simpl; unfold uS; rewrite make_fac; lra|]); apply Forall_nil.
  - repeat (apply Forall_cons; [simpl; unfold uS; eauto|]); apply Forall_nil.
Qed.

(** ** C50: the difference of two unit systems *)
(** Applied to the other system it gives one that converts as the first. *)
Theorem C50_delta_reproduces ops s ops' other : runs ops s -> runs ops' other -> (Exists sets_act ops' -> Exists sets_act ops) ->
  exists s', set_map other (getDelta s other) = (s', true) /\
    (forall v d, convertTo s' v d = convertTo s v d /\ convertFrom s' v d = convertFrom s v d) /\
    (forall v d, convertActivationEnergyTo s' v d = convertActivationEnergyTo s v d /\ convertActivationEnergyFrom s' v d = convertActivationEnergyFrom s v d).
Proof.
  intros Hs Ho Hx. assert (s = fst (urun sys0 ops)) as Ef by (unfold runs in Hs; now rewrite Hs).
  assert (Inv s) as HI by (rewrite Ef; apply urun_inv, Inv0).
  pose proof (urun_expl ops sys0 s Hs) as X1. pose proof (urun_expl ops' sys0 other Ho) as X2. assert (~ expl sys0 = true) as HX0 by discriminate.
  destruct (delta_ok s other HI (urun_true ops sys0 s Hs ActInv0)) as (s'&A&(B1&B2&B3&B4&B5&B6&B7)); [tauto|].
  exists s'. split; auto. unfold convertTo, convertFrom, convertActivationEnergyTo, convertActivationEnergyFrom. rewrite B1, B2, B3, B4, B5, B6, B7. auto.
Qed.
Print Assumptions C50_delta_reproduces.

(** FALSE in the code without the restriction: an explicit activation energy unit of the other system is not
    undone if this one has none. *)
Theorem C50_delta_refuted : exists ops' other s', runs ops' other /\ set_map other (getDelta sys0 other) = (s', true) /\
  convertActivationEnergyTo s' 1 uJkmol <> convertActivationEnergyTo sys0 1 uJkmol.
Proof.
  destruct (simple_std (tx "K") uK ltac:(simple_name) ltac:(simpl; intuition discriminate) eq_refl) as (w&C1&C2&C3&_).
  set (o := mkS 1 1 1 1 1 GasConstant 1 true (dset (fun _ => None) KActE (tx "K"))).
  assert (reqb 1 1 = true) as E11 by now apply reqb_true.
  exists [SetAct (tx "K")], o, o. split; [|split].
  - unfold runs. cbn [urun ustep]. unfold set_act. rewrite C1.
    assert (convertible w uJkmol = false) as ->.
    { apply convertible_false. intros X. specialize (X Mass). rewrite C3 in X. unfold uJkmol, uK in X. rewrite !make_dim in X. simpl in X. lra. }
    assert (convertible w uK = true) as -> by now apply convertible_iff. reflexivity.
  - unfold getDelta. unfold o, sys0. cbn [fM fL fT fP fE fQ fA expl]. rewrite E11.
    assert (reqb 1 (1 / 1) = true) as -> by (apply reqb_true; field). reflexivity.
  - unfold convertActivationEnergyTo. assert (convertible uJkmol uJkmol = true) as -> by (apply convertible_iff; intros b; auto).
    unfold o, sys0, uJkmol. cbn [fA]. rewrite make_fac. intros X. injection X as X.
    assert (GasConstant = 6.02214076 * 1.380649 * 1000) as G.
    { unfold GasConstant, Avogadro, Boltzmann.
      transitivity (6.02214076 * 1.380649 * (powerRZ 10 26 * powerRZ 10 (-23))); [ring|]. rewrite <- powerRZ_add by lra. simpl. ring. }
    rewrite G in X. lra.
Qed.
Print Assumptions C50_delta_refuted.
