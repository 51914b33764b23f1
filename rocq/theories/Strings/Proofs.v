From Coq Require Import Reals Lra ZArith Lia Ascii List Bool Arith.
From Verif Require Import Base.Outcome Strings.Model Strings.Spec.
Import ListNotations.
Open Scope R_scope.

(** * Characters *)
Ltac all_chars c := destruct c as [[] [] [] [] [] [] [] []].

Lemma digit_iff c d : digit c d <-> isdigit c = true /\ d = digit_val c.
Proof.
  split.
  - intros [n c' H]. do 10 (destruct n as [|n]; [simpl in H; injection H as <-; split; reflexivity|]).
    destruct n; discriminate.
  - intros (H&->). unfold digit_val.
    set (n := (nat_of_ascii c - 48)%nat).
    assert (nth_error digit_chars n = Some c).
    { unfold n. clear n. revert H. all_chars c; vm_compute; intros H; solve [reflexivity|discriminate]. }
    now constructor.
Qed.
Lemma isspace_iff c : isspace c = true <-> In c (map ascii_of_nat [9; 10; 11; 12; 13; 32]%nat).
Proof. split; all_chars c; vm_compute; intuition discriminate. Qed.
Lemma blank_iff c : blank c = true <-> In c (map ascii_of_nat [9; 10; 32]%nat).
Proof. split; all_chars c; vm_compute; intuition discriminate. Qed.
Lemma delim_iff c : delim c = true <-> In c ("," :: ";" :: map ascii_of_nat [9; 10; 32]%nat)%char.
Proof. split; all_chars c; vm_compute; intuition discriminate. Qed.
Lemma digit_class c : isdigit c = true ->
  isspace c = false /\ is_sign c = false /\ is_expd c = false /\ Ascii.eqb c "." = false /\ is_exp c = false /\
  delim c = false /\ is_colon c = false.
Proof. all_chars c; vm_compute; intuition discriminate. Qed.
Lemma is_expd_iff c : is_expd c = true <-> In c ["e"; "E"; "d"; "D"]%char.
Proof. split; all_chars c; vm_compute; intuition discriminate. Qed.
Lemma is_expd_class c : is_expd c = true ->
  isdigit c = false /\ Ascii.eqb c "." = false /\ isspace c = false /\ is_sign c = false /\ delim c = false /\ is_colon c = false.
Proof. all_chars c; vm_compute; intuition discriminate. Qed.
Lemma is_sign_class c : is_sign c = true -> isdigit c = false /\ isspace c = false /\ delim c = false /\ is_colon c = false.
Proof. all_chars c; vm_compute; intuition discriminate. Qed.
Lemma is_sign_iff c : is_sign c = true <-> c = "+"%char \/ c = "-"%char.
Proof. split; all_chars c; vm_compute; intuition discriminate. Qed.

(** * Digits *)
Definition dval (s : text) (acc : Z) : Z := fold_left (fun a c => (a * 10 + digit_val c)%Z) s acc.
Definition all_digits (s : text) : Prop := Forall (fun c => isdigit c = true) s.
Lemma dval_app a b z : dval (a ++ b) z = dval b (dval a z).
Proof. unfold dval. apply fold_left_app. Qed.
Lemma decimal_iff s z : decimal s z <-> all_digits s /\ z = dval s 0.
Proof.
  split.
  - induction 1 as [|s z c d H (IH1&IH2) Hd]; [split; [constructor|reflexivity]|].
    apply digit_iff in Hd. destruct Hd as (Hd&->). split.
    + apply Forall_app. split; auto.
    + rewrite dval_app, <- IH2. unfold dval. cbn [fold_left]. lia.
  - intros (H&->). revert H. induction s as [|c s IH] using rev_ind; intros H; [constructor|].
    apply Forall_app in H. destruct H as (H1&H2). inversion H2; subst. rewrite dval_app.
    change (dval [c] (dval s 0)) with (dval s 0 * 10 + digit_val c)%Z.
    replace (dval s 0 * 10 + digit_val c)%Z with (10 * dval s 0 + digit_val c)%Z by lia.
    constructor; [auto|]. apply digit_iff. auto.
Qed.
Definition no_digit_head (s : text) : Prop := match s with c :: _ => isdigit c = false | [] => True end.
Lemma scan_digits_app ds rest : all_digits ds -> no_digit_head rest -> forall acc n,
  scan_digits (ds ++ rest) acc n = (dval ds acc, (n + length ds)%nat, rest).
Proof.
  intros H Hr. induction H as [|c ds Hc H IH]; intros acc n; simpl.
  - rewrite Nat.add_0_r. destruct rest as [|c r]; simpl in *; [reflexivity|]. now rewrite Hr.
  - rewrite Hc, IH. rewrite Nat.add_succ_r. reflexivity.
Qed.

(** * Trimming *)
Lemma trim_left_app a s : white a -> trim_left (a ++ s) = trim_left s.
Proof. induction 1 as [|c a Hc H IH]; simpl; auto. apply isspace_iff in Hc. now rewrite Hc. Qed.
Lemma trim_left_split s : exists a, white a /\ s = a ++ trim_left s.
Proof.
  induction s as [|c s (a&Ha&E)]; [exists []; split; [constructor|reflexivity]|]. simpl.
  destruct (isspace c) eqn:Hc.
  - exists (c :: a). split; [constructor; auto; now apply isspace_iff|]. simpl. now rewrite <- E.
  - exists []. split; [constructor|reflexivity].
Qed.
Definition tight (s : text) : Prop := match s with c :: _ => isspace c = false | [] => True end.
Lemma trim_left_tight s : tight s -> trim_left s = s.
Proof. destruct s as [|c s]; simpl; auto. intros ->. auto. Qed.
Lemma tight_trim_left s : tight (trim_left s).
Proof. induction s as [|c s IH]; simpl; auto. destruct (isspace c) eqn:E; simpl; auto. Qed.
Lemma white_rev a : white a -> white (rev a).
Proof. unfold white. intros H. apply Forall_rev. exact H. Qed.
Lemma trim_app a s b : white a -> white b -> tight s -> tight (rev s) -> trim (a ++ s ++ b) = s.
Proof.
  intros Ha Hb H1 H2. unfold trim. rewrite trim_left_app by auto.
  destruct s as [|c s'].
  - simpl. rewrite <- (app_nil_r b), trim_left_app by auto. reflexivity.
  - rewrite (trim_left_tight ((c :: s') ++ b)) by exact H1.
    rewrite rev_app_distr, trim_left_app by (now apply white_rev).
    rewrite trim_left_tight by auto. apply rev_involutive.
Qed.
Lemma trim_split s : exists a b, white a /\ white b /\ s = a ++ trim s ++ b.
Proof.
  unfold trim. destruct (trim_left_split s) as (a&Ha&Ea).
  destruct (trim_left_split (rev (trim_left s))) as (b&Hb&Eb).
  exists a, (rev b). split; auto. split; [now apply white_rev|].
  rewrite <- rev_app_distr, <- Eb, rev_involutive. auto.
Qed.

(** * The loop of fpValueCheck *)
Definition normE (e : text) : text := match e with [] => [] | _ :: r => "E"%char :: r end.

Lemma fp_loop_exp s : forall d, fp_loop s d 1 = if forallb isdigit s then Ok s else Err.
Proof.
  induction s as [|c s IH]; intros d; [reflexivity|]. cbn [fp_loop forallb].
  destruct (isdigit c) eqn:Hc; [rewrite IH; destruct (forallb isdigit s); reflexivity|].
  cbn [andb]. destruct (Ascii.eqb c "."); [destruct (1 <? S d)%nat; reflexivity|].
  destruct (is_expd c); reflexivity.
Qed.
Lemma all_digits_forallb s : all_digits s <-> forallb isdigit s = true.
Proof. unfold all_digits. rewrite forallb_forall, Forall_forall. reflexivity. Qed.

(** what an exponent looks like to the program *)
Lemma esign_iff s z : esign s z <-> (s = [] /\ z = 1%Z) \/ (exists c, s = [c] /\ is_sign c = true /\ z = if Ascii.eqb c "-" then (-1)%Z else 1%Z).
Proof.
  split.
  - intros []; [left; auto|right; exists "+"%char; auto|right; exists "-"%char; auto].
  - intros [(->&->)|(c&->&Hc&->)]; [constructor|]. apply is_sign_iff in Hc. destruct Hc; subst; constructor.
Qed.
Lemma fp_exp_complete e ev : exponent e ev -> forall d, fp_loop e d 0 = Ok (normE e).
Proof.
  intros [|c s sz ds z Hc Hs Hd Hne] d; [reflexivity|].
  apply is_expd_iff in Hc. destruct (is_expd_class _ Hc) as (C1&C2&_).
  apply decimal_iff in Hd. destruct Hd as (Hd&_). cbn [fp_loop]. rewrite C1, C2, Hc. simpl Nat.ltb. cbv iota.
  apply esign_iff in Hs. destruct Hs as [(->&_)|(c2&->&Hc2&_)].
  - destruct ds as [|d0 ds]; [congruence|]. simpl app.
    inversion Hd; subst. destruct (digit_class _ H1) as (_&Z&_). rewrite Z.
    rewrite fp_loop_exp. rewrite (proj1 (all_digits_forallb _) Hd). reflexivity.
  - cbn [app]. cbv iota beta. rewrite Hc2. destruct ds as [|d0 ds]; [congruence|].
    rewrite fp_loop_exp. rewrite (proj1 (all_digits_forallb _) Hd). reflexivity.
Qed.
Lemma omap_ok {A B} (f : A -> B) o r : omap f o = Ok r -> exists a, o = Ok a /\ r = f a.
Proof. destruct o; simpl; try discriminate. intros H. injection H as <-. eauto. Qed.
Lemma fp_exp_sound c s d r : is_expd c = true -> fp_loop (c :: s) d 0 = Ok r -> (exists ev, exponent (c :: s) ev) /\ r = normE (c :: s).
Proof.
  intros Hc. destruct (is_expd_class _ Hc) as (C1&C2&_). cbn [fp_loop]. rewrite C1, C2, Hc. simpl Nat.ltb. cbv iota.
  destruct s as [|c2 s]; [discriminate|]. destruct (is_sign c2) eqn:Hs.
  - destruct s as [|c3 s]; [discriminate|]. rewrite fp_loop_exp.
    destruct (forallb isdigit (c3 :: s)) eqn:F; [|discriminate]. simpl. intros H. injection H as <-. split; [|reflexivity].
    exists ((if Ascii.eqb c2 "-" then -1 else 1) * dval (c3 :: s) 0)%Z.
    change (c :: c2 :: c3 :: s) with (c :: [c2] ++ (c3 :: s)). constructor.
    + now apply is_expd_iff.
    + apply esign_iff. right. eauto.
    + apply decimal_iff. split; auto. now apply all_digits_forallb.
    + discriminate.
  - rewrite fp_loop_exp. destruct (forallb isdigit (c2 :: s)) eqn:F; [|discriminate]. simpl. intros H. injection H as <-. split; [|reflexivity].
    exists (1 * dval (c2 :: s) 0)%Z. change (c :: c2 :: s) with (c :: [] ++ (c2 :: s)). constructor.
    + now apply is_expd_iff.
    + constructor.
    + apply decimal_iff. split; auto. now apply all_digits_forallb.
    + discriminate.
Qed.

Lemma fp_digits_app ds r d e : all_digits ds -> fp_loop (ds ++ r) d e = omap (app ds) (fp_loop r d e).
Proof.
  induction 1 as [|c ds Hc H IH]; simpl app; [destruct (fp_loop r d e); reflexivity|].
  cbn [fp_loop]. rewrite Hc, IH. destruct (fp_loop r d e); reflexivity.
Qed.
(** split off the leading digits *)
Lemma digits_split s : exists ds r, all_digits ds /\ no_digit_head r /\ s = ds ++ r.
Proof.
  induction s as [|c s (ds&r&H1&H2&E)]; [exists [], []; repeat split; constructor|].
  destruct (isdigit c) eqn:Hc.
  - exists (c :: ds), r. split; [constructor; auto|]. split; auto. simpl. now rewrite <- E.
  - exists [], (c :: s). split; [constructor|]. split; auto.
Qed.

Lemma fp_frac_sound s r : fp_loop s 1 0 = Ok r ->
  exists ds e ev, all_digits ds /\ exponent e ev /\ s = ds ++ e /\ r = ds ++ normE e.
Proof.
  destruct (digits_split s) as (ds&q&H1&H2&->). rewrite fp_digits_app by auto. intros H.
  apply omap_ok in H. destruct H as (a&Ha&->).
  destruct q as [|c q].
  - simpl in Ha. injection Ha as <-. exists ds, [], 0%Z. repeat split; auto. constructor.
  - simpl in H2. destruct (is_expd c) eqn:Hc.
    + destruct (fp_exp_sound c q 1 a Hc Ha) as ((ev&He)&->). exists ds, (c :: q), ev. repeat split; auto.
    + cbn [fp_loop] in Ha. rewrite H2, Hc in Ha. destruct (Ascii.eqb c "."); discriminate.
Qed.
Lemma fp_sound s r : fp_loop s 0 0 = Ok r ->
  exists m whole frac e ev, mantissa m whole frac /\ exponent e ev /\ s = m ++ e /\ r = m ++ normE e.
Proof.
  destruct (digits_split s) as (ds&q&H1&H2&->). rewrite fp_digits_app by auto. intros H.
  apply omap_ok in H. destruct H as (a&Ha&->).
  assert (mantissa ds ds []) as M by (apply (ma_int ds (dval ds 0)); apply decimal_iff; auto).
  destruct q as [|c q].
  - simpl in Ha. injection Ha as <-. exists ds, ds, [], [], 0%Z. split; auto. split; [constructor|]. auto.
  - simpl in H2. destruct (is_expd c) eqn:Hc.
    + destruct (fp_exp_sound c q 0 a Hc Ha) as ((ev&He)&->). exists ds, ds, [], (c :: q), ev. repeat split; auto.
    + cbn [fp_loop] in Ha. rewrite H2, Hc in Ha. destruct (Ascii.eqb_spec c ".") as [->|]; [|discriminate].
      simpl in Ha. apply omap_ok in Ha. destruct Ha as (b&Hb&->).
      destruct (fp_frac_sound q b Hb) as (fr&e&ev&F1&F2&->&->).
      exists (ds ++ "."%char :: fr), ds, fr, e, ev. split; [|split; [auto|split]].
      * apply (ma_frac ds fr (dval ds 0) (dval fr 0)); apply decimal_iff; auto.
      * rewrite <- app_assoc. reflexivity.
      * rewrite <- app_assoc. reflexivity.
Qed.
Lemma fp_complete m whole frac e ev : mantissa m whole frac -> exponent e ev -> fp_loop (m ++ e) 0 0 = Ok (m ++ normE e).
Proof.
  intros Hm He. destruct Hm as [whole z Hw|whole frac z z' Hw Hf].
  - apply decimal_iff in Hw. destruct Hw as (Hw&_). rewrite fp_digits_app by auto. now rewrite (fp_exp_complete _ _ He).
  - apply decimal_iff in Hw, Hf. destruct Hw as (Hw&_). destruct Hf as (Hf&_).
    rewrite <- !app_assoc. rewrite fp_digits_app by auto.
    assert (fp_loop (("."%char :: frac) ++ e) 0 0 = omap (cons "."%char) (fp_loop (frac ++ e) 1 0)) as -> by reflexivity.
    rewrite fp_digits_app by auto. rewrite (fp_exp_complete _ _ He). reflexivity.
Qed.
Lemma fp_loop_err s : forall d e, (exists r, fp_loop s d e = Ok r) \/ fp_loop s d e = Err.
Proof.
  assert (forall n s, (length s <= n)%nat -> forall d e, (exists r, fp_loop s d e = Ok r) \/ fp_loop s d e = Err) as G.
  { induction n as [|n IH]; intros s0 Hn d e; destruct s0 as [|c s0]; try (left; eexists; reflexivity); simpl in Hn; [lia|].
    assert (forall (f : text -> text) s1 d1 e1, (length s1 <= n)%nat -> (exists r, omap f (fp_loop s1 d1 e1) = Ok r) \/ omap f (fp_loop s1 d1 e1) = Err) as K.
    { intros f s1 d1 e1 Hs1. destruct (IH s1 Hs1 d1 e1) as [(r&->)| ->]; simpl; eauto. }
    cbn [fp_loop]. destruct (isdigit c); [apply K; lia|]. destruct (Ascii.eqb c ".").
    - destruct (1 <? S d)%nat; auto. destruct (0 <? e)%nat; auto. apply K. lia.
    - destruct (is_expd c); auto. destruct (1 <? S e)%nat; auto. destruct s0 as [|c2 s0]; auto.
      destruct (is_sign c2); [|apply K; simpl in *; lia]. destruct s0; auto. apply K. simpl in *. lia. }
  intros. eapply G; eauto.
Qed.

(** * The value *)
Lemma sign_iff s v : sign s v <-> (s = [] /\ v = 1) \/ (exists c, s = [c] /\ is_sign c = true /\ v = if Ascii.eqb c "-" then -1 else 1).
Proof.
  split.
  - intros []; [left; auto|right; exists "+"%char; auto|right; exists "-"%char; auto].
  - intros [(->&->)|(c&->&Hc&->)]; [constructor|]. apply is_sign_iff in Hc. destruct Hc; subst; constructor.
Qed.
(** the mantissa has a digit or starts with a point, or is empty *)
Lemma mantissa_head m whole frac : mantissa m whole frac ->
  match m with [] => True | c :: _ => isdigit c = true \/ c = "."%char end.
Proof.
  intros [w z H|w f z z' H H'].
  - apply decimal_iff in H. destruct H as ([|c w0 Hc _]&_); auto.
  - apply decimal_iff in H. destruct H as ([|c w0 Hc _]&_); simpl; auto.
Qed.
Lemma exponent_head e ev : exponent e ev -> match e with [] => True | c :: _ => is_expd c = true end.
Proof. intros [|c]; auto. now apply is_expd_iff. Qed.

Lemma fpValue_number sg sv m whole frac e ev : sign sg sv -> mantissa m whole frac -> exponent e ev ->
  fpValue (sg ++ m ++ normE e) =
    if ((length whole =? 0) && (length frac =? 0))%nat then 0
    else sv * (IZR (dval (whole ++ frac) 0) * powerRZ 10 (ev - Z.of_nat (length frac))).
Proof.
  intros Hs Hm He. unfold fpValue.
  assert (scan_sign (sg ++ m ++ normE e) = ((match sg with c :: _ => Ascii.eqb c "-" | [] => false end), m ++ normE e)) as ->.
  { apply sign_iff in Hs. destruct Hs as [(->&_)|(c&->&Hc&_)]; simpl; [|now rewrite Hc].
    assert (forall c r, m ++ normE e = c :: r -> is_sign c = false) as K.
    { intros c r Hcr. destruct m as [|c0 m]; simpl in Hcr.
      - destruct e; simpl in Hcr; [discriminate|]. injection Hcr as <- <-. reflexivity.
      - injection Hcr as <- <-. apply mantissa_head in Hm. destruct Hm as [Hd| ->]; [|reflexivity]. now apply digit_class. }
    destruct (m ++ normE e) as [|c r]; [reflexivity|]. simpl. now rewrite (K c r eq_refl). }
  assert ((if match sg with c :: _ => Ascii.eqb c "-" | [] => false end then -1 else 1) = sv) as Esg.
  { apply sign_iff in Hs. destruct Hs as [(->&->)|(c&->&Hc&->)]; [reflexivity|]. reflexivity. }
  assert (no_digit_head (normE e)) as Nd.
  { destruct e; simpl; auto. }
  assert (match normE e with
             | c :: s3' => if is_exp c then
                             let '(eneg, s4) := scan_sign s3' in
                             let '(ev0, _, _) := scan_digits s4 0%Z 0 in
                             if eneg then (- ev0)%Z else ev0
                           else 0%Z
             | [] => 0%Z
             end = ev) as Eev.
  { destruct He as [|c s sz ds z Hc Hsz Hd Hne]; [reflexivity|]. unfold normE. change (is_exp "E") with true. cbv iota.
    apply decimal_iff in Hd. destruct Hd as (Hd&->).
    assert (forall acc n, scan_digits ds acc n = (dval ds acc, (n + length ds)%nat, [])) as SD.
    { intros. rewrite <- (app_nil_r ds) at 1. apply scan_digits_app; simpl; auto. }
    apply esign_iff in Hsz. destruct Hsz as [(->&->)|(c2&->&Hc2&->)].
    - simpl app. assert (scan_sign ds = (false, ds)) as ->.
      { destruct Hd as [|d0 ds' Hd0 _]; [reflexivity|]. simpl. destruct (digit_class _ Hd0) as (_&E&_). now rewrite E. }
      rewrite SD. lia.
    - simpl. rewrite Hc2, SD. destruct (Ascii.eqb c2 "-"); lia. }
  destruct Hm as [w z Hw|w f z z' Hw Hf].
  - apply decimal_iff in Hw. destruct Hw as (Hw&_). rewrite (scan_digits_app w) by auto. simpl Nat.add.
    assert (match normE e with c :: s2' => if Ascii.eqb c "." then scan_digits s2' (dval w 0) 0 else (dval w 0, 0%nat, normE e) | [] => (dval w 0, 0%nat, []) end
       = (dval w 0, 0%nat, normE e)) as -> by (destruct e; reflexivity).
    simpl length. simpl Nat.eqb. destruct (length w =? 0)%nat; simpl andb; cbv iota; [reflexivity|].
    rewrite Eev, Esg, app_nil_r. simpl Z.of_nat. ring.
  - apply decimal_iff in Hw, Hf. destruct Hw as (Hw&_). destruct Hf as (Hf&_).
    rewrite <- app_assoc. simpl app. rewrite (scan_digits_app w) by (auto; reflexivity). simpl Nat.add.
    cbv iota. rewrite Ascii.eqb_refl. rewrite (scan_digits_app f) by auto. simpl Nat.add.
    destruct ((length w =? 0)%nat && (length f =? 0)%nat); [reflexivity|].
    rewrite Eev, Esg, dval_app. ring.
Qed.

Lemma loose_tight s : loose_number s -> s <> [] /\ tight s /\ tight (rev s) /\ Forall (fun c => delim c = false /\ is_colon c = false) s.
Proof.
  intros [sg sv m w f e ev Hs Hm He Hne].
  assert (Forall (fun c => isspace c = false /\ delim c = false /\ is_colon c = false) (sg ++ m ++ e)) as F.
  { apply Forall_app. split; [|apply Forall_app; split].
    - apply sign_iff in Hs. destruct Hs as [(->&_)|(c&->&Hc&_)]; [constructor|]. constructor; [|constructor].
      destruct (is_sign_class _ Hc) as (_&A&B&C). auto.
    - assert (forall l, all_digits l -> Forall (fun c => isspace c = false /\ delim c = false /\ is_colon c = false) l) as D.
      { intros l Hl. eapply Forall_impl; [|exact Hl]. simpl. intros c Hc. destruct (digit_class _ Hc) as (A&_&_&_&_&B&C). auto. }
      destruct Hm as [w z Hw|w f z z' Hw Hf].
      + apply decimal_iff in Hw. now apply D.
      + apply decimal_iff in Hw, Hf. apply Forall_app. split; [now apply D|]. constructor; [vm_compute; auto|now apply D].
    - destruct He as [|c s0 sz ds z Hc Hsz Hd _]; [constructor|]. apply is_expd_iff in Hc. constructor.
      { destruct (is_expd_class _ Hc) as (_&_&A&_&B&C). auto. }
      apply Forall_app. split.
      + apply esign_iff in Hsz. destruct Hsz as [(->&_)|(c2&->&Hc2&_)]; [constructor|]. constructor; [|constructor].
        destruct (is_sign_class _ Hc2) as (_&A&B&C). auto.
      + apply decimal_iff in Hd. destruct Hd as (Hd&_). eapply Forall_impl; [|exact Hd]. simpl. intros x Hx.
        destruct (digit_class _ Hx) as (A&_&_&_&_&B&C). auto. }
  split; [|split; [|split]].
  - destruct sg; [exact Hne|discriminate].
  - destruct F as [|c l (A&_) _]; simpl; auto.
  - apply Forall_rev in F. destruct F as [|c l (A&_) _]; simpl; auto.
  - eapply Forall_impl; [|exact F]. simpl. tauto.
Qed.

(** * fpValueCheck *)
Lemma check_complete a s b : white a -> white b -> forall sg sv m w f e ev,
  sign sg sv -> mantissa m w f -> exponent e ev -> m ++ e <> [] -> s = sg ++ m ++ e ->
  fpValueCheck (a ++ s ++ b) = Ok (fpValue (sg ++ m ++ normE e)).
Proof.
  intros Ha Hb sg sv m w f e ev Hs Hm He Hne ->.
  destruct (loose_tight (sg ++ m ++ e)) as (N1&N2&N3&_); [econstructor; eauto|].
  unfold fpValueCheck. rewrite trim_app by auto.
  apply sign_iff in Hs. destruct Hs as [(->&_)|(c&->&Hc&_)].
  - pose proof (fp_complete _ _ _ _ _ Hm He) as F. cbn [app]. cbn [app] in N1. destruct (m ++ e) as [|c r] eqn:E; [congruence|].
    cbv zeta iota beta.
    assert (is_sign c = false) as ->.
    { destruct m as [|c0 m]; simpl in E.
      - subst e. apply exponent_head in He. now apply is_expd_class.
      - injection E as -> _. apply mantissa_head in Hm. destruct Hm as [Hd| ->]; [now apply digit_class|reflexivity]. }
    rewrite F. reflexivity.
  - pose proof (fp_complete _ _ _ _ _ Hm He) as F. cbn [app]. cbv zeta iota beta. rewrite Hc.
    destruct (m ++ e) as [|c2 r] eqn:E; [congruence|]. rewrite F. reflexivity.
Qed.
Lemma check_sound s v : fpValueCheck s = Ok v -> exists a b sg sv m w f e ev,
  white a /\ white b /\ sign sg sv /\ mantissa m w f /\ exponent e ev /\ m ++ e <> [] /\ s = a ++ (sg ++ m ++ e) ++ b /\
  v = fpValue (sg ++ m ++ normE e).
Proof.
  unfold fpValueCheck. destruct (trim_split s) as (a&b&Ha&Hb&E).
  destruct (trim s) as [|c r] eqn:T; [discriminate|]. intros H. apply omap_ok in H. destruct H as (q&Hq&->).
  destruct (is_sign c) eqn:Hc.
  - destruct r as [|c2 r]; [discriminate|]. apply omap_ok in Hq. destruct Hq as (q'&Hq&->).
    apply fp_sound in Hq. destruct Hq as (m&w&f&e&ev&Hm&He&Es&->).
    exists a, b, [c], (if Ascii.eqb c "-" then -1 else 1), m, w, f, e, ev.
    repeat (split; [solve [auto|apply sign_iff; right; eauto|rewrite <- Es; discriminate]|]).
    split; [|reflexivity]. rewrite E, Es. reflexivity.
  - apply fp_sound in Hq. destruct Hq as (m&w&f&e&ev&Hm&He&Es&->).
    exists a, b, [], 1, m, w, f, e, ev.
    repeat (split; [solve [auto|constructor|rewrite <- Es; discriminate]|]).
    split; [|reflexivity]. rewrite E, Es. reflexivity.
Qed.
Lemma check_err s : (exists v, fpValueCheck s = Ok v) \/ fpValueCheck s = Err.
Proof.
  unfold fpValueCheck. destruct (trim s) as [|c r]; auto. destruct (is_sign c).
  - destruct r as [|c2 r]; auto. destruct (fp_loop_err (c2 :: r) 0 0) as [(x&->)| ->]; simpl; eauto.
  - destruct (fp_loop_err (c :: r) 0 0) as [(x&->)| ->]; simpl; eauto.
Qed.
