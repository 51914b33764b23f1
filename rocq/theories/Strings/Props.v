(** Checked number parsing (C14) and composition strings (C13). *)
From Coq Require Import Reals Lra ZArith Lia String Ascii List Bool Arith.
From Verif Require Import Base.Outcome Strings.Model Strings.Spec Strings.Proofs Strings.CompProofs.
Import ListNotations.
Open Scope R_scope.

Ltac allc := repeat (apply Forall_cons; [simpl; tauto|]); apply Forall_nil.
Definition tx := list_ascii_of_string.

(** ** C14 *)
(** Every decimal literal, with white space around it, is accepted with its value. *)
Theorem C14_numbers_accepted a s b v : white a -> white b -> number s v -> fpValueCheck (a ++ s ++ b) = Ok v.
Proof. apply check_number. Qed.
Print Assumptions C14_numbers_accepted.

(** The strings accepted are exactly the loose numbers; everything else is a CanteraError. *)
Theorem C14_accepted_language s :
  ((exists v, fpValueCheck s = Ok v) <-> exists a t b, white a /\ white b /\ loose_number t /\ s = a ++ t ++ b) /\
  ((~ exists v, fpValueCheck s = Ok v) -> fpValueCheck s = Err).
Proof.
  split; [split|].
  - intros (v&H). apply check_sound in H. destruct H as (a&b&sg&sv&m&w&f&e&ev&Ha&Hb&Hs&Hm&He&Hne&->&_).
    exists a, (sg ++ m ++ e), b. split; auto. split; auto. split; auto. econstructor; eauto.
  - intros (a&t&b&Ha&Hb&[sg sv m w f e ev Hs Hm He Hne]&->). eexists. eapply check_complete; eauto.
  - intros H. destruct (check_err s); tauto.
Qed.
Print Assumptions C14_accepted_language.

(** What is returned is the number's value, or zero if the mantissa has no digit. *)
Theorem C14_value s v : fpValueCheck s = Ok v -> exists a t b, white a /\ white b /\ s = a ++ t ++ b /\
  (number t v \/ (v = 0 /\ loose_number t /\ exists sg m e ev, t = sg ++ m ++ e /\ (m = [] \/ m = ["."%char]) /\ exponent e ev)).
Proof.
  intros H. apply check_sound in H. destruct H as (a&b&sg&sv&m&w&f&e&ev&Ha&Hb&Hs&Hm&He&Hne&->&->).
  exists a, (sg ++ m ++ e), b. split; auto. split; auto. split; auto.
  rewrite (fpValue_number _ sv _ w f _ ev) by auto.
  destruct ((length w =? 0) && (length f =? 0))%nat eqn:E.
  - right. split; auto. split; [econstructor; eauto|]. exists sg, m, e, ev. split; auto. split; auto.
    apply andb_true_iff in E. destruct E as (E1&E2). apply Nat.eqb_eq in E1, E2.
    destruct Hm as [w z|w f z z']; destruct w; try discriminate; auto. destruct f; try discriminate; auto.
  - left. econstructor; eauto.
    + apply decimal_iff. split; auto. apply Forall_app. destruct Hm as [w z Hw|w f z z' Hw Hf].
      * apply decimal_iff in Hw. split; [tauto|constructor].
      * apply decimal_iff in Hw, Hf. tauto.
    + intros E0. apply app_eq_nil in E0. destruct E0 as (->&->). discriminate.
Qed.
Print Assumptions C14_value.

(** FALSE in the code: that only decimal literals are accepted.  A point without digits, or an exponent
    without mantissa, is accepted and read as zero. *)
Theorem C14_only_numbers_refuted :
  exists s v, fpValueCheck s = Ok v /\ forall a t b u, white a -> white b -> s = a ++ t ++ b -> ~ number t u.
Proof.
  exists (tx "."), 0. split.
  - unfold fpValueCheck. cbn. unfold fpValue. cbn. reflexivity.
  - intros a t b u Ha Hb E N.
    assert (exists c, In c t /\ isdigit c = true) as (c&Hc&Hd).
    { destruct N as [sg sv m w f z e ev Hs Hm Hz Hne He].
      apply decimal_iff in Hz. destruct Hz as (Hz&_). destruct (w ++ f) as [|c r] eqn:Ewf; [congruence|].
      exists c. split; [|inversion Hz; auto]. rewrite !in_app_iff. right. left.
      destruct Hm as [w z0|w f z0 z1].
      - rewrite app_nil_r in Ewf. subst. now left.
      - rewrite in_app_iff. destruct w as [|c0 w]; simpl in Ewf.
        + subst f. right. right. now left.
        + injection Ewf as -> _. left. now left. }
    assert (In c (tx ".")) as Hin by (rewrite E, !in_app_iff; auto).
    simpl in Hin. destruct Hin as [<-|[]]. discriminate.
Qed.
Print Assumptions C14_only_numbers_refuted.
Example C14_e5 : fpValueCheck (tx "e5") = Ok 0.
Proof. unfold fpValueCheck. cbn. unfold fpValue. cbn. reflexivity. Qed.

(** "-12.5e3" is a number. *)
Example C14_example : number (tx "-12.5e3") (-1 * (IZR 125 * powerRZ 10 (1 * 3 - 1))).
Proof.
  change (tx "-12.5e3") with (["-"%char] ++ (["1"; "2"] ++ "." :: ["5"])%char ++ ("e"%char :: [] ++ ["3"%char])).
  apply (num ["-"%char] (-1) (["1"; "2"] ++ "." :: ["5"])%char ["1"; "2"]%char ["5"]%char 125).
  - constructor.
  - apply (ma_frac _ _ 12 5); apply decimal_iff; split; try reflexivity; repeat constructor.
  - apply decimal_iff. split; [repeat constructor|reflexivity].
  - discriminate.
  - constructor; [simpl; auto|constructor|apply decimal_iff; split; [repeat constructor|reflexivity]|discriminate].
Qed.

(** ** C13 *)
(** A composition string with distinct names gives exactly its pairs (and zero for the other names that
    were supplied).  Names may contain colons if no list of names is supplied. *)
Theorem C13_round_trip colons names l t : composition_text colons l t -> NoDup (map fst l) ->
  (colons = true -> names = []) -> (names = [] \/ incl (map fst l) names) ->
  exists x, parseCompString t names = Ok x /\
    forall n, x n = match assoc l n with
                    | Some v => Some v
                    | None => if in_dec (list_eq_dec ascii_dec) n names then Some 0 else None
                    end.
Proof.
  intros H Hnd Hc Hn. rewrite (parse_text colons names l t Hc H).
  destruct (store_all_distinct (named names) l (comp_init names) Hnd) as (x&E&Hx).
  - intros n Hin. rewrite comp_init_get. split.
    + destruct Hn as [->|Hn]; [discriminate|]. intros _. destruct (in_dec _ n names) as [|N]; [discriminate|]. exfalso. auto.
    + destruct (in_dec _ n names); auto.
  - exists x. split; auto. intros n. rewrite Hx, comp_init_get. reflexivity.
Qed.
Print Assumptions C13_round_trip.

(** A name that occurs twice is an error, if the first value is not zero. *)
Theorem C13_duplicate colons names l1 n v l2 w l3 t : (colons = true -> names = []) ->
  composition_text colons (l1 ++ (n, v) :: l2 ++ (n, w) :: l3) t -> v <> 0 -> ~ In n (map fst l2) ->
  parseCompString t names = Err.
Proof. intros Hc H Hv Hn. rewrite (parse_text colons names _ t Hc H). now apply store_all_dup. Qed.
Print Assumptions C13_duplicate.

(** With a list of names, any other name is an error. *)
Lemma first_split (n : text) (l : list (text * R)) : In n (map fst l) -> exists l1 v l2, l = l1 ++ (n, v) :: l2 /\ ~ In n (map fst l1).
Proof.
  induction l as [|[m v] l IH]; [intros []|]. intros H. destruct (list_eq_dec ascii_dec m n) as [E|E].
  - subst. exists [], v, l. split; auto.
  - destruct H as [H|H]; [simpl in H; congruence|]. destruct (IH H) as (l1&v1&l2&->&H1). exists ((m, v) :: l1), v1, l2. split; auto.
    simpl. tauto.
Qed.
Theorem C13_unknown_name names l n t : names <> [] ->
  composition_text false l t -> In n (map fst l) -> ~ In n names -> parseCompString t names = Err.
Proof.
  intros Hn H Hin Hni. destruct (first_split n l Hin) as (l1&v&l2&->&Hf).
  rewrite (parse_text false names _ t ltac:(intros; discriminate) H). destruct names as [|n0 names]; [congruence|].
  apply store_all_unknown; auto. intros m _ ->. rewrite comp_init_get. destruct (in_dec _ n _); tauto.
Qed.
Print Assumptions C13_unknown_name.

(** A value that is not a number is an error, after any number of good pairs. *)
Theorem C13_bad_value colons names l p n ws bad rest : (colons = true -> names = []) ->
  composition_prefix colons l p -> name_ok false n -> blanks ws -> bad <> [] ->
  Forall (fun c => ~ In c (":" :: "," :: ";" :: map ascii_of_nat [9; 10; 32]%nat)%char) bad ->
  ~ loose_number bad -> Forall (fun c => isspace c = false) bad ->
  (rest = [] \/ exists c r, rest = c :: r /\ separators [c]) ->
  parseCompString (p ++ n ++ ":"%char :: ws ++ bad ++ rest) names = Err.
Proof.
  intros Hc Hp Hn Hws Hne Hb Hbad Hsp Hr. eapply parse_bad; eauto.
  - eapply Forall_impl; [|exact Hb]. intros c Hcc. split.
    + destruct (delim c) eqn:E; auto. apply delim_iff in E. exfalso. apply Hcc. right. exact E.
    + unfold is_colon. destruct (Ascii.eqb_spec c ":"); auto. subst. exfalso. apply Hcc. now left.
  - destruct (C14_accepted_language bad) as (A&B). apply B. intros HA. apply A in HA.
    destruct HA as (a&u&b&Ha&Hb'&Hl&E). apply Hbad.
    assert (forall s, white s -> Forall (fun c => isspace c = false) s -> s = []) as W.
    { intros s H1 H2. destruct s as [|c s]; auto. inversion H1 as [|? ? X _]; inversion H2 as [|? ? Y _]; subst. apply isspace_iff in X. congruence. }
    rewrite E in Hsp. apply Forall_app in Hsp. destruct Hsp as (S1&S2). apply Forall_app in S2. destruct S2 as (S2&S3).
    rewrite (W a), (W b), app_nil_r in E by auto. simpl in E. now subst.
  - destruct Hr as [->|(c&r&->&Hs)]; simpl; auto. inversion Hs; subst. now apply delim_iff.
Qed.
Print Assumptions C13_bad_value.

(** Text after the pairs (or instead of them) that has no colon is an error. *)
Theorem C13_trailing_text colons names l p tl c : (colons = true -> names = []) -> composition_prefix colons l p ->
  name_ok false (c :: tl) -> parseCompString (p ++ c :: tl) names = Err.
Proof.
  intros Hc Hp (Hn&Hcol). specialize (Hcol eq_refl). inversion Hn as [|? ? H1 _]; subst.
  apply (parse_no_colon_tail colons names l p (c :: tl) c); auto; [|now left|].
  - simpl. destruct (delim c) eqn:E; auto. apply delim_iff in E. exfalso. apply H1. simpl in E |- *. tauto.
  - destruct (isspace c) eqn:E; auto. exfalso. apply H1. right. right. apply isspace_iff. exact E.
Qed.
Print Assumptions C13_trailing_text.
Theorem C13_no_colon names t c : ~ In ":"%char t -> In c t -> ~ white [c] -> parseCompString t names = Err.
Proof.
  intros Hn Hc Hw. apply (parse_no_colon names t c); auto. destruct (isspace c) eqn:E; auto.
  exfalso. apply Hw. constructor; [|constructor]. apply isspace_iff. exact E.
Qed.
Print Assumptions C13_no_colon.

(** For every string the parser ends, with a composition or a CanteraError; another exception is possible
    only if some colon has nothing but blanks after it. *)
Theorem C13_every_string ss names :
  (exists x, parseCompString ss names = Ok x) \/ parseCompString ss names = Err \/
  (parseCompString ss names = Exn /\ exists a b, ss = a ++ ":"%char :: b /\ blanks b).
Proof. apply parse_total. Qed.
Print Assumptions C13_every_string.

(** FALSE in the code: that errors are always Cantera's error type. "H2:" gives std::out_of_range. *)
Theorem C13_error_type_refuted : exists ss names, parseCompString ss names = Exn.
Proof. exists (tx "H2:"), []. reflexivity. Qed.
Print Assumptions C13_error_type_refuted.

(** FALSE in the code: that every repeated name is an error. *)
Theorem C13_duplicate_rejected_refuted : exists l t x, composition_text false l t /\ ~ NoDup (map fst l) /\ parseCompString t [] = Ok x.
Proof.
  exists [(tx "A", 1 * (IZR 0 * powerRZ 10 (0 - 0))); (tx "A", 1 * (IZR 1 * powerRZ 10 (0 - 0)))], (tx "A:0,A:1").
  assert (forall c d, digit c d -> number [c] (1 * (IZR d * powerRZ 10 (0 - 0)))) as N.
  { intros c d Hd. apply (num [] 1 [c] [c] [] d [] 0).
    - constructor.
    - apply (ma_int _ d). apply (dec_snoc [] 0 c d); [constructor|auto].
    - apply (dec_snoc [] 0 c d); [constructor|auto].
    - discriminate.
    - constructor. }
  assert (name_ok false (tx "A")) as NA.
  { split; [repeat constructor; simpl; intuition discriminate|]. intros _. simpl. intuition discriminate. }
  assert (composition_text false [(tx "A", 1 * (IZR 0 * powerRZ 10 (0 - 0))); (tx "A", 1 * (IZR 1 * powerRZ 10 (0 - 0)))] (tx "A:0,A:1")) as CT.
  { apply (ct_cons false (tx "A") [] (tx "0") _ (tx ",") _ (tx "A:1")); auto; try constructor; try discriminate.
    - apply N. apply (dig 0). reflexivity.
    - simpl. auto.
    - constructor.
    - apply (ct_one false (tx "A") [] (tx "1") _ []); auto; try constructor. apply N. apply (dig 1). reflexivity. }
  assert (exists x, parseCompString (tx "A:0,A:1") [] = Ok x) as (x&Hx); [|exists x; split; [exact CT|split; [|exact Hx]];
    intros Hd; inversion Hd as [|? ? H _]; subst; apply H; now left].
  rewrite (parse_text false [] _ _ ltac:(intros; discriminate) CT).
  cbn [store_all named]. unfold store at 1. rewrite comp_init_get. cbn [in_dec andb obind].
  destruct (in_dec _ _ _) as [[]|_]. cbn [andb obind]. unfold store. rewrite store_get.
  destruct (list_eq_dec ascii_dec (tx "A") (tx "A")); [|congruence]. cbn [andb]. rewrite Rmult_0_l, Rmult_0_r.
  destruct (Req_EM_T 0 0); [|exfalso; lra]. cbn [obind]. eexists. reflexivity.
Qed.
Print Assumptions C13_duplicate_rejected_refuted.

(** FALSE in the code: that a species name with a colon can be used when the list of species names is
    supplied. *)
Theorem C13_colon_names_refuted : exists n lit v, name_ok true n /\ number lit v /\
  parseCompString (n ++ ":"%char :: lit) [] <> Err /\ parseCompString (n ++ ":"%char :: lit) [n] = Err.
Proof.
  exists (tx "a:b"), (tx "1"), (1 * (IZR 1 * powerRZ 10 (0 - 0))).
  assert (number (tx "1") (1 * (IZR 1 * powerRZ 10 (0 - 0)))) as N.
  { assert (decimal ["1"%char] 1) as D by (apply (dec_snoc [] 0 "1"%char 1); [constructor|apply (dig 1); reflexivity]).
    apply (num [] 1 ["1"%char] ["1"%char] [] 1 [] 0); try constructor; auto; try discriminate. apply (ma_int _ 1). exact D. }
  assert (name_ok true (tx "a:b")) as NA.
  { split; [repeat constructor; simpl; intuition discriminate|discriminate]. }
  split; auto. split; auto. split.
  - destruct (C13_round_trip true [] [(tx "a:b", 1 * (IZR 1 * powerRZ 10 (0 - 0)))] (tx "a:b:1")) as (x&E&_); auto.
    + apply (ct_one true (tx "a:b") [] (tx "1") _ []); auto; constructor.
    + constructor; [simpl; tauto|constructor].
    + change (tx "a:b" ++ ":"%char :: tx "1") with (tx "a:b:1"). rewrite E. discriminate.
  - reflexivity.
Qed.
Print Assumptions C13_colon_names_refuted.

(** A string the round trip applies to: two pairs, one name with a colon. *)
Example C13_example : exists l, composition_text true l (tx "CH4:1,  a:b: 2 ") /\ NoDup (map fst l) /\ length l = 2%nat.
Proof.
  exists [(tx "CH4", 1 * (IZR 1 * powerRZ 10 (0 - 0))); (tx "a:b", 1 * (IZR 2 * powerRZ 10 (0 - 0)))].
  assert (forall c d, digit c d -> number [c] (1 * (IZR d * powerRZ 10 (0 - 0)))) as N.
  { intros c d Hd. assert (decimal [c] d) as D by (apply (dec_snoc [] 0 c d); [constructor|auto]).
    apply (num [] 1 [c] [c] [] d [] 0); try constructor; auto; try discriminate. now apply (ma_int _ d). }
  split; [|split; [|reflexivity]].
  - apply (ct_cons true (tx "CH4") [] (tx "1") _ (tx ",  ") _ (tx "a:b: 2 ")).
    + split; [repeat constructor; simpl; intuition discriminate|discriminate].
    + constructor.
    + apply N. apply (dig 1). reflexivity.
    + allc.
    + discriminate.
    + apply (ct_one true (tx "a:b") (tx " ") (tx "2") _ (tx " ")).
      * split; [repeat constructor; simpl; intuition discriminate|discriminate].
      * allc.
      * apply N. apply (dig 2). reflexivity.
      * allc.
  - constructor; [simpl; intuition discriminate|]. constructor; [simpl; tauto|constructor].
Qed.
