From Coq Require Import Reals Lra ZArith Lia Ascii List Bool Arith.
From Verif Require Import Base.Outcome Strings.Model Strings.Spec Strings.Proofs.
Import ListNotations.
Open Scope R_scope.

Ltac lens := repeat (progress (rewrite ?app_length in *; cbn [length] in *)).

Ltac assoc := repeat (progress (rewrite <- ?app_assoc; cbn [app])); reflexivity.

(** * Positions *)
Fixpoint take_until (p : ascii -> bool) (s : text) : text :=
  match s with [] => [] | c :: s' => if p c then [] else c :: take_until p s' end.

Lemma skipn_len {A} (a b : list A) : skipn (length a) (a ++ b) = b.
Proof. induction a; simpl; auto. Qed.
Lemma find_from_app p pre tl : find_from p (pre ++ tl) (Some (length pre)) = option_map (Nat.add (length pre)) (find_idx p tl).
Proof. simpl. now rewrite skipn_len. Qed.
Lemma find_idx_app p a tl : Forall (fun c => p c = false) a ->
  find_idx p (a ++ tl) = option_map (Nat.add (length a)) (find_idx p tl).
Proof.
  induction 1 as [|c a Hc H IH]; simpl; [destruct (find_idx p tl); reflexivity|].
  rewrite Hc, IH. destruct (find_idx p tl); reflexivity.
Qed.
Lemma find_idx_none p s : Forall (fun c => p c = false) s -> find_idx p s = None.
Proof. induction 1 as [|c s Hc H IH]; simpl; auto. now rewrite Hc, IH. Qed.
Lemma find_idx_lt p s k : find_idx p s = Some k -> (k < length s)%nat.
Proof.
  revert k. induction s as [|c s IH]; intros k; simpl; [discriminate|]. destruct (p c).
  - intros H. injection H as <-. lia.
  - destruct (find_idx p s); simpl; [|discriminate]. intros H. injection H as <-. specialize (IH n eq_refl). lia.
Qed.
Lemma take_until_spec p s : take_until p s = match find_idx p s with Some k => firstn k s | None => s end.
Proof.
  induction s as [|c s IH]; simpl; auto. destruct (p c); auto. rewrite IH. destruct (find_idx p s); reflexivity.
Qed.
Lemma take_until_app p a c tl : Forall (fun c => p c = false) a -> p c = true -> take_until p (a ++ c :: tl) = a.
Proof. induction 1 as [|d a Hd H IH]; simpl; intros Hc; [now rewrite Hc|]. rewrite Hd, IH; auto. Qed.
Lemma take_until_all p a : Forall (fun c => p c = false) a -> take_until p a = a.
Proof. induction 1 as [|d a Hd H IH]; simpl; auto. now rewrite Hd, IH. Qed.
Lemma take_until_pre p a tl : Forall (fun c => p c = false) a -> take_until p (a ++ tl) = a ++ take_until p tl.
Proof. induction 1 as [|d a Hd H IH]; simpl; auto. now rewrite Hd, IH. Qed.

(** The substring between a position and the character found from a later position. *)
Lemma substr_until p pre mid tl :
  substr (pre ++ mid ++ tl) (Some (length pre))
         (pos_sub (find_from p (pre ++ mid ++ tl) (Some (length pre + length mid)%nat)) (Some (length pre)))
  = Ok (mid ++ take_until p tl).
Proof.
  rewrite app_assoc, <- app_length, find_from_app. unfold substr.
  rewrite (proj2 (Nat.ltb_ge _ _)) by (rewrite !app_length; lia). f_equal. rewrite take_until_spec.
  rewrite <- app_assoc, skipn_len. destruct (find_idx p tl) as [k|]; simpl; auto.
  rewrite (proj2 (Nat.ltb_ge _ _)) by (rewrite app_length; lia). rewrite app_length.
  replace (length pre + length mid + k - length pre)%nat with (length mid + k)%nat by lia.
  now rewrite firstn_app_2.
Qed.
Lemma substr_to pre mid tl :
  substr (pre ++ mid ++ tl) (Some (length pre)) (pos_sub (Some (length pre + length mid)%nat) (Some (length pre))) = Ok mid.
Proof.
  unfold substr. rewrite (proj2 (Nat.ltb_ge _ _)) by (rewrite !app_length; lia). f_equal. simpl.
  rewrite (proj2 (Nat.ltb_ge _ _)) by lia.
  replace (length pre + length mid - length pre)%nat with (length mid) by lia.
  rewrite skipn_len. rewrite <- (Nat.add_0_r (length mid)), firstn_app_2. simpl. apply app_nil_r.
Qed.

(** * Characters of names and numbers *)
Definition name_char (c : ascii) : Prop := isspace c = false /\ delim c = false /\ blank c = false.
Lemma name_chars b n : name_ok b n -> Forall name_char n.
Proof.
  intros (H&_). eapply Forall_impl; [|exact H]. intros c Hc. unfold name_char.
  revert Hc. all_chars c; vm_compute; intuition discriminate.
Qed.
Lemma white_blanks s : blanks s -> white s.
Proof. apply Forall_impl. intros c. simpl. tauto. Qed.
Lemma delim_blank c : blank c = true -> delim c = true.
Proof. unfold delim. now intros ->. Qed.
Lemma blanks_chars s : blanks s -> Forall (fun c => blank c = true) s.
Proof. apply Forall_impl. intros c Hc. now apply blank_iff. Qed.
Lemma trim_name n : Forall name_char n -> trim n = n.
Proof.
  intros H. rewrite <- (app_nil_r n) at 1. rewrite <- (app_nil_l (n ++ [])). apply trim_app; try constructor.
  - destruct H as [|c l (A&_) _]; simpl; auto.
  - apply Forall_rev in H. destruct H as [|c l (A&_) _]; simpl; auto.
Qed.
Lemma loose_of_number s v : number s v -> loose_number s.
Proof.
  intros [sg sv m w f z e ev Hs Hm Hd Hne He]. econstructor; eauto.
  intros E. apply app_eq_nil in E. destruct E as (E&_). apply Hne. destruct Hm as [w z0|w f z0 z1]; [rewrite E; reflexivity|destruct w; discriminate].
Qed.
Lemma check_number a s b v : white a -> white b -> number s v -> fpValueCheck (a ++ s ++ b) = Ok v.
Proof.
  intros Ha Hb N. pose proof (loose_of_number _ _ N) as L. destruct N as [sg sv m w f z e ev Hs Hm Hd Hne He].
  rewrite (check_complete a (sg ++ m ++ e) b Ha Hb sg sv m w f e ev); auto.
  - rewrite (fpValue_number _ sv _ w f _ ev) by auto.
    assert (((length w =? 0) && (length f =? 0))%nat = false) as ->.
    { apply andb_false_iff. destruct w; [|left; reflexivity]. destruct f; [exfalso; apply Hne; reflexivity|right; reflexivity]. }
    apply decimal_iff in Hd. destruct Hd as (_&->). reflexivity.
  - intros E. apply app_eq_nil in E. destruct E as (E&_). apply Hne. destruct Hm as [w z0|w f z0 z1]; [rewrite E; reflexivity|destruct w; discriminate].
Qed.
Lemma check_colon s : In ":"%char s -> fpValueCheck s = Err.
Proof.
  intros Hin. destruct (check_err s) as [(v&Hv)|]; auto. exfalso.
  apply check_sound in Hv. destruct Hv as (a&b&sg&sv&m&w&f&e&ev&Ha&Hb&Hs&Hm&He&Hne&->&_).
  destruct (loose_tight (sg ++ m ++ e)) as (_&_&_&F); [econstructor; eauto|].
  rewrite !in_app_iff in Hin. unfold white in *. rewrite Forall_forall in Ha, Hb, F.
  destruct Hin as [H|[H|H]].
  - specialize (Ha _ H). vm_compute in Ha. intuition discriminate.
  - assert (In ":"%char (sg ++ m ++ e)) as K by (rewrite !in_app_iff; exact H). specialize (F _ K). vm_compute in F. destruct F; discriminate.
  - specialize (Hb _ H). vm_compute in Hb. intuition discriminate.
Qed.
Lemma find_colon_in s : In ":"%char s -> is_some (find_idx is_colon s) = true.
Proof.
  induction s as [|c s IH]; simpl; [tauto|]. intros H. destruct (is_colon c) eqn:E; auto.
  destruct H as [->|H]; [discriminate|]. specialize (IH H). destruct (find_idx is_colon s); auto.
Qed.
Lemma nocolon_chars a : ~ In ":"%char a -> Forall (fun c => is_colon c = false) a.
Proof.
  intros H. rewrite Forall_forall. intros c Hc. unfold is_colon. destruct (Ascii.eqb_spec c ":"); auto. subst. tauto.
Qed.
Lemma number_chars s v : number s v -> s <> [] /\ Forall (fun c => delim c = false) s /\ Forall (fun c => blank c = false) s.
Proof.
  intros H. destruct (loose_tight s (loose_of_number _ _ H)) as (A&_&_&F). split; auto. split.
  - eapply Forall_impl; [|exact F]. simpl. tauto.
  - eapply Forall_impl; [|exact F]. intros c (Hc&_). unfold delim in Hc. destruct (blank c); [discriminate|auto].
Qed.

(** * One iteration *)
(** a colon inside the name *)
Lemma iter_inner pre n1 a b tl x :
  Forall name_char (n1 ++ a ++ ":"%char :: b) -> ~ In ":"%char a ->
  parse_iter (pre ++ n1 ++ a ++ ":"%char :: b ++ ":"%char :: tl) false (Some (length pre)) (Some (length pre + length n1)%nat) x
  = INext (Some (length pre)) (Some 0%nat) (Some (length pre + length n1 + length a + 1)%nat) x.
Proof.
  intros Hn Ha. set (ss := pre ++ n1 ++ a ++ ":"%char :: b ++ ":"%char :: tl).
  assert (find_from is_colon ss (Some (length pre + length n1)%nat) = Some (length pre + length n1 + length a)%nat) as E1.
  { unfold ss. rewrite app_assoc, <- app_length, find_from_app. rewrite find_idx_app by (now apply nocolon_chars). simpl.
    f_equal. lia. }
  unfold parse_iter. rewrite E1.
  set (vs := (length pre + length n1 + length a + 1)%nat).
  assert (find_from (fun c => negb (blank c)) ss (Some (S (length pre + length n1 + length a))) = Some vs) as E2.
  { unfold ss. replace (S (length pre + length n1 + length a)) with (length (pre ++ n1 ++ a ++ [":"%char])) by (rewrite !app_length; simpl; lia).
    replace (pre ++ n1 ++ a ++ ":"%char :: b ++ ":"%char :: tl) with ((pre ++ n1 ++ a ++ [":"%char]) ++ b ++ ":"%char :: tl) by (rewrite <- !app_assoc; reflexivity).
    rewrite find_from_app.
    assert (find_idx (fun c => negb (blank c)) (b ++ ":"%char :: tl) = Some 0%nat) as ->.
    { destruct b as [|c b]; [reflexivity|]. simpl. apply Forall_app in Hn. destruct Hn as (_&Hn). apply Forall_app in Hn. destruct Hn as (_&Hn).
      inversion Hn as [|? ? _ Hn']; subst. inversion Hn' as [|? ? (_&_&Hc) _]; subst. now rewrite Hc. }
    simpl. unfold vs. rewrite !app_length. simpl. f_equal. lia. }
  rewrite E2.
  assert (substr ss (Some (length pre)) (pos_sub (Some (length pre + length n1 + length a)%nat) (Some (length pre))) = Ok (n1 ++ a)) as E3.
  { unfold ss. replace (pre ++ n1 ++ a ++ ":"%char :: b ++ ":"%char :: tl) with (pre ++ (n1 ++ a) ++ ":"%char :: b ++ ":"%char :: tl) by (rewrite <- !app_assoc; reflexivity).
    rewrite <- Nat.add_assoc, <- app_length. apply substr_to. }
  rewrite E3. cbn [andb].
  assert (substr ss (Some vs) (pos_sub (find_from delim ss (Some vs)) (Some vs)) = Ok (take_until delim (b ++ ":"%char :: tl))) as E4.
  { unfold ss, vs. replace (length pre + length n1 + length a + 1)%nat with (length (pre ++ n1 ++ a ++ [":"%char])) by (rewrite !app_length; simpl; lia).
    replace (pre ++ n1 ++ a ++ ":"%char :: b ++ ":"%char :: tl) with ((pre ++ n1 ++ a ++ [":"%char]) ++ [] ++ b ++ ":"%char :: tl) by (rewrite <- !app_assoc; reflexivity).
    rewrite <- (Nat.add_0_r (length (pre ++ n1 ++ a ++ [":"%char]))) at 2. apply (substr_until delim _ []). }
  rewrite E4. cbn [obind].
  assert (Forall (fun c => delim c = false) b) as Hb.
  { apply Forall_app in Hn. destruct Hn as (_&Hn). apply Forall_app in Hn. destruct Hn as (_&Hn). inversion Hn as [|? ? _ Hn']; subst.
    eapply Forall_impl; [|exact Hn']. unfold name_char. tauto. }
  rewrite (take_until_pre delim b) by auto. simpl take_until.
  assert (In ":"%char (b ++ ":"%char :: take_until delim tl)) as Hin by (apply in_app_iff; right; now left).
  rewrite (check_colon _ Hin).
  assert (substr ss (Some (length pre)) (pos_sub (find_from delim ss (Some vs)) (Some (length pre))) =
    Ok ((n1 ++ a ++ [":"%char]) ++ b ++ ":"%char :: take_until delim tl)) as E5.
  { unfold ss. replace (pre ++ n1 ++ a ++ ":"%char :: b ++ ":"%char :: tl) with (pre ++ (n1 ++ a ++ [":"%char]) ++ b ++ ":"%char :: tl) by (rewrite <- !app_assoc; reflexivity).
    replace vs with (length pre + length (n1 ++ a ++ [":"%char]))%nat by (unfold vs; rewrite !app_length; simpl; lia).
    rewrite substr_until. rewrite take_until_pre by auto. reflexivity. }
  rewrite E5.
  assert (find_idx blank ((n1 ++ a ++ [":"%char]) ++ b ++ ":"%char :: take_until delim tl) = None) as ->.
  { apply find_idx_none. rewrite <- !app_assoc. simpl.
    assert (Forall (fun c => blank c = false) (take_until delim tl)) as Ht.
    { clear. induction tl as [|c tl IH]; simpl; [constructor|]. destruct (delim c) eqn:E; [constructor|]. constructor; auto.
      unfold delim in E. destruct (blank c); [discriminate|auto]. }
    change (n1 ++ a ++ ":"%char :: b ++ ":"%char :: take_until delim tl) with (n1 ++ a ++ (":"%char :: b) ++ ":"%char :: take_until delim tl).
    rewrite !app_assoc. apply Forall_app. split; [|constructor; auto].
    rewrite <- !app_assoc. eapply Forall_impl; [|exact Hn]. unfold name_char. tauto. }
  simpl is_some. cbv iota. rewrite (find_colon_in _ Hin). cbv iota. unfold vs. f_equal. f_equal. lia.
Qed.

(** What storing a value does. *)
Definition store (named : bool) (x : comp) (n : text) (v : R) : outcome comp :=
  if named && negb (is_some (x n)) then Err
  else match x n with
       | Some old => if Req_EM_T old 0 then Ok (comp_set x n v) else Err
       | None => Ok (comp_set x n v)
       end.
Definition delim_head (s : text) : Prop := match s with [] => True | c :: _ => delim c = true end.

(** the colon before the value *)
Lemma iter_value named pre n1 a ws lit v rest x :
  Forall name_char (n1 ++ a) -> ~ In ":"%char a -> blanks ws -> number lit v -> delim_head rest ->
  let ss := pre ++ n1 ++ a ++ ":"%char :: ws ++ lit ++ rest in
  let p := (length pre + length n1 + length a + 1 + length ws + length lit)%nat in
  let stop := match rest with [] => None | _ => Some p end in
  let start' := find_from (fun c => negb (delim c)) ss (pos_succ stop) in
  parse_iter ss named (Some (length pre)) (Some (length pre + length n1)%nat) x
  = match store named x (n1 ++ a) v with
    | Ok x' => INext start' stop start' x'
    | _ => IStop Err
    end.
Proof.
  intros Hn Ha Hws Hl Hr ss p stop start'.
  destruct (number_chars _ _ Hl) as (Lne&Ld&Lb).
  assert (find_from is_colon ss (Some (length pre + length n1)%nat) = Some (length pre + length n1 + length a)%nat) as E1.
  { unfold ss. rewrite app_assoc, <- app_length, find_from_app. rewrite find_idx_app by (now apply nocolon_chars). simpl.
    f_equal. lia. }
  unfold parse_iter. rewrite E1.
  set (vs := (length pre + length n1 + length a + 1 + length ws)%nat).
  assert (find_from (fun c => negb (blank c)) ss (Some (S (length pre + length n1 + length a))) = Some vs) as E2.
  { unfold ss. replace (S (length pre + length n1 + length a)) with (length (pre ++ n1 ++ a ++ [":"%char])) by (rewrite !app_length; simpl; lia).
    replace (pre ++ n1 ++ a ++ ":"%char :: ws ++ lit ++ rest) with ((pre ++ n1 ++ a ++ [":"%char]) ++ ws ++ lit ++ rest) by (rewrite <- !app_assoc; reflexivity).
    rewrite find_from_app. rewrite find_idx_app.
    - destruct lit as [|c lit]; [congruence|]. simpl. inversion Lb as [|? ? Hc _]; subst. rewrite Hc. simpl.
      unfold vs. rewrite !app_length. simpl. f_equal. lia.
    - eapply Forall_impl; [|apply blanks_chars; exact Hws]. simpl. now intros c ->. }
  rewrite E2.
  assert (substr ss (Some (length pre)) (pos_sub (Some (length pre + length n1 + length a)%nat) (Some (length pre))) = Ok (n1 ++ a)) as E3.
  { unfold ss. replace (pre ++ n1 ++ a ++ ":"%char :: ws ++ lit ++ rest) with (pre ++ (n1 ++ a) ++ ":"%char :: ws ++ lit ++ rest) by (rewrite <- !app_assoc; reflexivity).
    rewrite <- Nat.add_assoc, <- app_length. apply substr_to. }
  rewrite E3. rewrite (trim_name (n1 ++ a)) by auto.
  assert (substr ss (Some vs) (pos_sub (find_from delim ss (Some vs)) (Some vs)) = Ok lit) as E4.
  { unfold ss, vs. replace (length pre + length n1 + length a + 1 + length ws)%nat with (length (pre ++ n1 ++ a ++ ":"%char :: ws)) by (rewrite !app_length; simpl; lia).
    replace (pre ++ n1 ++ a ++ ":"%char :: ws ++ lit ++ rest) with ((pre ++ n1 ++ a ++ ":"%char :: ws) ++ [] ++ lit ++ rest) by (rewrite <- !app_assoc; reflexivity).
    rewrite <- (Nat.add_0_r (length (pre ++ n1 ++ a ++ ":"%char :: ws))) at 2. rewrite (substr_until delim _ []). simpl. f_equal.
    destruct rest as [|c rest]; [rewrite app_nil_r; now apply take_until_all|now apply take_until_app]. }
  assert (find_from delim ss (Some vs) = stop) as E5.
  { unfold ss, vs. replace (length pre + length n1 + length a + 1 + length ws)%nat with (length (pre ++ n1 ++ a ++ ":"%char :: ws)) by (rewrite !app_length; simpl; lia).
    replace (pre ++ n1 ++ a ++ ":"%char :: ws ++ lit ++ rest) with ((pre ++ n1 ++ a ++ ":"%char :: ws) ++ lit ++ rest) by (rewrite <- !app_assoc; reflexivity).
    rewrite find_from_app, find_idx_app by auto. unfold stop. destruct rest as [|c rest]; [reflexivity|]. simpl in *. rewrite Hr. simpl.
    f_equal. unfold p. rewrite !app_length. simpl. lia. }
  rewrite E4. cbn [obind].
  assert (fpValueCheck lit = Ok v) as ->.
  { rewrite <- (check_number [] lit [] v); [simpl; now rewrite app_nil_r| | |exact Hl]; constructor. }
  rewrite E5. unfold store. destruct (named && negb (is_some (x (n1 ++ a)))); [reflexivity|].
  destruct (x (n1 ++ a)) as [old|]; [destruct (Req_EM_T old 0)|]; reflexivity.
Qed.

(** Following the colons of a name: the loop gets to the last one. *)
Lemma loop_name named pre ws lit v rest : blanks ws -> number lit v -> delim_head rest -> forall b n1 stop x fuel,
  Forall name_char (n1 ++ b) -> (named = true -> ~ In ":"%char b) ->
  let ss := pre ++ n1 ++ b ++ ":"%char :: ws ++ lit ++ rest in
  pos_lt_size stop ss = true -> (length b < fuel)%nat ->
  exists used, (used <= length b + 1)%nat /\
  parse_loop fuel ss named (Some (length pre)) stop (Some (length pre + length n1)%nat) x =
    match store named x (n1 ++ b) v with
    | Ok x' =>
        let p := (length pre + length n1 + length b + 1 + length ws + length lit)%nat in
        let stop' := match rest with [] => None | _ => Some p end in
        let start' := find_from (fun c => negb (delim c)) ss (pos_succ stop') in
        parse_loop (fuel - used) ss named start' stop' start' x'
    | _ => Err
    end.
Proof.
  intros Hws Hl Hr.
  enough (forall N b n1 stop x fuel, (length b <= N)%nat ->
    Forall name_char (n1 ++ b) -> (named = true -> ~ In ":"%char b) ->
    let ss := pre ++ n1 ++ b ++ ":"%char :: ws ++ lit ++ rest in
    pos_lt_size stop ss = true -> (length b < fuel)%nat ->
    exists used, (used <= length b + 1)%nat /\
    parse_loop fuel ss named (Some (length pre)) stop (Some (length pre + length n1)%nat) x =
      match store named x (n1 ++ b) v with
      | Ok x' =>
          let p := (length pre + length n1 + length b + 1 + length ws + length lit)%nat in
          let stop' := match rest with [] => None | _ => Some p end in
          let start' := find_from (fun c => negb (delim c)) ss (pos_succ stop') in
          parse_loop (fuel - used) ss named start' stop' start' x'
      | _ => Err
      end) as G by (intros; eapply G; eauto).
  induction N as [|N IH]; intros b n1 stop x fuel HN Hn Hc ss Hs Hf;
    (destruct fuel as [|fuel]; [lia|]); cbn [parse_loop]; rewrite Hs.
  - destruct b; [|simpl in HN; lia]. exists 1%nat. split; [simpl; lia|].
    pose proof (iter_value named pre n1 [] ws lit v rest x Hn (fun H => H) Hws Hl Hr) as E. cbv zeta in E.
    unfold ss. rewrite E. simpl Nat.sub. rewrite Nat.sub_0_r.
    destruct (store named x (n1 ++ []) v) eqn:Est; try reflexivity.
  - destruct (in_dec ascii_dec ":"%char b) as [Hin|Hout].
    + destruct named; [exfalso; apply Hc; auto|].
      assert (exists a b', b = a ++ ":"%char :: b' /\ ~ In ":"%char a) as (a&b'&->&Ha).
      { clear - Hin. induction b as [|c b IH]; [inversion Hin|]. destruct (ascii_dec c ":"%char) as [->|Hc].
        - exists [], b. split; [reflexivity|tauto].
        - destruct Hin as [->|Hin]; [congruence|]. destruct (IH Hin) as (a&b'&->&Ha). exists (c :: a), b'. split; [reflexivity|].
          intros [E|E]; [congruence|tauto]. }
      pose proof (iter_inner pre n1 a b' (ws ++ lit ++ rest) x Hn Ha) as E.
      assert (ss = pre ++ n1 ++ a ++ ":"%char :: b' ++ ":"%char :: ws ++ lit ++ rest) as Ess by (unfold ss; rewrite <- app_assoc; reflexivity).
      rewrite Ess, E.
      rewrite !app_length in HN, Hf. simpl in HN, Hf.
      destruct (IH b' (n1 ++ a ++ [":"%char]) (Some 0%nat) x fuel) as (used&Hu&IHe).
      * lia.
      * rewrite <- !app_assoc. exact Hn.
      * discriminate.
      * simpl. apply Nat.ltb_lt. rewrite !app_length. simpl. lia.
      * lia.
      * exists (S used). split; [rewrite app_length; simpl; lia|].
        assert (pre ++ (n1 ++ a ++ [":"%char]) ++ b' ++ ":"%char :: ws ++ lit ++ rest = pre ++ n1 ++ a ++ ":"%char :: b' ++ ":"%char :: ws ++ lit ++ rest) as E6
          by (rewrite <- !app_assoc; reflexivity).
        rewrite E6 in IHe.
        replace (length pre + length n1 + length a + 1)%nat with (length pre + length (n1 ++ a ++ [":"%char]))%nat by (rewrite !app_length; simpl; lia).
        rewrite IHe. replace (S fuel - S used)%nat with (fuel - used)%nat by lia.
        rewrite <- !app_assoc. simpl app.
        assert (forall k, (length pre + length (n1 ++ a ++ [":"%char]) + length b' + k = length pre + length n1 + length (a ++ ":"%char :: b') + k)%nat) as LL
          by (intros; rewrite !app_length; simpl; lia).
        rewrite <- !Nat.add_assoc in *. rewrite ?app_length in *. simpl length in *.
        destruct (store false x (n1 ++ a ++ ":"%char :: b') v); try reflexivity.
        cbv zeta. replace (length pre + (length n1 + (length a + 1) + (length b' + (1 + (length ws + length lit)))))%nat
          with (length pre + (length n1 + (length a + S (length b') + (1 + (length ws + length lit)))))%nat by lia. reflexivity.
    + exists 1%nat. split; [lia|].
      pose proof (iter_value named pre n1 b ws lit v rest x Hn Hout Hws Hl Hr) as E. cbv zeta in E.
      unfold ss. rewrite E. simpl Nat.sub. rewrite Nat.sub_0_r.
      destruct (store named x (n1 ++ b) v) eqn:Est; try reflexivity.
Qed.

(** * Whole strings *)
Fixpoint store_all (named : bool) (x : comp) (l : list (text * R)) : outcome comp :=
  match l with
  | [] => Ok x
  | (n, v) :: l' => obind (store named x n v) (fun x' => store_all named x' l')
  end.
Definition nodelim_head (s : text) : Prop := match s with [] => False | c :: _ => delim c = false end.

Lemma name_colon c b : name_ok c b -> c = false -> ~ In ":"%char b.
Proof. intros (_&H). auto. Qed.

Lemma store_cases named x n v : (exists x', store named x n v = Ok x') \/ store named x n v = Err.
Proof.
  unfold store. destruct (named && negb (is_some (x n))); auto. destruct (x n) as [old|]; eauto. destruct (Req_EM_T old 0); eauto.
Qed.

Lemma loop_prefix colons named l p : (colons = true -> named = false) -> composition_prefix colons l p ->
  forall pre tl stop x fuel, nodelim_head tl ->
  pos_lt_size stop (pre ++ p ++ tl) = true -> (length (p ++ tl) < fuel)%nat ->
  exists stop' fuel', pos_lt_size stop' (pre ++ p ++ tl) = true /\ (length tl < fuel')%nat /\
  ((exists i, stop = Some i /\ (i <= length pre)%nat) -> exists j, stop' = Some j /\ (j <= length (pre ++ p))%nat) /\
  parse_loop fuel (pre ++ p ++ tl) named (Some (length pre)) stop (Some (length pre)) x =
  match store_all named x l with
  | Ok x' => parse_loop fuel' (pre ++ p ++ tl) named (Some (length (pre ++ p))) stop' (Some (length (pre ++ p))) x'
  | _ => Err
  end.
Proof.
  intros Hcn. induction 1 as [|n ws lit v sep l t Hn Hws Hl Hsep Hne Ht IH]; intros pre tl stop x fuel Htl Hs Hf.
  - exists stop, fuel. split; auto. split; [simpl in Hf; lia|]. rewrite app_nil_r. split; [auto|]. cbn [store_all]. reflexivity.
  - assert (Forall (fun c => delim c = true) sep) as Hsd.
    { eapply Forall_impl; [|exact Hsep]. intros c Hc. now apply delim_iff. }
    destruct sep as [|c0 sep]; [congruence|].
    assert (nodelim_head (t ++ tl)) as Hh.
    { destruct Ht as [|n' ws' lit' v' sep' l' t' Hn']; [exact Htl|].
      apply name_chars in Hn'. destruct n' as [|c n']; [reflexivity|]. inversion Hn' as [|? ? (_&A&_) _]; subst. exact A. }
    set (ss := pre ++ (n ++ ":"%char :: ws ++ lit ++ (c0 :: sep) ++ t) ++ tl) in *.
    assert (ss = pre ++ [] ++ n ++ ":"%char :: ws ++ lit ++ ((c0 :: sep) ++ t ++ tl)) as Ess.
    { unfold ss. simpl. rewrite <- app_assoc. simpl. rewrite <- !app_assoc. simpl. rewrite <- !app_assoc. reflexivity. }
    destruct (loop_name named pre ws lit v ((c0 :: sep) ++ t ++ tl) Hws Hl) with (b := n) (n1 := @nil ascii) (stop := stop) (x := x) (fuel := fuel)
      as (used&Hu&E).
    + simpl. inversion Hsd; auto.
    + simpl. eapply name_chars; eauto.
    + intros ->. eapply name_colon; eauto. destruct colons; auto.
    + rewrite <- Ess. exact Hs.
    + cbn [app] in *; lens; lia.
    + rewrite <- Ess in E. cbn [length] in E. rewrite Nat.add_0_r in E. rewrite E. cbn [app store_all].
      destruct (store_cases named x n v) as [(x'&Ex)|Ex]; rewrite Ex; cbn [obind].
      2:{ exists (Some 0%nat), (S (length tl)). split; [|split; [lia|split; [intros _; exists 0%nat; split; [auto|lia]|reflexivity]]].
          simpl. apply Nat.ltb_lt. unfold ss. cbn [app] in *; lens; lia. }
      set (pre' := pre ++ n ++ ":"%char :: ws ++ lit ++ c0 :: sep).
      assert (ss = pre' ++ t ++ tl) as Ess'.
      { rewrite Ess. unfold pre'. simpl. rewrite <- app_assoc. simpl. rewrite <- !app_assoc. simpl. rewrite <- !app_assoc. reflexivity. }
      cbv zeta.
      set (p := (length pre + length n + 1 + length ws + length lit)%nat).
      assert (find_from (fun c => negb (delim c)) ss (pos_succ (Some p)) = Some (length pre')) as EF.
      { assert (ss = (pre ++ n ++ ":"%char :: ws ++ lit ++ [c0]) ++ sep ++ t ++ tl) as Es2.
        { rewrite Ess. simpl. rewrite <- app_assoc. simpl. rewrite <- !app_assoc. simpl. rewrite <- !app_assoc. reflexivity. }
        cbn [pos_succ]. replace (S p) with (length (pre ++ n ++ ":"%char :: ws ++ lit ++ [c0])).
        2:{ unfold p. cbn [app] in *; lens; lia. }
        rewrite Es2. rewrite find_from_app, find_idx_app.
        2:{ inversion Hsd as [|? ? _ Hsd']; subst. eapply Forall_impl; [|exact Hsd']. simpl. now intros c ->. }
        destruct (t ++ tl) as [|c1 r]; [destruct Hh|]. simpl in Hh |- *. rewrite Hh. simpl. f_equal.
        unfold pre'. cbn [app] in *; lens; lia. }
      cbv iota. rewrite EF.
      destruct (IH pre' tl (Some p) x' (fuel - used)%nat Htl) as (stop'&fuel'&S1&S2&S3&E2).
      * simpl. apply Nat.ltb_lt. unfold p, pre'. cbn [app] in *; lens; lia.
      * cbn [app] in *. lens. lia.
      * rewrite <- Ess' in S1, E2. exists stop', fuel'. split; auto. split; auto. rewrite E2.
        assert (pre' ++ t = pre ++ n ++ ":"%char :: ws ++ lit ++ c0 :: sep ++ t) as Ep.
        { unfold pre'. rewrite <- app_assoc. simpl. rewrite <- !app_assoc. simpl. rewrite <- !app_assoc. reflexivity. }
        rewrite <- Ep. split; [|reflexivity]. intros _. apply S3. exists p. split; auto. unfold p, pre'. cbn [app] in *; lens; lia.
Qed.

Lemma text_split colons l t : composition_text colons l t ->
  exists l1 p n ws lit v ws', l = l1 ++ [(n, v)] /\ t = p ++ n ++ ":"%char :: ws ++ lit ++ ws' /\
    composition_prefix colons l1 p /\ name_ok colons n /\ blanks ws /\ number lit v /\ blanks ws'.
Proof.
  induction 1 as [n ws lit v ws' H1 H2 H3 H4|n ws lit v sep l t H1 H2 H3 H4 H5 H6 IH].
  - exists [], [], n, ws, lit, v, ws'. repeat (split; [solve [auto|constructor]|]). auto.
  - destruct IH as (l1&p&n2&ws2&lit2&v2&ws'&->&->&A&B&C&D&E).
    exists ((n, v) :: l1), (n ++ ":"%char :: ws ++ lit ++ sep ++ p), n2, ws2, lit2, v2, ws'.
    split; [reflexivity|]. split.
    { rewrite <- app_assoc. simpl. rewrite <- !app_assoc. reflexivity. }
    split; [constructor; auto|auto].
Qed.

Lemma store_all_app named l1 : forall x l2, store_all named x (l1 ++ l2) = obind (store_all named x l1) (fun x' => store_all named x' l2).
Proof.
  induction l1 as [|[n v] l1 IH]; intros x l2; simpl; auto. destruct (store named x n v); simpl; auto.
Qed.
Lemma store_all_cases named l : forall x, (exists x', store_all named x l = Ok x') \/ store_all named x l = Err.
Proof.
  induction l as [|[n v] l IH]; intros x; simpl; eauto.
  destruct (store_cases named x n v) as [(x'&->)| ->]; simpl; auto.
Qed.

Definition comp_init (names : list text) : comp := fold_left (fun x n => comp_set x n 0) names (fun _ => None).
Definition named (names : list text) : bool := match names with [] => false | _ => true end.

Lemma nodelim_name colons n tl : name_ok colons n -> nodelim_head (n ++ ":"%char :: tl).
Proof.
  intros H. apply name_chars in H. destruct n as [|c n]; [reflexivity|]. inversion H as [|? ? (_&A&_) _]; subst. exact A.
Qed.
Lemma white_trim s : white s -> trim s = [].
Proof. intros H. rewrite <- (app_nil_r s), <- (app_nil_l ([])%list). apply (trim_app s [] []); simpl; auto. constructor. Qed.

Lemma parse_text colons names l t : (colons = true -> names = []) -> composition_text colons l t ->
  parseCompString t names = store_all (named names) (comp_init names) l.
Proof.
  intros Hc H. destruct (text_split _ _ _ H) as (l1&p&n&ws&lit&v&ws'&->&->&Hp&Hn&Hws&Hl&Hws').
  unfold parseCompString. fold (comp_init names). fold (named names).
  assert (colons = true -> named names = false) as Hcn by (intros E; rewrite (Hc E); reflexivity).
  set (tl := n ++ ":"%char :: ws ++ lit ++ ws').
  destruct (loop_prefix colons (named names) l1 p Hcn Hp [] tl (Some 0%nat) (comp_init names) (S (length (p ++ tl)))) as (stop'&fuel'&S1&S2&_&E).
  - eapply nodelim_name; eauto.
  - simpl. apply Nat.ltb_lt. rewrite app_length. unfold tl. rewrite app_length. simpl. lia.
  - lia.
  - cbn [app length] in E, S1. rewrite E. rewrite store_all_app.
    destruct (store_all_cases (named names) l1 (comp_init names)) as [(x&Ex)|Ex]; rewrite Ex; cbn [obind]; [|reflexivity].
    assert (Forall (fun c => blank c = true) ws') as Hwb by (now apply blanks_chars).
    destruct (loop_name (named names) p ws lit v ws' Hws Hl) with (b := n) (n1 := @nil ascii) (stop := stop') (x := x) (fuel := fuel') as (used&Hu&E2).
    + destruct Hwb as [|c r Hcb _]; simpl; auto. now apply delim_blank.
    + simpl. eapply name_chars; eauto.
    + intros Hnm. eapply name_colon; eauto. destruct colons; auto. rewrite (Hcn eq_refl) in Hnm. discriminate.
    + exact S1.
    + unfold tl in S2. cbn [app] in *; lens; lia.
    + cbn [app length] in E2. rewrite Nat.add_0_r in E2. unfold tl. rewrite E2. clear E2. cbn [store_all].
      destruct (store_cases (named names) x n v) as [(x'&Ex')|Ex']; rewrite Ex'; cbn [obind]; [|reflexivity].
      cbv zeta. destruct ws' as [|c r].
      * destruct (fuel' - used)%nat; cbn [parse_loop pos_lt_size]; unfold parse_end;
          destruct (find_from _ _ _) as [q|]; simpl; rewrite ?Nat.eqb_refl; reflexivity.
      * set (ss := p ++ n ++ ":"%char :: ws ++ lit ++ c :: r).
        set (pp := (length p + length n + 1 + length ws + length lit)%nat).
        assert (ss = (p ++ n ++ ":"%char :: ws ++ lit ++ [c]) ++ r) as Es.
        { unfold ss. rewrite <- app_assoc. simpl. rewrite <- !app_assoc. simpl. rewrite <- !app_assoc. reflexivity. }
        assert (find_from (fun c => negb (delim c)) ss (pos_succ (Some pp)) = None) as EF.
        { cbn [pos_succ]. replace (S pp) with (length (p ++ n ++ ":"%char :: ws ++ lit ++ [c])).
          2:{ unfold pp. cbn [app] in *; lens; lia. }
          rewrite Es, find_from_app. rewrite find_idx_none; [reflexivity|].
          inversion Hwb as [|? ? _ Hwb']; subst. eapply Forall_impl; [|exact Hwb']. intros q Hq. simpl. now rewrite (delim_blank _ Hq). }
        rewrite EF.
        assert (fuel' - used > 0)%nat as Hfu.
        { unfold tl in S2. cbn [app] in *; lens; lia. }
        destruct (fuel' - used)%nat as [|f]; [lia|]. cbn [parse_loop].
        assert (pos_lt_size (Some pp) ss = true) as ->.
        { simpl. apply Nat.ltb_lt. unfold ss, pp. cbn [app] in *; lens; lia. }
        unfold parse_iter at 1. cbn [find_from]. unfold parse_end. cbn [pos_eqb negb].
        assert (substr ss (Some pp) None = Ok (c :: r)) as ->.
        { unfold substr. rewrite (proj2 (Nat.ltb_ge _ _)).
          - f_equal. replace ss with ((p ++ n ++ ":"%char :: ws ++ lit) ++ c :: r).
            + replace pp with (length (p ++ n ++ ":"%char :: ws ++ lit)); [apply skipn_len|]. unfold pp. cbn [app] in *; lens; lia.
            + unfold ss. assoc.
          - unfold ss, pp. cbn [app] in *; lens; lia. }
        rewrite white_trim by (now apply white_blanks). reflexivity.
Qed.

(** * Every string *)
Lemma find_from_some p s pos k : find_from p s pos = Some k -> exists i, pos = Some i /\ (i <= k < length s)%nat.
Proof.
  destruct pos as [i|]; simpl; [|discriminate]. destruct (find_idx p (skipn i s)) as [j|] eqn:E; simpl; [|discriminate].
  intros H. injection H as <-. exists i. split; auto. apply find_idx_lt in E. rewrite skipn_length in E. lia.
Qed.
Lemma find_idx_split p s k : find_idx p s = Some k -> exists a c b, s = a ++ c :: b /\ p c = true /\ length a = k.
Proof.
  revert k. induction s as [|c s IH]; intros k; simpl; [discriminate|]. destruct (p c) eqn:E.
  - intros H. injection H as <-. exists [], c, s. auto.
  - destruct (find_idx p s) as [j|]; simpl; [|discriminate]. intros H. injection H as <-.
    destruct (IH j eq_refl) as (a&d&b&->&Hd&Hl). exists (c :: a), d, b. simpl. auto.
Qed.
Lemma find_from_split p s pos k : find_from p s pos = Some k -> exists a c b, s = a ++ c :: b /\ p c = true /\ length a = k.
Proof.
  destruct pos as [i|]; simpl; [|discriminate]. destruct (find_idx p (skipn i s)) as [j|] eqn:E; simpl; [|discriminate].
  intros H. injection H as <-. pose proof (find_idx_lt _ _ _ E) as L. rewrite skipn_length in L.
  apply find_idx_split in E. destruct E as (a&c&b&Es&Hc&<-).
  exists (firstn i s ++ a), c, b. rewrite <- app_assoc, <- Es, firstn_skipn. split; auto. split; auto.
  rewrite app_length, firstn_length_le by lia. lia.
Qed.
Lemma find_idx_none_inv p s : find_idx p s = None -> Forall (fun c => p c = false) s.
Proof.
  induction s as [|c s IH]; simpl; [constructor|]. destruct (p c) eqn:E; [discriminate|].
  destruct (find_idx p s); [discriminate|]. constructor; auto.
Qed.

Definition wfst (ss : text) (start left : option nat) : Prop :=
  (start = None /\ left = None) \/ exists i j, start = Some i /\ left = Some j /\ (i <= j <= length ss)%nat.
Definition dangling (ss : text) : Prop := exists a b, ss = a ++ ":"%char :: b /\ blanks b.

Lemma substr_ok ss i n : (i <= length ss)%nat -> exists t, substr ss (Some i) n = Ok t.
Proof. intros H. unfold substr. rewrite (proj2 (Nat.ltb_ge _ _) H). eauto. Qed.

Lemma parse_iter_spec ss nm start left x : wfst ss start left ->
  match parse_iter ss nm start left x with
  | IBreak => True
  | INext a b c x' => wfst ss a c /\ (match b with None => True | Some q => (q <= length ss)%nat end) /\
      exists j, left = Some j /\ (j < length ss)%nat /\ (b = None \/ match c with None => True | Some c' => (j < c')%nat end)
  | IStop o => o = Err \/ (o = Exn /\ dangling ss)
  end.
Proof.
  intros W. unfold parse_iter. destruct (find_from is_colon ss left) as [colon|] eqn:EC; auto.
  destruct (find_from_some _ _ _ _ EC) as (j&->&Hj).
  destruct W as [(_&W)|(i&j'&->&W&Hi)]; [discriminate|]. injection W as <-.
  destruct (substr_ok ss i (pos_sub (Some colon) (Some i)) ltac:(lia)) as (rn&->).
  destruct (nm && negb (is_some (x (trim rn)))); [now left|].
  destruct (find_from (fun c => negb (blank c)) ss (Some (S colon))) as [vs|] eqn:EV.
  - destruct (find_from_some _ _ _ _ EV) as (j'&E&Hv). injection E as <-.
    destruct (substr_ok ss vs (pos_sub (find_from delim ss (Some vs)) (Some vs)) ltac:(lia)) as (val&EVAL). rewrite EVAL. cbn [obind].
    assert (forall y, match INext (find_from (fun c => negb (delim c)) ss (pos_succ (find_from delim ss (Some vs)))) (find_from delim ss (Some vs))
        (find_from (fun c => negb (delim c)) ss (pos_succ (find_from delim ss (Some vs)))) y with
      | IBreak => True
      | INext a b c x' => wfst ss a c /\ (match b with None => True | Some q => (q <= length ss)%nat end) /\
          exists j0, Some j = Some j0 /\ (j0 < length ss)%nat /\ (b = None \/ match c with None => True | Some c' => (j0 < c')%nat end)
      | IStop o => o = Err \/ (o = Exn /\ dangling ss)
      end) as K.
    { intros y. split; [|split].
      - destruct (find_from (fun c => negb (delim c)) ss _) as [q|] eqn:EQ; [|left; auto]. right. exists q, q.
        apply find_from_some in EQ. destruct EQ as (q0&_&Hq). repeat split; auto; lia.
      - destruct (find_from delim ss (Some vs)) as [q|] eqn:EQ; auto. apply find_from_some in EQ. destruct EQ as (q0&_&Hq). lia.
      - exists j. split; auto. split; [lia|]. destruct (find_from delim ss (Some vs)) as [q|] eqn:EQ; [right|left; auto].
        apply find_from_some in EQ. destruct EQ as (q0&EQ0&Hq). injection EQ0 as <-. cbn [pos_succ].
        destruct (find_from (fun c => negb (delim c)) ss (Some (S q))) as [r|] eqn:ER; auto.
        apply find_from_some in ER. destruct ER as (r0&ER0&Hr). injection ER0 as <-. lia. }
    destruct (check_err val) as [(v&->)| ->].
    + destruct (x (trim rn)) as [old|]; [destruct (Req_EM_T old 0)|]; [exact (K x)|now left|exact (K x)].
    + destruct (substr_ok ss i (pos_sub (find_from delim ss (Some vs)) (Some i)) ltac:(lia)) as (tn&->).
      destruct (is_some (find_idx blank tn)); [now left|]. destruct (is_some (find_idx is_colon val)); [|now left].
      split; [right; exists i, (S colon); repeat split; auto; lia|]. split; [lia|]. exists j. split; auto. split; [lia|]. right. lia.
  - cbn [substr obind]. right. split; auto.
    apply find_from_split in EC. destruct EC as (a&c&b&->&Hc&<-). exists a, b.
    unfold is_colon in Hc. destruct (Ascii.eqb_spec c ":"); [subst|discriminate]. split; auto.
    cbn [find_from] in EV. replace (S (length a)) with (length (a ++ [":"%char])) in EV by (rewrite app_length; simpl; lia).
    replace (a ++ ":"%char :: b) with ((a ++ [":"%char]) ++ b) in EV by assoc. rewrite skipn_len in EV.
    destruct (find_idx (fun c => negb (blank c)) b) eqn:EF; [discriminate|]. apply find_idx_none_inv in EF.
    eapply Forall_impl; [|exact EF]. intros d Hd. apply blank_iff. now apply negb_false_iff in Hd.
Qed.

Lemma parse_end_spec ss start stop left x : match stop with None => True | Some q => (q <= length ss)%nat end ->
  (exists y, parse_end ss start stop left x = Ok y) \/ parse_end ss start stop left x = Err.
Proof.
  intros H. unfold parse_end. destruct (negb (pos_eqb left start)); auto. destruct stop as [q|]; eauto.
  destruct (substr_ok ss q None H) as (t&->). destruct (trim t); eauto.
Qed.

Lemma parse_loop_spec ss nm : forall fuel start stop left x, wfst ss start left ->
  match stop with None => True | Some q => (q <= length ss)%nat end ->
  (match left with Some j => length ss - j < fuel | None => 0 < fuel end)%nat ->
  let r := parse_loop fuel ss nm start stop left x in
  (exists y, r = Ok y) \/ r = Err \/ (r = Exn /\ dangling ss).
Proof.
  induction fuel as [|fuel IH]; intros start stop left x W Hs Hf r.
  - destruct left; lia.
  - unfold r. cbn [parse_loop]. destruct (pos_lt_size stop ss) eqn:Ep.
    + pose proof (parse_iter_spec ss nm start left x W) as P.
      destruct (parse_iter ss nm start left x) as [|a b c x'|o].
      * destruct (parse_end_spec ss start stop left x Hs) as [(y&->)| ->]; eauto.
      * destruct P as (W'&Hb&j&->&Hj&P). destruct P as [->|P].
        { destruct fuel; cbn [parse_loop pos_lt_size];
            (destruct (parse_end_spec ss a None c x' I) as [(y&->)| ->]; eauto). }
        { apply IH; auto. destruct c as [c|]; [|lia]. destruct W' as [(_&W')|(i&j'&_&W'&Hi)]; [discriminate|]. injection W' as <-. lia. }
      * destruct P as [->|(->&P)]; auto.
    + destruct (parse_end_spec ss start stop left x Hs) as [(y&->)| ->]; eauto.
Qed.

Lemma parse_total ss names : let r := parseCompString ss names in
  (exists y, r = Ok y) \/ r = Err \/ (r = Exn /\ dangling ss).
Proof.
  unfold parseCompString. apply parse_loop_spec.
  - right. exists 0%nat, 0%nat. repeat split; lia.
  - lia.
  - lia.
Qed.

(** * A value that is not a number *)
Lemma parse_bad colons names l p n ws bad rest : (colons = true -> names = []) ->
  composition_prefix colons l p -> name_ok false n -> blanks ws -> bad <> [] ->
  Forall (fun c => delim c = false /\ is_colon c = false) bad -> fpValueCheck bad = Err -> delim_head rest ->
  parseCompString (p ++ n ++ ":"%char :: ws ++ bad ++ rest) names = Err.
Proof.
  intros Hc Hp Hn Hws Hne Hb Hbad Hr. unfold parseCompString. fold (comp_init names). fold (named names).
  assert (colons = true -> named names = false) as Hcn by (intros E; rewrite (Hc E); reflexivity).
  set (tl := n ++ ":"%char :: ws ++ bad ++ rest).
  destruct (loop_prefix colons (named names) l p Hcn Hp [] tl (Some 0%nat) (comp_init names) (S (length (p ++ tl)))) as (stop'&fuel'&S1&S2&_&E).
  - eapply nodelim_name; eauto.
  - simpl. apply Nat.ltb_lt. rewrite app_length. unfold tl. rewrite app_length. simpl. lia.
  - lia.
  - cbn [app length] in E, S1. rewrite E.
    destruct (store_all_cases (named names) l (comp_init names)) as [(x&Ex)|Ex]; rewrite Ex; [|reflexivity].
    destruct fuel' as [|f]; [lia|]. cbn [parse_loop]. rewrite S1.
    enough (parse_iter (p ++ tl) (named names) (Some (length p)) (Some (length p)) x = IStop Err) as -> by reflexivity.
    assert (find_from is_colon (p ++ tl) (Some (length p)) = Some (length p + length n)%nat) as E1.
    { unfold tl. rewrite find_from_app. rewrite find_idx_app by (apply nocolon_chars; now apply Hn). simpl. f_equal. lia. }
    unfold parse_iter. rewrite E1.
    set (vs := (length p + length n + 1 + length ws)%nat).
    assert (find_from (fun c => negb (blank c)) (p ++ tl) (Some (S (length p + length n))) = Some vs) as E2.
    { unfold tl. replace (S (length p + length n)) with (length (p ++ n ++ [":"%char])) by (lens; lia).
      replace (p ++ n ++ ":"%char :: ws ++ bad ++ rest) with ((p ++ n ++ [":"%char]) ++ ws ++ bad ++ rest) by assoc.
      rewrite find_from_app, find_idx_app.
      - destruct bad as [|c bad]; [congruence|]. simpl. inversion Hb as [|? ? (Hcd&_) _]; subst.
        assert (blank c = false) as -> by (unfold delim in Hcd; destruct (blank c); [discriminate|auto]). simpl.
        unfold vs. f_equal. lens. lia.
      - eapply Forall_impl; [|apply blanks_chars; exact Hws]. simpl. now intros c ->. }
    rewrite E2.
    assert (substr (p ++ tl) (Some (length p)) (pos_sub (Some (length p + length n)%nat) (Some (length p))) = Ok n) as -> by (unfold tl; apply substr_to).
    rewrite (trim_name n) by (eapply name_chars; eauto).
    assert (substr (p ++ tl) (Some vs) (pos_sub (find_from delim (p ++ tl) (Some vs)) (Some vs)) = Ok bad) as E4.
    { unfold tl, vs. replace (length p + length n + 1 + length ws)%nat with (length (p ++ n ++ ":"%char :: ws)) by (lens; lia).
      replace (p ++ n ++ ":"%char :: ws ++ bad ++ rest) with ((p ++ n ++ ":"%char :: ws) ++ [] ++ bad ++ rest) by assoc.
      rewrite <- (Nat.add_0_r (length (p ++ n ++ ":"%char :: ws))) at 2. rewrite (substr_until delim _ []). cbn [app]. f_equal.
      destruct rest as [|c rest]; [rewrite app_nil_r; apply take_until_all|apply take_until_app; auto]; (eapply Forall_impl; [|exact Hb]); simpl; tauto. }
    rewrite E4. cbn [obind]. rewrite Hbad.
    destruct (named names && negb (is_some (x n))); [reflexivity|].
    assert (exists tn, substr (p ++ tl) (Some (length p)) (pos_sub (find_from delim (p ++ tl) (Some vs)) (Some (length p))) = Ok tn) as (tn&->).
    { apply substr_ok. lens. lia. }
    destruct (is_some (find_idx blank tn)); [reflexivity|].
    rewrite find_idx_none; [reflexivity|]. eapply Forall_impl; [|exact Hb]. simpl. tauto.
Qed.

Lemma trim_nonempty s c : In c s -> isspace c = false -> trim s <> [].
Proof.
  intros H Hc. unfold trim. intros E.
  assert (forall u, In c u -> In c (trim_left u)) as L.
  { induction u as [|d u IH]; [intros []|]. intros [->|Hu]; simpl; [rewrite Hc; now left|]. destruct (isspace d); auto. now right. }
  assert (In c (rev (trim_left (rev (trim_left s))))) as X by (rewrite <- in_rev; apply L; rewrite <- in_rev; apply L; exact H).
  rewrite E in X. destruct X.
Qed.
Lemma parse_no_colon_tail colons names l p tl c : (colons = true -> names = []) -> composition_prefix colons l p ->
  nodelim_head tl -> ~ In ":"%char tl -> In c tl -> isspace c = false -> parseCompString (p ++ tl) names = Err.
Proof.
  intros Hc Hp Hh Hnc Hin Hsp. unfold parseCompString. fold (comp_init names). fold (named names).
  assert (colons = true -> named names = false) as Hcn by (intros E; rewrite (Hc E); reflexivity).
  assert (0 < length tl)%nat as Hl by (destruct tl; [destruct Hin|simpl; lia]).
  destruct (loop_prefix colons (named names) l p Hcn Hp [] tl (Some 0%nat) (comp_init names) (S (length (p ++ tl)))) as (stop'&fuel'&S1&S2&S3&E); auto.
  - simpl. apply Nat.ltb_lt. rewrite app_length. lia.
  - cbn [app length] in E, S1, S3. rewrite E. destruct S3 as (j&->&Hj); [exists 0%nat; split; auto|].
    destruct (store_all_cases (named names) l (comp_init names)) as [(x&Ex)|Ex]; rewrite Ex; [|reflexivity].
    destruct fuel' as [|f]; [lia|]. cbn [parse_loop]. rewrite S1.
    assert (parse_iter (p ++ tl) (named names) (Some (length p)) (Some (length p)) x = IBreak) as ->.
    { unfold parse_iter. rewrite find_from_app. rewrite find_idx_none; [reflexivity|]. now apply nocolon_chars. }
    unfold parse_end. cbn [pos_eqb]. rewrite Nat.eqb_refl. cbn [negb]. unfold substr.
    assert (length (p ++ tl) <? j = false)%nat as -> by (apply Nat.ltb_ge; rewrite app_length; lia).
    destruct (trim (skipn j (p ++ tl))) eqn:Et; [|reflexivity]. exfalso. revert Et. apply (trim_nonempty _ c); auto.
    rewrite skipn_app. apply in_app_iff. right. now replace (j - length p)%nat with 0%nat by lia.
Qed.
Lemma parse_no_colon names t c : ~ In ":"%char t -> In c t -> isspace c = false -> parseCompString t names = Err.
Proof.
  intros Hnc Hin Hsp. unfold parseCompString. cbn [parse_loop pos_lt_size].
  assert (0 <? length t = true)%nat as -> by (apply Nat.ltb_lt; destruct t; [destruct Hin|simpl; lia]).
  unfold parse_iter, find_from. rewrite find_idx_none; [|now apply nocolon_chars].
  unfold parse_end. cbn [pos_eqb]. rewrite Nat.eqb_refl. cbn [negb]. unfold substr. cbn [Nat.ltb Nat.leb skipn].
  destruct (length t <? 0)%nat eqn:E0; [apply Nat.ltb_lt in E0; lia|].
  destruct (trim t) eqn:Et; [|reflexivity]. exfalso. revert Et. now apply (trim_nonempty _ c).
Qed.

(** * What is stored *)
Lemma store_get x n v y : comp_set x n v y = if list_eq_dec ascii_dec n y then Some v else x y.
Proof. unfold comp_set, text_eqb. destruct (list_eq_dec ascii_dec y n), (list_eq_dec ascii_dec n y); congruence. Qed.
Lemma comp_init_get names y : comp_init names y = if in_dec (list_eq_dec ascii_dec) y names then Some 0 else None.
Proof.
  unfold comp_init.
  assert (forall x, fold_left (fun x n => comp_set x n 0) names x y = if in_dec (list_eq_dec ascii_dec) y names then Some 0 else x y) as G.
  { induction names as [|n names IH]; intros x; cbn [fold_left]; [reflexivity|]. rewrite IH, store_get.
    destruct (in_dec (list_eq_dec ascii_dec) y names), (in_dec (list_eq_dec ascii_dec) y (n :: names)), (list_eq_dec ascii_dec n y); auto;
      exfalso; simpl in *; tauto. }
  apply G.
Qed.
Lemma store_all_distinct nm l : forall x, NoDup (map fst l) ->
  (forall n, In n (map fst l) -> (nm = true -> x n <> None) /\ (x n = None \/ x n = Some 0)) ->
  exists x', store_all nm x l = Ok x' /\ forall y, x' y = match assoc l y with Some v => Some v | None => x y end.
Proof.
  induction l as [|[n v] l IH]; intros x Hnd Hx; [exists x; split; auto|]. inversion Hnd as [|? ? Hni Hnd']; subst.
  destruct (Hx n (or_introl eq_refl)) as (H1&H2). cbn [store_all].
  assert (store nm x n v = Ok (comp_set x n v)) as ->.
  { unfold store. assert (nm && negb (is_some (x n)) = false) as ->.
    { destruct nm; auto. destruct (x n); auto. exfalso. now apply H1. }
    destruct H2 as [->| ->]; auto. destruct (Req_EM_T 0 0); [auto|exfalso; lra]. }
  cbn [obind]. destruct (IH (comp_set x n v) Hnd') as (x'&E&Hx').
  - intros m Hm. rewrite store_get. destruct (list_eq_dec ascii_dec n m); [subst; tauto|]. apply Hx. now right.
  - exists x'. split; auto. intros y. rewrite Hx'. cbn [assoc]. rewrite store_get.
    destruct (list_eq_dec ascii_dec n y); [|reflexivity]. subst.
    assert (assoc l y = None) as ->; auto. simpl in Hni. clear - Hni. induction l as [|[m w] l IH]; simpl in *; auto.
    destruct (list_eq_dec ascii_dec m y); [exfalso; auto|]. apply IH. tauto.
Qed.
Lemma store_all_dup nm l1 n v l2 w l3 x : v <> 0 -> ~ In n (map fst l2) -> store_all nm x (l1 ++ (n, v) :: l2 ++ (n, w) :: l3) = Err.
Proof.
  intros Hv Hn. rewrite store_all_app. destruct (store_all_cases nm l1 x) as [(x1&->)| ->]; auto. cbn [obind store_all].
  destruct (store_cases nm x1 n v) as [(x2&E2)|E2]; rewrite E2; auto. cbn [obind].
  assert (x2 n = Some v) as Hx2.
  { unfold store in E2. destruct (nm && negb (is_some (x1 n))); [discriminate|].
    assert (x2 = comp_set x1 n v) as -> by (destruct (x1 n) as [o|]; [destruct (Req_EM_T o 0)|]; congruence).
    rewrite store_get. destruct (list_eq_dec ascii_dec n n); congruence. }
  clear E2. rewrite store_all_app. destruct (store_all_cases nm l2 x2) as [(x3&E3)|E3]; rewrite E3; auto. cbn [obind store_all].
  assert (x3 n = Some v) as Hx3.
  { revert x2 Hx2 E3 Hn. clear. induction l2 as [|[m u] l2 IH]; intros x2 Hx2 E3 Hn; cbn [store_all] in E3; [congruence|].
    destruct (store_cases nm x2 m u) as [(x4&E4)|E4]; rewrite E4 in E3; [|discriminate]. cbn [obind] in E3.
    simpl in Hn. apply (IH x4); auto. unfold store in E4. destruct (nm && negb (is_some (x2 m))); [discriminate|].
    assert (x4 = comp_set x2 m u) as -> by (destruct (x2 m) as [o|]; [destruct (Req_EM_T o 0)|]; congruence).
    rewrite store_get. destruct (list_eq_dec ascii_dec m n); [tauto|auto]. }
  unfold store at 1. rewrite Hx3. destruct (Req_EM_T v 0); [congruence|]. destruct (nm && negb (is_some (Some v))); reflexivity.
Qed.
Lemma store_all_unknown l1 n v l2 x : (forall m, In m (n :: map fst l1) -> m = n -> x m = None) -> ~ In n (map fst l1) -> store_all true x (l1 ++ (n, v) :: l2) = Err.
Proof.
  intros Hx Hn. assert (x n = None) as Hxn by (apply Hx; [now left|auto]). clear Hx.
  rewrite store_all_app. destruct (store_all_cases true l1 x) as [(x1&E1)|E1]; rewrite E1; auto. cbn [obind store_all].
  assert (x1 n = None) as H1.
  { revert x Hxn E1 Hn. clear. induction l1 as [|[m u] l1 IH]; intros x Hx E Hn; cbn [store_all] in E; [congruence|].
    destruct (store_cases true x m u) as [(x4&E4)|E4]; rewrite E4 in E; [|discriminate]. cbn [obind] in E. simpl in Hn.
    apply (IH x4); auto. unfold store in E4. destruct (true && negb (is_some (x m))); [discriminate|].
    assert (x4 = comp_set x m u) as -> by (destruct (x m) as [o|]; [destruct (Req_EM_T o 0)|]; congruence).
    rewrite store_get. destruct (list_eq_dec ascii_dec m n); [tauto|auto]. }
  unfold store. rewrite H1. reflexivity.
Qed.
