(** C71: setting the state of a phase from a map of properties. *)
From Coq Require Import Reals String List Bool Lia.
From Verif Require Import SetState.Model SetState.Spec.
Import ListNotations.
Open Scope string_scope.

Section Maps.
Context {V : Type}.
Implicit Types s : amap (V := V).

Lemma get_erase k k' s : get k (erase k' s) = if String.eqb k k' then None else get k s.
Proof.
  unfold get, erase. induction s as [|[x v] s IH]; [now destruct (String.eqb k k')|]. cbn.
  destruct (String.eqb_spec x k') as [->|N]; cbn [negb].
  - rewrite IH. destruct (String.eqb_spec k k') as [->|M]; [reflexivity|].
    destruct (String.eqb_spec k' k); [congruence|reflexivity].
  - cbn. destruct (String.eqb_spec x k) as [->|M]; [|exact IH].
    destruct (String.eqb_spec k k'); [congruence|reflexivity].
Qed.
Lemma get_put k k' v s : get k (put k' v s) = if String.eqb k k' then Some v else get k s.
Proof.
  unfold put. unfold get at 1. cbn. rewrite String.eqb_sym. destruct (String.eqb k k') eqn:E; [reflexivity|].
  fold (get k (erase k' s)). rewrite get_erase, E. reflexivity.
Qed.
Lemma get_remap k long short del s : long <> short ->
  get k (remap long short del s)
  = if String.eqb k short then (match get long s with Some v => Some v | None => get k s end)
    else if String.eqb k long && del then None else get k s.
Proof.
  intros N. unfold remap. destruct (get long s) as [v|] eqn:E.
  - destruct del; rewrite ?get_erase, get_put; destruct (String.eqb k short) eqn:E1, (String.eqb k long) eqn:E2; cbn; try reflexivity.
    apply String.eqb_eq in E1, E2. congruence.
  - destruct (String.eqb_spec k short) as [->|M]; [reflexivity|]. destruct (String.eqb_spec k long) as [->|]; [|reflexivity].
    rewrite E. now destruct del.
Qed.
Lemma get_other k long short del s : String.eqb long short = false -> String.eqb k short = false -> String.eqb k long && del = false ->
  get k (remap long short del s) = get k s.
Proof. intros N A B. rewrite get_remap by now apply String.eqb_neq. now rewrite A, B. Qed.
Lemma get_hit long short del s : String.eqb long short = false ->
  get short (remap long short del s) = match get long s with Some v => Some v | None => get short s end.
Proof. intros N. rewrite get_remap by now apply String.eqb_neq. now rewrite String.eqb_refl. Qed.
Lemma get_synonyms k s : In k ("X" :: "Y" :: props) -> get k (synonyms s) = given s k.
Proof.
  intros H. unfold synonyms.
  cbn in H. repeat (destruct H as [<-|H]; [repeat first [rewrite get_other by reflexivity|rewrite get_hit by reflexivity];
    unfold given; cbn [names last_of String.eqb Ascii.eqb Bool.eqb]; repeat match goal with |- context [get ?x s] => destruct (get x s) end; reflexivity|]). destruct H.
Qed.
Lemma comp_spec s : let '(c, s') := composition (synonyms s) in c = comp s /\ (forall k, In k props -> get k s' = given s k).
Proof.
  unfold composition, comp. rewrite (get_synonyms "X"), (get_synonyms "Y") by (cbn; auto).
  assert (K : forall k, In k props -> get k (synonyms s) = given s k) by (intros k Hk; apply get_synonyms; now right; right).
  assert (X : forall k, In k props -> String.eqb k "X" = false /\ String.eqb k "Y" = false).
  { intros k Hk. cbn in Hk. repeat (destruct Hk as [<-|Hk]; [split; reflexivity|]). destruct Hk. }
  destruct (given s "X"); [split; [reflexivity|]|destruct (given s "Y"); (split; [reflexivity|])].
  - intros k Hk. rewrite get_erase, (proj1 (X k Hk)). auto.
  - intros k Hk. rewrite get_erase, (proj2 (X k Hk)). auto.
  - exact K.
Qed.
Lemma props_not_nil s k v : get k s = Some v -> s <> [].
Proof. intros H ->. discriminate. Qed.
Lemma properties_unfold s : s <> [] -> properties s =
    match get "T" s, get "P" s with
    | Some t, Some p => match get "Q" s with
                        | Some q => Some (Call "TPQ" [Given t; Given p; Given q])
                        | None => Some (Call "TP" [Given t; Given p])
                        end
    | t, p => match first_pair pairs s with
              | Some a => Some a
              | None => match t with
                        | Some v => Some (Call "TP" [Given v; Num OneAtm])
                        | None => match p with
                                  | Some v => Some (Call "TP" [Num T_default; Given v])
                                  | None => None
                                  end
                        end
              end
    end.
Proof. destruct s; [congruence|reflexivity]. Qed.
(** The map left after the composition has been taken is empty only if no property was given. *)
Lemma set_state_eq s : exists s', (forall k, In k props -> get k s' = given s k)
  /\ set_state s = match properties s' with Some a => (comp s ++ [a], true) | None => (comp s, false) end%list.
Proof.
  pose proof (comp_spec s) as H. unfold set_state. destruct (composition (synonyms s)) as [c s']. destruct H as [-> H].
  exists s'. auto.
Qed.
End Maps.

Lemma fp_hit V (s : amap (V := V)) a b f l va vb : get a s = Some va -> get b s = Some vb ->
  first_pair ((a, b, f) :: l) s = Some (Call f [Given va; Given vb]).
Proof. intros A B. cbn. now rewrite A, B. Qed.
Lemma fp_skip_a V (s : amap (V := V)) a b f l : get a s = None -> first_pair ((a, b, f) :: l) s = first_pair l s.
Proof. intros A. cbn. now rewrite A. Qed.
Lemma fp_skip_b V (s : amap (V := V)) a b f l : get b s = None -> first_pair ((a, b, f) :: l) s = first_pair l s.
Proof. intros A. cbn. rewrite A. now destruct (get a s). Qed.
Lemma fp_none V (s : amap (V := V)) : first_pair [] s = None.
Proof. reflexivity. Qed.
(** Evaluates the choice among the pairs from what is known of the map. *)
Ltac choose := unfold pairs;
  repeat first [rewrite fp_skip_a by assumption|rewrite fp_skip_b by assumption|erewrite fp_hit by eassumption|rewrite fp_none].
Ltac look := repeat match goal with
  | H : get ?k ?s = ?o |- context [match get ?k ?s with _ => _ end] => rewrite H
  end; choose; cbn beta iota.
Ltac inprops := cbn; tauto.

(* A pair of properties that fixes the state, under any of their names and in any order, with or without a
   composition, leads to the setter spelled by the pair, with the values in that order. *)
Theorem C71_pair : forall V (s : amap (V := V)) a b va vb, In (a, b) state_pairs ->
  given s a = Some va -> given s b = Some vb ->
  (forall k, In k props -> k <> a -> k <> b -> given s k = None) ->
  set_state s = (comp s ++ [Call (a ++ b) [Given va; Given vb]], true)%list.
Proof.
  intros V s a b va vb Hin Ha Hb Hn. destruct (set_state_eq s) as (s' & G & ->).
  assert (Hpr : In a props /\ In b props).
  { clear - Hin. cbn in Hin. repeat (destruct Hin as [Hin|Hin]; [injection Hin as <- <-; split; cbn; tauto|]). destruct Hin. }
  rewrite <- (G a) in Ha by tauto. rewrite <- (G b) in Hb by tauto.
  assert (Hne : s' <> []) by now apply (props_not_nil s' a va).
  rewrite (properties_unfold _ Hne).
  assert (Hk : forall k, In k props -> k <> a -> k <> b -> get k s' = None) by (intros k K1 K2 K3; rewrite (G k K1); auto).
  assert (HT := Hk "T"). assert (HP := Hk "P"). assert (HH := Hk "H"). assert (HU := Hk "U").
  assert (HS := Hk "S"). assert (HV := Hk "V"). assert (HD := Hk "D"). assert (HQ := Hk "Q"). clear Hk Hn G Hne Hpr.
  unfold state_pairs in Hin.
  repeat (destruct Hin as [Hin|Hin];
    [injection Hin as <- <-;
     try specialize (HT ltac:(inprops) ltac:(discriminate) ltac:(discriminate));
     try specialize (HP ltac:(inprops) ltac:(discriminate) ltac:(discriminate));
     try specialize (HH ltac:(inprops) ltac:(discriminate) ltac:(discriminate));
     try specialize (HU ltac:(inprops) ltac:(discriminate) ltac:(discriminate));
     try specialize (HS ltac:(inprops) ltac:(discriminate) ltac:(discriminate));
     try specialize (HV ltac:(inprops) ltac:(discriminate) ltac:(discriminate));
     try specialize (HD ltac:(inprops) ltac:(discriminate) ltac:(discriminate));
     try specialize (HQ ltac:(inprops) ltac:(discriminate) ltac:(discriminate));
     look; reflexivity|]).
  destruct Hin.
Qed.
Print Assumptions C71_pair.

(** Saturated states and the vapour fraction, which only pure fluids support. *)
Theorem C71_saturated : forall V (s : amap (V := V)) q, given s "Q" = Some q ->
  (forall k, In k ["H"; "U"; "S"; "V"; "D"] -> given s k = None) ->
  (forall t p, given s "T" = Some t -> given s "P" = Some p -> set_state s = (comp s ++ [Call "TPQ" [Given t; Given p; Given q]], true)%list)
  /\ (forall t, given s "T" = Some t -> given s "P" = None -> set_state s = (comp s ++ [Call "Tsat" [Given t; Given q]], true)%list)
  /\ (forall p, given s "T" = None -> given s "P" = Some p -> set_state s = (comp s ++ [Call "Psat" [Given p; Given q]], true)%list).
Proof.
  intros V s q Hq Hn. destruct (set_state_eq s) as (s' & G & ->).
  rewrite <- (G "Q") in Hq by inprops. rewrite <- (G "T"), <- (G "P") by inprops.
  assert (HH : get "H" s' = None) by (rewrite G by inprops; apply Hn; inprops).
  assert (HU : get "U" s' = None) by (rewrite G by inprops; apply Hn; inprops).
  assert (HS : get "S" s' = None) by (rewrite G by inprops; apply Hn; inprops).
  assert (HV : get "V" s' = None) by (rewrite G by inprops; apply Hn; inprops).
  assert (HD : get "D" s' = None) by (rewrite G by inprops; apply Hn; inprops).
  rewrite (properties_unfold s') by now apply (props_not_nil s' "Q" q).
  split; [|split].
  - intros t p HT HP. look. reflexivity.
  - intros t HT HP. look. reflexivity.
  - intros p HT HP. look. reflexivity.
Qed.
Print Assumptions C71_saturated.

(* With temperature or pressure only, the other is 298.15 K or one atmosphere. *)
Theorem C71_single : forall V (s : amap (V := V)),
  (forall k, In k ["H"; "U"; "S"; "V"; "D"; "Q"] -> given s k = None) ->
  (forall t, given s "T" = Some t -> given s "P" = None -> set_state s = (comp s ++ [Call "TP" [Given t; Num 101325]], true)%list)
  /\ (forall p, given s "T" = None -> given s "P" = Some p -> set_state s = (comp s ++ [Call "TP" [Num (29815 / 100); Given p]], true)%list).
Proof.
  intros V s Hn. destruct (set_state_eq s) as (s' & G & ->).
  rewrite <- (G "T"), <- (G "P") by inprops.
  assert (HH : get "H" s' = None) by (rewrite G by inprops; apply Hn; inprops).
  assert (HU : get "U" s' = None) by (rewrite G by inprops; apply Hn; inprops).
  assert (HS : get "S" s' = None) by (rewrite G by inprops; apply Hn; inprops).
  assert (HV : get "V" s' = None) by (rewrite G by inprops; apply Hn; inprops).
  assert (HD : get "D" s' = None) by (rewrite G by inprops; apply Hn; inprops).
  assert (HQ : get "Q" s' = None) by (rewrite G by inprops; apply Hn; inprops).
  split.
  - intros t HT HP. rewrite (properties_unfold s') by now apply (props_not_nil s' "T" t). look. reflexivity.
  - intros p HT HP. rewrite (properties_unfold s') by now apply (props_not_nil s' "P" p). look. reflexivity.
Qed.
Print Assumptions C71_single.

(** What is left of the map once the composition has been taken. *)
Lemma get_synonyms_other V (s : amap (V := V)) k : ~ In k ("X" :: "Y" :: props) ->
  get k (synonyms s) = if String.eqb k "mass-fractions" || String.eqb k "mole-fractions" then None else get k s.
Proof.
  intros H.
  assert (N : forall x, In x ("X" :: "Y" :: props) -> String.eqb k x = false).
  { intros x Hx. apply String.eqb_neq. intros ->. contradiction. }
  unfold synonyms.
  repeat (rewrite get_other; [|reflexivity|apply N; inprops|apply andb_false_r]).
  rewrite (get_remap k "mole-fractions") by discriminate. rewrite (N "X") by inprops.
  rewrite (get_remap k "mass-fractions") by discriminate. rewrite (N "Y") by inprops. rewrite !andb_true_r.
  destruct (String.eqb k "mass-fractions"), (String.eqb k "mole-fractions"); reflexivity.
Qed.
Lemma comp_left V (s : amap (V := V)) : let s' := snd (composition (synonyms s)) in
  (forall k, ~ In k (comp_names ++ props)%list -> get k s' = get k s)
  /\ get "X" s' = None /\ get "Y" s' = (match given s "X" with Some _ => given s "Y" | None => None end)
  /\ get "mole-fractions" s' = None /\ get "mass-fractions" s' = None.
Proof.
  cbv zeta. unfold composition.
  pose proof (get_synonyms "X" s ltac:(inprops)) as EX. pose proof (get_synonyms "Y" s ltac:(inprops)) as EY. rewrite EX, EY.
  assert (E1 : get "mole-fractions" (synonyms s) = None).
  { rewrite get_synonyms_other; [reflexivity|]. cbn. intuition discriminate. }
  assert (E2 : get "mass-fractions" (synonyms s) = None).
  { rewrite get_synonyms_other; [reflexivity|]. cbn. intuition discriminate. }
  assert (E3 : forall k, ~ In k (comp_names ++ props)%list -> get k (synonyms s) = get k s
                 /\ String.eqb k "X" = false /\ String.eqb k "Y" = false).
  { intros k Hk.
    assert (N : forall x, In x (comp_names ++ props)%list -> String.eqb k x = false).
    { intros x Hx. apply String.eqb_neq. intros ->. contradiction. }
    rewrite get_synonyms_other.
    - rewrite !N by inprops. auto.
    - intros K. apply Hk. cbn in K |- *. tauto. }
  destruct (given s "X") as [x|] eqn:GX; [|destruct (given s "Y") as [y|] eqn:GY]; cbn [snd].
  - repeat split; try (rewrite get_erase; cbn; assumption).
    + intros k Hk. destruct (E3 k Hk) as (A & B & C). now rewrite get_erase, B.
    + now rewrite get_erase.
  - repeat split; try (rewrite get_erase; cbn; assumption).
    + intros k Hk. destruct (E3 k Hk) as (A & B & C). now rewrite get_erase, C.
    + now rewrite get_erase.
  - repeat split; try assumption. intros k Hk. now destruct (E3 k Hk).
Qed.
Lemma nil_get V (s : amap (V := V)) : (forall k, get k s = None) -> s = [].
Proof.
  destruct s as [|[k v] s]; [reflexivity|]. intros H. specialize (H k). unfold get in H. cbn in H.
  rewrite String.eqb_refl in H. discriminate.
Qed.
Lemma set_state_full V (s : amap (V := V)) : exists s',
  (forall k, In k props -> get k s' = given s k)
  /\ (forall k, ~ In k (comp_names ++ props)%list -> get k s' = get k s)
  /\ get "X" s' = None /\ get "Y" s' = (match given s "X" with Some _ => given s "Y" | None => None end)
  /\ get "mole-fractions" s' = None /\ get "mass-fractions" s' = None
  /\ set_state s = match properties s' with Some a => (comp s ++ [a], true) | None => (comp s, false) end%list.
Proof.
  pose proof (comp_spec s) as H. pose proof (comp_left V s) as L. unfold set_state.
  destruct (composition (synonyms s)) as [c s']. destruct H as [-> H]. cbn in L. exists s'. tauto.
Qed.
Lemma in_dec_str (k : string) l : In k l \/ ~ In k l.
Proof. destruct (in_dec string_dec k l); auto. Qed.

(* A composition alone sets 298.15 K and one atmosphere, and so does an empty map. *)
Theorem C71_default : forall V (s : amap (V := V)),
  (forall k v, get k s = Some v -> In k ["X"; "mole-fractions"]) \/ (forall k v, get k s = Some v -> In k ["Y"; "mass-fractions"]) ->
  set_state s = (comp s ++ [Call "TP" [Num (29815 / 100); Num 101325]], true)%list.
Proof.
  intros V s Hc. destruct (set_state_full V s) as (s' & G & O & EX & EY & E1 & E2 & ->).
  assert (N : forall k, ~ In k comp_names -> get k s = None).
  { intros k Hk. destruct (get k s) as [v|] eqn:E; [|reflexivity]. exfalso. apply Hk.
    destruct Hc as [Hc|Hc]; specialize (Hc k v E); cbn in Hc |- *; tauto. }
  assert (Z : s' = []).
  { apply nil_get. intros k. destruct (in_dec_str k props) as [Hp|Hp].
    - rewrite (G k Hp). unfold given. clear - N Hp.
      cbn in Hp. repeat (destruct Hp as [<-|Hp]; [cbn [names last_of String.eqb Ascii.eqb Bool.eqb]; rewrite !N by (cbn; intuition discriminate); reflexivity|]). destruct Hp.
    - destruct (in_dec_str k comp_names) as [Hq|Hq].
      + cbn in Hq. destruct Hq as [<-|[<-|[<-|[<-|[]]]]]; try assumption. rewrite EY.
        destruct Hc as [Hc|Hc].
        * destruct (given s "X"); [|reflexivity]. unfold given; cbn [names last_of String.eqb Ascii.eqb Bool.eqb].
          destruct (get "mass-fractions" s) eqn:E; [destruct (Hc _ _ E) as [K|[K|[]]]; discriminate|].
          destruct (get "Y" s) eqn:E'; [destruct (Hc _ _ E') as [K|[K|[]]]; discriminate|reflexivity].
        * unfold given at 1; cbn [names last_of String.eqb Ascii.eqb Bool.eqb].
          destruct (get "mole-fractions" s) eqn:E; [destruct (Hc _ _ E) as [K|[K|[]]]; discriminate|].
          destruct (get "X" s) eqn:E'; [destruct (Hc _ _ E') as [K|[K|[]]]; discriminate|reflexivity].
      + rewrite O; [now apply N|]. intros K. apply in_app_or in K. tauto. }
  rewrite Z. reflexivity.
Qed.
Print Assumptions C71_default.

(* It throws exactly if neither temperature, pressure nor one of four pairs is given but something is: and
   then the composition has been changed already. *)
Definition both {V} (s : amap (V := V)) a b : Prop := given s a <> None /\ given s b <> None.
Theorem C71_throws : forall V (s : amap (V := V)), 
  (snd (set_state s) = false <->
   given s "T" = None /\ given s "P" = None /\ ~ both s "U" "V" /\ ~ both s "S" "V" /\ ~ both s "V" "H" /\ ~ both s "S" "H"
   /\ ((exists k v, get k s = Some v /\ ~ In k comp_names) \/ both s "X" "Y"))
  /\ (snd (set_state s) = false -> fst (set_state s) = comp s).
Proof.
  intros V s. destruct (set_state_full V s) as (s' & G & O & EX & EY & E1 & E2 & ->).
  split; [|destruct (properties s'); [discriminate|reflexivity]].
  assert (Ne : s' <> [] <-> (exists k v, get k s = Some v /\ ~ In k comp_names) \/ both s "X" "Y").
  { split.
    - intros Hne. destruct s' as [|[k v] s'']; [congruence|]. set (s1 := (k, v) :: s'') in *.
      assert (Ek : get k s1 = Some v) by (unfold get, s1; cbn; now rewrite String.eqb_refl).
      destruct (in_dec_str k comp_names) as [Hq|Hq].
      + right. cbn in Hq. destruct Hq as [<-|[<-|[<-|[<-|[]]]]]; try congruence. rewrite EY in Ek. unfold both.
        destruct (given s "X"); [|discriminate]. split; congruence.
      + left. destruct (in_dec_str k props) as [Hp|Hp].
        * rewrite (G k Hp) in Ek. unfold given in Ek. clear - Ek Hp.
          assert (K : exists k', last_of s (names k) = get k' s /\ ~ In k' comp_names).
          { cbn in Hp. repeat (destruct Hp as [<-|Hp];
              [cbn [names last_of String.eqb Ascii.eqb Bool.eqb] in *;
               repeat match goal with |- context [match get ?x s with _ => _ end] => destruct (get x s) eqn:? end;
               match goal with |- exists k', ?o = get k' s /\ _ =>
                 first [ match goal with E : get ?x s = o |- _ => exists x; split; [symmetry; exact E|cbn; intuition discriminate] end
                       | eexists; split; [reflexivity|cbn; intuition discriminate] ] end|]). destruct Hp. }
          destruct K as (k' & K1 & K2). exists k', v. split; [congruence|exact K2].
        * exists k, v. split; [|exact Hq]. rewrite <- O; [exact Ek|]. intros K. apply in_app_or in K. tauto.
    - intros [(k & v & Ek & Hk)|[B1 B2]] Z.
      + destruct (in_dec_str k props) as [Hp|Hp].
        * assert (K : get k s' = None) by (rewrite Z; reflexivity). rewrite (G k Hp) in K. unfold given in K.
          clear - Ek Hp K. cbn in Hp. repeat (destruct Hp as [<-|Hp]; [cbn [names last_of String.eqb Ascii.eqb Bool.eqb] in K; rewrite Ek in K;
            repeat match type of K with context [match get ?x s with _ => _ end] => destruct (get x s) end; discriminate|]). destruct Hp.
        * assert (K : get k s' = None) by (rewrite Z; reflexivity). rewrite O in K; [congruence|].
          intros C. apply in_app_or in C. tauto.
      + assert (K : get "Y" s' = None) by (rewrite Z; reflexivity). rewrite EY in K.
        destruct (given s "X"); congruence. }
  rewrite <- Ne. clear Ne O EX EY E1 E2. unfold both.
  rewrite <- (G "T"), <- (G "P"), <- (G "U"), <- (G "V"), <- (G "S"), <- (G "H") by inprops.
  split.
  - intros Ht. assert (Hne : s' <> []) by (intros ->; discriminate). rewrite (properties_unfold _ Hne) in Ht.
    destruct (get "T" s') as [t|] eqn:ET.
    { destruct (get "P" s') as [p|]; [destruct (get "Q" s'); discriminate|]. destruct (first_pair pairs s'); discriminate. }
    destruct (get "P" s') as [p|] eqn:EP; [destruct (first_pair pairs s'); discriminate|].
    destruct (first_pair pairs s') eqn:F; [discriminate|].
    split; [reflexivity|]. split; [reflexivity|].
    assert (Fp : forall a b f l va vb, In (a, b, f) l -> get a s' = Some va -> get b s' = Some vb -> first_pair l s' <> None).
    { clear. induction l as [|[[a1 b1] f1] l IH]; intros va vb Hin A B; [destruct Hin|]. cbn.
      destruct Hin as [Hin|Hin]; [injection Hin as -> -> ->; rewrite A, B; discriminate|].
      destruct (get a1 s'); [destruct (get b1 s'); [discriminate|]|]; eapply IH; eauto. }
    assert (Fn : forall a b f, In (a, b, f) pairs -> ~ (get a s' <> None /\ get b s' <> None)).
    { intros a b f Hin [A B]. destruct (get a s') as [va|] eqn:Ea; [|congruence]. destruct (get b s') as [vb|] eqn:Eb; [|congruence].
      exact (Fp a b f pairs va vb Hin Ea Eb F). }
    split; [apply (Fn _ _ "UV"); cbn; tauto|]. split; [apply (Fn _ _ "SV"); cbn; tauto|].
    split; [apply (Fn _ _ "VH"); cbn; tauto|]. split; [apply (Fn _ _ "SH"); cbn; tauto|]. exact Hne.
  - intros (ET & EP & N1 & N2 & N3 & N4 & Hne). rewrite (properties_unfold _ Hne), ET, EP.
    assert (F : first_pair pairs s' = None).
    { unfold pairs. rewrite 2 fp_skip_a by assumption. rewrite (fp_skip_b _ s' "H" "P") by assumption.
      destruct (get "U" s') as [u|] eqn:EU, (get "V" s') as [v|] eqn:EV, (get "S" s') as [w|] eqn:ES, (get "H" s') as [h|] eqn:EH;
        try (exfalso; apply N1; split; discriminate); try (exfalso; apply N2; split; discriminate);
        try (exfalso; apply N3; split; discriminate); try (exfalso; apply N4; split; discriminate);
        choose; reflexivity. }
    rewrite F. reflexivity.
Qed.
Print Assumptions C71_throws.
