(** C71: what the map of properties does not guard against, and the overrides. *)
From Coq Require Import Reals String List Bool Lia.
From Verif Require Import SetState.Model SetState.Spec SetState.Props.
Import ListNotations.
Open Scope string_scope.

(* The order of the keys does not matter. *)
Lemma synonyms_ext V (s1 s2 : amap (V := V)) : (forall k, get k s1 = get k s2) -> forall k, get k (synonyms s1) = get k (synonyms s2).
Proof.
  intros H. assert (R : forall a b d s1 s2, a <> b -> (forall k, get (V := V) k s1 = get k s2) -> forall k, get k (remap a b d s1) = get k (remap a b d s2)).
  { intros a b d t1 t2 N K k. rewrite !get_remap by exact N. rewrite !K. reflexivity. }
  unfold synonyms. do 11 (apply R; [discriminate|]). exact H.
Qed.
Lemma first_pair_ext V l (s1 s2 : amap (V := V)) : (forall k, get k s1 = get k s2) -> first_pair l s1 = first_pair l s2.
Proof. intros H. induction l as [|[[a b] f] l IH]; [reflexivity|]. cbn [first_pair]. now rewrite !H, IH. Qed.
Lemma properties_ext V (s1 s2 : amap (V := V)) : (forall k, get k s1 = get k s2) -> properties s1 = properties s2.
Proof.
  intros H. destruct s1 as [|p1 s1].
  - replace s2 with (@nil (string * V)); [reflexivity|]. symmetry. apply nil_get. intros k. now rewrite <- H.
  - assert (N1 : p1 :: s1 <> []) by discriminate.
    assert (N2 : s2 <> []).
    { intros ->. assert (K := H (fst p1)). unfold get in K. cbn in K. rewrite String.eqb_refl in K. discriminate. }
    rewrite (properties_unfold _ N1), (properties_unfold _ N2), !H, (first_pair_ext V pairs _ _ H). reflexivity.
Qed.
Theorem C71_order : forall V (s1 s2 : amap (V := V)), (forall k, get k s1 = get k s2) ->
  set_state s1 = set_state s2 /\ surf_set_state s1 = surf_set_state s2 /\ molality_set_state s1 = molality_set_state s2.
Proof.
  intros V s1 s2 H. assert (E : set_state s1 = set_state s2).
  { pose proof (synonyms_ext V s1 s2 H) as S. unfold set_state, composition. rewrite !S.
    destruct (get "X" (synonyms s2)); [|destruct (get "Y" (synonyms s2))].
    - erewrite properties_ext; [reflexivity|]. intros k. rewrite !get_erase. now rewrite S.
    - erewrite properties_ext; [reflexivity|]. intros k. rewrite !get_erase. now rewrite S.
    - erewrite properties_ext; [reflexivity|]. exact S. }
  unfold surf_set_state, molality_set_state. rewrite !H, E. auto.
Qed.
Print Assumptions C71_order.

(* Properties beyond temperature and pressure are dropped without notice, consistent or not. *)
Theorem C71_extra_refuted : forall V (s : amap (V := V)) t p, given s "T" = Some t -> given s "P" = Some p -> given s "Q" = None ->
  set_state s = (comp s ++ [Call "TP" [Given t; Given p]], true)%list.
Proof.
  intros V s t p HT HP HQ. destruct (set_state_eq s) as (s' & G & ->).
  rewrite <- (G "T") in HT by inprops. rewrite <- (G "P") in HP by inprops. rewrite <- (G "Q") in HQ by inprops.
  rewrite (properties_unfold s') by now apply (props_not_nil s' "T" t). rewrite HT, HP, HQ. reflexivity.
Qed.
Print Assumptions C71_extra_refuted.
Example C71_extra_example : given [("T", 300%nat); ("P", 101325%nat); ("H", 5%nat); ("D", 1%nat)] "H" = Some 5%nat
  /\ set_state [("T", 300%nat); ("P", 101325%nat); ("H", 5%nat); ("D", 1%nat)] = ([Call "TP" [Given 300%nat; Given 101325%nat]], true).
Proof. split; reflexivity. Qed.

Lemma get_cons V k x v (s : amap (V := V)) : get k ((x, v) :: s) = if String.eqb x k then Some v else get k s.
Proof. unfold get. cbn. now destruct (String.eqb x k). Qed.
Lemma get_nil V k : get k ([] : amap (V := V)) = None.
Proof. reflexivity. Qed.
(* A key that is no property, such as a misspelled one, is ignored, and the property it was meant for is set
   to its default. *)
Theorem C71_misspelled_refuted : forall V (t w : V) u, ~ known u ->
  set_state [("T", t); (u, w)] = ([Call "TP" [Given t; Num 101325]], true)
  /\ set_state [("X", w); ("T", t); (u, w)] = ([SetX w; Call "TP" [Given t; Num 101325]], true).
Proof.
  intros V t w u Hu.
  assert (N : forall p k, In p ("X" :: "Y" :: props) -> In k (names p) -> String.eqb u k = false).
  { intros p k Hp Hk. apply String.eqb_neq. intros ->. apply Hu. now exists p. }
  assert (L : forall p s, In p ("X" :: "Y" :: props) -> (forall k, In k (names p) -> get (V := V) k s = None) -> given s p = None).
  { intros p s Hp Hk. unfold given. clear - Hk. induction (names p) as [|x l IH]; [reflexivity|].
    cbn. rewrite IH by (intros; apply Hk; now right). apply Hk. now left. }
  assert (Nk : forall p k, In p ["P"; "H"; "U"; "S"; "V"; "D"; "Q"] -> In k (names p) ->
             String.eqb "X" k = false /\ String.eqb "T" k = false /\ String.eqb u k = false).
  { intros p k Hp Hk. assert (Hu' : String.eqb u k = false) by (apply (N p); [cbn in Hp |- *; tauto|exact Hk]).
    cbn in Hp. repeat (destruct Hp as [<-|Hp]; [cbn in Hk; repeat (destruct Hk as [<-|Hk]; [now auto|]); destruct Hk|]). destruct Hp. }
  split.
  - set (s := [("T", t); (u, w)]).
    assert (C : comp s = []).
    { assert (CX : given s "X" = None).
      { apply L; [inprops|]. intros k Hk. unfold s. rewrite !get_cons, (N "X" k) by (exact Hk || inprops).
        cbn in Hk. destruct Hk as [<-|[<-|[]]]; reflexivity. }
      assert (CY : given s "Y" = None).
      { apply L; [inprops|]. intros k Hk. unfold s. rewrite !get_cons, (N "Y" k) by (exact Hk || inprops).
        cbn in Hk. destruct Hk as [<-|[<-|[]]]; reflexivity. }
      unfold comp. now rewrite CX, CY. }
    rewrite (proj1 (C71_single V s ltac:(intros p Hp; apply (L p); [cbn in Hp |- *; tauto|];
        intros k Hk; unfold s; destruct (Nk p k ltac:(cbn in Hp |- *; tauto) Hk) as (A1 & A2 & A3); rewrite !get_cons, A2, A3; reflexivity)) t).
    + now rewrite C.
    + unfold given, s. cbn [names last_of String.eqb Ascii.eqb Bool.eqb]. rewrite !get_cons, (N "T" "temperature") by inprops. reflexivity.
    + apply L; [inprops|]. intros k Hk. unfold s. destruct (Nk "P" k ltac:(inprops) Hk) as (A1 & A2 & A3). now rewrite !get_cons, A2, A3.
  - set (s := [("X", w); ("T", t); (u, w)]).
    assert (C : comp s = [SetX w]).
    { unfold comp, given, s. cbn [names last_of String.eqb Ascii.eqb Bool.eqb].
      rewrite (get_cons _ "mole-fractions"), (get_cons _ "mole-fractions"), (get_cons _ "mole-fractions"), (N "X" "mole-fractions") by inprops.
      rewrite get_cons. reflexivity. }
    rewrite (proj1 (C71_single V s ltac:(intros p Hp; apply (L p); [cbn in Hp |- *; tauto|];
        intros k Hk; unfold s; destruct (Nk p k ltac:(cbn in Hp |- *; tauto) Hk) as (A1 & A2 & A3); rewrite !get_cons, A1, A2, A3; reflexivity)) t).
    + now rewrite C.
    + unfold given, s. cbn [names last_of String.eqb Ascii.eqb Bool.eqb]. rewrite !get_cons, (N "T" "temperature") by inprops. reflexivity.
    + apply L; [inprops|]. intros k Hk. unfold s. destruct (Nk "P" k ltac:(inprops) Hk) as (A1 & A2 & A3). now rewrite !get_cons, A1, A2, A3.
Qed.
Print Assumptions C71_misspelled_refuted.
Example C71_misspelled_example : ~ known "presure".
Proof. intros (p & Hp & Hk). cbn in Hp. repeat (destruct Hp as [<-|Hp]; [cbn in Hk; intuition discriminate|]). destruct Hp. Qed.

(* Mole and mass fractions together: the mass fractions are ignored if temperature and pressure are given,
   and make the call fail, after the mole fractions have been set, if nothing else is. *)
Theorem C71_both_refuted : forall V (x y t p : V),
  set_state [("X", x); ("Y", y); ("T", t); ("P", p)] = ([SetX x; Call "TP" [Given t; Given p]], true)
  /\ set_state [("X", x); ("Y", y)] = ([SetX x], false).
Proof. split; reflexivity. Qed.
Print Assumptions C71_both_refuted.
(* The density is not accepted in place of the specific volume beside energy, enthalpy or entropy; the
   composition has changed when the exception is thrown. *)
Theorem C71_density_refuted : forall V (x d q : V) k, In k ["H"; "U"; "S"] ->
  set_state [("X", x); ("D", d); (k, q)] = ([SetX x], false)
  /\ snd (set_state [("X", x); ("V", d); (k, q)]) = true.
Proof. intros V x d q k Hk. cbn in Hk. repeat (destruct Hk as [<-|Hk]; [split; reflexivity|]). destruct Hk. Qed.
Print Assumptions C71_density_refuted.
(* Coverages or molalities alone, unlike mole fractions alone, make the call fail after they have been set. *)
Theorem C71_coverages_refuted : forall V (c : V),
  surf_set_state [("coverages", c)] = ([SetCoverages c], false)
  /\ molality_set_state [("molalities", c)] = ([SetMolalities c], false)
  /\ molality_set_state [("M", c)] = ([SetMolalities c], false)
  /\ surf_set_state [("X", c)] = ([SetX c; Call "TP" [Num (29815 / 100); Num 101325]], true).
Proof. repeat split. Qed.
Print Assumptions C71_coverages_refuted.
(* With a pair of properties they are set first, and a composition given beside them overrides them. *)
Theorem C71_coverages : forall V (s : amap (V := V)) c a b va vb, get "coverages" s = Some c -> In (a, b) state_pairs ->
  given s a = Some va -> given s b = Some vb -> (forall k, In k props -> k <> a -> k <> b -> given s k = None) ->
  surf_set_state s = (SetCoverages c :: comp s ++ [Call (a ++ b) [Given va; Given vb]], true)%list.
Proof.
  intros V s c a b va vb Hc Hin Ha Hb Hn. unfold surf_set_state. rewrite (C71_pair V s a b va vb Hin Ha Hb Hn), Hc. reflexivity.
Qed.
Print Assumptions C71_coverages.
Theorem C71_molalities : forall V (s : amap (V := V)) m a b va vb,
  get "molalities" s = Some m \/ (get "molalities" s = None /\ get "M" s = Some m) -> In (a, b) state_pairs ->
  given s a = Some va -> given s b = Some vb -> (forall k, In k props -> k <> a -> k <> b -> given s k = None) ->
  molality_set_state s = (SetMolalities m :: comp s ++ [Call (a ++ b) [Given va; Given vb]], true)%list.
Proof.
  intros V s m a b va vb Hc Hin Ha Hb Hn. unfold molality_set_state. rewrite (C71_pair V s a b va vb Hin Ha Hb Hn).
  destruct Hc as [->|[-> ->]]; reflexivity.
Qed.
Print Assumptions C71_molalities.
Example C71_pair_example : 
  set_state [("pressure", 7%nat); ("mass-fractions", 1%nat); ("enthalpy", 5%nat)] = ([SetY 1%nat; Call "HP" [Given 5%nat; Given 7%nat]], true)
  /\ surf_set_state [("coverages", 2%nat); ("T", 900%nat); ("P", 1%nat)] = ([SetCoverages 2%nat; Call "TP" [Given 900%nat; Given 1%nat]], true).
Proof. split; reflexivity. Qed.
