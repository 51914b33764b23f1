(** C05, C06, C07, C42: setting, reading, saving and restoring the state of a phase. *)
From Coq Require Import Reals Lra Lia List Bool Arith.
From Verif Require Import Base.RSum Base.Map2 Base.Fp Base.Outcome
  Phase.CompModel Phase.CompSpec Phase.CompProofs Phase.CompProofs2.
Import ListNotations.
Open Scope R_scope.

(** The reported mole fractions, mass fractions and mean molecular weight are finite, and describe one
    and the same mixture. *)
Definition reports (M : list R) (c : st) (X Y : list R) (Mbar : R) : Prop :=
  getMoleFractions c = map Fin X /\ getMassFractions c = map Fin Y /\ meanMolecularWeight c = Fin Mbar /\
  same_mixture M X Y Mbar.

Lemma fractions_X x : fractions x = X_of (clip x).
Proof. unfold fractions, X_of, clip. now rewrite map_map. Qed.

Lemma fractions_Y mw y : all_pos mw -> length y = length mw -> some_pos y ->
  fractions y = Y_of mw (moles_of mw (clip y)).
Proof.
  intros Hmw HL Hp. unfold Y_of. rewrite wsum_moles by (auto; now rewrite clip_length).
  unfold moles_of. rewrite map2_map2_l.
  rewrite (map2_ext _ (fun a _ => a / rsum (clip y))).
  2:{ intros. field. pose proof (rsum_pos _ (clip_nonneg y) (clip_some_pos _ Hp)). split; [lra|]. eapply mw_nz; eauto. }
  rewrite <- (map2_map_l (fun a _ => a) (fun a => a / rsum (clip y))).
  rewrite map2_fst by (rewrite map_length, clip_length; auto). unfold fractions, clip. now rewrite map_map.
Qed.

(** * C05: composition setters normalise *)

(** setMoleFractions: the mole fractions read back are the non-negative parts of the input divided by
    their sum, and everything reported is consistent. *)
Theorem C05_set_mole_fractions : forall mw kd c x,
  all_pos mw -> length x = length mw -> some_pos x ->
  exists Y mb, reports mw (snd (setMoleFractions mw kd c (map Fin x))) (fractions x) Y mb.
Proof.
  intros mw kd c x Hmw HL Hp. pose proof (good_clip mw Hmw x HL Hp) as G.
  pose proof (setX_comp mw kd c x HL G) as C.
  exists (Y_of mw (clip x)), (mb_of mw (clip x)). split; [|split; [|split]].
  - rewrite fractions_X. eapply comp_of_getX; eauto.
  - apply C.
  - apply C.
  - rewrite fractions_X. now apply mixture_of.
Qed.
Print Assumptions C05_set_mole_fractions.

(** setMassFractions, likewise for the mass fractions. *)
Theorem C05_set_mass_fractions : forall mw kd c y,
  all_pos mw -> length y = length mw -> some_pos y ->
  exists X mb, reports mw (snd (setMassFractions mw kd c (map Fin y))) X (fractions y) mb.
Proof.
  intros mw kd c y Hmw HL Hp.
  assert (good mw (moles_of mw (clip y))) as G.
  { apply good_moles_nn; auto; [now rewrite clip_length|apply clip_nonneg|now apply clip_some_pos]. }
  assert (comp_of mw (moles_of mw (clip y)) (snd (setMassFractions mw kd c (map Fin y)))) as C.
  { apply setY_comp; auto; [|apply G]. pose proof (rsum_pos _ (clip_nonneg y) (clip_some_pos _ Hp)). lra. }
  exists (X_of (moles_of mw (clip y))), (mb_of mw (moles_of mw (clip y))).
  rewrite (fractions_Y mw) by auto. split; [|split; [|split]].
  - eapply comp_of_getX; eauto.
  - apply C.
  - apply C.
  - now apply mixture_of.
Qed.
Print Assumptions C05_set_mass_fractions.

(** setConcentrations: the non-negative parts of the input are the concentrations read back (by either
    accessor), the density is their total mass, and the fractions are consistent. *)
Theorem C05_set_concentrations : forall mw c x,
  all_pos mw -> length x = length mw -> some_pos x ->
  let r := setConcentrations mw Compressible c (map Fin x) in
  fst r = Ok tt /\
  getConcentrations (snd r) = map Fin (clip x) /\
  concentrations1 mw (snd r) = map Fin (clip x) /\
  density (snd r) = Fin (wsum (clip x) mw) /\
  temperature (snd r) = temperature c /\
  exists Y mb, reports mw (snd r) (fractions x) Y mb.
Proof.
  intros mw c x Hmw HL Hp r. pose proof (good_clip mw Hmw x HL Hp) as G.
  assert (0 < wsum (clip x) mw) as W.
  { apply wsum_pos; auto; [now rewrite clip_length|apply clip_nonneg|now apply clip_some_pos]. }
  destruct (setC_comp mw Compressible c x eq_refl HL (proj1 (proj2 G)) W) as (E&C&D&T).
  fold r in E, C, D, T. cbv zeta in *.
  destruct (comp_of_getC mw Hmw (clip x) (snd r) (wsum (clip x) mw) G C D) as (E1&E2).
  assert (map (fun a => a / wsum (clip x) mw * wsum (clip x) mw) (clip x) = clip x) as E3.
  { rewrite <- map_id. apply map_ext. intros. field. lra. }
  rewrite E3 in E1. split; [exact E|]. split; [exact E1|]. split; [congruence|]. split; [exact D|]. split; [exact T|].
  exists (Y_of mw (clip x)), (mb_of mw (clip x)). split; [|split; [|split]].
  - rewrite fractions_X. eapply comp_of_getX; eauto.
  - apply C.
  - apply C.
  - rewrite fractions_X. now apply mixture_of.
Qed.
Print Assumptions C05_set_concentrations.

(** setMolesNoTruncate: the mole fractions are the amounts divided by their total. *)
Theorem C05_set_moles : forall mw kd c n,
  all_pos mw -> length n = length mw -> rsum n <> 0 -> wsum n mw <> 0 ->
  exists Y mb, reports mw (snd (setMolesNoTruncate mw kd c (map Fin n))) (map (fun a => a / rsum n) n) Y mb.
Proof.
  intros mw kd c n Hmw HL Hn Hw. assert (good mw n) as G by (repeat split; auto).
  pose proof (setN_comp mw kd c n G) as C.
  exists (Y_of mw n), (mb_of mw n). split; [|split; [|split]].
  - eapply comp_of_getX; eauto.
  - apply C.
  - apply C.
  - now apply mixture_of.
Qed.
Print Assumptions C05_set_moles.

(** After any history of meaningful calls, whether or not some of them threw, the phase reports a
    consistent composition, and a positive temperature and density. *)
Theorem C05_always_consistent : forall mw kd ops,
  all_pos mw -> mw <> [] -> Forall (admissible mw) ops ->
  let c := run mw kd (init_state mw kd) ops in
  exists X Y mb, reports mw c X Y mb.
Proof.
  intros mw kd ops Hmw Hne Ha c.
  destruct (run_mixture mw kd Hmw ops _ Ha (init_mixture mw kd Hmw Hne)) as (n&G&C).
  destruct (comp_of_coherent mw Hmw n c G C) as (X&Y&mb&H). exists X, Y, mb. exact H.
Qed.
Print Assumptions C05_always_consistent.

(** setMoleFractionsByName: a composition given by name sets the species named to the values given and
    all others to zero (the names must denote distinct species), and an unknown name is rejected without
    touching the phase. *)
Section ByName.
  Context {name : Type} (sidx : name -> option nat).
  Definition value_of (m : list (name * R)) (k : nat) : R :=
    match find (fun '(nm, _) => match sidx nm with Some j => Nat.eqb j k | None => false end) m with
    | Some (_, v) => v
    | None => 0
    end.
  Definition by_name_vector (n : nat) (m : list (name * R)) : list R := map (value_of m) (seq 0 n).
  Definition fin_entries (m : list (name * R)) : list (name * fp) := map (fun '(nm, v) => (nm, Fin v)) m.

  Lemma lset_nth {A} (l : list A) i a k d : (i < length l)%nat ->
    nth k (lset l i a) d = if Nat.eqb k i then a else nth k l d.
  Proof.
    revert i k. induction l as [|b l IH]; intros [|i] [|k] H; simpl in *; auto; try lia.
    apply IH. lia.
  Qed.
  Lemma lset_length {A} (l : list A) i a : length (lset l i a) = length l.
  Proof. revert i. induction l as [|b l IH]; intros [|i]; simpl; auto. Qed.

  Lemma aux_ok n m : forall x,
    length x = n ->
    (forall nm v, In (nm, v) m -> exists k, sidx nm = Some k /\ (k < n)%nat) ->
    NoDup (map (fun e => sidx (fst e)) m) ->
    exists y, comp_from_map_aux sidx (fin_entries m) (map Fin x) = Some (map Fin y) /\ length y = n /\
      forall k, (k < n)%nat -> nth k y 0 =
        match find (fun '(nm, _) => match sidx nm with Some j => Nat.eqb j k | None => false end) m with
        | Some (_, v) => v
        | None => nth k x 0
        end.
  Proof.
    induction m as [|(nm, v) m IH]; intros x HL Hk Hnd; simpl.
    - exists x. auto.
    - destruct (Hk nm v (or_introl eq_refl)) as (j&Ej&Hj). rewrite Ej.
      inversion Hnd as [|? ? Hni Hnd']; subst.
      assert (lset (map Fin x) j (Fin v) = map Fin (lset x j v)) as El.
      { clear. revert j. induction x as [|b x IH]; intros [|j]; simpl; auto. now rewrite IH. }
      rewrite El. destruct (IH (lset x j v)) as (y&Ey&Ly&Hy).
      + apply lset_length.
      + intros nm' v' Hin. apply (Hk nm' v'). now right.
      + exact Hnd'.
      + exists y. split; [exact Ey|]. split; [exact Ly|]. intros k Hkk. rewrite Hy by auto.
        destruct (Nat.eqb_spec j k) as [E|Ne].
        * subst k.
          destruct (find _ m) as [[nm' v']|] eqn:F.
          { apply find_some in F. destruct F as (Fin_&Ft). destruct (sidx nm') as [j'|] eqn:Ej'; [|discriminate].
            apply Nat.eqb_eq in Ft. subst j'. exfalso. apply Hni. simpl. rewrite Ej, <- Ej'.
            apply (in_map (fun e => sidx (fst e)) m (nm', v') Fin_). }
          rewrite lset_nth by auto. now rewrite Nat.eqb_refl.
        * destruct (find _ m) as [[nm' v']|] eqn:F; auto.
          rewrite lset_nth by auto. destruct (Nat.eqb_spec k j); [congruence|auto].
  Qed.

  Lemma from_map_ok mw m :
    (forall nm v, In (nm, v) m -> exists k, sidx nm = Some k /\ (k < length mw)%nat) ->
    NoDup (map (fun e => sidx (fst e)) m) ->
    getCompositionFromMap mw sidx (fin_entries m) = Some (map Fin (by_name_vector (length mw) m)).
  Proof.
    intros Hk Hnd. unfold getCompositionFromMap.
    assert (repeat (Fin 0) (length mw) = map Fin (repeat 0 (length mw))) as E.
    { clear. induction mw; simpl; auto. now rewrite IHmw. }
    rewrite E. destruct (aux_ok (length mw) m (repeat 0 (length mw)) (repeat_length _ _) Hk Hnd) as (y&Ey&Ly&Hy).
    rewrite Ey. do 2 f_equal. apply (nth_ext _ _ 0 0).
    { unfold by_name_vector. rewrite map_length, seq_length. auto. }
    intros k Hkl. rewrite Hy by lia. unfold by_name_vector.
    rewrite (nth_indep (map (value_of m) _) 0 (value_of m 0)) by (rewrite map_length, seq_length; lia).
    rewrite (map_nth (value_of m)), seq_nth by lia. unfold value_of. simpl.
    destruct (find _ m) as [[? ?]|]; auto. apply nth_repeat.
  Qed.
End ByName.

Theorem C05_by_name : forall {name} (sidx : name -> option nat) mw kd c (m : list (name * R)),
  all_pos mw ->
  NoDup (map (fun e => sidx (fst e)) m) ->
  (forall nm v, In (nm, v) m -> exists k, sidx nm = Some k /\ (k < length mw)%nat) ->
  (exists nm v, In (nm, v) m /\ 0 < v) ->
  let x := by_name_vector sidx (length mw) m in
  (exists Y mb, reports mw (snd (setMoleFractionsByName mw kd sidx c (fin_entries m))) (fractions x) Y mb) /\
  (exists X mb, reports mw (snd (setMassFractionsByName mw kd sidx c (fin_entries m))) X (fractions x) mb).
Proof.
  intros name sidx mw kd c m Hmw Hnd Hk (nm&v&Hin&Hv) x.
  assert (length x = length mw) as HL by (unfold x, by_name_vector; now rewrite map_length, seq_length).
  assert (some_pos x) as Hp.
  { destruct (Hk nm v Hin) as (k&Ek&Hkl). apply Exists_exists. exists (value_of sidx m k). split.
    - unfold x, by_name_vector. apply in_map. apply in_seq. lia.
    - assert (value_of sidx m k = v) as ->; [|auto]. unfold value_of.
      clear - Hnd Hin Ek. induction m as [|(nm', v') m IH]; [destruct Hin|].
      simpl. inversion Hnd as [|? ? Hni Hnd']; subst. destruct Hin as [E|Hin].
      + injection E as -> ->. rewrite Ek, Nat.eqb_refl. auto.
      + destruct (sidx nm') as [j'|] eqn:Ej.
        * destruct (Nat.eqb_spec j' k) as [E|Ne]; [|now apply IH].
          exfalso. apply Hni. simpl. rewrite E, <- Ek. apply (in_map (fun e => sidx (fst e)) m (nm, v) Hin).
        * now apply IH. }
  unfold setMoleFractionsByName, setMassFractionsByName. rewrite from_map_ok by auto. split.
  - now apply C05_set_mole_fractions.
  - now apply C05_set_mass_fractions.
Qed.
Print Assumptions C05_by_name.

Theorem C05_unknown_name_rejected : forall {name} (sidx : name -> option nat) mw kd c (m : list (name * fp)),
  (exists nm v, In (nm, v) m /\ sidx nm = None) ->
  setMoleFractionsByName mw kd sidx c m = (Err, c) /\ setMassFractionsByName mw kd sidx c m = (Err, c).
Proof.
  intros name sidx mw kd c m (nm&v&Hin&Hn).
  assert (getCompositionFromMap mw sidx m = None) as E.
  { unfold getCompositionFromMap. generalize (repeat (Fin 0) (length mw)).
    induction m as [|(nm', v') m IH]; intros l; [destruct Hin|]. simpl. destruct Hin as [E|Hin].
    - injection E as -> ->. now rewrite Hn.
    - destruct (sidx nm'); auto. }
  unfold setMoleFractionsByName, setMassFractionsByName. rewrite E. auto.
Qed.
Print Assumptions C05_unknown_name_rejected.

(** What does not hold: a composition with no positive entry is not rejected, and leaves the phase with
    NaN everywhere and no exception. *)
Theorem C05_zero_composition_rejected_refuted :
  exists mw c x, all_pos mw /\ length x = length mw /\ all_nonneg x /\ (exists X Y mb, reports mw c X Y mb) /\
    let r := setMoleFractions mw Compressible c (map Fin x) in
    fst r = Ok tt /\ getMoleFractions (snd r) = [NaN; NaN] /\ getMassFractions (snd r) = [NaN; NaN] /\
    meanMolecularWeight (snd r) = NaN.
Proof.
  exists [2; 32], (init_state [2; 32] Compressible), [0; 0].
  assert (all_pos [2; 32]) as Hmw by (repeat (apply Forall_cons; [lra|]); apply Forall_nil).
  split; [exact Hmw|]. split; [reflexivity|].
  split; [repeat (apply Forall_cons; [lra|]); apply Forall_nil|].
  split.
  { apply (C05_always_consistent [2; 32] Compressible []); auto; discriminate. }
  assert (forall a, a = 0 -> sinf a true = NaN) as Hs.
  { intros a ->. unfold sinf. rewrite (proj2 (rltb_false 0 0)) by lra. reflexivity. }
  assert (forall a b, b = 0 -> fdiv (Fin a) (Fin b) = sinf a true) as Hd.
  { intros a b ->. simpl. rewrite (proj2 (reqb_true 0 0)) by auto. reflexivity. }
  unfold setMoleFractions. rewrite clip_fin, mulmw_fin', !fsum_fin.
  assert (clip [0; 0] = [0; 0]) as -> by (unfold clip; simpl; rewrite Rmax_left by lra; auto).
  cbn [map2 rsum].
  rewrite (Hd 1) by lra. rewrite (Hd (2 * 0 + (32 * 0 + 0))) by lra. rewrite (Hs (2 * 0 + (32 * 0 + 0))) by lra.
  split; [reflexivity|].
  assert (sinf 1 true = PInf) as -> by (unfold sinf; rewrite (proj2 (rltb_true 0 1)) by lra; auto).
  unfold compositionChanged, getMoleFractions, getMassFractions, meanMolecularWeight, scale. simpl. rewrite Hs by auto. simpl. auto.
Qed.
Print Assumptions C05_zero_composition_rejected_refuted.

(** * C06: conversions are inverse to one another *)

(** For any consistent state whose fractions are non-negative, setting the mass fractions (or the mole
    fractions) that are read leaves every reported value unchanged. *)
Theorem C06_set_what_was_read : forall mw kd ops c2,
  all_pos mw -> mw <> [] -> Forall (admissible_nonneg mw) ops ->
  let c := run mw kd (init_state mw kd) ops in
  let same c' := getMoleFractions c' = getMoleFractions c /\ getMassFractions c' = getMassFractions c /\
                 meanMolecularWeight c' = meanMolecularWeight c in
  same (snd (setMassFractions mw kd c2 (getMassFractions c))) /\
  same (snd (setMoleFractions mw kd c2 (getMoleFractions c))) /\
  same (snd (setMassFractions_NoNorm mw kd c2 (getMassFractions c))) /\
  same (snd (setMoleFractions_NoNorm mw kd c2 (getMoleFractions c))).
Proof.
  intros mw kd ops c2 Hmw Hne Ha c same.
  assert (exists n, good mw n /\ all_nonneg n /\ comp_of mw n c) as (n&G&Nn&C).
  { assert (forall o, admissible_nonneg mw o -> forall c,
      (exists n, good mw n /\ all_nonneg n /\ comp_of mw n c) ->
      exists n, good mw n /\ all_nonneg n /\ comp_of mw n (snd (step mw kd c o))) as St.
    { intros o Ho c0 (n&G&Nn&C).
      destruct o; cbn [step admissible_nonneg] in *.
      - exists n. split; auto. split; auto. eapply same_comp_of; [apply setT_same|auto].
      - exists n. split; auto. split; auto. eapply same_comp_of; [apply setD_same|auto].
      - exists n. split; auto. split; auto. eapply same_comp_of; [apply setP_same|auto].
      - exists n. split; auto. split; auto. eapply same_comp_of; [|exact C]. unfold setState_TD. apply andthen_same; [apply setT_same|].
        intros c' S. eapply same_trans; [exact S|apply setD_same].
      - destruct Ho as (xs&->&HL&Hp). exists (clip xs). split; [now apply good_clip|]. split; [apply clip_nonneg|].
        apply setX_comp; auto. now apply good_clip.
      - destruct Ho as (xs&->&HL&Hn&Hs). assert (good mw xs) as G' by (apply good_nn; auto; now apply nn_rsum1).
        exists xs. split; auto. split; auto. apply setXn_comp; auto.
      - destruct Ho as (xs&->&HL&Hp).
        assert (good mw (moles_of mw (clip xs))) as G'.
        { apply good_moles_nn; auto; [now rewrite clip_length|apply clip_nonneg|now apply clip_some_pos]. }
        exists (moles_of mw (clip xs)). split; auto. split; [apply moles_nn; auto; apply clip_nonneg|]. apply setY_comp; auto.
        + pose proof (rsum_pos _ (clip_nonneg xs) (clip_some_pos _ Hp)). lra.
        + apply G'.
      - destruct Ho as (xs&->&HL&Hn&Hs). assert (good mw (moles_of mw xs)) as G' by (apply good_moles_nn; auto; now apply nn_rsum1).
        exists (moles_of mw xs). split; auto. split; [now apply moles_nn|]. apply setYn_comp; auto. apply G'.
      - destruct Ho as (xs&->&HL&Hp). destruct (is_compressible kd) eqn:K.
        + assert (kd = Compressible) as K' by (destruct kd; auto; discriminate).
          exists (clip xs). split; [now apply good_clip|]. split; [apply clip_nonneg|]. apply setC_comp; auto.
          * apply (good_clip mw Hmw); auto.
          * apply wsum_pos; auto; [now rewrite clip_length|apply clip_nonneg|now apply clip_some_pos].
        + unfold setConcentrations. rewrite K. exists n; auto.
      - destruct Ho as (xs&->&HL&Hn&Hp). destruct (is_compressible kd) eqn:K.
        + assert (kd = Compressible) as K' by (destruct kd; auto; discriminate).
          assert (good mw xs) as G' by (apply good_nn; auto).
          exists xs. split; auto. split; auto. apply setCn_comp; auto; [apply G'|now apply wsum_pos].
        + unfold setConcentrationsNoNorm. rewrite K. exists n; auto.
      - destruct Ho as (xs&->&HL&Hn&Hp). assert (good mw xs) as G' by (apply good_nn; auto).
        exists xs. split; auto. split; auto. apply setN_comp; auto.
      - destruct Ho as (L2&ys&E&HL&Hn&Hs).
        assert (good mw (moles_of mw ys)) as G' by (apply good_moles_nn; auto; now apply nn_rsum1).
        unfold restoreState. destruct (length s <? stateSize mw)%nat; [exists n; auto|].
        rewrite E, firstn_all2 by (rewrite map_length; lia).
        assert (forall c', same_comp c0 c' -> exists n, good mw n /\ all_nonneg n /\ comp_of mw n c') as K0.
        { intros c' S. exists n. split; auto. split; auto. eapply same_comp_of; eauto. }
        unfold andthen at 1. pose proof (setT_same c0 (nth 0 s NaN)) as S1.
        destruct (fst (setTemperature c0 (nth 0 s NaN))); auto.
        assert (same_comp c0 (snd (if is_compressible kd then setDensity kd (snd (setTemperature c0 (nth 0 s NaN))) (nth 1 s NaN)
          else setPressure kd (snd (setTemperature c0 (nth 0 s NaN))) (nth 1 s NaN)))) as S2.
        { eapply same_trans; [exact S1|]. destruct (is_compressible kd); [apply setD_same|apply setP_same]. }
        unfold andthen at 1.
        match goal with |- context [fst ?r] => destruct (fst r) end; auto.
        unfold andthen.
        match goal with |- context [setMassFractions_NoNorm mw kd ?c2 _] =>
          pose proof (setYn_comp mw kd Hmw c2 ys HL Hs (proj1 (proj2 G'))) as C' end.
        match goal with |- context [fst ?r] => destruct (fst r) end;
          (exists (moles_of mw ys); split; [auto|]; split; [now apply moles_nn|]); auto.
        eapply same_comp_of; [apply changed_same|exact C']. }
    assert (exists n, good mw n /\ all_nonneg n /\ comp_of mw n (init_state mw kd)) as I.
    { destruct mw as [|m ms] eqn:E; [congruence|]. rewrite <- E in *.
      destruct (init_n mw kd Hmw m ms E) as (A&B&D). eexists. split; [exact A|]. split; [exact D|exact B]. }
    unfold c. clear c same. revert I. generalize (init_state mw kd).
    induction Ha as [|o ops Ho Ha IH]; intros c0 I; simpl; auto. }
  assert (some_pos n) as Pn by (apply some_pos_nonzero; auto; apply G).
  assert (forall c', comp_of mw n c' -> same c') as K.
  { intros c' (A&B&D). destruct C as (A'&B'&D'). unfold same, getMoleFractions, getMassFractions, meanMolecularWeight.
    rewrite A, B, D, A', B', D'. auto. }
  pose proof (rsum_pos n Nn Pn) as Pr. pose proof (wsum_pos n mw (proj1 G) Nn Pn Hmw) as Pw.
  destruct G as (HL&Hn&Hw).
  assert (all_nonneg (X_of n)) as NX.
  { unfold X_of. apply Forall_map. eapply Forall_impl; [|exact Nn]. intros a Ha0. simpl in *. unfold Rdiv.
    apply Rmult_le_pos; auto. left. now apply Rinv_0_lt_compat. }
  assert (all_nonneg (Y_of mw n)) as NY.
  { unfold Y_of. apply Forall_map2. intros a b Ha0 Hb. unfold all_nonneg in Nn. rewrite Forall_forall in Nn. specialize (Nn a Ha0).
    unfold all_pos in Hmw. rewrite Forall_forall in Hmw. specialize (Hmw b Hb). unfold Rdiv.
    apply Rmult_le_pos; [apply Rmult_le_pos; lra|]. left. now apply Rinv_0_lt_compat. }
  pose proof (mixture_of mw Hmw n (conj HL (conj Hn Hw))) as SM.
  (* the state with mole fractions X = n / sum n is the same state *)
  assert (forall c', comp_of mw (X_of n) c' -> comp_of mw n c') as KX.
  { intros c' (A&B&D).
    assert (wsum (X_of n) mw = wsum n mw / rsum n) as W by (symmetry; apply (sm_mean _ _ _ _ SM)).
    rewrite W in A, B, D. rewrite (sm_sumX _ _ _ _ SM) in D. unfold X_of in A, B. repeat split.
    - rewrite A. rewrite map2_map_l. f_equal. apply map2_ext. intros. field. lra.
    - rewrite B. rewrite !map_map. apply map_ext. intros. f_equal. field. lra.
    - rewrite D. f_equal. field. lra. }
  assert (good mw (X_of n)) as GX.
  { apply good_nn; auto; [apply (sm_lenX _ _ _ _ SM)|]. apply nn_rsum1; auto. apply (sm_sumX _ _ _ _ SM). }
  assert (mixture mw c) as M by (exists n; split; [split; auto|exact C]).
  assert (getMoleFractions c = map Fin (X_of n)) as EX by (apply (comp_of_getX mw n c (conj HL (conj Hn Hw)) C)).
  assert (getMassFractions c = map Fin (Y_of mw n)) as EY by apply C.
  assert (same (snd (setMassFractions_NoNorm mw kd c2 (getMassFractions c)))) as K3.
  { apply K. eapply same_comp_of; [apply setYn_readback; auto|exact C]. }
  split; [|split; [|split]].
  - assert (setMassFractions mw kd c2 (getMassFractions c) = setMassFractions_NoNorm mw kd c2 (getMassFractions c)) as E.
    { rewrite EY. unfold setMassFractions, setMassFractions_NoNorm.
      rewrite clip_fin, clip_nn by auto. rewrite fsum_fin, (sm_sumY _ _ _ _ SM), fdiv_fin by lra.
      rewrite scale_fin. replace (map (fun v => v * (1 / 1)) (Y_of mw n)) with (Y_of mw n); auto.
      rewrite <- map_id at 1. apply map_ext. intros; field. }
    rewrite E. exact K3.
  - apply K. apply KX. rewrite EX. rewrite <- (clip_nn (X_of n)) at 1 by auto.
    apply setX_comp; [apply (sm_lenX _ _ _ _ SM)|]. now rewrite clip_nn.
  - exact K3.
  - apply K. apply KX. rewrite EX. apply setXn_comp; auto. apply (sm_sumX _ _ _ _ SM).
Qed.
Print Assumptions C06_set_what_was_read.

(** moleFractionsToMassFractions and massFractionsToMoleFractions undo each other on normalised vectors
    (negative entries allowed), and each gives the other member of a consistent pair. *)
Theorem C06_conversions_inverse : forall mw x,
  all_pos mw -> length x = length mw -> rsum x = 1 ->
  (wsum x mw <> 0 ->
   exists y, moleFractionsToMassFractions mw (map Fin x) = Some (map Fin y) /\ rsum y = 1 /\
     massFractionsToMoleFractions mw (map Fin y) = Some (map Fin x) /\
     same_mixture mw x y (wsum x mw)) /\
  (rsum (map2 Rdiv x mw) <> 0 ->
   exists y, massFractionsToMoleFractions mw (map Fin x) = Some (map Fin y) /\ rsum y = 1 /\
     moleFractionsToMassFractions mw (map Fin y) = Some (map Fin x) /\
     same_mixture mw y x (wsum y mw)).
Proof.
  intros mw x Hmw HL Hs.
  assert (forall n, good mw n -> rsum n = 1 -> moleFractionsToMassFractions mw (map Fin n) = Some (map Fin (Y_of mw n))) as F1.
  { intros n (HLn&Hn&Hw) _. unfold moleFractionsToMassFractions. rewrite mulmw_fin, fsum_fin. fold (wsum n mw).
    unfold feqb. rewrite (proj2 (reqb_false _ _) Hw). rewrite fdiv_fin by auto.
    rewrite map2_map_l. unfold Y_of. rewrite map_map2. f_equal. apply map2_ext. intros. simpl. f_equal. field. auto. }
  assert (forall n, good mw n -> rsum n = 1 -> massFractionsToMoleFractions mw (map Fin (Y_of mw n)) = Some (map Fin n)) as F2.
  { intros n (HLn&Hn&Hw) H1. unfold massFractionsToMoleFractions.
    assert (map2 (fun v m => fdiv v (Fin m)) (map Fin (Y_of mw n)) mw = map Fin (map (fun a => a / wsum n mw) n)) as E.
    { unfold Y_of. rewrite map2_map_l, map2_map2_l, map_map.
      rewrite <- (map2_fst (map (fun a => Fin (a / wsum n mw)) n) mw) by (rewrite map_length; auto).
      rewrite map2_map_l. apply map2_ext. intros a b _ Hb. pose proof (mw_nz mw Hmw b Hb).
      rewrite fdiv_fin by auto. f_equal. field. auto. }
    rewrite E, fsum_fin, rsum_map_div, H1. unfold feqb.
    rewrite (proj2 (reqb_false _ _)). 2:{ unfold Rdiv. rewrite Rmult_1_l. now apply Rinv_neq_0_compat. }
    f_equal. unfold Y_of. rewrite map2_map_l, map2_map2_l.
    rewrite <- (map2_fst (map Fin n) mw) by (rewrite map_length; auto).
    rewrite map2_map_l. apply map2_ext. intros a b _ Hb. pose proof (mw_nz mw Hmw b Hb). cbn [fmul].
    rewrite fdiv_fin. { f_equal. field. auto. }
    apply Rmult_integral_contrapositive_currified; auto. unfold Rdiv. rewrite Rmult_1_l. now apply Rinv_neq_0_compat. }
  assert (forall n, good mw n -> rsum n = 1 -> same_mixture mw n (Y_of mw n) (wsum n mw)) as F3.
  { intros n G H1. pose proof (mixture_of mw Hmw n G) as M.
    assert (X_of n = n) as E1. { unfold X_of. rewrite H1. rewrite <- map_id. apply map_ext. intros. field. }
    assert (mb_of mw n = wsum n mw) as E2. { unfold mb_of. rewrite H1. field. }
    now rewrite E1, E2 in M. }
  split.
  - intros Hw. assert (good mw x) as G by (repeat split; auto; lra).
    exists (Y_of mw x). split; [auto|]. split; [apply (sm_sumY _ _ _ _ (F3 x G Hs))|]. split; auto.
  - intros Hm. set (s := rsum (map2 Rdiv x mw)) in *. set (n := map (fun a => a / s) (moles_of mw x)).
    assert (rsum n = 1) as S1. { unfold n. rewrite rsum_map_div. unfold moles_of. fold s. field. auto. }
    assert (wsum n mw = 1 / s) as W.
    { unfold n. rewrite <- (moles_scale mw). rewrite wsum_moles by (auto; rewrite map_length; auto).
      rewrite rsum_map_div, Hs. auto. }
    assert (good mw n) as G.
    { repeat split.
      - unfold n. rewrite map_length. now apply map2_length.
      - lra.
      - rewrite W. unfold Rdiv. rewrite Rmult_1_l. now apply Rinv_neq_0_compat. }
    assert (Y_of mw n = x) as EY.
    { unfold Y_of. rewrite W. unfold n, moles_of. rewrite map2_map_l, map2_map2_l.
      transitivity (map2 (fun (a _ : R) => a) x mw); [|now apply map2_fst].
      apply map2_ext. intros a b _ Hb. pose proof (mw_nz mw Hmw b Hb). field. auto. }
    exists n. pose proof (F1 n G S1) as E1. pose proof (F2 n G S1) as E2. pose proof (F3 n G S1) as E3.
    rewrite EY in E1, E2, E3. auto.
Qed.
Print Assumptions C06_conversions_inverse.

(** An empty composition is refused by both conversions. *)
Theorem C06_zero_rejected : forall mw,
  moleFractionsToMassFractions mw (map (fun _ => Fin 0) mw) = None /\
  (all_pos mw -> massFractionsToMoleFractions mw (map (fun _ => Fin 0) mw) = None).
Proof.
  intros mw. split.
  - unfold moleFractionsToMassFractions.
    replace (map (fun _ => Fin 0) mw) with (map Fin (map (fun _ : R => 0) mw)) by (now rewrite map_map).
    rewrite mulmw_fin, fsum_fin.
    assert (rsum (map2 Rmult (map (fun _ : R => 0) mw) mw) = 0) as E.
    { induction mw; simpl; auto. rewrite IHmw. lra. }
    rewrite E. simpl. now rewrite (proj2 (reqb_true 0 0)).
  - intros Hmw. unfold massFractionsToMoleFractions.
    assert (map2 (fun v m => fdiv v (Fin m)) (map (fun _ => Fin 0) mw) mw = map Fin (map (fun _ : R => 0) mw)) as E.
    { induction Hmw; simpl; auto. rewrite IHHmw. rewrite (proj2 (reqb_false x 0)) by lra. f_equal. f_equal. field. lra. }
    rewrite E, fsum_fin.
    assert (forall l : list R, rsum (map (fun _ : R => 0) l) = 0) as Z.
    { induction l as [|a l IH]; simpl; auto. rewrite IH. lra. }
    rewrite Z. simpl. now rewrite (proj2 (reqb_true 0 0)).
Qed.
Print Assumptions C06_zero_rejected.

(** * C07: save and restore *)

(** A compressible phase restored from what was saved reports exactly the saved temperature, density,
    composition and concentrations, whatever happened in between, including calls that threw or that left
    it with a meaningless composition. *)
Theorem C07_restore_saved : forall mw ops ops',
  all_pos mw -> mw <> [] -> Forall (admissible mw) ops ->
  let c := run mw Compressible (init_state mw Compressible) ops in
  let saved := saveState Compressible c in
  let later := run mw Compressible c ops' in
  let r := restoreState mw Compressible later saved in
  length saved = stateSize mw /\ fst r = Ok tt /\ same_obs mw c (snd r).
Proof.
  intros mw ops ops' Hmw Hne Ha c saved later r.
  pose proof (run_mixture mw Compressible Hmw ops _ Ha (init_mixture mw Compressible Hmw Hne)) as M. fold c in M.
  assert (TDpos c) as P.
  { unfold c. apply run_TD. destruct mw as [|m ms]; [congruence|]. split; simpl; lra. }
  split; [|now apply restore_compressible].
  unfold saved, saveState, stateSize. simpl. unfold getMassFractions. rewrite (mixture_len mw c M). lia.
Qed.
Print Assumptions C07_restore_saved.

(** The same for an incompressible phase, where the pressure takes the place of the density, provided
    amounts stay non-negative. *)
Theorem C07_restore_saved_incompressible : forall mw v ops ops',
  all_pos mw -> all_pos v -> length v = length mw -> mw <> [] ->
  Forall (admissible_nonneg mw) ops -> Forall (admissible_nonneg mw) ops' ->
  let c := run mw (SolidSoln v) (init_state mw (SolidSoln v)) ops in
  let saved := saveState (SolidSoln v) c in
  let later := run mw (SolidSoln v) c ops' in
  let r := restoreState mw (SolidSoln v) later saved in
  fst r = Ok tt /\ same_obs mw c (snd r) /\ pressure (snd r) = pressure c.
Proof.
  intros mw v ops ops' Hmw Hv HLv Hne Ha Ha' c saved later r.
  pose proof (solid_run mw v Hmw Hv HLv ops _ Ha (solid_init mw v Hmw HLv Hne)) as I. fold c in I.
  assert (TDpos c) as P.
  { unfold c. apply run_TD. destruct mw as [|m ms]; [congruence|]. destruct v as [|v0 vs]; [discriminate|].
    inversion Hmw; inversion Hv; subst. split; simpl; [lra|]. apply Rdiv_lt_0_compat; auto. }
  apply restore_solid; auto. now apply solid_run.
Qed.
Print Assumptions C07_restore_saved_incompressible.

(** A state vector that is too short is refused and the phase is untouched. *)
Theorem C07_short_vector_rejected : forall mw kd c s,
  (length s < stateSize mw)%nat -> restoreState mw kd c s = (Err, c).
Proof. intros mw kd c s H. unfold restoreState. now rewrite (proj2 (Nat.ltb_lt _ _) H). Qed.
Print Assumptions C07_short_vector_rejected.

(** What does not hold.  (1) A vector of sufficient length with a bad density is refused, but the
    temperature has already been changed. *)
Theorem C07_rejected_restore_changes_nothing_refuted :
  exists mw c s, all_pos mw /\ length s = stateSize mw /\
    fst (restoreState mw Compressible c s) = Err /\
    temperature c = Fin (1/1000) /\ temperature (snd (restoreState mw Compressible c s)) = Fin 300.
Proof.
  exists [2], (init_state [2] Compressible), [Fin 300; Fin (-1); Fin 1].
  split; [apply Forall_cons; [lra|apply Forall_nil]|]. split; [reflexivity|].
  unfold restoreState, setTemperature, setDensity, stateSize. simpl.
  rewrite (proj2 (rltb_true 0 300)) by lra. cbn [andthen fst snd]. simpl.
  rewrite (proj2 (rltb_false 0 (-1))) by lra. simpl. auto.
Qed.
Print Assumptions C07_rejected_restore_changes_nothing_refuted.

(** (2) After setMoleFractions_NoNorm with fractions that do not sum to one (the method accepts any
    vector), saving and restoring changes the mean molecular weight and the mole fractions. *)
Theorem C07_unnormalised_state_refuted :
  exists mw c, all_pos mw /\
    let c1 := snd (setMoleFractions_NoNorm mw Compressible c [Fin 1; Fin 1]) in
    let r := restoreState mw Compressible c1 (saveState Compressible c1) in
    fst r = Ok tt /\
    getMoleFractions c1 = [Fin 1; Fin 1] /\ getMoleFractions (snd r) = [Fin (1/2); Fin (1/2)].
Proof.
  exists [2; 32], (init_state [2; 32] Compressible). split; [repeat (apply Forall_cons; [lra|]); apply Forall_nil|].
  assert (forall a b, a <> 0 -> fdiv (Fin b) (Fin a) = Fin (b / a)) as Hd by (intros; now apply fdiv_fin).
  unfold setMoleFractions_NoNorm, compositionChanged, restoreState, setTemperature, setDensity, stateSize, saveState,
    temperature, density, getMassFractions, init_state, setMassFractions_NoNorm.
  cbv [map2 fsum fold_left fmul fadd scale map rmw length andthen fst snd skipn firstn nth is_compressible negb bump with_T with_D with_comp s_T s_D s_P s_Y s_YM s_mmw s_num getMoleFractions fltb Nat.add Nat.ltb Nat.leb compositionChanged].
  rewrite !(proj2 (rltb_true 0 (1/1000))) by lra.
  assert (0 + 1 * 2 + 1 * 32 = 34) as E by lra. rewrite E. rewrite !(Hd 34 1) by lra.
  assert (0 + 1 * (1 / 34) * 2 * (1 / 2) + 1 * (1 / 34) * 32 * (1 / 32) = 2 / 34) as E2 by field.
  rewrite ?E2. rewrite ?(Hd (2/34)) by lra.
  assert (forall a b c d, a = c -> b = d -> [Fin a; Fin b] = [Fin c; Fin d]) as Hl by (intros; subst; auto).
  split; [reflexivity|]. split; apply Hl; field.
Qed.
Print Assumptions C07_unnormalised_state_refuted.

(** * C42: temperatures and densities *)
Theorem C42_set_temperature : forall c t,
  (positive t -> setTemperature c t = (Ok tt, with_T c t)) /\
  (~ positive t -> setTemperature c t = (Err, c)).
Proof.
  intros c t. unfold setTemperature. split; intros H.
  - now rewrite (proj2 (positive_iff t) H).
  - now rewrite (proj2 (positive_false t) H).
Qed.
Print Assumptions C42_set_temperature.

Theorem C42_set_density : forall kd c d,
  (kd = Compressible /\ positive d -> setDensity kd c d = (Ok tt, with_D c d)) /\
  (kd <> Compressible \/ ~ positive d -> setDensity kd c d = (Err, c)) /\
  (positive d -> assignDensity c d = (Ok tt, with_D c d)) /\
  (~ positive d -> assignDensity c d = (Err, c)).
Proof.
  intros kd c d. unfold setDensity, assignDensity. repeat split.
  - intros (->&H). simpl negb. now rewrite (proj2 (positive_iff d) H).
  - intros [H|H].
    + destruct kd; [congruence|reflexivity].
    + rewrite (proj2 (positive_false d) H). destruct (negb _); auto.
  - intros H. now rewrite (proj2 (positive_iff d) H).
  - intros H. now rewrite (proj2 (positive_false d) H).
Qed.
Print Assumptions C42_set_density.

(** Temperature and density are positive in every reachable state, for every history whatsoever. *)
Theorem C42_always_positive : forall mw ops,
  mw <> [] ->
  let c := run mw Compressible (init_state mw Compressible) ops in
  positive (temperature c) /\ positive (density c).
Proof.
  intros mw ops Hne c. apply run_TD. destruct mw as [|m ms]; [congruence|]. split; simpl; lra.
Qed.
Print Assumptions C42_always_positive.

(** What does not hold: a setter that throws because of the density may leave the phase changed.  After
    setConcentrations throws, the mass fractions have been overwritten with the (zero) concentrations and
    the mean molecular weight is NaN, while the mole numbers are the old ones. *)
Theorem C42_failed_set_concentrations_refuted :
  exists mw c x, all_pos mw /\ length x = length mw /\
    (exists X Y mb, reports mw c X Y mb) /\
    let r := setConcentrations mw Compressible c (map Fin x) in
    fst r = Err /\ getMassFractions c = [Fin 1; Fin 0] /\ getMassFractions (snd r) = [Fin 0; Fin 0] /\
    meanMolecularWeight (snd r) = NaN.
Proof.
  exists [2; 32], (init_state [2; 32] Compressible), [0; -1].
  assert (all_pos [2; 32]) as Hmw by (repeat (apply Forall_cons; [lra|]); apply Forall_nil).
  split; [exact Hmw|]. split; [reflexivity|]. split.
  { apply (C05_always_consistent [2; 32] Compressible []); auto; discriminate. }
  unfold setConcentrations, setDensity. cbn [is_compressible negb]. rewrite clip_fin, mulmw_fin, !fsum_fin.
  assert (clip [0; -1] = [0; 0]) as -> by (unfold clip; simpl; rewrite Rmax_left by lra; rewrite Rmax_right by lra; auto).
  cbn [map2 rsum]. cbn [fltb]. rewrite (proj2 (rltb_false 0 (0 * 2 + (0 * 32 + 0)))) by lra.
  cbn [andthen fst snd]. split; [reflexivity|]. split; [reflexivity|]. split; [reflexivity|].
  unfold meanMolecularWeight, fdiv. cbn [s_mmw with_comp]. rewrite (proj2 (reqb_true (0 + (0 + 0)) 0)) by lra.
  unfold sinf. rewrite !(proj2 (rltb_false _ _)) by lra. reflexivity.
Qed.
Print Assumptions C42_failed_set_concentrations_refuted.

(** Likewise setState_TD: a bad density is rejected after the temperature has been changed. *)
Theorem C42_failed_setState_TD_refuted : exists c t d,
  fst (setState_TD Compressible c t d) = Err /\ temperature (snd (setState_TD Compressible c t d)) <> temperature c.
Proof.
  exists (init_state [2] Compressible), (Fin 300), NaN.
  unfold setState_TD, setTemperature, setDensity. simpl. rewrite (proj2 (rltb_true 0 300)) by lra. simpl.
  split; auto. intros H. injection H. lra.
Qed.
Print Assumptions C42_failed_setState_TD_refuted.

(** * Concrete cases meeting the hypotheses *)
Example comp_example_mw : all_pos [2; 32; 18] /\ some_pos [-1; 3; 0] /\ length [-1; 3; 0] = length [2; 32; 18].
Proof.
  split; [repeat (apply Forall_cons; [lra|]); apply Forall_nil|]. split; [|reflexivity].
  right. left. lra.
Qed.
Example comp_example_history :
  Forall (admissible_nonneg [2; 32])
    [SetT (Fin 300); SetT NaN; SetX [Fin 1; Fin (-2)]; SetYNoNorm [Fin (1/4); Fin (3/4)]; SetD (Fin (-1));
     SetC [Fin 0; Fin 5]; SetN [Fin 1; Fin 2]; SetTD (Fin 500) PInf] /\
  Forall (admissible [2; 32]) [SetXNoNorm [Fin 2; Fin (-1)]; SetCNoNorm [Fin (-1); Fin 5];
     Restore [Fin 300; Fin 1; Fin (1/2); Fin (1/2)]].
Proof.
  split; repeat (apply Forall_cons; [simpl; auto|]); try apply Forall_nil.
  - exists [1; -2]. repeat split. left; lra.
  - exists [1/4; 3/4]. repeat split; [repeat (apply Forall_cons; [lra|]); apply Forall_nil|simpl; lra].
  - exists [0; 5]. repeat split. right; left; lra.
  - exists [1; 2]. repeat split; [repeat (apply Forall_cons; [lra|]); apply Forall_nil|left; lra].
  - exists [2; -1]. repeat split; unfold wsum; simpl; lra.
  - exists [-1; 5]. repeat split; unfold wsum; simpl; lra.
  - split; [lia|]. exists [1/2; 1/2]. repeat split; simpl; lra.
Qed.
