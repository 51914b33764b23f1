(* Delegates and factories behave as documented. *)
From Coq Require Import String List Bool Lia.
From Verif Require Import Base.Outcome Extend.Model Extend.Spec.
Import ListNotations.
Local Open Scope string_scope.
Local Open Scope list_scope.

Section Maps.
  Context {K X : Type} (eqb : K -> K -> bool).
  Hypothesis eqb_spec : forall a b, reflect (a = b) (eqb a b).
  Lemma mget_mput k k' (x : X) m :
    mget eqb k' (mput eqb k x m) = if eqb k' k then Some x else mget eqb k' m.
  Proof.
    induction m as [|[k1 x1] m IH]; cbn [mput mget]; [reflexivity|].
    destruct (eqb_spec k k1) as [->|Hne]; cbn [mget].
    - destruct (eqb_spec k' k1); reflexivity.
    - rewrite IH. destruct (eqb_spec k' k1) as [->|]; [|reflexivity].
      destruct (eqb_spec k1 k) as [E|]; [congruence|reflexivity].
  Qed.
End Maps.

Lemma vkey_spec a b : reflect (a = b) (vkey_eqb a b).
Proof.
  destruct a as [s n], b as [s' n']. unfold vkey_eqb. cbn [fst snd].
  destruct (String.eqb_spec n n') as [->|Hn].
  - rewrite andb_true_r. destruct s, s'; cbn; constructor; congruence.
  - rewrite andb_false_r. constructor. congruence.
Qed.
Lemma rkey_spec a b : reflect (a = b) (rkey_eqb a b).
Proof.
  destruct a as [s n], b as [s' n']. unfold rkey_eqb. cbn [fst snd].
  destruct (String.eqb_spec n n') as [->|Hn].
  - rewrite andb_true_r. destruct s, s'; cbn; constructor; congruence.
  - rewrite andb_false_r. constructor. congruence.
Qed.
Lemma vget {X} k k' (x : X) m :
  mget vkey_eqb k' (mput vkey_eqb k x m) = if vkey_eqb k' k then Some x else mget vkey_eqb k' m.
Proof. apply mget_mput. apply vkey_spec. Qed.
Lemma rget {X} k k' (x : X) m :
  mget rkey_eqb k' (mput rkey_eqb k x m) = if rkey_eqb k' k then Some x else mget rkey_eqb k' m.
Proof. apply mget_mput. apply rkey_spec. Qed.
Lemma sget {X} k k' (x : X) m :
  mget String.eqb k' (mput String.eqb k x m) = if String.eqb k' k then Some x else mget String.eqb k' m.
Proof. apply mget_mput. apply String.eqb_spec. Qed.

Section Delegator.
  Context {W A V : Type} (vadd : V -> V -> V).
  Notation comp X := (W -> outcome X * W).
  Notation vfun := (A -> comp unit).
  Notation rfun := (A -> comp V).
  Notation ofun := (A -> comp (option V)).
  Notation dg := (deleg W A V).
  Notation step := (dstep vadd).

  Lemma run_app (l1 l2 : list vfun) a w :
    run_all (l1 ++ l2) a w = match run_all l1 a w with (Ok _, w') => run_all l2 a w' | r => r end.
  Proof.
    revert w; induction l1 as [|f l1 IH]; intros w; [reflexivity|]. cbn [app run_all].
    destruct (f a w) as [[u| | |] w']; try reflexivity. apply IH.
  Qed.

  (* The stored function runs the list l. *)
  Definition runs (g : vfun) (l : list vfun) : Prop := forall a w, g a w = run_all l a w.

  Lemma run_single (f : vfun) : runs f [f].
  Proof.
    intros a w. cbn [run_all]. destruct (f a w) as [[u| | |] w']; try reflexivity. destruct u. reflexivity.
  Qed.

  Lemma make_v f w base g l :
    runs base l -> makeDelegate_v f w base = Ok g -> runs g (enter l f w).
  Proof.
    intros Hb. unfold makeDelegate_v, enter.
    destruct (String.eqb w "before").
    { intros E. assert (g = fun a => bind (f a) (fun _ => base a)) as -> by congruence.
      intros a w'. unfold bind. cbn [run_all]. destruct (f a w') as [[u| | |] w'']; try reflexivity. apply Hb. }
    destruct (String.eqb w "after").
    { intros E. assert (g = fun a => bind (base a) (fun _ => f a)) as -> by congruence.
      intros a w'. unfold bind. rewrite run_app. rewrite (Hb a w').
      destruct (run_all l a w') as [[u| | |] w'']; try reflexivity. apply run_single. }
    destruct (String.eqb w "replace"); [|discriminate].
    intros E. injection E as <-. apply run_single.
  Qed.
  Lemma make_v_err (f : vfun) w base : (exists g, makeDelegate_v f w base = Ok g) \/
    (makeDelegate_v f w base = Err /\ forall l, enter l f w = l).
  Proof.
    unfold makeDelegate_v, enter.
    destruct (String.eqb w "before"); [left; eexists; reflexivity|].
    destruct (String.eqb w "after"); [left; eexists; reflexivity|].
    destruct (String.eqb w "replace"); [left; eexists; reflexivity|].
    right. split; reflexivity.
  Qed.

  Lemma step_v (d : dg) o k :
    mget vkey_eqb k (d_v (step d o)) =
    match o with
    | SetV s n f w =>
        if vkey_eqb (s, n) k then
          match mget vkey_eqb k (d_v d) with
          | Some base => match makeDelegate_v f w base with Ok g => Some g | _ => Some base end
          | None => None
          end
        else mget vkey_eqb k (d_v d)
    | SetR _ _ _ _ => mget vkey_eqb k (d_v d)
    end.
  Proof.
    destruct o as [s n f w|s n f w]; cbn [dstep].
    - unfold setDelegate_v. destruct (vkey_spec (s, n) k) as [<-|Hne].
      + destruct (mget vkey_eqb (s, n) (d_v d)) as [base|] eqn:E; [|cbn; exact E].
        destruct (make_v_err f w base) as [[g G]|[G _]]; rewrite G; cbn [snd d_v].
        * rewrite vget. destruct (vkey_spec (s, n) (s, n)); [reflexivity|congruence].
        * exact E.
      + destruct (mget vkey_eqb (s, n) (d_v d)) as [base|] eqn:E; [|reflexivity].
        destruct (makeDelegate_v f w base); cbn [snd d_v]; try reflexivity.
        rewrite vget. destruct (vkey_spec k (s, n)); [congruence|reflexivity].
    - unfold setDelegate_r. destruct (mget rkey_eqb (s, n) (d_r d)); [|reflexivity].
      destruct (mget rkey_eqb (s, n) (d_base d)); destruct (makeDelegate_r _ _ _ _); reflexivity.
  Qed.

  Lemma runs_ops ops : forall (d : dg) k g l,
    mget vkey_eqb k (d_v d) = Some g -> runs g l ->
    exists g', mget vkey_eqb k (d_v (fold_left step ops d)) = Some g' /\ runs g' (order k ops l).
  Proof.
    induction ops as [|o ops IH]; intros d k g l E H; [exists g; split; assumption|].
    cbn [fold_left order].
    pose proof (step_v d o k) as S.
    destruct o as [s n f w|s n f w].
    - destruct (vkey_eqb (s, n) k).
      + rewrite E in S. destruct (make_v_err f w g) as [[g' G]|[G Hl]]; rewrite G in S.
        * apply (IH _ k g'); [exact S|]. apply (make_v f w g); assumption.
        * rewrite Hl. apply (IH _ k g); assumption.
      + rewrite E in S. apply (IH _ k g); assumption.
    - rewrite E in S. apply (IH _ k g); assumption.
  Qed.

  (* ---- with result ---- *)

  (* The stored function behaves as the delegate in force. *)
  Definition acts (g : rfun) (base : option rfun) (cur : option (string * ofun)) : Prop :=
    match cur with
    | None => forall b, base = Some b -> g = b
    | Some (w, f) => makeDelegate_r vadd f w base = Ok g
    end.

  Lemma make_r_valid (f : ofun) w b :
    (exists g, makeDelegate_r vadd f w b = Ok g /\
       (String.eqb w "before" || String.eqb w "after" || String.eqb w "replace")%bool = true) \/
    (makeDelegate_r vadd f w b = Err /\
       (String.eqb w "before" || String.eqb w "after" || String.eqb w "replace")%bool = false).
  Proof.
    unfold makeDelegate_r.
    destruct (String.eqb w "before"); [left; eexists; split; reflexivity|].
    destruct (String.eqb w "after"); [left; eexists; split; reflexivity|].
    destruct (String.eqb w "replace"); [left; eexists; split; reflexivity|].
    right. split; reflexivity.
  Qed.

  (* The stored base of a method: None stands for an empty or a missing one. *)
  Definition base_of (d : dg) k : option rfun :=
    match mget rkey_eqb k (d_base d) with Some b => b | None => None end.

  Lemma step_r (d : dg) o k :
    base_of (step d o) k = base_of d k /\
    mget rkey_eqb k (d_r (step d o)) =
    match o with
    | SetR s n f w =>
        if rkey_eqb (s, n) k then
          match mget rkey_eqb k (d_r d) with
          | Some g => match makeDelegate_r vadd f w (base_of d k) with Ok g' => Some g' | _ => Some g end
          | None => None
          end
        else mget rkey_eqb k (d_r d)
    | SetV _ _ _ _ => mget rkey_eqb k (d_r d)
    end.
  Proof.
    destruct o as [s n f w|s n f w]; cbn [dstep].
    - unfold setDelegate_v. destruct (mget vkey_eqb (s, n) (d_v d)); [|split; reflexivity].
      destruct (makeDelegate_v _ _ _); split; reflexivity.
    - unfold setDelegate_r.
      destruct (mget rkey_eqb (s, n) (d_r d)) as [g|] eqn:E.
      2:{ split; [reflexivity|]. destruct (rkey_spec (s, n) k) as [<-|]; [|reflexivity].
          rewrite E. cbn. exact E. }
      assert (B : exists bases, (match mget rkey_eqb (s, n) (d_base d) with
          | Some b => (b, d_base d)
          | None => (None, mput rkey_eqb (s, n) None (d_base d))
          end) = (base_of d (s, n), bases) /\
          (forall k', match mget rkey_eqb k' bases with Some b => b | None => None end = base_of d k')).
      { unfold base_of. destruct (mget rkey_eqb (s, n) (d_base d)) as [b|] eqn:Eb.
        - exists (d_base d). split; reflexivity.
        - exists (mput rkey_eqb (s, n) None (d_base d)). split; [reflexivity|].
          intros k'. rewrite rget. destruct (rkey_spec k' (s, n)) as [->|]; [|reflexivity].
          rewrite Eb. reflexivity. }
      destruct B as (bases & -> & B). cbn iota.
      destruct (makeDelegate_r vadd f w (base_of d (s, n))) as [g'| | |] eqn:G; cbn [snd]; (split; [apply B|]);
        cbn [d_r].
      + rewrite rget. destruct (rkey_spec (s, n) k) as [<-|Hne].
        * destruct (rkey_spec (s, n) (s, n)); [|congruence]. rewrite E, G. reflexivity.
        * destruct (rkey_spec k (s, n)); [congruence|reflexivity].
      + destruct (rkey_spec (s, n) k) as [<-|Hne]; [rewrite E, G|]; reflexivity.
      + destruct (rkey_spec (s, n) k) as [<-|Hne]; [rewrite E, G|]; reflexivity.
      + destruct (rkey_spec (s, n) k) as [<-|Hne]; [rewrite E, G|]; reflexivity.
  Qed.

  Lemma acts_ops ops : forall (d : dg) k g cur,
    mget rkey_eqb k (d_r d) = Some g -> acts g (base_of d k) cur ->
    exists g', mget rkey_eqb k (d_r (fold_left step ops d)) = Some g' /\
      acts g' (base_of d k) (latest k ops cur).
  Proof.
    induction ops as [|o ops IH]; intros d k g cur E H; [exists g; split; assumption|].
    cbn [fold_left latest]. destruct (step_r d o k) as [Hb S]. rewrite <- Hb.
    destruct o as [s n f w|s n f w].
    - rewrite E in S. apply (IH _ k g); [exact S|rewrite Hb; exact H].
    - destruct (rkey_eqb (s, n) k); cbn [andb].
      + rewrite E in S. destruct (make_r_valid f w (base_of d k)) as [(g' & G & T)|[G T]]; rewrite G in S; rewrite T.
        * apply (IH _ k g'); [exact S|]. rewrite Hb. exact G.
        * apply (IH _ k g); [exact S|]. rewrite Hb. exact H.
      + rewrite E in S. apply (IH _ k g); [exact S|]. rewrite Hb. exact H.
  Qed.

  Lemma latest_when (ops : list (dop W A V)) k : forall cur w f,
    latest k ops cur = Some (w, f) -> (forall w' f', cur = Some (w', f') -> valid_when w') -> valid_when w.
  Proof.
    induction ops as [|o ops IH]; intros cur w f E H; cbn [latest] in E; [apply (H w f); exact E|].
    destruct o as [s n f' w'|s n f' w']; [apply (IH _ w f E); exact H|].
    refine (IH _ w f E _). intros w1 f1 E1. destruct (rkey_eqb (s, n) k); cbn [andb] in E1; [|apply (H w1 f1 E1)].
    destruct (String.eqb_spec w' "before"); cbn [orb] in E1; [injection E1 as <- <-; left; assumption|].
    destruct (String.eqb_spec w' "after"); cbn [orb] in E1; [injection E1 as <- <-; right; left; assumption|].
    destruct (String.eqb_spec w' "replace"); [injection E1 as <- <-; right; right; assumption|apply (H w1 f1 E1)].
  Qed.

  Lemma acts_result (g b : rfun) cur a w :
    (forall w' f', cur = Some (w', f') -> valid_when w') ->
    acts g (Some b) cur -> result_of vadd b a w cur (g a w).
  Proof.
    intros Hv H. destruct cur as [[when f]|]; cbn [acts] in H.
    2:{ rewrite (H b eq_refl). constructor. }
    destruct (Hv when f eq_refl) as [->|[->| ->]]; cbn in H.
    - assert (g = fun a => bind (f a) (fun r => match r with Some v => ret v | None => b a end)) as -> by congruence.
      unfold bind. destruct (f a w) as [[[v|]| | |] w'] eqn:E.
      + apply RO_before_value. exact E.
      + apply RO_before_novalue with (w' := w'). exact E.
      + apply RO_throws with (e := Err); [left; reflexivity|exact E|constructor].
      + apply RO_throws with (e := Exn); [left; reflexivity|exact E|constructor].
      + apply RO_throws with (e := UB); [left; reflexivity|exact E|constructor].
    - assert (g = fun a => bind (b a) (fun r1 =>
            bind (f a) (fun r => match r with Some r2 => ret (vadd r1 r2) | None => ret r1 end))) as -> by congruence.
      unfold bind. destruct (b a w) as [[v| | |] w1] eqn:Eb.
      + destruct (f a w1) as [[[v2|]| | |] w2] eqn:E.
        * apply RO_after_sum with (w1 := w1); assumption.
        * apply RO_after_base with (w1 := w1); assumption.
        * apply RO_after_throws with (v := v) (w1 := w1) (e := Err); [assumption|assumption|constructor].
        * apply RO_after_throws with (v := v) (w1 := w1) (e := Exn); [assumption|assumption|constructor].
        * apply RO_after_throws with (v := v) (w1 := w1) (e := UB); [assumption|assumption|constructor].
      + apply RO_base_throws with (e := Err); [exact Eb|constructor].
      + apply RO_base_throws with (e := Exn); [exact Eb|constructor].
      + apply RO_base_throws with (e := UB); [exact Eb|constructor].
    - assert (g = fun a => bind (f a) (fun r => match r with Some v => ret v | None => raise Err end)) as -> by congruence.
      unfold bind. destruct (f a w) as [[[v|]| | |] w'] eqn:E.
      + apply RO_replace. exact E.
      + apply RO_replace_novalue. exact E.
      + apply RO_throws with (e := Err); [right; reflexivity|exact E|constructor].
      + apply RO_throws with (e := Exn); [right; reflexivity|exact E|constructor].
      + apply RO_throws with (e := UB); [right; reflexivity|exact E|constructor].
  Qed.

  (* Which methods are delegatable does not change. *)
  Definition has_v (d : dg) k : bool := match mget vkey_eqb k (d_v d) with Some _ => true | None => false end.
  Definition has_r (d : dg) k : bool := match mget rkey_eqb k (d_r d) with Some _ => true | None => false end.
  Lemma has_v_ops ops : forall d k, has_v (fold_left step ops d) k = has_v d k.
  Proof.
    induction ops as [|o ops IH]; intros d k; [reflexivity|]. cbn [fold_left]. rewrite IH.
    unfold has_v. rewrite step_v. destruct o as [s n f w|s n f w]; [|reflexivity].
    destruct (vkey_eqb (s, n) k); [|reflexivity]. destruct (mget vkey_eqb k (d_v d)); [|reflexivity].
    destruct (makeDelegate_v _ _ _); reflexivity.
  Qed.
  Lemma has_r_ops ops : forall d k, has_r (fold_left step ops d) k = has_r d k.
  Proof.
    induction ops as [|o ops IH]; intros d k; [reflexivity|]. cbn [fold_left]. rewrite IH.
    unfold has_r. rewrite (proj2 (step_r d o k)). destruct o as [s n f w|s n f w]; [reflexivity|].
    destruct (rkey_eqb (s, n) k); [|reflexivity]. destruct (mget rkey_eqb k (d_r d)); [|reflexivity].
    destruct (makeDelegate_r _ _ _); reflexivity.
  Qed.

  (* ---- construction ---- *)

  Lemma construct_v vs rs bv br k :
    mget vkey_eqb k (d_v (@construct W A V vs rs bv br)) =
    if existsb (vkey_eqb k) vs then Some (bv k) else None.
  Proof.
    unfold construct.
    assert (R : forall rs (d : dg), d_v (fold_left (fun d k => install_r (fst k) (snd k) (br k) d) rs d) = d_v d).
    { induction rs0 as [|r rs0 IH]; intros d; [reflexivity|]. cbn [fold_left]. rewrite IH. reflexivity. }
    rewrite R. clear R.
    assert (G : forall vs (d : dg), mget vkey_eqb k (d_v (fold_left (fun d k => install_v (fst k) (snd k) (bv k) d) vs d)) =
       if existsb (vkey_eqb k) vs then Some (bv k) else mget vkey_eqb k (d_v d)).
    { induction vs0 as [|v vs0 IH]; intros d; [reflexivity|]. cbn [fold_left existsb]. rewrite IH.
      unfold install_v. cbn [d_v]. rewrite <- surjective_pairing. rewrite vget.
      destruct (existsb (vkey_eqb k) vs0); [rewrite orb_true_r; reflexivity|]. rewrite orb_false_r.
      destruct (vkey_spec k v) as [->|]; reflexivity. }
    rewrite G. reflexivity.
  Qed.
  Lemma construct_r vs rs bv br k :
    mget rkey_eqb k (d_r (@construct W A V vs rs bv br)) =
      (if existsb (rkey_eqb k) rs then Some (br k) else None) /\
    base_of (construct vs rs bv br) k =
      (if existsb (rkey_eqb k) rs then match fst k with S_d_vp => None | _ => Some (br k) end else None).
  Proof.
    unfold construct.
    set (d0 := fold_left _ vs deleg0).
    assert (R0 : d_r d0 = [] /\ d_base d0 = []).
    { unfold d0.
      assert (R : forall vs (d : dg), d_r (fold_left (fun d k => install_v (fst k) (snd k) (bv k) d) vs d) = d_r d /\
        d_base (fold_left (fun d k => install_v (fst k) (snd k) (bv k) d) vs d) = @d_base W A V d).
      { induction vs0 as [|v vs0 IH]; intros d1; [split; reflexivity|]. cbn [fold_left].
        destruct (IH (install_v (fst v) (snd v) (bv v) d1)) as [I1 I2]. rewrite I1, I2. split; reflexivity. }
      apply R. }
    destruct R0 as [R1 R2].
    assert (G : forall rs (d : dg),
      mget rkey_eqb k (d_r (fold_left (fun d k => install_r (fst k) (snd k) (br k) d) rs d)) =
        (if existsb (rkey_eqb k) rs then Some (br k) else mget rkey_eqb k (d_r d)) /\
      base_of (fold_left (fun d k => install_r (fst k) (snd k) (br k) d) rs d) k =
        (if existsb (rkey_eqb k) rs then match fst k with S_d_vp => base_of d k | _ => Some (br k) end
         else base_of d k)).
    { induction rs0 as [|r rs0 IH]; intros d; [split; reflexivity|]. cbn [fold_left existsb].
      destruct (IH (install_r (fst r) (snd r) (br r) d)) as [I1 I2]. rewrite I1, I2. clear I1 I2.
      unfold base_of, install_r. cbn [d_r d_base]. rewrite <- surjective_pairing, rget.
      destruct (rkey_spec k r) as [->|Hne]; cbn [orb].
      - split; [destruct (existsb (rkey_eqb r) rs0); reflexivity|].
        destruct (fst r) eqn:Er.
        + destruct (existsb (rkey_eqb r) rs0); reflexivity.
        + rewrite rget. destruct (rkey_spec r r) as [_|]; [|congruence]. destruct (existsb (rkey_eqb r) rs0); reflexivity.
        + rewrite rget. destruct (rkey_spec r r) as [_|]; [|congruence]. destruct (existsb (rkey_eqb r) rs0); reflexivity.
      - split; [reflexivity|].
        assert (Z : mget rkey_eqb k (match fst r with S_d_vp => d_base d | _ => mput rkey_eqb r (Some (br r)) (d_base d) end)
                    = mget rkey_eqb k (d_base d)).
        { destruct (fst r); [reflexivity| |]; rewrite rget; destruct (rkey_spec k r); congruence. }
        rewrite Z. reflexivity. }
    destruct (G rs d0) as [G1 G2]. rewrite G1, G2. unfold base_of. rewrite R1, R2. cbn [mget].
    split; [reflexivity|]. destruct (existsb (rkey_eqb k) rs); [|reflexivity].
    destruct (fst k); reflexivity.
  Qed.
End Delegator.

Section Factory.
  Context {C : Type}.
  Notation get := (mget String.eqb).

  Lemma registered_snoc h o n (cur : option C) :
    registered n (h ++ [o]) cur =
    match o with Reg n' f => if String.eqb n' n then Some f else registered n h cur | _ => registered n h cur end.
  Proof.
    revert cur. induction h as [|o' h IH]; intros cur; cbn [app registered].
    - destruct o as [n' f| |]; cbn [registered]; reflexivity.
    - destruct o' as [n' f| |]; apply IH.
  Qed.
  Lemma registered_mono h h' n : registered n h None <> None -> @registered C n (h ++ h') None <> None.
  Proof.
    induction h' as [|o h' IH] using rev_ind; intros H; [rewrite app_nil_r; exact H|].
    rewrite app_assoc, registered_snoc. specialize (IH H).
    destruct o as [n' f| |]; try exact IH. destruct (String.eqb n' n); [discriminate|exact IH].
  Qed.

  Lemma frun_snoc h (o : fop C) : frun (h ++ [o]) = fstep (frun h) o.
  Proof. unfold frun. rewrite fold_left_app. reflexivity. Qed.

  Lemma creators_registered h n : get n (f_creators (frun h)) = @registered C n h None.
  Proof.
    induction h as [|o h IH] using rev_ind; [reflexivity|].
    rewrite frun_snoc, registered_snoc. destruct o as [n' f|o a|o a]; cbn [fstep].
    - unfold reg. cbn [f_creators]. rewrite sget. rewrite (String.eqb_sym n n'). rewrite IH. reflexivity.
    - unfold addAlias. destruct (get o (f_creators (frun h))); exact IH.
    - unfold addDeprecatedAlias. destruct (get o (f_creators (frun h))); exact IH.
  Qed.

  Lemma snoc_split {T} (h1 h2 : list T) x h y :
    h ++ [y] = h1 ++ x :: h2 -> (h2 = [] /\ x = y /\ h1 = h) \/ (exists h2', h2 = h2' ++ [y] /\ h = h1 ++ x :: h2').
  Proof.
    intros E. destruct h2 as [|z h2] using rev_ind.
    - left. apply app_inj_tail in E as [-> ->]. repeat split.
    - right. clear IHh2. exists h2. change (x :: h2 ++ [z]) with ((x :: h2) ++ [z]) in E.
      rewrite app_assoc in E. apply app_inj_tail in E as [-> ->]. split; reflexivity.
  Qed.

  Definition aop (dep : bool) (o n : string) : fop C := if dep then DepAlias o n else Alias o n.
  Definition amap (dep : bool) (s : fact C) := if dep then f_deprecated s else f_synonyms s.

  Lemma amap_step dep h (op : fop C) n :
    (get n (amap dep (frun (h ++ [op]))) = get n (amap dep (frun h)) /\
     forall o, op = aop dep o n -> registered o h None = None) \/
    exists o, op = aop dep o n /\ registered o h None <> None /\ get n (amap dep (frun (h ++ [op]))) = Some o.
  Proof.
    rewrite frun_snoc. destruct op as [n' f|o a|o a]; cbn [fstep].
    - left. split; [destruct dep; reflexivity|]. intros o E. destruct dep; discriminate E.
    - unfold addAlias. destruct (get o (f_creators (frun h))) as [c|] eqn:E.
      + cbn [snd]. destruct dep; [left; split; [reflexivity|intros o' Eo; discriminate Eo]|].
        cbn [amap f_synonyms]. rewrite sget. destruct (String.eqb_spec n a) as [->|Hne].
        * right. exists o. split; [reflexivity|]. split; [|reflexivity].
          rewrite <- creators_registered, E. discriminate.
        * left. split; [reflexivity|]. intros o' Eo. injection Eo as _ Ea. congruence.
      + left. split; [reflexivity|]. intros o' Eo. destruct dep; [discriminate Eo|].
        injection Eo as <- _. rewrite <- creators_registered. exact E.
    - unfold addDeprecatedAlias. destruct (get o (f_creators (frun h))) as [c|] eqn:E.
      + cbn [snd]. destruct dep; [|left; split; [reflexivity|intros o' Eo; discriminate Eo]].
        cbn [amap f_deprecated]. rewrite sget. destruct (String.eqb_spec n a) as [->|Hne].
        * right. exists o. split; [reflexivity|]. split; [|reflexivity].
          rewrite <- creators_registered, E. discriminate.
        * left. split; [reflexivity|]. intros o' Eo. injection Eo as _ Ea. congruence.
      + left. split; [reflexivity|]. intros o' Eo. destruct dep; [|discriminate Eo].
        injection Eo as <- _. rewrite <- creators_registered. exact E.
  Qed.

  Lemma amap_some dep h n o : get n (amap dep (frun h)) = Some o -> @alias_target C dep n h o.
  Proof.
    revert o. induction h as [|op h IH] using rev_ind; intros o E.
    - destruct dep; discriminate E.
    - destruct (amap_step dep h op n) as [[S N']|(o' & -> & R & S)].
      + rewrite S in E.
        destruct (IH o E) as (h1 & h2 & Eh & R & N). exists h1, (h2 ++ [op]).
        split; [rewrite Eh, <- app_assoc; reflexivity|]. split; [exact R|].
        intros h3 o' h4 Eh'. destruct (snoc_split _ _ _ _ _ Eh') as [(-> & Eo & ->)|(h4' & -> & Eh2)].
        * rewrite <- Eh. apply N'. symmetry. exact Eo.
        * apply (N h3 o' h4'). exact Eh2.
      + assert (o' = o) as -> by congruence. exists h, []. split; [reflexivity|]. split; [exact R|].
        intros h3 o' h4 Eh. destruct h3; discriminate Eh.
  Qed.
  Lemma amap_none dep h n : get n (amap dep (frun h)) = None -> @no_alias C dep n h.
  Proof.
    induction h as [|op h IH] using rev_ind; intros E.
    - intros h1 o h2 Eh. destruct h1; discriminate Eh.
    - destruct (amap_step dep h op n) as [[S N']|(o' & -> & R & S)]; [|congruence].
      rewrite S in E. specialize (IH E). intros h1 o h2 Eh.
      destruct (snoc_split _ _ _ _ _ Eh) as [(-> & Eo & ->)|(h2' & -> & Eh2)].
      + apply N'. symmetry. exact Eo.
      + apply (IH h1 o h2'). exact Eh2.
  Qed.
  Lemma target_registered dep h n o : @alias_target C dep n h o -> registered o h None <> None.
  Proof. intros (h1 & h2 & -> & R & _). apply registered_mono. exact R. Qed.

  Lemma create_creates h n : @creates C h n (create n (frun h)).
  Proof.
    unfold create, canonicalize.
    destruct (get n (f_creators (frun h))) as [f|] eqn:E1.
    { cbn [obind]. rewrite E1. apply CR_own. rewrite <- creators_registered. exact E1. }
    rewrite creators_registered in E1.
    destruct (get n (f_synonyms (frun h))) as [o|] eqn:E2.
    { cbn [obind]. apply (amap_some false) in E2. pose proof (target_registered _ _ _ _ E2) as R.
      rewrite creators_registered. destruct (registered o h None) as [f|] eqn:Ef; [|congruence].
      apply CR_alias with (o := o); assumption. }
    apply (amap_none false) in E2.
    destruct (get n (f_deprecated (frun h))) as [o|] eqn:E3.
    { cbn [obind]. apply (amap_some true) in E3. pose proof (target_registered _ _ _ _ E3) as R.
      rewrite creators_registered. destruct (registered o h None) as [f|] eqn:Ef; [|congruence].
      apply CR_deprecated with (o := o); assumption. }
    apply (amap_none true) in E3. apply CR_unknown; assumption.
  Qed.

  (* The specification leaves no choice. *)
  Lemma target_unique dep h n o1 o2 : @alias_target C dep n h o1 -> alias_target dep n h o2 -> o1 = o2.
  Proof.
    intros (a1 & b1 & E1 & R1 & N1) (a2 & b2 & E2 & R2 & N2).
    assert (G : forall (a1 b1 a2 b2 : list (fop C)) x y, a1 ++ x :: b1 = a2 ++ y :: b2 ->
      (a1 = a2 /\ x = y) \/ (exists c, a2 = a1 ++ x :: c /\ b1 = c ++ y :: b2) \/
      (exists c, a1 = a2 ++ y :: c /\ b2 = c ++ x :: b1)).
    { clear. induction a1 as [|z a1 IH]; intros b1 a2 b2 x y E.
      - destruct a2 as [|z2 a2]; [left; injection E; auto|].
        right. left. injection E as -> ->. exists a2. split; reflexivity.
      - destruct a2 as [|z2 a2].
        + right. right. injection E as -> <-. exists a1. split; reflexivity.
        + injection E as -> E. destruct (IH b1 a2 b2 x y E) as [[-> ->]|[(c & -> & ->)|(c & -> & ->)]].
          * left. split; reflexivity.
          * right. left. exists c. split; reflexivity.
          * right. right. exists c. split; reflexivity. }
    rewrite E1 in E2. destruct (G _ _ _ _ _ _ E2) as [[_ X]|[(c & -> & ->)|(c & -> & ->)]].
    - destruct dep; injection X; auto.
    - exfalso. apply R2. apply (N1 c o2 b2). reflexivity.
    - exfalso. apply R1. apply (N2 c o1 b1). reflexivity.
  Qed.
  Lemma target_no_alias dep h n o : @alias_target C dep n h o -> no_alias dep n h -> False.
  Proof. intros (a & b & E & R & _) N. apply R. apply (N a o b E). Qed.
  Lemma creates_unique h n r1 r2 : @creates C h n r1 -> creates h n r2 -> r1 = r2.
  Proof.
    intros H1 H2.
    destruct H1 as [f1 A1|o1 f1 A1 A2 A3|o1 f1 A1 A2 A3 A4|A1 A2 A3];
    destruct H2 as [f2 B1|o2 f2 B1 B2 B3|o2 f2 B1 B2 B3 B4|B1 B2 B3]; try congruence;
      
      try (exfalso; match goal with H : alias_target ?d _ _ _, H' : no_alias ?d _ _ |- _ =>
        exact (target_no_alias _ _ _ _ H H') end).
    - pose proof (target_unique _ _ _ _ _ A2 B2). congruence.
    - pose proof (target_unique _ _ _ _ _ A3 B3). congruence.
  Qed.
End Factory.
