(* Proofs about sensitivity parameters. *)
From Coq Require Import Reals Lra Lia List Bool Arith.
From Verif Require Import Base.Outcome ZeroD.SensModel ZeroD.SensSpec.
Import ListNotations.
Local Open Scope R_scope.

(* ---------------------------------------------------------------- *)
(** * Species data *)
Definition core (t : sth) : sth :=
  match t with One p => One (reset1 p) | Two b lo hi => Two b (reset1 lo) (reset1 hi) | Other => Other end.
Lemma reset_core t t' : resetHf298 t = Ok t' -> t' = core t.
Proof. destruct t; cbn; intros H; inversion H; reflexivity. Qed.
Lemma reset_some t : t <> Other -> resetHf298 t = Ok (core t).
Proof. destruct t; cbn; try reflexivity; congruence. Qed.
Lemma core_core t : core (core t) = core t.
Proof. destruct t; reflexivity. Qed.
Lemma modify_core t h t' : modifyHf298 t h = Ok t' -> core t' = core t.
Proof. destruct t; cbn; intros H; inversion H; reflexivity. Qed.
Lemma core_other t t' : core t = core t' -> t <> Other -> t' <> Other.
Proof. destruct t, t'; cbn; congruence. Qed.
Lemma core_slopes t t' : core t = core t' -> slopes t -> slopes t'.
Proof. destruct t, t'; cbn; try congruence; unfold reset1; intros H; injection H; intros; subst; congruence || (destruct H0; split; congruence) || tauto. Qed.
Lemma modify_some t h : t <> Other -> exists t', modifyHf298 t h = Ok t'.
Proof. destruct t; cbn; try congruence; intros _; eexists; reflexivity. Qed.
Lemma modify1_report p h : p_g p <> 0 -> report1 (modify1 p h) = h.
Proof. intros G. unfold report1 at 1, modify1. cbn. unfold report1. field. exact G. Qed.
Lemma modify_report t h t' : slopes t -> modifyHf298 t h = Ok t' -> reportHf298 t' = Ok h.
Proof.
  destruct t as [p|b lo hi|]; cbn; intros S H; inversion H; subst; cbn [reportHf298].
  - rewrite modify1_report by exact S. reflexivity.
  - destruct S as [S1 S2]. destruct b; rewrite modify1_report by assumption; f_equal; lra.
Qed.

Lemma lset_nth {A} (l : list A) i v j : nth_error (lset l i v) j =
  if Nat.eqb i j then (match nth_error l j with Some _ => Some v | None => None end) else nth_error l j.
Proof.
  revert i j. induction l as [|a l IH]; intros i j; cbn; [destruct (Nat.eqb i j), j; reflexivity|].
  destruct i as [|i], j as [|j]; cbn; try reflexivity. apply IH.
Qed.
Lemma lset_same {A} (l : list A) i v : nth_error l i = Some v -> lset l i v = l.
Proof. revert i. induction l as [|a l IH]; intros [|i] H; cbn in *; try congruence. rewrite IH; congruence. Qed.
Lemma lset_map {A B} (f : A -> B) l i v a : nth_error l i = Some a -> f v = f a -> map f (lset l i v) = map f l.
Proof.
  revert i. induction l as [|b l IH]; intros [|i] H E; cbn in *; try discriminate.
  - injection H as ->. rewrite E. reflexivity.
  - rewrite (IH i H E). reflexivity.
Qed.
Lemma lset_length {A} (l : list A) i v : length (lset l i v) = length l.
Proof. revert i. induction l; intros [|i]; cbn; auto. Qed.

(* Same species up to the coefficients that sensitivities change. *)
Definition wsame (w w' : world) : Prop := w_nr w' = w_nr w /\ forall th, map core (w_th w' th) = map core (w_th w th).
Lemma wsame_refl w : wsame w w. Proof. split; reflexivity. Qed.
Lemma wsame_trans a b c : wsame a b -> wsame b c -> wsame a c.
Proof. intros [A1 A2] [B1 B2]. split; [congruence|]. intros th. rewrite B2. apply A2. Qed.
Lemma wsame_mult w k i v : wsame w (set_mult w k i v).
Proof. split; reflexivity. Qed.
Lemma wsame_sp w th k t t' : nth_error (w_th w th) k = Some t -> core t' = core t -> wsame w (set_sp w th k t').
Proof.
  intros H E. split; [reflexivity|]. intros x. cbn [set_sp w_th]. destruct (Nat.eqb_spec x th) as [->|]; [|reflexivity].
  eapply lset_map; eassumption.
Qed.
Lemma wsame_modify w th k h : wsame w (snd (modifySS w th k h)).
Proof.
  unfold modifySS. destruct (nth_error (w_th w th) k) as [t|] eqn:E; [|apply wsame_refl].
  destruct (modifyHf298 t h) as [t'| | |] eqn:M; try apply wsame_refl. eapply wsame_sp; [exact E|eapply modify_core; exact M].
Qed.
Lemma wsame_reset w th k : wsame w (snd (resetSS w th k)).
Proof.
  unfold resetSS. destruct (nth_error (w_th w th) k) as [t|] eqn:E; [|apply wsame_refl].
  destruct (resetHf298 t) as [t'| | |] eqn:M; try apply wsame_refl. eapply wsame_sp; [exact E|]. rewrite (reset_core _ _ M). apply core_core.
Qed.
Lemma wsame_species w w' th k t : wsame w w' -> nth_error (w_th w th) k = Some t ->
  exists t', nth_error (w_th w' th) k = Some t' /\ core t' = core t.
Proof.
  intros [_ S] H. pose proof (f_equal (fun l => nth_error l k) (S th)) as E. cbn beta in E. rewrite !nth_error_map, H in E.
  destruct (nth_error (w_th w' th) k) as [t'|]; [|discriminate]. exists t'. split; [reflexivity|]. cbn in E. congruence.
Qed.
Lemma wsame_sym a b : wsame a b -> wsame b a.
Proof. intros [A B]. split; [congruence|]. intros th. symmetry. apply B. Qed.
Lemma wsame_sound w w' : wsame w w' -> sound w -> sound w'.
Proof.
  intros S H th k t E. destruct (wsame_species w' w th k t (wsame_sym _ _ S) E) as (t0 & E0 & C).
  eapply core_slopes; [exact C|]. eapply H. exact E0.
Qed.

(* ---------------------------------------------------------------- *)
(** * One after the other *)
Definition skel (p : sparam) : nat * nat * pkind * R :=
  (sp_local p, sp_global p, sp_kind p, match sp_kind p with PReaction => 0 | PEnthalpy => sp_value p end).
Definition eskel (e : nat * sparam) := (fst e, skel (snd e)).

Inductive applied (th : nat) (ps : list R) : world -> list (nat * sparam) -> world -> list (nat * sparam) -> Prop :=
| AP_nil w : applied th ps w [] w []
| AP_cons w kin p w1 p1 es w2 es1 : apply_param kin th ps w p = (Ok tt, (w1, p1)) ->
    applied th ps w1 es w2 es1 -> applied th ps w ((kin, p) :: es) w2 ((kin, p1) :: es1).
Lemma applied_app th ps a : forall w w1 a1 b w2 b1, applied th ps w a w1 a1 -> applied th ps w1 b w2 b1 ->
  applied th ps w (a ++ b) w2 (a1 ++ b1).
Proof. induction a as [|e a IH]; intros; inversion H; subst; [assumption|]. econstructor; [eassumption|]. eapply IH; eassumption. Qed.
Inductive undone (th : nat) : world -> list (nat * sparam) -> world -> Prop :=
| UN_nil w : undone th w [] w
| UN_cons w kin p w1 p1 es w2 : reset_param kin th w p = (Ok tt, (w1, p1)) ->
    undone th w1 es w2 -> undone th w ((kin, p) :: es) w2.
Lemma undone_app th a : forall w w1 b w2, undone th w a w1 -> undone th w1 b w2 -> undone th w (a ++ b) w2.
Proof. induction a as [|e a IH]; intros; inversion H; subst; [assumption|]. econstructor; [eassumption|]. eapply IH; eassumption. Qed.

(* The surfaces only have reaction parameters. *)
Definition surf_kinds (x : srx) : Prop := forall b p, In b (x_surf x) -> In p (snd b) -> sp_kind p = PReaction.

Lemma loop_applied kin th ps l : forall w w1 l1, loop (apply_param kin th ps) w l = (Ok tt, (w1, l1)) ->
  applied th ps w (map (pair kin) l) w1 (map (pair kin) l1).
Proof.
  induction l as [|p l IH]; intros w w1 l1 H; cbn [loop map] in *.
  - injection H as <- <-. constructor.
  - destruct (apply_param kin th ps w p) as [[[]| | |] [wa pa]] eqn:E; try discriminate.
    injection H as H1 H2 H3. destruct (loop (apply_param kin th ps) wa l) as [r [wb lb]] eqn:El. cbn in *. subst.
    econstructor; [exact E|]. apply IH. exact El.
Qed.
Lemma loop_ext f g l : (forall w p, In p l -> f w p = g w p) -> forall w, loop f w l = loop g w l.
Proof.
  induction l as [|p l IH]; intros H w; [reflexivity|]. cbn [loop]. rewrite H by (left; reflexivity).
  destruct (g w p) as [[u| | |] [w1 p1]]; try reflexivity. rewrite IH; [reflexivity|]. intros; apply H; right; assumption.
Qed.
Lemma surfaces_applied th ps l : (forall b p, In b l -> In p (snd b) -> sp_kind p = PReaction) ->
  forall w w1 l1, surfaces (apply_surface ps) w l = (Ok tt, (w1, l1)) ->
  applied th ps w (flat_map (fun b => map (pair (fst b)) (snd b)) l) w1 (flat_map (fun b => map (pair (fst b)) (snd b)) l1) /\
  map fst l1 = map fst l.
Proof.
  induction l as [|[kin ps0] l IH]; intros K w w1 l1 H; cbn [surfaces flat_map] in *.
  - injection H as <- <-. split; [constructor|reflexivity].
  - unfold apply_surface at 1 in H. cbn [fst snd] in H.
    rewrite (loop_ext _ (apply_param kin th ps)) in H.
    2:{ intros w' p Hp. unfold apply_param. rewrite (K (kin, ps0) p); [reflexivity|left; reflexivity|exact Hp]. }
    destruct (loop (apply_param kin th ps) w ps0) as [[[]| | |] [wa la]] eqn:E; cbn [fst snd] in H; try discriminate.
    injection H as H1 H2 H3. destruct (surfaces (apply_surface ps) wa l) as [r [wb lb]] eqn:El. cbn in *. subst.
    destruct (IH (fun b p Hb Hp => K b p (or_intror Hb) Hp) _ _ _ El) as [A1 A2].
    split; [eapply applied_app; [apply loop_applied; exact E|exact A1]|]. cbn. congruence.
Qed.
Lemma apply_applied ps w x w1 x1 : surf_kinds x -> applySensitivity (Some ps) w x = (Ok tt, (w1, x1)) ->
  applied (x_th x) ps w (entries x) w1 (entries x1) /\ x_th x1 = x_th x /\ x_kin x1 = x_kin x /\ x_chem x1 = x_chem x.
Proof.
  intros K H. unfold applySensitivity in H.
  destruct (loop (apply_param (x_kin x) (x_th x) ps) w (x_params x)) as [[[]| | |] [wa la]] eqn:E; try discriminate.
  injection H as H1 H2 H3. destruct (surfaces (apply_surface ps) wa (x_surf x)) as [r [wb lb]] eqn:El. cbn in *. subst.
  destruct (surfaces_applied (x_th x) ps _ K _ _ _ El) as [A1 A2]. split; [|split; [|split]; reflexivity].
  unfold entries. cbn [x_kin x_params x_surf with_params]. eapply applied_app; [apply loop_applied; exact E|exact A1].
Qed.
Lemma loop_undone kin th l : forall w w1 l1, loop (reset_param kin th) w l = (Ok tt, (w1, l1)) ->
  undone th w (map (pair kin) l) w1 /\ l1 = l.
Proof.
  induction l as [|p l IH]; intros w w1 l1 H; cbn [loop map] in *.
  - injection H as <- <-. split; [constructor|reflexivity].
  - destruct (reset_param kin th w p) as [[[]| | |] [wa pa]] eqn:E; try discriminate.
    injection H as H1 H2 H3. destruct (loop (reset_param kin th) wa l) as [r [wb lb]] eqn:El. cbn in *. subst.
    destruct (IH _ _ _ El) as [A ->]. split; [econstructor; [exact E|exact A]|].
    f_equal. unfold reset_param in E. destruct (sp_kind p); [|destruct (resetSS w th (sp_local p)) as [[[]| | |] ?]]; cbn in E; inversion E; reflexivity.
Qed.
Lemma surfaces_undone th l : (forall b p, In b l -> In p (snd b) -> sp_kind p = PReaction) ->
  forall w w1 l1, surfaces reset_surface w l = (Ok tt, (w1, l1)) ->
  undone th w (flat_map (fun b => map (pair (fst b)) (snd b)) l) w1 /\ l1 = l.
Proof.
  induction l as [|[kin ps0] l IH]; intros K w w1 l1 H; cbn [surfaces flat_map] in *.
  - injection H as <- <-. split; [constructor|reflexivity].
  - unfold reset_surface at 1 in H. cbn [fst snd] in H.
    rewrite (loop_ext _ (reset_param kin th)) in H.
    2:{ intros w' p Hp. unfold reset_param. rewrite (K (kin, ps0) p); [reflexivity|left; reflexivity|exact Hp]. }
    destruct (loop (reset_param kin th) w ps0) as [[[]| | |] [wa la]] eqn:E; cbn [fst snd] in H; try discriminate.
    injection H as H1 H2 H3. destruct (surfaces reset_surface wa l) as [r [wb lb]] eqn:El. cbn in *. subst.
    destruct (IH (fun b p Hb Hp => K b p (or_intror Hb) Hp) _ _ _ El) as [A1 ->].
    destruct (loop_undone _ _ _ _ _ _ E) as [B1 ->]. split; [eapply undone_app; [exact B1|exact A1]|reflexivity].
Qed.
Lemma reset_undone ps w x w1 x1 : surf_kinds x -> resetSensitivity (Some ps) w x = (Ok tt, (w1, x1)) ->
  undone (x_th x) w (entries x) w1 /\ x1 = x.
Proof.
  intros K H. unfold resetSensitivity in H.
  destruct (loop (reset_param (x_kin x) (x_th x)) w (x_params x)) as [[[]| | |] [wa la]] eqn:E; try discriminate.
  injection H as H1 H2 H3. destruct (surfaces reset_surface wa (x_surf x)) as [r [wb lb]] eqn:El. cbn in *. subst.
  destruct (surfaces_undone (x_th x) _ K _ _ _ El) as [A1 ->]. destruct (loop_undone _ _ _ _ _ _ E) as [B1 ->].
  split; [eapply undone_app; eassumption|]. destruct x; reflexivity.
Qed.

(* ---------------------------------------------------------------- *)
(** * Effects *)
Definition rkeys (es : list (nat * sparam)) : list (nat * nat) := map key (filter is_rxn es).
Definition elocals (es : list (nat * sparam)) : list nat := map (fun e => sp_local (snd e)) (filter (fun e => negb (is_rxn e)) es).
Lemma apply_param_rxn kin th ps w p w1 p1 : apply_param kin th ps w p = (Ok tt, (w1, p1)) -> sp_kind p = PReaction ->
  exists v, nth_error ps (sp_global p) = Some v /\ w1 = set_mult w kin (sp_local p) (w_mult w kin (sp_local p) * v) /\
    p1 = SP (sp_local p) (sp_global p) (w_mult w kin (sp_local p)) PReaction.
Proof.
  intros H K. unfold apply_param, apply_reaction in H. rewrite K in H. destruct (nth_error ps (sp_global p)) as [v|]; [|discriminate].
  injection H as <- <-. exists v. repeat split.
Qed.
Lemma apply_param_enth kin th ps w p w1 p1 : apply_param kin th ps w p = (Ok tt, (w1, p1)) -> sp_kind p = PEnthalpy ->
  exists v, nth_error ps (sp_global p) = Some v /\ modifySS w th (sp_local p) (sp_value p + v) = (Ok tt, w1) /\ p1 = p.
Proof.
  intros H K. unfold apply_param in H. rewrite K in H. destruct (nth_error ps (sp_global p)) as [v|]; [|discriminate].
  injection H as H1 H2 H3. exists v. split; [reflexivity|]. split; [|congruence]. rewrite <- H2, <- H1. apply surjective_pairing.
Qed.
Lemma modifySS_spec w th k h w1 : modifySS w th k h = (Ok tt, w1) ->
  w_mult w1 = w_mult w /\ (forall x, x <> th -> w_th w1 x = w_th w x) /\
  (forall j, j <> k -> nth_error (w_th w1 th) j = nth_error (w_th w th) j) /\
  (sound w -> (k < length (w_th w th))%nat -> Hf298SS w1 th k = Ok h).
Proof.
  unfold modifySS. destruct (nth_error (w_th w th) k) as [t|] eqn:E.
  - destruct (modifyHf298 t h) as [t'| | |] eqn:M; try discriminate. intros H. injection H as <-.
    split; [reflexivity|]. cbn [set_sp w_th].
    split; [intros x Hx; apply Nat.eqb_neq in Hx; rewrite Hx; reflexivity|]. rewrite Nat.eqb_refl.
    split; [intros j Hj; rewrite lset_nth; destruct (Nat.eqb_spec k j); [congruence|reflexivity]|].
    intros S _. unfold Hf298SS. cbn [set_sp w_th]. rewrite Nat.eqb_refl, lset_nth, Nat.eqb_refl, E. eapply modify_report; [|exact M]. eapply S. exact E.
  - intros H. injection H as <-. repeat split. intros _ L. apply nth_error_None in E. lia.
Qed.
Lemma resetSS_spec w th k w1 : resetSS w th k = (Ok tt, w1) ->
  w_mult w1 = w_mult w /\ (forall x, x <> th -> w_th w1 x = w_th w x) /\
  (forall j, nth_error (w_th w1 th) j = if Nat.eqb k j then option_map core (nth_error (w_th w th) j) else nth_error (w_th w th) j).
Proof.
  unfold resetSS. destruct (nth_error (w_th w th) k) as [t|] eqn:E.
  - destruct (resetHf298 t) as [t'| | |] eqn:M; try discriminate. intros H. injection H as <-.
    split; [reflexivity|]. cbn [set_sp w_th].
    split; [intros x Hx; apply Nat.eqb_neq in Hx; rewrite Hx; reflexivity|]. rewrite Nat.eqb_refl.
    intros j. rewrite lset_nth. destruct (Nat.eqb_spec k j) as [<-|]; [|reflexivity]. rewrite E. cbn. f_equal. apply reset_core. exact M.
  - intros H. injection H as <-. split; [reflexivity|]. split; [reflexivity|]. intros j.
    destruct (Nat.eqb_spec k j) as [<-|]; [|reflexivity]. rewrite E. reflexivity.
Qed.

Lemma applied_skel th ps w es w1 es1 : applied th ps w es w1 es1 -> map eskel es1 = map eskel es /\ wsame w w1.
Proof.
  intros H. induction H as [|w kin p w1 p1 es w2 es1 H A [IH1 IH2]]; [split; [reflexivity|apply wsame_refl]|].
  cbn [map]. rewrite IH1. destruct (sp_kind p) eqn:K.
  - destruct (apply_param_rxn _ _ _ _ _ _ _ H K) as (v & _ & -> & ->). split.
    + f_equal. unfold eskel, skel. cbn. rewrite K. reflexivity.
    + eapply wsame_trans; [|exact IH2]. apply wsame_mult.
  - destruct (apply_param_enth _ _ _ _ _ _ _ H K) as (v & _ & M & ->). split; [reflexivity|].
    eapply wsame_trans; [|exact IH2]. pose proof (wsame_modify w th (sp_local p) (sp_value p + v)) as S. rewrite M in S. exact S.
Qed.
Lemma eskel_rkeys es es1 : map eskel es1 = map eskel es -> rkeys es1 = rkeys es /\ elocals es1 = elocals es.
Proof.
  revert es1. induction es as [|[k p] es IH]; intros [|[k1 p1] es1] H; cbn in H; try discriminate; [split; reflexivity|].
  injection H as H1 H2 H3 H4 H5 H6. destruct (IH es1 H6) as [I1 I2]. unfold rkeys, elocals, is_rxn, key in *. cbn [filter snd fst map negb].
  rewrite H4. destruct (sp_kind p); cbn [negb map fst snd]; rewrite ?I1, ?I2, ?H1, ?H2; split; reflexivity.
Qed.
Lemma applied_keys th ps w es w1 es1 : applied th ps w es w1 es1 -> rkeys es1 = rkeys es /\ elocals es1 = elocals es.
Proof. intros H. apply eskel_rkeys. eapply applied_skel. exact H. Qed.

Lemma applied_mult_other th ps w es w1 es1 : applied th ps w es w1 es1 ->
  forall kin i, ~ In (kin, i) (rkeys es) -> w_mult w1 kin i = w_mult w kin i.
Proof.
  intros H. induction H as [|w kin p w1 p1 es w2 es1 H A IH]; intros k i N; [reflexivity|].
  unfold rkeys, is_rxn in N. cbn [filter snd] in N. destruct (sp_kind p) eqn:K.
  - destruct (apply_param_rxn _ _ _ _ _ _ _ H K) as (v & _ & -> & ->). cbn [map] in N. rewrite IH by (intros C; apply N; right; exact C).
    cbn [set_mult w_mult]. destruct (Nat.eqb_spec k kin) as [->|]; [|reflexivity]. destruct (Nat.eqb_spec i (sp_local p)) as [->|]; [|reflexivity].
    exfalso. apply N. left. reflexivity.
  - destruct (apply_param_enth _ _ _ _ _ _ _ H K) as (v & _ & M & ->). rewrite IH by exact N.
    destruct (modifySS_spec _ _ _ _ _ M) as (-> & _). reflexivity.
Qed.
Lemma applied_mult th ps w es w1 es1 : applied th ps w es w1 es1 -> NoDup (rkeys es) ->
  (forall e, In e es -> is_rxn e = true -> exists v, nth_error ps (sp_global (snd e)) = Some v /\
     w_mult w1 (fst e) (sp_local (snd e)) = w_mult w (fst e) (sp_local (snd e)) * v) /\
  (forall e, In e es1 -> is_rxn e = true -> sp_value (snd e) = w_mult w (fst e) (sp_local (snd e))).
Proof.
  intros H. induction H as [|w kin p w1 p1 es w2 es1 H A IH]; intros ND; [split; intros e []|].
  unfold rkeys, is_rxn in ND. cbn [filter snd] in ND. destruct (sp_kind p) eqn:K.
  - destruct (apply_param_rxn _ _ _ _ _ _ _ H K) as (v & Ev & -> & ->). cbn [map] in ND. inversion ND as [|? ? N1 N2]; subst.
    destruct (IH N2) as [I1 I2]. pose proof (applied_mult_other _ _ _ _ _ _ A) as O.
    assert (Q : forall k i, (k, i) <> (kin, sp_local p) -> w_mult (set_mult w kin (sp_local p) (w_mult w kin (sp_local p) * v)) k i = w_mult w k i).
    { intros k i Q. cbn [set_mult w_mult]. destruct (Nat.eqb_spec k kin) as [->|]; [|reflexivity].
      destruct (Nat.eqb_spec i (sp_local p)) as [->|]; [congruence|reflexivity]. }
    assert (D : forall e, In e es -> is_rxn e = true -> (fst e, sp_local (snd e)) <> (kin, sp_local p)).
    { intros e He Hr C. apply N1. apply in_map_iff. exists e. split; [|apply filter_In; split; assumption]. exact C. }
    split.
    + intros e [<-|He] Hr.
      * exists v. split; [exact Ev|]. cbn [fst snd]. rewrite O by exact N1. cbn [set_mult w_mult]. rewrite !Nat.eqb_refl. reflexivity.
      * destruct (I1 e He Hr) as (u & U1 & U2). exists u. split; [exact U1|]. rewrite U2, Q by (apply D; assumption). reflexivity.
    + intros e [<-|He] Hr; [reflexivity|]. rewrite (I2 e He Hr). apply Q.
      intros C. destruct (applied_keys _ _ _ _ _ _ A) as [EK _]. apply N1. change (In (kin, sp_local p) (rkeys es)). rewrite <- EK.
      apply in_map_iff. exists e. split; [exact C|apply filter_In; split; assumption].
  - destruct (apply_param_enth _ _ _ _ _ _ _ H K) as (v & _ & M & ->). destruct (IH ND) as [I1 I2].
    destruct (modifySS_spec _ _ _ _ _ M) as (Em & _). rewrite Em in *. split.
    + intros e [<-|He] Hr; [unfold is_rxn in Hr; cbn in Hr; rewrite K in Hr; discriminate|]. destruct (I1 e He Hr) as (u & U1 & U2). exists u. split; [exact U1|exact U2].
    + intros e [<-|He] Hr; [unfold is_rxn in Hr; cbn in Hr; rewrite K in Hr; discriminate|]. apply (I2 e He Hr).
Qed.
Lemma applied_species th ps w es w1 es1 : applied th ps w es w1 es1 ->
  (forall x, x <> th -> w_th w1 x = w_th w x) /\
  (forall k, ~ In k (elocals es) -> nth_error (w_th w1 th) k = nth_error (w_th w th) k) /\
  (sound w -> (forall k, In k (elocals es) -> (k < length (w_th w th))%nat) -> NoDup (elocals es) ->
   forall e, In e es -> is_rxn e = false -> exists v, nth_error ps (sp_global (snd e)) = Some v /\
     Hf298SS w1 th (sp_local (snd e)) = Ok (sp_value (snd e) + v)).
Proof.
  intros H. induction H as [|w kin p w1 p1 es w2 es1 H A (I1 & I2 & I3)]; [repeat split; intros ? ? ? e []|].
  unfold elocals, is_rxn. cbn [filter snd]. destruct (sp_kind p) eqn:K; cbn [negb].
  - destruct (apply_param_rxn _ _ _ _ _ _ _ H K) as (v & _ & -> & ->). cbn [set_mult w_th] in *.
    split; [exact I1|]. split; [exact I2|]. intros S L ND e [<-|He] Hr; [cbn in Hr; rewrite K in Hr; discriminate|]. apply (I3 S L ND e He Hr).
  - destruct (apply_param_enth _ _ _ _ _ _ _ H K) as (v & Ev & M & ->). destruct (modifySS_spec _ _ _ _ _ M) as (_ & M1 & M2 & M3).
    cbn [map]. split; [intros x Hx; rewrite I1, M1 by exact Hx; reflexivity|].
    split; [intros k Hk; rewrite I2, M2; [reflexivity|intros ->; apply Hk; left; reflexivity|intros C; apply Hk; right; exact C]|].
    intros S L ND e He Hr. inversion ND as [|? ? N1 N2]; subst.
    assert (Sw : wsame w w1) by (pose proof (wsame_modify w th (sp_local p) (sp_value p + v)) as Q; rewrite M in Q; exact Q).
    assert (Le : length (w_th w1 th) = length (w_th w th)).
    { rewrite <- (map_length core (w_th w1 th)), <- (map_length core (w_th w th)). f_equal. apply Sw. }
    destruct He as [<-|He].
    + exists v. split; [exact Ev|]. cbn [snd]. rewrite <- (M3 S (L _ (or_introl eq_refl))). unfold Hf298SS. rewrite I2 by exact N1. reflexivity.
    + apply I3; try assumption; [eapply wsame_sound; eassumption|]. intros k Hk. rewrite Le. apply L. right. exact Hk.
Qed.

Lemma undone_effect th w es w1 : undone th w es w1 -> forall f, (forall e, In e es -> is_rxn e = true -> sp_value (snd e) = f (fst e) (sp_local (snd e))) ->
  (forall k i, In (k, i) (rkeys es) -> w_mult w1 k i = f k i) /\ (forall k i, ~ In (k, i) (rkeys es) -> w_mult w1 k i = w_mult w k i) /\
  (forall x, x <> th -> w_th w1 x = w_th w x) /\
  (forall k, nth_error (w_th w1 th) k = if existsb (Nat.eqb k) (elocals es) then option_map core (nth_error (w_th w th) k) else nth_error (w_th w th) k).
Proof.
  intros H. induction H as [w|w kin p w1 p1 es w2 H A IH]; intros f F.
  - split; [intros k i []|]. split; [reflexivity|]. split; reflexivity.
  - destruct (IH f) as (I1 & I2 & I3 & I4); [intros e He; apply F; right; exact He|].
    unfold reset_param in H. unfold rkeys, elocals, is_rxn. cbn [filter snd]. destruct (sp_kind p) eqn:K; cbn [negb map].
    + injection H as <- <-. cbn [set_mult w_mult w_th] in *.
      assert (Fv : sp_value p = f kin (sp_local p)) by (apply (F (kin, p) (or_introl eq_refl)); unfold is_rxn; cbn; rewrite K; reflexivity).
      assert (D : forall k i, {In (k, i) (rkeys es)} + {~ In (k, i) (rkeys es)}).
      { intros. apply in_dec. intros [a b] [c d]. destruct (Nat.eq_dec a c), (Nat.eq_dec b d); [left; congruence|right; congruence..]. }
      split; [|split; [|split; [exact I3|exact I4]]].
      * intros k i [E|Hi]; [|apply I1; exact Hi]. injection E as <- <-. destruct (D kin (sp_local p)) as [d|d]; [apply I1; exact d|].
        rewrite I2 by exact d. rewrite !Nat.eqb_refl. exact Fv.
      * intros k i N. rewrite I2 by (intros C; apply N; right; exact C). destruct (Nat.eqb_spec k kin) as [->|]; [|reflexivity].
        destruct (Nat.eqb_spec i (sp_local p)) as [->|]; [|reflexivity]. exfalso. apply N. left. reflexivity.
    + injection H as H1 H2 H3. destruct (resetSS w th (sp_local p)) as [r wr] eqn:E. cbn in *. subst.
      destruct (resetSS_spec _ _ _ _ E) as (Em & M1 & M2). rewrite Em in *.
      split; [exact I1|]. split; [exact I2|]. split; [intros x Hx; rewrite I3, M1 by exact Hx; reflexivity|].
      intros k. rewrite I4, M2. cbn [existsb]. rewrite (Nat.eqb_sym k (sp_local p1)).
      destruct (Nat.eqb_spec (sp_local p1) k) as [<-|]; cbn [orb]; [|reflexivity].
      destruct (existsb _ _); [|reflexivity]. destruct (nth_error (w_th w th) (sp_local p1)); [|reflexivity]. cbn. rewrite core_core. reflexivity.
Qed.

(* ---------------------------------------------------------------- *)
(** * Apply, then reset *)
Lemma nth_ext_err {A} (l l' : list A) : (forall k, nth_error l k = nth_error l' k) -> l = l'.
Proof.
  revert l'. induction l as [|a l IH]; intros [|b l'] H; try reflexivity; try (specialize (H 0%nat); discriminate).
  pose proof (H 0%nat) as H0. cbn in H0. injection H0 as ->. f_equal. apply IH. intros k. exact (H (S k)).
Qed.
Definition weq (w w' : world) : Prop := w_nr w' = w_nr w /\ (forall k i, w_mult w' k i = w_mult w k i) /\ (forall th, w_th w' th = w_th w th).
Lemma apply_reset ps w x w1 x1 w2 x2 : surf_kinds x -> surf_kinds x1 -> NoDup (reactions x) ->
  (forall k, In k (species x) -> original w (x_th x) k) ->
  applySensitivity (Some ps) w x = (Ok tt, (w1, x1)) -> resetSensitivity (Some ps) w1 x1 = (Ok tt, (w2, x2)) ->
  w_nr w2 = w_nr w -> weq w w2 /\ x2 = x1.
Proof.
  intros K K1 ND Or H1 H2 Nr. destruct (apply_applied _ _ _ _ _ K H1) as (A & T & _). destruct (reset_undone _ _ _ _ _ K1 H2) as (U & ->).
  split; [|reflexivity]. rewrite T in U. destruct (applied_keys _ _ _ _ _ _ A) as [E1 E2].
  destruct (applied_mult _ _ _ _ _ _ A ND) as [_ V].
  destruct (undone_effect _ _ _ _ U (w_mult w) V) as (U1 & U2 & U3 & U4).
  destruct (applied_species _ _ _ _ _ _ A) as (S1 & S2 & _). pose proof (applied_skel _ _ _ _ _ _ A) as [_ Sw].
  split; [exact Nr|]. split.
  - intros k i. assert (D : {In (k, i) (rkeys (entries x1))} + {~ In (k, i) (rkeys (entries x1))}).
    { apply in_dec. intros [a b] [c d]. destruct (Nat.eq_dec a c), (Nat.eq_dec b d); [left; congruence|right; congruence..]. }
    destruct D as [d|d]; [apply U1; exact d|]. rewrite U2 by exact d. apply (applied_mult_other _ _ _ _ _ _ A). rewrite <- E1. exact d.
  - intros th. destruct (Nat.eq_dec th (x_th x)) as [->|N]; [|rewrite U3, S1 by exact N; reflexivity].
    apply nth_ext_err. intros k. rewrite U4, E2. destruct (existsb (Nat.eqb k) (elocals (entries x))) eqn:B.
    + apply existsb_exists in B. destruct B as (j & Hj & Ej). apply Nat.eqb_eq in Ej. subst j.
      destruct (nth_error (w_th w (x_th x)) k) as [t|] eqn:Et.
      * destruct (wsame_species _ _ _ _ _ Sw Et) as (t1 & Et1 & C). rewrite Et1. cbn. f_equal. rewrite C.
        assert (D : t = Other \/ t <> Other) by (destruct t; [right|right|left]; congruence). destruct D as [->|D]; [reflexivity|].
        specialize (Or k Hj t Et D). apply reset_core in Or. symmetry. exact Or.
      * pose proof (f_equal (fun l => nth_error l k) (proj2 Sw (x_th x))) as Q. cbn beta in Q. rewrite !nth_error_map, Et in Q.
        destruct (nth_error (w_th w1 (x_th x)) k); [discriminate|reflexivity].
    + apply S2. intros C. assert (Bt : existsb (Nat.eqb k) (elocals (entries x)) = true).
      { apply existsb_exists. exists k. split; [exact C|apply Nat.eqb_refl]. }
      congruence.
Qed.

(* ---------------------------------------------------------------- *)
(** * What never changes, whatever the outcome *)
Definition bskel (b : nat * list sparam) := (fst b, map skel (snd b)).
Definition xsame (x x1 : srx) : Prop :=
  x_chem x1 = x_chem x /\ x_kin x1 = x_kin x /\ x_th x1 = x_th x /\
  map skel (x_params x1) = map skel (x_params x) /\ map bskel (x_surf x1) = map bskel (x_surf x).
Lemma xsame_refl x : xsame x x.
Proof. split; [|split; [|split; [|split]]]; reflexivity. Qed.
Lemma xsame_trans x y z : xsame x y -> xsame y z -> xsame x z.
Proof. intros (A & B & C & D & E) (A' & B' & C' & D' & E'). split; [|split; [|split; [|split]]]; congruence. Qed.
Definition fkeeps (f : world -> sparam -> outcome unit * (world * sparam)) : Prop :=
  forall w p, wsame w (fst (snd (f w p))) /\ skel (snd (snd (f w p))) = skel p.
Lemma keeps_apply kin th ps : fkeeps (apply_param kin th ps).
Proof.
  intros w p. unfold apply_param, apply_reaction. destruct (sp_kind p) eqn:K; destruct (nth_error ps (sp_global p)) as [v|]; cbn [fst snd].
  - split; [apply wsame_mult|]. unfold skel. cbn. rewrite K. reflexivity.
  - split; [apply wsame_refl|reflexivity].
  - split; [apply wsame_modify|reflexivity].
  - split; [apply wsame_refl|reflexivity].
Qed.
Lemma keeps_apply_reaction kin ps w p : sp_kind p = PReaction ->
  wsame w (fst (snd (apply_reaction kin ps w p))) /\ skel (snd (snd (apply_reaction kin ps w p))) = skel p.
Proof.
  intros K. pose proof (keeps_apply kin 0 ps w p) as H. unfold apply_param in H. rewrite K in H. exact H.
Qed.
Lemma keeps_reset kin th : fkeeps (reset_param kin th).
Proof.
  intros w p. unfold reset_param, reset_reaction. destruct (sp_kind p); cbn [fst snd].
  - split; [apply wsame_mult|reflexivity].
  - split; [apply wsame_reset|reflexivity].
Qed.
Lemma keeps_loop f l : (forall w p, In p l -> wsame w (fst (snd (f w p))) /\ skel (snd (snd (f w p))) = skel p) ->
  forall w, wsame w (fst (snd (loop f w l))) /\ map skel (snd (snd (loop f w l))) = map skel l.
Proof.
  induction l as [|p l IH]; intros F w; cbn [loop]; [split; [apply wsame_refl|reflexivity]|].
  destruct (F w p (or_introl eq_refl)) as [F1 F2]. destruct (f w p) as [[u| | |] [w1 p1]]; cbn [fst snd map] in *; try (split; [exact F1|congruence]).
  destruct (IH (fun w p Hp => F w p (or_intror Hp)) w1) as [I1 I2]. split; [eapply wsame_trans; eassumption|congruence].
Qed.
Lemma keeps_surfaces f l : (forall w b, In b l -> wsame w (fst (snd (f w b))) /\ bskel (snd (snd (f w b))) = bskel b) ->
  forall w, wsame w (fst (snd (surfaces f w l))) /\ map bskel (snd (snd (surfaces f w l))) = map bskel l.
Proof.
  induction l as [|b l IH]; intros F w; cbn [surfaces]; [split; [apply wsame_refl|reflexivity]|].
  destruct (F w b (or_introl eq_refl)) as [F1 F2]. destruct (f w b) as [[u| | |] [w1 b1]]; cbn [fst snd map] in *; try (split; [exact F1|congruence]).
  destruct (IH (fun w p Hp => F w p (or_intror Hp)) w1) as [I1 I2]. split; [eapply wsame_trans; eassumption|congruence].
Qed.
Lemma keeps_applyS ps w x : surf_kinds x -> wsame w (fst (snd (applySensitivity ps w x))) /\ xsame x (snd (snd (applySensitivity ps w x))).
Proof.
  intros K. unfold applySensitivity. destruct ps as [ps|]; [|split; [apply wsame_refl|apply xsame_refl]].
  destruct (keeps_loop (apply_param (x_kin x) (x_th x) ps) (x_params x) (fun w p _ => keeps_apply _ _ _ w p) w) as [A1 A2].
  destruct (loop _ _ _) as [[u| | |] [w1 l1]]; cbn [fst snd] in *; try (split; [exact A1|split; [|split; [|split; [|split]]]; cbn; congruence]).
  destruct (keeps_surfaces (apply_surface ps) (x_surf x)) with (w := w1) as [B1 B2].
  - intros w' b Hb. unfold apply_surface. cbn [fst snd].
    destruct (keeps_loop (apply_reaction (fst b) ps) (snd b)) with (w := w') as [C1 C2].
    + intros w2 p Hp. apply keeps_apply_reaction. eapply K; eassumption.
    + split; [exact C1|]. unfold bskel. cbn [fst snd]. rewrite C2. reflexivity.
  - split; [eapply wsame_trans; eassumption|]. split; [|split; [|split; [|split]]]; cbn; congruence.
Qed.
Lemma keeps_resetS ps w x : wsame w (fst (snd (resetSensitivity ps w x))) /\ xsame x (snd (snd (resetSensitivity ps w x))).
Proof.
  unfold resetSensitivity. destruct ps as [ps|]; [|split; [apply wsame_refl|apply xsame_refl]].
  destruct (keeps_loop (reset_param (x_kin x) (x_th x)) (x_params x) (fun w p _ => keeps_reset _ _ w p) w) as [A1 A2].
  destruct (loop _ _ _) as [[u| | |] [w1 l1]]; cbn [fst snd] in *; try (split; [exact A1|split; [|split; [|split; [|split]]]; cbn; congruence]).
  destruct (keeps_surfaces reset_surface (x_surf x)) with (w := w1) as [B1 B2].
  - intros w' b Hb. unfold reset_surface. cbn [fst snd].
    destruct (keeps_loop (reset_reaction (fst b)) (snd b)) with (w := w') as [C1 C2].
    + intros w2 p Hp. cbn. split; [apply wsame_mult|reflexivity].
    + split; [exact C1|]. unfold bskel. cbn [fst snd]. rewrite C2. reflexivity.
  - split; [eapply wsame_trans; eassumption|]. split; [|split; [|split; [|split]]]; cbn; congruence.
Qed.

(* What all reachable networks satisfy. *)
Definition gskel (sens : list R) (w : world) (th : nat) (q : nat * nat * pkind * R) : Prop :=
  match q with (l, g, k, _) =>
    match k with
    | PReaction => nth_error sens g = Some 1
    | PEnthalpy => nth_error sens g = Some 0 /\ exists t, nth_error (w_th w th) l = Some t /\ t <> Other
    end
  end.
Definition gsurf (sens : list R) (b : nat * list (nat * nat * pkind * R)) : Prop :=
  Forall (fun q => snd (fst q) = PReaction /\ nth_error sens (snd (fst (fst q))) = Some 1) (snd b).
Definition good_rx (sens : list R) (w : world) (x : srx) : Prop :=
  Forall (gskel sens w (x_th x)) (map skel (x_params x)) /\ Forall (gsurf sens) (map bskel (x_surf x)).
Definition good (s : snet) : Prop := Forall (good_rx (s_sens s) (s_world s)) (s_rx s).
Lemma gskel_wsame sens w w' th q : wsame w w' -> gskel sens w th q -> gskel sens w' th q.
Proof.
  destruct q as [[[l g] []] v]; cbn; [auto|]. intros S (H & t & E & N). split; [exact H|].
  destruct (wsame_species _ _ _ _ _ S E) as (t' & E' & C). exists t'. split; [exact E'|]. eapply core_other; [symmetry; exact C|exact N].
Qed.
Lemma gskel_app sens v w th q : gskel sens w th q -> gskel (sens ++ [v]) w th q.
Proof.
  destruct q as [[[l g] []] u]; cbn; intros H.
  - rewrite nth_error_app1; [exact H|]. apply nth_error_Some. congruence.
  - destruct H as [H T]. split; [|exact T]. rewrite nth_error_app1; [exact H|]. apply nth_error_Some. congruence.
Qed.
Lemma good_rx_same sens w w' x x' : wsame w w' -> xsame x x' -> good_rx sens w x -> good_rx sens w' x'.
Proof.
  intros S (_ & _ & T & P & B) [G1 G2]. unfold good_rx. rewrite T, P, B. split; [|exact G2].
  eapply Forall_impl; [|exact G1]. intros q. apply gskel_wsame. exact S.
Qed.
Lemma good_rx_app sens v w x : good_rx sens w x -> good_rx (sens ++ [v]) w x.
Proof.
  intros [G1 G2]. split; [eapply Forall_impl; [|exact G1]; intros q; apply gskel_app|].
  eapply Forall_impl; [|exact G2]. intros b H. eapply Forall_impl; [|exact H]. intros q [Q1 Q2]. split; [exact Q1|].
  rewrite nth_error_app1; [exact Q2|]. apply nth_error_Some. congruence.
Qed.
Lemma good_surf_kinds sens w x : good_rx sens w x -> surf_kinds x.
Proof.
  intros [_ G] b p Hb Hp. rewrite Forall_forall in G. specialize (G (bskel b) (in_map bskel _ _ Hb)).
  unfold gsurf in G. rewrite Forall_forall in G. destruct (G (skel p) (in_map skel _ _ Hp)) as [K _]. exact K.
Qed.
Lemma good_entry sens w x e : good_rx sens w x -> In e (entries x) ->
  (is_rxn e = true /\ nth_error sens (sp_global (snd e)) = Some 1) \/
  (is_rxn e = false /\ fst e = x_kin x /\ In (snd e) (x_params x) /\ nth_error sens (sp_global (snd e)) = Some 0 /\
   exists t, nth_error (w_th w (x_th x)) (sp_local (snd e)) = Some t /\ t <> Other).
Proof.
  intros [G1 G2] He. unfold entries in He. apply in_app_or in He. destruct He as [He|He].
  - apply in_map_iff in He. destruct He as (p & <- & Hp). rewrite Forall_forall in G1. specialize (G1 (skel p) (in_map skel _ _ Hp)).
    unfold is_rxn. cbn [snd fst]. unfold skel, gskel in G1. destruct (sp_kind p); [left; split; [reflexivity|exact G1]|right].
    split; [reflexivity|]. split; [reflexivity|]. split; [exact Hp|exact G1].
  - apply in_flat_map in He. destruct He as (b & Hb & He). apply in_map_iff in He. destruct He as (p & <- & Hp).
    rewrite Forall_forall in G2. specialize (G2 (bskel b) (in_map bskel _ _ Hb)). unfold gsurf in G2. rewrite Forall_forall in G2.
    destruct (G2 (skel p) (in_map skel _ _ Hp)) as [K V]. left. unfold is_rxn. cbn in *. rewrite K. split; [reflexivity|exact V].
Qed.

(* Everything about the entries of a reactor that evaluation keeps. *)
Lemma xsame_entries x x1 : xsame x x1 -> map eskel (entries x1) = map eskel (entries x).
Proof.
  intros (_ & K & _ & P & B). unfold entries. rewrite !map_app, K. f_equal.
  - rewrite !map_map. transitivity (map (pair (x_kin x)) (map skel (x_params x1))).
    + rewrite map_map. reflexivity.
    + rewrite P, map_map. reflexivity.
  - revert B. generalize (x_surf x1). induction (x_surf x) as [|b l IH]; intros [|b1 l1] B; cbn in B; try discriminate; [reflexivity|].
    injection B as B1 B2 B3. cbn [flat_map]. rewrite !map_app. f_equal; [|apply IH; exact B3]. rewrite !map_map. unfold eskel. cbn [fst snd].
    rewrite B1. transitivity (map (pair (fst b)) (map skel (snd b1))); [rewrite map_map; reflexivity|]. rewrite B2, map_map. reflexivity.
Qed.
Lemma xsame_lists x x1 : xsame x x1 -> reactions x1 = reactions x /\ species x1 = species x.
Proof. intros H. apply eskel_rkeys. apply xsame_entries. exact H. Qed.

Section Eval.
  Context {obs : Type} (E : nat -> world -> outcome obs).

  Lemma keeps_eval ps l : forall w r, Forall surf_kinds l ->
    wsame w (fst (snd (eval_from E ps w r l))) /\ Forall2 xsame l (snd (snd (eval_from E ps w r l))).
  Proof.
    assert (RF : forall l, Forall2 xsame l l) by (induction l0; constructor; [apply xsame_refl|assumption]).
    induction l as [|x l IH]; intros w r K; cbn [eval_from]; [split; [apply wsame_refl|constructor]|].
    inversion K as [|? ? K1 K2]; subst. destruct (keeps_applyS ps w x K1) as [A1 A2].
    destruct (applySensitivity ps w x) as [[u| | |] [w1 x1]]; cbn [fst snd] in *; try (split; [exact A1|constructor; [exact A2|apply RF]]).
    destruct (E r w1) as [o| | |]; cbn [fst snd]; try (split; [exact A1|constructor; [exact A2|apply RF]]).
    destruct (keeps_resetS ps w1 x1) as [B1 B2].
    destruct (resetSensitivity ps w1 x1) as [[u'| | |] [w2 x2]]; cbn [fst snd] in *;
      try (split; [eapply wsame_trans; eassumption|constructor; [eapply xsame_trans; eassumption|apply RF]]).
    destruct (IH w2 (S r) K2) as [I1 I2].
    split; [eapply wsame_trans; [eapply wsame_trans; eassumption|exact I1]|]. constructor; [eapply xsame_trans; eassumption|exact I2].
  Qed.
  Lemma good_kinds s : good s -> Forall surf_kinds (s_rx s).
  Proof. intros G. eapply Forall_impl; [|exact G]. intros x. apply good_surf_kinds. Qed.
  Lemma forall_lset {A} (P : A -> Prop) l i v : Forall P l -> P v -> Forall P (lset l i v).
  Proof. intros H V. revert i. induction H; intros [|i]; cbn; constructor; auto. Qed.
  Lemma Forall_nth_error {A} (P : A -> Prop) l i a : Forall P l -> nth_error l i = Some a -> P a.
  Proof. intros H Hi. rewrite Forall_forall in H. apply H. eapply nth_error_In. exact Hi. Qed.
  Lemma map_lset {A B} (f : A -> B) l i v : map f (lset l i v) = lset (map f l) i (f v).
  Proof. revert i. induction l; intros [|i]; cbn; [reflexivity..|]. rewrite IHl. reflexivity. Qed.

  Lemma good_step s o : good s -> good (sstep E s o).
  Proof.
    intros G. destruct o as [chem kin th surf|r i|r k|r j i|kin i v|th k h|th k|b|params]; cbn [sstep].
    - apply Forall_app. split; [exact G|]. constructor; [|constructor]. split; [constructor|]. cbn [s_rx x_surf].
      clear. induction surf; cbn; constructor; [constructor|assumption].
    - unfold addReaction. destruct (nth_error (s_rx s) r) as [x|] eqn:Ex; [|exact G]. destruct (_ || _); [exact G|].
      unfold register. destruct (s_ready s); [exact G|]. cbn [snd set_rx s_rx s_sens s_world].
      unfold good. cbn [s_rx s_sens s_world]. apply forall_lset; [eapply Forall_impl; [|exact G]; intros; apply good_rx_app; assumption|].
      destruct (good_rx_app _ 1 _ _ (Forall_nth_error _ _ _ _ G Ex)) as [G1 G2]. split; [|exact G2]. cbn [x_th x_params with_params].
      rewrite map_app. apply Forall_app. split; [exact G1|]. constructor; [|constructor]. cbn.
      rewrite nth_error_app2, Nat.sub_diag by lia. reflexivity.
    - unfold addEnthalpy. destruct (nth_error (s_rx s) r) as [x|] eqn:Ex; [|exact G]. destruct (length _ <=? k)%nat eqn:L; [exact G|].
      unfold register. destruct (s_ready s); [exact G|]. cbn [s_world].
      assert (G' : Forall (good_rx (s_sens s ++ [0]) (s_world s)) (s_rx s)) by (eapply Forall_impl; [|exact G]; intros; apply good_rx_app; assumption).
      destruct (Hf298SS (s_world s) (x_th x) k) as [h| | |] eqn:Eh; try exact G'.
      cbn [snd set_rx s_rx s_sens s_world]. unfold good. cbn [s_rx s_sens s_world]. apply forall_lset; [exact G'|].
      destruct (good_rx_app _ 0 _ _ (Forall_nth_error _ _ _ _ G Ex)) as [G1 G2]. split; [|exact G2]. cbn [x_th x_params with_params].
      rewrite map_app. apply Forall_app. split; [exact G1|]. constructor; [|constructor]. cbn.
      rewrite nth_error_app2, Nat.sub_diag by lia. split; [reflexivity|]. unfold Hf298SS in Eh.
      apply Nat.leb_gt in L. destruct (nth_error (w_th (s_world s) (x_th x)) k) as [t|] eqn:Et; [|apply nth_error_None in Et; lia].
      exists t. split; [reflexivity|]. intros ->. discriminate.
    - unfold addSurfReaction. destruct (nth_error (s_rx s) r) as [x|] eqn:Ex; [|exact G]. destruct (nth_error (x_surf x) j) as [[kin l]|] eqn:Ej; [|exact G].
      destruct (_ <=? _)%nat; [exact G|]. unfold register. destruct (s_ready s); [exact G|]. cbn [snd set_rx s_rx s_sens s_world].
      unfold good. cbn [s_rx s_sens s_world]. apply forall_lset; [eapply Forall_impl; [|exact G]; intros; apply good_rx_app; assumption|].
      destruct (good_rx_app _ 1 _ _ (Forall_nth_error _ _ _ _ G Ex)) as [G1 G2]. split; [exact G1|]. cbn [x_surf with_params].
      rewrite map_lset. apply forall_lset; [exact G2|]. unfold bskel, gsurf. cbn [fst snd]. rewrite map_app. apply Forall_app. split.
      + apply (Forall_nth_error _ _ j (bskel (kin, l)) G2). rewrite nth_error_map, Ej. reflexivity.
      + constructor; [|constructor]. cbn. rewrite nth_error_app2, Nat.sub_diag by lia. split; reflexivity.
    - eapply Forall_impl; [|exact G]. intros x. apply good_rx_same; [apply wsame_mult|apply xsame_refl].
    - eapply Forall_impl; [|exact G]. intros x. apply good_rx_same; [apply wsame_modify|apply xsame_refl].
    - eapply Forall_impl; [|exact G]. intros x. apply good_rx_same; [apply wsame_reset|apply xsame_refl].
    - exact G.
    - unfold netEval. cbn [snd]. unfold good. cbn [s_sens s_world s_rx].
      destruct (keeps_eval params (s_rx s) (s_world s) 0%nat (good_kinds s G)) as [A B]. revert A B.
      generalize (fst (snd (eval_from E params (s_world s) 0 (s_rx s)))), (snd (snd (eval_from E params (s_world s) 0 (s_rx s)))).
      intros w1 l1 A B. unfold good in G. induction B as [|x x1 l l1 X B IH]; [constructor|]. inversion G; subst.
      constructor; [eapply good_rx_same; eassumption|apply IH; assumption].
  Qed.
  Lemma srun_snoc w0 a o : srun E w0 (a ++ [o]) = sstep E (srun E w0 a) o.
  Proof. unfold srun. rewrite fold_left_app. reflexivity. Qed.
  Lemma good_run w0 ops : good (srun E w0 ops).
  Proof. induction ops using rev_ind; [constructor|]. rewrite srun_snoc. apply good_step. exact IHops. Qed.
  Lemma wsame_step s o : good s -> wsame (s_world s) (s_world (sstep E s o)).
  Proof.
    intros G. destruct o as [chem kin th surf|r i|r k|r j i|kin i v|th k h|th k|b|params]; cbn [sstep].
    - apply wsame_refl.
    - unfold addReaction. destruct (nth_error (s_rx s) r) as [x|]; [|apply wsame_refl]. destruct (_ || _); [apply wsame_refl|].
      unfold register. destruct (s_ready s); apply wsame_refl.
    - unfold addEnthalpy. destruct (nth_error (s_rx s) r) as [x|]; [|apply wsame_refl]. destruct (_ <=? _)%nat; [apply wsame_refl|].
      unfold register. destruct (s_ready s); [apply wsame_refl|]. destruct (Hf298SS _ _ _); apply wsame_refl.
    - unfold addSurfReaction. destruct (nth_error (s_rx s) r) as [x|]; [|apply wsame_refl]. destruct (nth_error (x_surf x) j) as [[kin l]|]; [|apply wsame_refl].
      destruct (_ <=? _)%nat; [apply wsame_refl|]. unfold register. destruct (s_ready s); apply wsame_refl.
    - apply wsame_mult.
    - apply wsame_modify.
    - apply wsame_reset.
    - apply wsame_refl.
    - unfold netEval. cbn [snd s_world]. apply keeps_eval. apply good_kinds. exact G.
  Qed.
  Lemma wsame_run w0 ops : wsame w0 (s_world (srun E w0 ops)).
  Proof.
    induction ops using rev_ind; [apply wsame_refl|]. rewrite srun_snoc. eapply wsame_trans; [exact IHops|]. apply wsame_step. apply good_run.
  Qed.

  (* -------------------------------------------------------------- *)
  (** * One evaluation *)
  Lemma weq_refl w : weq w w. Proof. repeat split. Qed.
  Lemma weq_trans a b c : weq a b -> weq b c -> weq a c.
  Proof.
    intros (A1 & A2 & A3) (B1 & B2 & B3). split; [congruence|]. split; [intros; rewrite B2; apply A2|intros; rewrite B3; apply A3].
  Qed.
  Lemma weq_original w w' th k : weq w w' -> original w th k -> original w' th k.
  Proof. intros (_ & _ & H) O t E1. apply O. rewrite <- H. exact E1. Qed.
  Lemma weq_wsame w w' : weq w w' -> wsame w w'.
  Proof. intros (A & _ & B). split; [exact A|]. intros th. rewrite B. reflexivity. Qed.

  Lemma good_locals sens w x : good_rx sens w x -> forall k, In k (species x) -> (k < length (w_th w (x_th x)))%nat.
  Proof.
    intros G k Hk. unfold species in Hk. apply in_map_iff in Hk. destruct Hk as (e & <- & He). apply filter_In in He. destruct He as [He Hb].
    destruct (good_entry _ _ _ _ G He) as [[C _]|(_ & _ & _ & _ & t & T & _)]; [rewrite C in Hb; discriminate|].
    apply nth_error_Some. congruence.
  Qed.
  Lemma perturbed_weq w w' x ps w1 : weq w w' -> perturbed w' x ps w1 -> perturbed w x ps w1.
  Proof.
    intros (_ & M & T) (P1 & P2 & P3 & P4 & P5). split; [|split; [|split; [|split]]].
    - intros e He Hr. destruct (P1 e He Hr) as (v & V1 & V2). exists v. split; [exact V1|]. rewrite V2, M. reflexivity.
    - intros kin i N. rewrite P2 by exact N. apply M.
    - exact P3.
    - intros k N. rewrite P4 by exact N. rewrite T. reflexivity.
    - intros th N. rewrite P5 by exact N. apply T.
  Qed.
  Lemma applied_perturbed sens ps w x w1 x1 : sound w -> good_rx sens w x -> NoDup (reactions x) ->
    applySensitivity (Some ps) w x = (Ok tt, (w1, x1)) -> perturbed w x ps w1.
  Proof.
    intros S G ND H. destruct (apply_applied _ _ _ _ _ (good_surf_kinds _ _ _ G) H) as (A & _).
    destruct (applied_mult _ _ _ _ _ _ A ND) as [M1 _]. pose proof (applied_mult_other _ _ _ _ _ _ A) as M2.
    destruct (applied_species _ _ _ _ _ _ A) as (S1 & S2 & S3).
    split; [exact M1|]. split; [exact M2|]. split; [|split; [exact S2|exact S1]].
    intros NS. apply S3; [exact S|exact (good_locals _ _ _ G)|exact NS].
  Qed.

  Lemma eval_ok sens ps l : forall w r os w' l', Forall (good_rx sens w) l -> Forall (fun x => NoDup (reactions x)) l ->
    (forall x k, In x l -> In k (species x) -> original w (x_th x) k) ->
    eval_from E (Some ps) w r l = (Ok os, (w', l')) ->
    weq w w' /\ length os = length l /\
    forall j o x, nth_error os j = Some o -> nth_error l j = Some x ->
      exists w1 x1 wj, weq w wj /\ applySensitivity (Some ps) wj x = (Ok tt, (w1, x1)) /\ E (r + j) w1 = Ok o.
  Proof.
    induction l as [|x l IH]; intros w r os w' l' G ND Or H; cbn [eval_from] in H.
    - injection H as <- <- <-. split; [apply weq_refl|]. split; [reflexivity|]. intros [|j] o x Hj; discriminate.
    - inversion G as [|? ? G1 G2]; subst. inversion ND as [|? ? N1 N2]; subst. pose proof (good_surf_kinds _ _ _ G1) as K.
      destruct (keeps_applyS (Some ps) w x K) as [A1 A2].
      destruct (applySensitivity (Some ps) w x) as [[[]| | |] [w1 x1]] eqn:EA; try discriminate. cbn [fst snd] in *.
      destruct (E r w1) as [o| | |] eqn:EE; try discriminate. destruct (keeps_resetS (Some ps) w1 x1) as [B1 B2].
      destruct (resetSensitivity (Some ps) w1 x1) as [[[]| | |] [w2 x2]] eqn:ER; try discriminate. cbn [fst snd] in *.
      pose proof (good_surf_kinds _ _ _ (good_rx_same _ _ _ _ _ A1 A2 G1)) as K1.
      destruct (apply_reset ps w x w1 x1 w2 x2 K K1 N1 (fun k Hk => Or x k (or_introl eq_refl) Hk) EA ER) as [W ->].
      { destruct A1, B1. congruence. }
      destruct (eval_from E (Some ps) w2 (S r) l) as [q [w3 l3]] eqn:EQ. cbn [fst snd] in H. destruct q as [os'| | |]; try discriminate.
      cbn in H. injection H as <- <- <-.
      destruct (IH w2 (S r) os' w3 l3) as (I1 & I2 & I3).
      + eapply Forall_impl; [|exact G2]. intros y. apply good_rx_same; [apply weq_wsame; exact W|apply xsame_refl].
      + exact N2.
      + intros y k Hy Hk. eapply weq_original; [exact W|]. apply Or; [right; exact Hy|exact Hk].
      + exact EQ.
      + split; [eapply weq_trans; eassumption|]. split; [cbn; congruence|].
        intros [|j] o' y Hj Hy; cbn in Hj, Hy.
        * injection Hj as <-. injection Hy as <-. exists w1, x1, w. split; [apply weq_refl|]. split; [exact EA|]. rewrite Nat.add_0_r. exact EE.
        * destruct (I3 j o' y Hj Hy) as (wa & xa & wj & J1 & J2 & J3). exists wa, xa, wj. split; [eapply weq_trans; eassumption|].
          split; [exact J2|]. rewrite <- plus_n_Sm. exact J3.
  Qed.

  (* -------------------------------------------------------------- *)
  (** * Nothing fails *)
  Lemma modifySS_total w th k h t : nth_error (w_th w th) k = Some t -> t <> Other -> fst (modifySS w th k h) = Ok tt.
  Proof. intros H N. unfold modifySS. rewrite H. destruct (modify_some t h N) as [t' ->]. reflexivity. Qed.
  Lemma resetSS_total w th k t : nth_error (w_th w th) k = Some t -> t <> Other -> fst (resetSS w th k) = Ok tt.
  Proof. intros H N. unfold resetSS. rewrite H, (reset_some t N). reflexivity. Qed.
  Lemma glt (ps sens : list R) g v : length ps = length sens -> nth_error sens g = Some v -> exists u, nth_error ps g = Some u.
  Proof.
    intros L H. destruct (nth_error ps g) as [u|] eqn:E1; [exists u; reflexivity|]. apply nth_error_None in E1.
    assert (g < length sens)%nat by (apply nth_error_Some; congruence). lia.
  Qed.
  Lemma loop_total f l (I : world -> Prop) : (forall w p, I w -> In p l -> fst (f w p) = Ok tt /\ I (fst (snd (f w p)))) ->
    forall w, I w -> fst (loop f w l) = Ok tt.
  Proof.
    induction l as [|p l IH]; intros F w Iw; cbn [loop]; [reflexivity|]. destruct (F w p Iw (or_introl eq_refl)) as [F1 F2].
    destruct (f w p) as [[[]| | |] [w1 p1]]; try discriminate. cbn [fst snd] in *. apply IH; [|exact F2]. intros w' p' Iw' Hp. apply F; [exact Iw'|right; exact Hp].
  Qed.
  Lemma surfaces_total f l : (forall w b, In b l -> fst (f w b) = Ok tt) -> forall w, fst (surfaces f w l) = Ok tt.
  Proof.
    induction l as [|b l IH]; intros F w; cbn [surfaces]; [reflexivity|]. pose proof (F w b (or_introl eq_refl)) as F1.
    destruct (f w b) as [[[]| | |] [w1 b1]]; try discriminate. cbn [fst snd]. apply IH. intros w' b' Hb. apply F. right. exact Hb.
  Qed.
  Lemma apply_total sens ps w x : good_rx sens w x -> length ps = length sens -> fst (applySensitivity (Some ps) w x) = Ok tt.
  Proof.
    intros G L. pose proof G as [G1 G2]. unfold applySensitivity.
    assert (Hl : fst (loop (apply_param (x_kin x) (x_th x) ps) w (x_params x)) = Ok tt).
    { apply (loop_total _ _ (wsame w)); [|apply wsame_refl]. intros w' p S Hp. split.
      - rewrite Forall_forall in G1. specialize (G1 (skel p) (in_map skel _ _ Hp)). apply (gskel_wsame _ _ _ _ _ S) in G1.
        unfold apply_param, apply_reaction. unfold skel, gskel in G1. destruct (sp_kind p).
        + destruct (glt _ _ _ _ L G1) as [u ->]. reflexivity.
        + destruct G1 as [G1 (t & T & N)]. destruct (glt _ _ _ _ L G1) as [u ->]. cbn [fst]. eapply modifySS_total; eassumption.
      - eapply wsame_trans; [exact S|]. apply keeps_apply. }
    destruct (loop _ _ _) as [[[]| | |] [w1 l1]]; cbn [fst] in Hl; try discriminate. cbn [fst].
    apply surfaces_total. intros w' b Hb. unfold apply_surface. cbn [fst]. apply (loop_total _ _ (fun _ => True)); [|exact I].
    intros w2 p _ Hp. split; [|exact I]. rewrite Forall_forall in G2. specialize (G2 (bskel b) (in_map bskel _ _ Hb)). unfold gsurf in G2.
    rewrite Forall_forall in G2. destruct (G2 (skel p) (in_map skel _ _ Hp)) as [_ V]. unfold apply_reaction. cbn in V. destruct (glt _ _ _ _ L V) as [u ->]. reflexivity.
  Qed.
  Lemma reset_total sens ps w x : good_rx sens w x -> fst (resetSensitivity (Some ps) w x) = Ok tt.
  Proof.
    intros G. pose proof G as [G1 _]. unfold resetSensitivity.
    assert (Hl : fst (loop (reset_param (x_kin x) (x_th x)) w (x_params x)) = Ok tt).
    { apply (loop_total _ _ (wsame w)); [|apply wsame_refl]. intros w' p S Hp. split.
      - rewrite Forall_forall in G1. specialize (G1 (skel p) (in_map skel _ _ Hp)). apply (gskel_wsame _ _ _ _ _ S) in G1.
        unfold reset_param. unfold skel, gskel in G1. destruct (sp_kind p); [reflexivity|].
        destruct G1 as [_ (t & T & N)]. cbn [fst]. eapply resetSS_total; eassumption.
      - eapply wsame_trans; [exact S|]. apply keeps_reset. }
    destruct (loop _ _ _) as [[[]| | |] [w1 l1]]; cbn [fst] in Hl; try discriminate. cbn [fst].
    apply surfaces_total. intros w' b Hb. unfold reset_surface. cbn [fst]. apply (loop_total _ _ (fun _ => True)); [|exact I]. intros; split; [reflexivity|exact I].
  Qed.
  Lemma eval_total sens ps : length ps = length sens -> (forall r w, is_ok (E r w)) ->
    forall l w r, Forall (good_rx sens w) l -> is_ok (fst (eval_from E (Some ps) w r l)).
  Proof.
    intros L T. induction l as [|x l IH]; intros w r G; cbn [eval_from]; [eexists; reflexivity|].
    inversion G as [|? ? G1 G2]; subst. pose proof (good_surf_kinds _ _ _ G1) as K.
    destruct (keeps_applyS (Some ps) w x K) as [A1 A2]. pose proof (apply_total _ _ _ _ G1 L) as EA.
    destruct (applySensitivity (Some ps) w x) as [[[]| | |] [w1 x1]]; cbn [fst snd] in *; try discriminate.
    destruct (T r w1) as [o ->]. destruct (keeps_resetS (Some ps) w1 x1) as [B1 B2].
    pose proof (reset_total _ ps _ _ (good_rx_same _ _ _ _ _ A1 A2 G1)) as ER.
    destruct (resetSensitivity (Some ps) w1 x1) as [[[]| | |] [w2 x2]]; cbn [fst snd] in *; try discriminate.
    destruct (IH w2 (S r)) as [os Hos].
    - eapply Forall_impl; [|exact G2]. intros y. apply good_rx_same; [eapply wsame_trans; eassumption|apply xsame_refl].
    - rewrite Hos. cbn. eexists. reflexivity.
  Qed.

  (* -------------------------------------------------------------- *)
  (** * Registered indexes *)
  Notation globals := positions (only parsing).
  Lemma flat_map_lset {A B} (f : A -> list B) l i a v : nth_error l i = Some a -> exists p q,
    flat_map f l = p ++ f a ++ q /\ flat_map f (lset l i v) = p ++ f v ++ q.
  Proof.
    revert i. induction l as [|b l IH]; intros [|i] H; cbn in H; try discriminate.
    - injection H as ->. exists [], (flat_map f l). split; reflexivity.
    - destruct (IH i H) as (p & q & E1 & E2). exists (f b ++ p), q. cbn. rewrite E1, E2, !app_assoc. split; reflexivity.
  Qed.
  Lemma entries_snoc x p : exists a b, entries x = a ++ b /\
    entries (with_params x (x_params x ++ [p]) (x_surf x)) = a ++ (x_kin x, p) :: b.
  Proof.
    unfold entries. cbn [x_kin x_params x_surf with_params]. rewrite map_app. cbn [map].
    exists (map (pair (x_kin x)) (x_params x)), (flat_map (fun b => map (pair (fst b)) (snd b)) (x_surf x)). rewrite <- app_assoc. split; reflexivity.
  Qed.
  Lemma entries_surf x j kin l p : nth_error (x_surf x) j = Some (kin, l) -> exists a b, entries x = a ++ b /\
    entries (with_params x (x_params x) (lset (x_surf x) j (kin, l ++ [p]))) = a ++ (kin, p) :: b.
  Proof.
    intros H. unfold entries. cbn [x_kin x_params x_surf with_params].
    destruct (flat_map_lset (fun b : nat * list sparam => map (pair (fst b)) (snd b)) (x_surf x) j (kin, l) (kin, l ++ [p]) H) as (u & v & E1 & E2).
    cbn [fst snd] in E1, E2. rewrite E1, E2, map_app. cbn [map].
    exists (map (pair (x_kin x)) (x_params x) ++ u ++ map (pair kin) l), v. rewrite <- !app_assoc. cbn. split; reflexivity.
  Qed.
  (* The entries of all reactors, in one list. *)
  Definition allE (s : snet) : list (nat * nat * sparam) := flat_map (fun x => map (fun e => (x_th x, fst e, snd e)) (entries x)) (s_rx s).

  (* Either a step keeps the reactors' parameters, or adds a reactor without any, or adds one parameter. *)
  Inductive change (s s' : snet) : Prop :=
  | CH_same : s_sens s' = s_sens s -> Forall2 xsame (s_rx s) (s_rx s') -> change s s'
  | CH_only v : s_sens s' = s_sens s ++ [v] -> s_rx s' = s_rx s -> change s s'
  | CH_new x : s_sens s' = s_sens s -> s_rx s' = s_rx s ++ [x] -> entries x = [] -> change s s'
  | CH_add r x x' a b kin p v : s_sens s' = s_sens s ++ [v] -> nth_error (s_rx s) r = Some x -> s_rx s' = lset (s_rx s) r x' ->
      x_th x' = x_th x -> entries x = a ++ b -> entries x' = a ++ (kin, p) :: b -> sp_global p = length (s_sens s) ->
      (sp_kind p = PEnthalpy -> Hf298SS (s_world s) (x_th x) (sp_local p) = Ok (sp_value p) /\ s_world s' = s_world s) ->
      change s s'.
  Lemma xsame_all l : Forall2 xsame l l.
  Proof. induction l; constructor; [apply xsame_refl|assumption]. Qed.
  Lemma step_change s o : good s -> change s (sstep E s o).
  Proof.
    intros G. destruct o as [chem kin th surf|r i|r k|r j i|kin i v|th k h|th k|b|params]; cbn [sstep];
      try (apply CH_same; [reflexivity|apply xsame_all]).
    - eapply CH_new; cbn; [reflexivity|reflexivity|]. unfold entries. cbn. clear. induction surf; [reflexivity|exact IHsurf].
    - unfold addReaction. destruct (nth_error (s_rx s) r) as [x|] eqn:Ex; [|apply CH_same; [reflexivity|apply xsame_all]].
      destruct (_ || _); [apply CH_same; [reflexivity|apply xsame_all]|]. unfold register. destruct (s_ready s); [apply CH_same; [reflexivity|apply xsame_all]|].
      destruct (entries_snoc x (SP i (length (s_sens s)) 1 PReaction)) as (a & b & E1 & E2).
      apply (CH_add _ _ r x (with_params x (x_params x ++ [SP i (length (s_sens s)) 1 PReaction]) (x_surf x)) a b (x_kin x) (SP i (length (s_sens s)) 1 PReaction) 1);
        [reflexivity|exact Ex|reflexivity|reflexivity|exact E1|exact E2|reflexivity|discriminate].
    - unfold addEnthalpy. destruct (nth_error (s_rx s) r) as [x|] eqn:Ex; [|apply CH_same; [reflexivity|apply xsame_all]].
      destruct (_ <=? _)%nat; [apply CH_same; [reflexivity|apply xsame_all]|]. unfold register. destruct (s_ready s); [apply CH_same; [reflexivity|apply xsame_all]|].
      cbn [s_world]. destruct (Hf298SS (s_world s) (x_th x) k) as [h| | |] eqn:Eh; try (eapply CH_only; cbn; reflexivity).
      destruct (entries_snoc x (SP k (length (s_sens s)) h PEnthalpy)) as (a & b & E1 & E2).
      apply (CH_add _ _ r x (with_params x (x_params x ++ [SP k (length (s_sens s)) h PEnthalpy]) (x_surf x)) a b (x_kin x) (SP k (length (s_sens s)) h PEnthalpy) 0);
        [reflexivity|exact Ex|reflexivity|reflexivity|exact E1|exact E2|reflexivity|]. intros _. split; [exact Eh|reflexivity].
    - unfold addSurfReaction. destruct (nth_error (s_rx s) r) as [x|] eqn:Ex; [|apply CH_same; [reflexivity|apply xsame_all]].
      destruct (nth_error (x_surf x) j) as [[kin l]|] eqn:Ej; [|apply CH_same; [reflexivity|apply xsame_all]].
      destruct (_ <=? _)%nat; [apply CH_same; [reflexivity|apply xsame_all]|]. unfold register. destruct (s_ready s); [apply CH_same; [reflexivity|apply xsame_all]|].
      destruct (entries_surf x j kin l (SP i (length (s_sens s)) 1 PReaction) Ej) as (a & b & E1 & E2).
      apply (CH_add _ _ r x (with_params x (x_params x) (lset (x_surf x) j (kin, l ++ [SP i (length (s_sens s)) 1 PReaction]))) a b kin (SP i (length (s_sens s)) 1 PReaction) 1);
        [reflexivity|exact Ex|reflexivity|reflexivity|exact E1|exact E2|reflexivity|discriminate].
    - apply CH_same; [reflexivity|]. unfold netEval. cbn [snd s_rx]. apply keeps_eval. apply good_kinds. exact G.
  Qed.
  Lemma globals_same l l' : Forall2 xsame l l' -> flat_map (fun x => map (fun e => sp_global (snd e)) (entries x)) l' =
    flat_map (fun x => map (fun e => sp_global (snd e)) (entries x)) l.
  Proof.
    induction 1 as [|x y l l' H _ IH]; [reflexivity|]. cbn [flat_map]. rewrite IH. f_equal. apply xsame_entries in H.
    transitivity (map (fun q => snd (fst (fst (snd q)))) (map eskel (entries y))); [rewrite map_map; reflexivity|]. rewrite H, map_map. reflexivity.
  Qed.
  Lemma globals_run w0 ops : NoDup (globals (srun E w0 ops)) /\ forall g, In g (globals (srun E w0 ops)) -> (g < length (s_sens (srun E w0 ops)))%nat.
  Proof.
    induction ops as [|o ops [I1 I2]] using rev_ind; [split; [constructor|intros g []]|]. rewrite srun_snoc.
    set (s := srun E w0 ops) in *. assert (G : good s) by apply good_run.
    destruct (step_change s o G) as [E1 E2|v E1 E2|x E1 E2 E3|r x x' a b kin p v E1 Ex E2 _ E3 E4 E5 _]; unfold positions in *; rewrite E1 in *.
    - rewrite (globals_same _ _ E2). split; [exact I1|exact I2].
    - rewrite E2. split; [exact I1|]. intros g Hg. specialize (I2 g Hg). rewrite app_length. cbn. lia.
    - rewrite E2, flat_map_app. cbn [flat_map]. rewrite E3. cbn. rewrite app_nil_r. split; assumption.
    - rewrite E2. destruct (flat_map_lset (fun x => map (fun e => sp_global (snd e)) (entries x)) (s_rx s) r x x' Ex) as (u & q & F1 & F2).
      rewrite F1 in I1, I2. rewrite F2, E4. rewrite E3 in I1, I2. rewrite map_app in *. cbn [map snd]. rewrite <- !app_assoc in *. cbn [app].
      rewrite app_length. cbn [length]. rewrite E5.
      assert (N : ~ In (length (s_sens s)) (u ++ map (fun e => sp_global (snd e)) a ++ map (fun e => sp_global (snd e)) b ++ q)).
      { intros C. apply I2 in C. lia. }
      split.
      + rewrite !app_assoc in *. apply NoDup_Add with (a := length (s_sens s)) (l := ((u ++ map (fun e => sp_global (snd e)) a) ++ map (fun e => sp_global (snd e)) b) ++ q).
        * rewrite <- !app_assoc. rewrite app_assoc. cbn [app]. rewrite (app_assoc u). apply Add_app.
        * split; assumption.
      + intros g Hg. destruct (Nat.eq_dec g (length (s_sens s))) as [->|Ng]; [lia|]. assert (g < length (s_sens s))%nat; [|lia]. apply I2.
        rewrite !in_app_iff in *. cbn [In] in Hg. rewrite !in_app_iff in Hg. intuition congruence.
  Qed.

  (* -------------------------------------------------------------- *)
  (** * Histories *)
  Lemma once_back s o : good s -> once (sstep E s o) -> once s.
  Proof.
    intros G. unfold once. destruct (step_change s o G) as [E1 E2|v E1 E2|x E1 E2 E3|r x x' a b kin p v E1 Ex E2 _ E3 E4 E5 _].
    - intros H. induction E2 as [|y z l l' X F IH]; [constructor|]. inversion H; subst. constructor; [|apply IH; assumption].
      destruct (xsame_lists _ _ X) as [Q _]. rewrite <- Q. assumption.
    - rewrite E2. auto.
    - rewrite E2. intros H. apply Forall_app in H. apply H.
    - rewrite E2. intros H. rewrite Forall_forall. intros y Hy. apply In_nth_error in Hy. destruct Hy as (m & Hm).
      destruct (Nat.eq_dec r m) as [<-|N].
      + assert (y = x) by congruence. subst y. assert (Hx : NoDup (reactions x')).
        { refine (Forall_nth_error _ _ r x' H _). rewrite lset_nth, Nat.eqb_refl, Ex. reflexivity. }
        unfold reactions in *. rewrite E3. rewrite E4 in Hx. rewrite filter_app, map_app in *. cbn [filter] in Hx.
        destruct (is_rxn (kin, p)); [cbn [map] in Hx; eapply NoDup_remove_1; exact Hx|exact Hx].
      + refine (Forall_nth_error _ _ m y H _). rewrite lset_nth. apply Nat.eqb_neq in N. rewrite N. exact Hm.
  Qed.
  Lemma netEval_none s os s' : netEval E s None = (Ok os, s') -> s' = s /\ length os = length (s_rx s) /\
    forall r o, nth_error os r = Some o -> E r (s_world s) = Ok o.
  Proof.
    unfold netEval. assert (H : forall l w r os' w' l', eval_from E None w r l = (Ok os', (w', l')) -> w' = w /\ l' = l /\ length os' = length l /\
      forall j o, nth_error os' j = Some o -> E (r + j) w = Ok o).
    { induction l as [|x l IH]; intros w r os' w' l' H; cbn in H.
      - injection H as <- <- <-. split; [reflexivity|]. split; [reflexivity|]. split; [reflexivity|]. intros [|j] o Hj; discriminate.
      - destruct (E r w) as [o| | |] eqn:Er; try discriminate. destruct (eval_from E None w (S r) l) as [q [w2 l2]] eqn:Eq.
        cbn [fst snd] in H. destruct q; try discriminate. cbn in H. injection H as <- <- <-.
        destruct (IH _ _ _ _ _ Eq) as (-> & -> & L & F). split; [reflexivity|]. split; [reflexivity|]. split; [cbn; congruence|].
        intros [|j] o' Hj; cbn in Hj; [injection Hj as <-; rewrite Nat.add_0_r; exact Er|]. rewrite <- plus_n_Sm. apply (F j o' Hj). }
    destruct (eval_from E None (s_world s) 0 (s_rx s)) as [q [w2 l2]] eqn:Eq. cbn [fst snd]. intros K. injection K as -> <-.
    destruct (H _ _ _ _ _ _ Eq) as (-> & -> & L & F). split; [destruct s; reflexivity|]. split; [exact L|exact F].
  Qed.
  (* One evaluation of a reachable network. *)
  Lemma eval_restores s os s' params : good s -> once s -> unmodified s -> netEval E s params = (Ok os, s') -> weq (s_world s) (s_world s').
  Proof.
    intros G O U H. destruct params as [ps|]; [|apply netEval_none in H; destruct H as [-> _]; apply weq_refl].
    unfold netEval in H. destruct (eval_from E (Some ps) (s_world s) 0 (s_rx s)) as [q [w2 l2]] eqn:Eq. cbn [fst snd] in H. injection H as -> <-.
    destruct (eval_ok (s_sens s) ps _ _ _ _ _ _ G O U Eq) as [W _]. exact W.
  Qed.
  Lemma eval_restores_mult s os s' params : good s -> once s -> netEval E s params = (Ok os, s') ->
    forall k i, w_mult (s_world s') k i = w_mult (s_world s) k i.
  Proof.
    intros G O H. destruct params as [ps|]; [|apply netEval_none in H; destruct H as [-> _]; reflexivity].
    unfold netEval in H. destruct (eval_from E (Some ps) (s_world s) 0 (s_rx s)) as [q [w2 l2]] eqn:Eq. cbn [fst snd] in H. injection H as -> <-.
    cbn [s_world]. clear - G O Eq. unfold good, once in *. revert Eq G. generalize (s_world s) as w, 0%nat as r. revert os w2 l2 O. generalize (s_sens s) as sens.
    induction (s_rx s) as [|x l IH]; intros sens os w2 l2 O w r Eq G; cbn [eval_from] in Eq; [injection Eq as <- <- <-; reflexivity|].
    inversion G as [|? ? G1 G2]; subst. inversion O as [|? ? N1 N2]; subst. pose proof (good_surf_kinds _ _ _ G1) as K.
    destruct (keeps_applyS (Some ps) w x K) as [A1 A2].
    destruct (applySensitivity (Some ps) w x) as [[[]| | |] [w1 x1]] eqn:EA; try discriminate. cbn [fst snd] in *.
    destruct (E r w1) as [o| | |] eqn:EE; try discriminate. destruct (keeps_resetS (Some ps) w1 x1) as [B1 B2].
    destruct (resetSensitivity (Some ps) w1 x1) as [[[]| | |] [w3 x2]] eqn:ER; try discriminate. cbn [fst snd] in *.
    pose proof (good_surf_kinds _ _ _ (good_rx_same _ _ _ _ _ A1 A2 G1)) as K1.
    destruct (apply_applied _ _ _ _ _ K EA) as (A & T & _). destruct (reset_undone _ _ _ _ _ K1 ER) as (U & ->).
    rewrite T in U. destruct (applied_keys _ _ _ _ _ _ A) as [E1 _]. destruct (applied_mult _ _ _ _ _ _ A N1) as [_ V].
    destruct (undone_effect _ _ _ _ U (w_mult w) V) as (U1 & U2 & _).
    destruct (eval_from E (Some ps) w3 (S r) l) as [q [w4 l4]] eqn:EQ. cbn [fst snd] in Eq. destruct q as [os'| | |]; try discriminate.
    cbn in Eq. injection Eq as <- <- <-. intros k i. rewrite (IH sens os' w4 l4 N2 w3 (S r) EQ).
    - assert (D : {In (k, i) (rkeys (entries x1))} + {~ In (k, i) (rkeys (entries x1))}).
      { apply in_dec. intros [a b] [c d]. destruct (Nat.eq_dec a c), (Nat.eq_dec b d); [left; congruence|right; congruence..]. }
      destruct D as [d|d]; [apply U1; exact d|]. rewrite U2 by exact d. apply (applied_mult_other _ _ _ _ _ _ A). rewrite <- E1. exact d.
    - eapply Forall_impl; [|exact G2]. intros y. apply good_rx_same; [eapply wsame_trans; eassumption|apply xsame_refl].
  Qed.
  Lemma all_ok_back w0 ops o : all_ok E w0 (ops ++ [o]) -> all_ok E w0 ops.
  Proof. intros H a ps b ->. apply (H a ps (b ++ [o])). rewrite <- app_assoc. reflexivity. Qed.
  Lemma world_step_other s o : (forall p, o <> SEval p) -> (forall k i v, o <> SMult k i v) -> 
    w_mult (s_world (sstep E s o)) = w_mult (s_world s).
  Proof.
    intros N1 N2. destruct o as [chem kin th surf|r i|r k|r j i|kin i v|th k h|th k|b|params]; cbn [sstep]; try reflexivity.
    - unfold addReaction. destruct (nth_error (s_rx s) r) as [x|]; [|reflexivity]. destruct (_ || _); [reflexivity|].
      unfold register. destruct (s_ready s); reflexivity.
    - unfold addEnthalpy. destruct (nth_error (s_rx s) r) as [x|]; [|reflexivity]. destruct (_ <=? _)%nat; [reflexivity|].
      unfold register. destruct (s_ready s); [reflexivity|]. destruct (Hf298SS _ _ _); reflexivity.
    - unfold addSurfReaction. destruct (nth_error (s_rx s) r) as [x|]; [|reflexivity]. destruct (nth_error (x_surf x) j) as [[kin l]|]; [|reflexivity].
      destruct (_ <=? _)%nat; [reflexivity|]. unfold register. destruct (s_ready s); reflexivity.
    - exfalso. eapply N2. reflexivity.
    - cbn [set_world s_world]. unfold modifySS. destruct (nth_error _ k); [|reflexivity]. destruct (modifyHf298 _ _); reflexivity.
    - cbn [set_world s_world]. unfold resetSS. destruct (nth_error _ k); [|reflexivity]. destruct (resetHf298 _); reflexivity.
    - exfalso. eapply N1. reflexivity.
  Qed.
  Lemma multipliers_run w0 ops : all_ok E w0 ops -> once (srun E w0 ops) ->
    forall kin i, w_mult (s_world (srun E w0 ops)) kin i = last_set w0 ops kin i.
  Proof.
    induction ops as [|o ops IH] using rev_ind; [reflexivity|]. intros A O kin i. rewrite srun_snoc in *.
    pose proof (good_run w0 ops) as G. specialize (IH (all_ok_back _ _ _ A) (once_back _ _ G O)).
    unfold last_set. rewrite fold_left_app. cbn [fold_left]. fold (last_set w0 ops kin i).
    destruct o; try (rewrite world_step_other by discriminate; apply IH).
    - cbn [sstep set_world s_world set_mult w_mult]. rewrite IH, (Nat.eqb_sym kin0), (Nat.eqb_sym i0). reflexivity.
    - specialize (A ops params [] eq_refl). cbn [sstep]. destruct (netEval E (srun E w0 ops) params) as [q s'] eqn:Eq.
      destruct A as [os A]. cbn in A. subst q. cbn [snd]. rewrite (eval_restores_mult _ _ _ _ G (once_back _ _ G O) Eq). apply IH.
  Qed.

  (* The value kept with a parameter is the heat of formation of the species. *)
  Definition vals (s : snet) : Prop := forall x e, In x (s_rx s) -> In e (entries x) -> is_rxn e = false ->
    Hf298SS (s_world s) (x_th x) (sp_local (snd e)) = Ok (sp_value (snd e)).
  Lemma vals_same w l l' : Forall2 xsame l l' -> 
    (forall x e, In x l -> In e (entries x) -> is_rxn e = false -> Hf298SS w (x_th x) (sp_local (snd e)) = Ok (sp_value (snd e))) ->
    (forall x e, In x l' -> In e (entries x) -> is_rxn e = false -> Hf298SS w (x_th x) (sp_local (snd e)) = Ok (sp_value (snd e))).
  Proof.
    induction 1 as [|x y l l' X F IH]; intros H z e Hz He Hr; [destruct Hz|]. destruct Hz as [<-|Hz].
    - pose proof (in_map eskel _ _ He) as Q. rewrite (xsame_entries _ _ X) in Q. apply in_map_iff in Q. destruct Q as (e0 & Q & He0).
      destruct X as (_ & _ & T & _). rewrite T. unfold eskel, skel in Q. injection Q as Q1 Q2 Q3 Q4 Q5.
      unfold is_rxn in Hr. destruct (sp_kind (snd e)) eqn:Ke; [discriminate|]. rewrite Q4 in Q5.
      rewrite <- Q5, <- Q2. apply H; [left; reflexivity|exact He0|]. unfold is_rxn. rewrite Q4. reflexivity.
    - apply (IH (fun x e Hx => H x e (or_intror Hx)) z e Hz He Hr).
  Qed.
  Lemma weq_hf w w' th k : weq w w' -> Hf298SS w' th k = Hf298SS w th k.
  Proof. intros (_ & _ & T). unfold Hf298SS. rewrite T. reflexivity. Qed.
  Lemma th_step_same s o : (forall p, o <> SEval p) -> (forall th k h, o <> SHf th k h) -> pristine (s_world s) ->
    forall th, w_th (s_world (sstep E s o)) th = w_th (s_world s) th.
  Proof.
    intros N1 N2 P. destruct o as [chem kin th surf|r i|r k|r j i|kin i v|th k h|th k|b|params]; cbn [sstep]; try reflexivity.
    - unfold addReaction. destruct (nth_error (s_rx s) r) as [x|]; [|reflexivity]. destruct (_ || _); [reflexivity|].
      unfold register. destruct (s_ready s); reflexivity.
    - unfold addEnthalpy. destruct (nth_error (s_rx s) r) as [x|]; [|reflexivity]. destruct (_ <=? _)%nat; [reflexivity|].
      unfold register. destruct (s_ready s); [reflexivity|]. destruct (Hf298SS _ _ _); reflexivity.
    - unfold addSurfReaction. destruct (nth_error (s_rx s) r) as [x|]; [|reflexivity]. destruct (nth_error (x_surf x) j) as [[kin l]|]; [|reflexivity].
      destruct (_ <=? _)%nat; [reflexivity|]. unfold register. destruct (s_ready s); reflexivity.
    - exfalso. eapply N2. reflexivity.
    - intros th'. cbn [set_world s_world]. unfold resetSS. destruct (nth_error (w_th (s_world s) th) k) as [t|] eqn:Et; [|reflexivity].
      assert (D : t = Other \/ t <> Other) by (destruct t; [right|right|left]; congruence). destruct D as [->|D]; [reflexivity|].
      rewrite (P th k t Et D). cbn [snd set_sp w_th]. destruct (Nat.eqb_spec th' th) as [->|]; [|reflexivity]. apply lset_same. exact Et.
    - exfalso. eapply N1. reflexivity.
  Qed.
  Lemma history w0 ops : pristine w0 -> no_hf ops -> all_ok E w0 ops -> once (srun E w0 ops) ->
    (forall th, w_th (s_world (srun E w0 ops)) th = w_th w0 th) /\ vals (srun E w0 ops).
  Proof.
    intros P. induction ops as [|o ops IH] using rev_ind; [intros _ _ _; split; [reflexivity|intros x e []]|]. intros NH A O. rewrite srun_snoc in *.
    pose proof (good_run w0 ops) as G. set (s := srun E w0 ops) in *.
    destruct IH as [I1 I2]; [intros th k h C; apply (NH th k h); apply in_or_app; left; exact C|eapply all_ok_back; exact A|eapply once_back; [exact G|exact O]|].
    assert (Ps : pristine (s_world s)) by (intros th k t Et D; rewrite I1 in Et; apply (P th k t Et D)).
    assert (T : forall th, w_th (s_world (sstep E s o)) th = w_th (s_world s) th).
    { destruct o; try (apply th_step_same; [discriminate|discriminate|exact Ps]).
      - exfalso. apply (NH th k h). apply in_or_app. right. left. reflexivity.
      - specialize (A ops params [] eq_refl). fold s in A. cbn [sstep]. destruct (netEval E s params) as [q s'] eqn:Eq. destruct A as [os A]. cbn in A. subst q.
        cbn [snd]. destruct (eval_restores s os s' params G (once_back _ _ G O)) as (_ & _ & W); [intros x k _ _; apply Ps|exact Eq|exact W]. }
    split; [intros th; rewrite T; apply I1|].
    assert (HF : forall th k, Hf298SS (s_world (sstep E s o)) th k = Hf298SS (s_world s) th k) by (intros; unfold Hf298SS; rewrite T; reflexivity).
    intros y e Hy He Hr. rewrite HF. clear HF T A. revert y e Hy He Hr.
    destruct (step_change s o G) as [E1 E2|v E1 E2|x E1 E2 E3|r x x' a b kin p v E1 Ex E2 Et E3 E4 E5 E6].
    - apply (vals_same _ _ _ E2). exact I2.
    - rewrite E2. exact I2.
    - rewrite E2. intros y e Hy He Hr. apply in_app_or in Hy. destruct Hy as [Hy|[<-|[]]]; [apply I2; assumption|]. rewrite E3 in He. destruct He.
    - rewrite E2. intros y e Hy He Hr. apply In_nth_error in Hy. destruct Hy as (m & Hm). rewrite lset_nth in Hm.
      destruct (Nat.eqb_spec r m) as [Erm|N]; [rewrite <- Erm in Hm|].
      + rewrite Ex in Hm. injection Hm as <-. rewrite Et. rewrite E4 in He. apply in_app_or in He.
        assert (Hx : In x (s_rx s)) by (eapply nth_error_In; exact Ex).
        destruct He as [He|[<-|He]]; [apply (I2 x e Hx); [rewrite E3; apply in_or_app; left; exact He|exact Hr]| |apply (I2 x e Hx); [rewrite E3; apply in_or_app; right; exact He|exact Hr]].
        cbn [snd]. unfold is_rxn in Hr. cbn in Hr. destruct (sp_kind p); [discriminate|]. apply E6. reflexivity.
      + apply (I2 y e); [eapply nth_error_In; exact Hm|exact He|exact Hr].
  Qed.

  (* -------------------------------------------------------------- *)
  (** * Parameters at their nominal values *)
  Lemma modify_nominal t h t' : slopes t -> reportHf298 t = Ok h -> modifyHf298 t h = Ok t' -> t' = t.
  Proof.
    assert (M : forall p, modify1 p (report1 p) = p).
    { intros p. unfold modify1. replace (report1 p - report1 p) with 0 by ring. unfold Rdiv. rewrite Rmult_0_l, Rplus_0_r. destruct p; reflexivity. }
    destruct t as [p|b lo hi|]; cbn; intros S R1 R2; try discriminate; injection R1 as <-; injection R2 as <-.
    - rewrite M. reflexivity.
    - destruct b.
      + replace (report1 lo + (report1 lo - report1 lo)) with (report1 lo) by ring. replace (report1 hi + (report1 lo - report1 lo)) with (report1 hi) by ring. rewrite !M. reflexivity.
      + replace (report1 lo + (report1 hi - report1 hi)) with (report1 lo) by ring. replace (report1 hi + (report1 hi - report1 hi)) with (report1 hi) by ring. rewrite !M. reflexivity.
  Qed.
  Lemma applied_nominal th ps w es w1 es1 : applied th ps w es w1 es1 ->
    (forall e, In e es -> is_rxn e = true -> nth_error ps (sp_global (snd e)) = Some 1) ->
    (forall e, In e es -> is_rxn e = false -> nth_error ps (sp_global (snd e)) = Some 0 /\ Hf298SS w th (sp_local (snd e)) = Ok (sp_value (snd e))) ->
    sound w -> weq w w1.
  Proof.
    intros H. induction H as [|w kin p w1 p1 es w2 es1 H A IH]; intros H1 H2 S; [apply weq_refl|].
    assert (W : weq w w1).
    { destruct (sp_kind p) eqn:K.
      - destruct (apply_param_rxn _ _ _ _ _ _ _ H K) as (v & V & -> & _).
        specialize (H1 (kin, p) (or_introl eq_refl)). unfold is_rxn in H1. cbn [snd] in H1. rewrite K, V in H1. specialize (H1 eq_refl). injection H1 as ->.
        split; [reflexivity|]. split; [|reflexivity]. intros k i. cbn [set_mult w_mult].
        destruct (Nat.eqb_spec k kin) as [->|]; [|reflexivity]. destruct (Nat.eqb_spec i (sp_local p)) as [->|]; [|reflexivity]. cbn. ring.
      - destruct (apply_param_enth _ _ _ _ _ _ _ H K) as (v & V & M & _).
        specialize (H2 (kin, p) (or_introl eq_refl)). unfold is_rxn in H2. cbn [snd] in H2. rewrite K, V in H2. destruct (H2 eq_refl) as [Q Hf]. injection Q as ->.
        rewrite Rplus_0_r in M. unfold modifySS in M. unfold Hf298SS in Hf. destruct (nth_error (w_th w th) (sp_local p)) as [t|] eqn:Et.
        + destruct (modifyHf298 t (sp_value p)) as [t'| | |] eqn:Em; try discriminate. injection M as <-.
          pose proof (modify_nominal _ _ _ (S _ _ _ Et) Hf Em) as ->. split; [reflexivity|]. split; [reflexivity|].
          intros x. cbn [set_sp w_th]. destruct (Nat.eqb_spec x th) as [->|]; [|reflexivity]. apply lset_same. exact Et.
        + injection M as <-. apply weq_refl. }
    eapply weq_trans; [exact W|]. apply IH.
    - intros e He. apply H1. right. exact He.
    - intros e He Hr. destruct (H2 e (or_intror He) Hr) as [Q1 Q2]. split; [exact Q1|]. rewrite (weq_hf _ _ _ _ W). exact Q2.
    - eapply wsame_sound; [apply weq_wsame; exact W|exact S].
  Qed.
End Eval.
