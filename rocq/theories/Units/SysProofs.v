(** Lemmas about unit systems and unit stacks. *)
From Coq Require Import Reals Lra ZArith Lia String Ascii List Bool Arith FunctionalExtensionality.
From Verif Require Import Base.Outcome Base.Fp Strings.Model Strings.Spec Strings.Proofs Strings.CompProofs Units.Model Units.Spec Units.Proofs.
Import ListNotations.
Open Scope R_scope.

Lemma single a n b u : white a -> white b -> uname n -> no_number_head (a ++ n ++ b) -> unit_symbol n u ->
  exists w, Units (a ++ n ++ b) = Ok w /\ fac w = fac u /\ same_dims w u /\ pdim w = pdim u /\ edim w = edim u.
Proof.
  intros Ha Hb Hn Hh Hu.
  assert (unit_text ([] ++ a ++ n ++ b) 1 [(n, 1)]) as T.
  { constructor; [constructor| |exact Hh]. apply (gs_one false _ n 1). now constructor. }
  cbn [app] in T. assert (Forall2 (fun (p : text * R) u => unit_symbol (fst p) u) [(n, 1)] [u]) as F by (constructor; [exact Hu|constructor]).
  rewrite (parse_text_units _ _ _ _ T F). eexists. split; [reflexivity|].
  destruct (fold_times (combine [u] (map snd [(n, 1)])) (num 1) (symbols_ok _ _ F)) as (A&B&C&D).
  destruct (num_vals 1) as (N1&N2&N3&N4). destruct (symbol_ok _ _ Hu) as (P&_).
  rewrite A, C, D, N1, N3, N4. cbn [combine map snd prod_pow sum_dim]. rewrite Rpower_1 by auto.
  split; [ring|]. split; [|split; ring]. intros b0. rewrite B, N2. cbn [combine map snd sum_dim]. ring.
Qed.
Lemma uname_simple n : Forall (fun c => ~ In c ["*"; "/"; "^"]%char /\ isspace c = false) n -> uname n.
Proof.
  intros H. split; [eapply Forall_impl; [|exact H]; simpl; tauto|].
  assert (forall c, In c n -> ~ white [c]) as W.
  { intros c Hc Hw. inversion Hw as [|? ? X _]; subst. apply isspace_iff in X. rewrite Forall_forall in H. destruct (H c Hc). congruence. }
  split; intros c r ->; apply W; [now left|]. apply in_or_app. right. now left.
Qed.
Ltac simple_name := apply uname_simple; repeat (apply Forall_cons; [split; [simpl; intuition discriminate|reflexivity]|]); apply Forall_nil.
Lemma simple_std n u : uname n -> no_number_head n -> known n = Some u ->
  exists w, Units n = Ok w /\ fac w = fac u /\ same_dims w u /\ pdim w = pdim u /\ edim w = edim u.
Proof.
  intros Hn Hh Hk. destruct (single [] n [] u) as (w&H); auto; try constructor; auto.
  - now rewrite app_nil_r.
  - rewrite app_nil_r in H. exists w. exact H.
Qed.

(** * Invariant: what is recorded as default is what is used *)
Definition default_ok (s : usys) (k : dimk) (f : R) (r : units) : Prop :=
  match defs s k with None => f = 1 | Some n => exists u, Units n = Ok u /\ same_dims u r /\ f = fac u end.
Definition Inv (s : usys) : Prop := forall k f r, sys_factor s k = Some f -> reference k = Some r -> default_ok s k f r.
Definition same_act (s s' : usys) : Prop := expl s' = expl s /\ defs s' KActE = defs s KActE /\ fA s' = fA s.
Definition Pos (s : usys) : Prop := 0 < fM s /\ 0 < fL s /\ 0 < fT s /\ 0 < fP s /\ 0 < fE s /\ 0 < fA s /\ 0 < fQ s.

Ltac inv_dims := let k := fresh "k" in let f := fresh "f" in let r := fresh "r" in let Hf := fresh "Hf" in let Hr := fresh "Hr" in intros k f r Hf Hr; destruct k; simpl in Hf, Hr; try discriminate; injection Hf as <-; injection Hr as <-.
Ltac inv_old H u := first [exists u; now auto | exact (H KMass _ _ eq_refl eq_refl) | exact (H KLength _ _ eq_refl eq_refl) | exact (H KTime _ _ eq_refl eq_refl)
  | exact (H KQuantity _ _ eq_refl eq_refl) | exact (H KPressure _ _ eq_refl eq_refl) | exact (H KEnergy _ _ eq_refl eq_refl)].
Lemma Inv0 : Inv sys0.
Proof. inv_dims; reflexivity. Qed.
Lemma Inv_setM s u n : Inv s -> Units n = Ok u -> same_dims u uKg -> Inv (setM s (fac u) n).
Proof.
  intros H Hu Hd. inv_dims; inv_old H u.
Qed.
Lemma Inv_setL s u n : Inv s -> Units n = Ok u -> same_dims u uM -> Inv (setL s (fac u) n).
Proof.
  intros H Hu Hd. inv_dims; inv_old H u.
Qed.
Lemma Inv_setT s u n : Inv s -> Units n = Ok u -> same_dims u uS -> Inv (setT s (fac u) n).
Proof.
  intros H Hu Hd. inv_dims; inv_old H u.
Qed.
Lemma Inv_setP s u n : Inv s -> Units n = Ok u -> same_dims u uPa -> Inv (setP s (fac u) n).
Proof.
  intros H Hu Hd. inv_dims; inv_old H u.
Qed.
Lemma Inv_setE s u n : Inv s -> Units n = Ok u -> same_dims u uJ -> Inv (setE s (fac u) n).
Proof.
  intros H Hu Hd. inv_dims; inv_old H u.
Qed.
Lemma Inv_setQ s u n : Inv s -> Units n = Ok u -> same_dims u uKmol -> Inv (setQ s (fac u) n).
Proof.
  intros H Hu Hd. inv_dims; inv_old H u.
Qed.
Definition name_pos (n : text) : Prop := forall u, Units n = Ok u -> 0 < fac u.
(** what one setting does *)
Inductive setting (s : usys) (n : text) : usys -> Prop :=
| st_same : setting s n s
| st_M u : Units n = Ok u -> same_dims u uKg -> setting s n (setM s (fac u) n)
| st_L u : Units n = Ok u -> same_dims u uM -> setting s n (setL s (fac u) n)
| st_T u : Units n = Ok u -> same_dims u uS -> setting s n (setT s (fac u) n)
| st_P u : Units n = Ok u -> same_dims u uPa -> setting s n (setP s (fac u) n)
| st_E u : Units n = Ok u -> same_dims u uJ -> setting s n (setE s (fac u) n)
| st_Q u : Units n = Ok u -> same_dims u uKmol -> setting s n (setQ s (fac u) n).
Lemma set_one_setting s n : setting s n (fst (set_one s n)).
Proof.
  unfold set_one. destruct (Units n) as [u| | |] eqn:E; try constructor.
  destruct (convertible u uKg) eqn:E1; [apply convertible_iff in E1; now constructor|].
  destruct (convertible u uM) eqn:E2; [apply convertible_iff in E2; now constructor|].
  destruct (convertible u uS) eqn:E3; [apply convertible_iff in E3; now constructor|].
  destruct (convertible u uKmol) eqn:E4; [apply convertible_iff in E4; now constructor|].
  destruct (convertible u uPa) eqn:E5; [apply convertible_iff in E5; now constructor|].
  destruct (convertible u uJ) eqn:E6; [apply convertible_iff in E6; now constructor|].
  destruct (convertible u uK); [constructor|]. destruct (convertible u uA); constructor.
Qed.
Lemma set_entry_setting s k n : setting s n (fst (set_entry s k n)).
Proof.
  unfold set_entry. destruct (Units n) as [u| | |] eqn:E; try constructor.
  destruct k; try constructor; match goal with |- context [convertible u ?r] => destruct (convertible u r) eqn:E1 end; try constructor; auto;
    now apply convertible_iff.
Qed.
Lemma setting_inv s n s' : setting s n s' -> Inv s -> Inv s'.
Proof.
  intros Hs Hi; destruct Hs as [|u|u|u|u|u|u]; auto; [apply Inv_setM|apply Inv_setL|apply Inv_setT|apply Inv_setP|apply Inv_setE|apply Inv_setQ]; auto.
Qed.
Lemma setting_act s n s' : setting s n s' -> same_act s s'.
Proof. intros []; repeat split. Qed.
Lemma setting_pos s n s' : setting s n s' -> name_pos n -> Pos s -> Pos s'.
Proof.
  intros Hs Hp (A&B&C&D&E&F&G). unfold Pos. destruct Hs as [|u Hu|u Hu|u Hu|u Hu|u Hu|u Hu]; simpl; try (apply Hp in Hu); repeat split; assumption.
Qed.
Lemma derive_inv s : Inv s -> Inv (derive_act s).
Proof. intros H. unfold derive_act. destruct (expl s); [exact H|]. inv_dims; inv_old H s. Qed.
Lemma derive_pos s : Pos s -> Pos (derive_act s).
Proof.
  intros (A&B&C&D&E&F&G). unfold derive_act. destruct (expl s); [repeat split; auto|].
  unfold Pos, setA. simpl. repeat split; auto. apply Rmult_lt_0_compat; auto. now apply Rinv_0_lt_compat.
Qed.
Lemma set_act_cases s n : (set_act s n = (s, false)) \/
  (exists u, Units n = Ok u /\ ~ (exists a, act_energy u a) /\ set_act s n = (mkS (fM s) (fL s) (fT s) (fP s) (fE s) (fA s) (fQ s) (expl s) (dset (defs s) KActE n), false)) \/
  (exists u f, Units n = Ok u /\ ((same_dims u uJkmol /\ f = fac u) \/ (same_dims u uK /\ f = GasConstant) \/ (same_dims u uEV /\ f = fac u * Avogadro)) /\
    set_act s n = (mkS (fM s) (fL s) (fT s) (fP s) (fE s) f (fQ s) true (dset (defs s) KActE n), true)).
Proof.
  unfold set_act. destruct (Units n) as [u| | |] eqn:E; auto. right.
  destruct (convertible u uJkmol) eqn:E1; [right; apply convertible_iff in E1; exists u, (fac u); split; [reflexivity|]; split; [tauto|reflexivity]|].
  destruct (convertible u uK) eqn:E2; [right; apply convertible_iff in E2; exists u, GasConstant; split; [reflexivity|]; split; [tauto|reflexivity]|].
  destruct (convertible u uEV) eqn:E3; [right; apply convertible_iff in E3; exists u, (fac u * Avogadro); split; [reflexivity|]; split; [tauto|reflexivity]|].
  left. exists u. split; auto. split; auto. apply convertible_false in E1, E2, E3. intros (a&H). inversion H; subst; contradiction.
Qed.
Lemma set_act_inv s n : Inv s -> Inv (fst (set_act s n)).
Proof.
  intros H. destruct (set_act_cases s n) as [->|[(u&_&_&->)|(u&f&_&_&->)]]; auto; simpl;
    inv_dims; inv_old H s.
Qed.
Lemma set_act_pos s n : name_pos n -> Pos s -> Pos (fst (set_act s n)).
Proof.
  intros Hn (A&B&C&D&E&F&G). pose proof Avogadro_pos. pose proof GasConstant_pos.
  destruct (set_act_cases s n) as [->|[(u&_&_&->)|(u&f&Hu&Hf&->)]]; simpl; repeat split; auto. simpl.
  apply Hn in Hu. destruct Hf as [(_&->)|[(_&->)|(_&->)]]; auto. now apply Rmult_lt_0_compat.
Qed.

Lemma set_names_inv ns : forall s, Inv s -> Inv (fst (set_names s ns)).
Proof.
  induction ns as [|n ns IH]; intros s H; simpl; [now apply derive_inv|].
  pose proof (setting_inv _ _ _ (set_one_setting s n) H) as H1. destruct (set_one s n) as [s' []]; auto.
Qed.
Lemma set_names_pos ns : forall s, Forall name_pos ns -> Pos s -> Pos (fst (set_names s ns)).
Proof.
  induction ns as [|n ns IH]; intros s Hp H; simpl; [now apply derive_pos|]. inversion Hp; subst.
  pose proof (setting_pos _ _ _ (set_one_setting s n) ltac:(assumption) H) as H1. destruct (set_one s n) as [s' []]; auto.
Qed.
Lemma set_entries_inv m : forall s, Inv s -> Inv (fst (set_entries s m)).
Proof.
  induction m as [|[k n] m IH]; intros s H; simpl; auto.
  pose proof (setting_inv _ _ _ (set_entry_setting s k n) H) as H1. destruct (set_entry s k n) as [s' []]; auto.
Qed.
Lemma set_entries_pos m : forall s, Forall name_pos (map snd m) -> Pos s -> Pos (fst (set_entries s m)).
Proof.
  induction m as [|[k n] m IH]; intros s Hp H; simpl; auto. simpl in Hp. inversion Hp; subst.
  pose proof (setting_pos _ _ _ (set_entry_setting s k n) ltac:(assumption) H) as H1. destruct (set_entry s k n) as [s' []]; auto.
Qed.
Lemma set_map_inv m s : Inv s -> Inv (fst (set_map s m)).
Proof.
  intros H. unfold set_map. pose proof (set_entries_inv m s H) as H1. destruct (set_entries s m) as [s' []]; auto.
  destruct (lookup dimk_eqb KActE m); [now apply set_act_inv|now apply derive_inv].
Qed.
Lemma lookup_snd k (m : list (dimk * text)) n : lookup dimk_eqb k m = Some n -> In n (map snd m).
Proof. intros H. apply lookup_in in H. destruct H as (a&H). change n with (snd (a, n)). now apply in_map. Qed.
Lemma set_map_pos m s : Forall name_pos (map snd m) -> Pos s -> Pos (fst (set_map s m)).
Proof.
  intros Hp H. unfold set_map. pose proof (set_entries_pos m s Hp H) as H1. destruct (set_entries s m) as [s' []]; auto.
  destruct (lookup dimk_eqb KActE m) as [n|] eqn:E; [|now apply derive_pos]. apply set_act_pos; auto.
  rewrite Forall_forall in Hp. apply Hp. now apply lookup_snd in E.
Qed.
Lemma ustep_inv o s : Inv s -> Inv (fst (ustep s o)).
Proof. destruct o; simpl; [apply set_names_inv|apply set_map_inv|apply set_act_inv]. Qed.
Lemma urun_inv ops : forall s, Inv s -> Inv (fst (urun s ops)).
Proof.
  induction ops as [|o ops IH]; intros s H; simpl; auto. pose proof (ustep_inv o s H) as H1.
  destruct (ustep s o) as [s' []]; simpl in H1; auto. specialize (IH s' H1). destruct (urun s' ops); auto.
Qed.
Lemma urun_pos ops : forall s, (forall o n, In o ops -> In n (op_names o) -> name_pos n) -> Pos s -> Pos (fst (urun s ops)).
Proof.
  induction ops as [|o ops IH]; intros s Hn H; simpl; auto.
  assert (Pos (fst (ustep s o))) as H1.
  { assert (Forall name_pos (op_names o)) as F by (rewrite Forall_forall; intros n; apply Hn; now left).
    destruct o; simpl; [now apply set_names_pos|now apply set_map_pos|apply set_act_pos; auto]. now inversion F. }
  assert (forall s', Pos s' -> Pos (fst (urun s' ops))) as IH' by (intros s' Hs; apply IH; auto; intros o' n Ho; apply Hn; now right).
  destruct (ustep s o) as [s' []]; simpl in H1; auto. specialize (IH' s' H1). destruct (urun s' ops); auto.
Qed.
Lemma Pos0 : Pos sys0.
Proof. unfold Pos, sys0. simpl. repeat split; lra. Qed.

(** * Activation energy in histories without errors *)
Definition act_factor (u : units) (f : R) : Prop :=
  (same_dims u uJkmol /\ f = fac u) \/ (same_dims u uK /\ f = GasConstant) \/ (same_dims u uEV /\ f = fac u * Avogadro).
Definition ActE (s : usys) : Prop :=
  if expl s then exists n u, defs s KActE = Some n /\ Units n = Ok u /\ act_factor u (fA s) else defs s KActE = None.
Definition ActInv (s : usys) : Prop := ActE s /\ (expl s = false -> fA s = fE s / fQ s).
Lemma same_actE s s' : same_act s s' -> ActE s -> ActE s'.
Proof. intros (A&B&C). unfold ActE. rewrite A, B, C. auto. Qed.
Lemma derive_act_ok s : ActE s -> ActInv (derive_act s).
Proof.
  intros H. unfold derive_act. destruct (expl s) eqn:E.
  - split; auto. congruence.
  - split; [|reflexivity]. unfold ActE in *. unfold setA. simpl. rewrite E in *. exact H.
Qed.
Lemma set_names_act ns : forall s s', ActE s -> set_names s ns = (s', true) -> ActInv s'.
Proof.
  induction ns as [|n ns IH]; intros s s' H; simpl.
  - intros E. injection E as <-. now apply derive_act_ok.
  - pose proof (same_actE _ _ (setting_act _ _ _ (set_one_setting s n)) H) as H1. destruct (set_one s n) as [s1 []]; [|discriminate]. now apply IH.
Qed.
Lemma set_entries_act m : forall s s', ActE s -> set_entries s m = (s', true) -> ActE s'.
Proof.
  induction m as [|[k n] m IH]; intros s s' H; simpl.
  - intros E. injection E as <-. auto.
  - pose proof (same_actE _ _ (setting_act _ _ _ (set_entry_setting s k n)) H) as H1. destruct (set_entry s k n) as [s1 []]; [|discriminate]. now apply IH.
Qed.
Lemma set_act_act n s s' : set_act s n = (s', true) -> ActInv s' /\ expl s' = true.
Proof.
  destruct (set_act_cases s n) as [->|[(u&_&_&->)|(u&f&Hu&Hf&->)]]; try discriminate. intros E. injection E as <-.
  split; [|reflexivity]. split; [|discriminate]. unfold ActE. cbn [expl defs fA]. exists n, u. auto.
Qed.
Lemma set_map_act m s s' : ActE s -> set_map s m = (s', true) -> ActInv s'.
Proof.
  intros H. unfold set_map. destruct (set_entries s m) as [s1 []] eqn:E; [|discriminate]. apply set_entries_act in E; auto.
  destruct (lookup dimk_eqb KActE m) as [n|].
  - intros E2. now apply set_act_act in E2.
  - intros E2. injection E2 as <-. now apply derive_act_ok.
Qed.
Lemma ustep_act o s s' : ActInv s -> ustep s o = (s', true) -> ActInv s'.
Proof.
  intros (H&_). destruct o; simpl; [apply set_names_act; auto|apply set_map_act; auto|]. intros E. now apply set_act_act in E.
Qed.
Lemma urun_true ops : forall s s', urun s ops = (s', true) -> ActInv s -> ActInv s'.
Proof.
  induction ops as [|o ops IH]; intros s s'; simpl.
  - intros E. injection E as <-. auto.
  - destruct (ustep s o) as [s1 []] eqn:E; [|destruct (urun s1 ops); discriminate]. intros H1 H. apply (IH s1 s'); auto. eapply ustep_act; eauto.
Qed.
Lemma ActInv0 : ActInv sys0.
Proof. split; [reflexivity|]. intros _. simpl. field. Qed.
Lemma urun_app ops1 : forall s ops2 s', urun s (ops1 ++ ops2) = (s', true) -> exists s1, urun s ops1 = (s1, true) /\ urun s1 ops2 = (s', true).
Proof.
  induction ops1 as [|o ops1 IH]; intros s ops2 s'; simpl; [eauto|].
  destruct (ustep s o) as [s1 []]; [apply IH|]. destruct (urun s1 (ops1 ++ ops2)); discriminate.
Qed.

(** * Conversions *)
Lemma cancel6 v f a a' b b' c c' d d' e e' g g' : f <> 0 ->
  a * a' = 1 -> b * b' = 1 -> c * c' = 1 -> d * d' = 1 -> e * e' = 1 -> g * g' = 1 ->
  v / f * a * b * c * d * e * g * f * a' * b' * c' * d' * e' * g' = v /\
  v * f * a' * b' * c' * d' * e' * g' / f * a * b * c * d * e * g = v.
Proof.
  intros Hf H1 H2 H3 H4 H5 H6. split.
  - transitivity (v * (f / f) * (a * a') * (b * b') * (c * c') * (d * d') * (e * e') * (g * g')); [field; auto|].
    rewrite H1, H2, H3, H4, H5, H6. field. auto.
  - transitivity (v * (f / f) * (a * a') * (b * b') * (c * c') * (d * d') * (e * e') * (g * g')); [field; auto|].
    rewrite H1, H2, H3, H4, H5, H6. field. auto.
Qed.
Lemma to_from s v u : Pos s -> fac u <> 0 -> convertFrom s (convertTo s v u) u = v /\ convertTo s (convertFrom s v u) u = v.
Proof.
  intros (A&B&C&D&E&_&G) Hu. unfold convertFrom, convertTo.
  replace (- dim u Mass + pdim u + edim u) with (- (dim u Mass - pdim u - edim u)) by ring.
  replace (- dim u Length - pdim u + 2 * edim u) with (- (dim u Length + pdim u - 2 * edim u)) by ring.
  replace (- dim u Time - 2 * pdim u - 2 * edim u) with (- (dim u Time + 2 * pdim u + 2 * edim u)) by ring.
  apply cancel6; auto; now apply cpow_inv.
Qed.

(** * Pseudo-dimensions of the reference units *)
Lemma ref_pseudo : (pdim uKg = 0 /\ edim uKg = 0) /\ (pdim uM = 0 /\ edim uM = 0) /\ (pdim uS = 0 /\ edim uS = 0) /\
  (pdim uKmol = 0 /\ edim uKmol = 0) /\ (pdim uPa = 1 /\ edim uPa = 0) /\ (pdim uJ = 0 /\ edim uJ = 1).
Proof.
  unfold uKg, uM, uS, uKmol, uPa, uJ.
  repeat split; match goal with |- context [make ?f ?d] => destruct (make_cases f d) as [(A&->)|[(A&B&->)|(A&B&->)]] end;
    unfold plike, elike in *; simpl in *; auto; exfalso;
    try (apply A; repeat split; lra); try (apply B; repeat split; lra); repeat match goal with H : _ /\ _ |- _ => destruct H end; lra.
Qed.
Lemma pure_same u f d : pure u -> same_dims u (make f d) -> pdim u = pdim (make f d) /\ edim u = edim (make f d).
Proof.
  intros (P&E) H. rewrite P, E. assert (dim u = d) as Hd by (apply functional_extensionality; intros b; rewrite H, make_dim; reflexivity).
  rewrite Hd.
  destruct (make_cases f d) as [(A&->)|[(A&B&->)|(A&B&->)]]; destruct (make_cases 1 d) as [(A'&->)|[(A'&B'&->)|(A'&B'&->)]]; simpl; tauto.
Qed.
Lemma one_unit s k r w : reference k = Some r -> sys_factor s k = Some (fac w) -> fac w <> 0 -> same_dims w r -> pdim w = pdim r -> edim w = edim r ->
  convertTo s 1 w = 1 /\ (0 < fac w -> convertFrom s 1 w = 1).
Proof.
  intros Hr Hf Hw Hd Hp He. destruct ref_pseudo as ((p1&e1)&(p2&e2)&(p3&e3)&(p4&e4)&(p5&e5)&(p6&e6)).
  unfold convertTo, convertFrom.
  assert (forall x, 0 < x -> cpow x (-1) = / x) as Ci.
  { intros x Hx. rewrite cpow_pos by auto. replace (-1) with (- (1)) by ring. now rewrite Rpower_Ropp, Rpower_1. }
  destruct k; simpl in Hr, Hf; try discriminate; injection Hr as <-; injection Hf as Hf; rewrite Hp, He, ?p1, ?e1, ?p2, ?e2, ?p3, ?e3, ?p4, ?e4, ?p5, ?e5, ?p6, ?e6;
    rewrite !Hd; unfold uKg, uM, uS, uKmol, uPa, uJ; rewrite !make_dim; unfold dims6;
    repeat match goal with |- context [cpow ?x ?e] => lazymatch e with 0 => fail | 1 => fail | -1 => fail
      | _ => first [replace e with 0 by lra | replace e with 1 by lra | replace e with (-1) by lra] end end;
    rewrite ?cpow_0, ?cpow_1, Hf; (split; [field; auto|intros Hpos; rewrite Ci by auto; field; auto]).
Qed.

(** * Which defaults are recorded *)
Lemma dimk_eqb_iff a b : dimk_eqb a b = true <-> a = b.
Proof.
  destruct a, b; simpl; split; intros H; try discriminate; auto.
  - unfold text_eqb in H. destruct (list_eq_dec ascii_dec s s0); congruence.
  - injection H as ->. unfold text_eqb. destruct (list_eq_dec ascii_dec s0 s0); congruence.
Qed.
Lemma dset_get d k n j : dset d k n j = if dimk_eqb j k then Some n else d j.
Proof. reflexivity. Qed.
Lemma set_entry_defs s k n s' : set_entry s k n = (s', true) ->
  (reference k <> None -> defs s' k = Some n) /\ (forall j, j <> k -> defs s' j = defs s j).
Proof.
  unfold set_entry. destruct (Units n) as [u| | |]; try discriminate.
  destruct k; simpl; try discriminate;
    try match goal with |- context [convertible u ?r] => destruct (convertible u r); [|discriminate] end;
    intros E; injection E as <-; try discriminate;
    (split; [try (intros _; reflexivity); try (intros X; now destruct X)|intros j Hj]); auto;
    simpl; unfold dset; (destruct (dimk_eqb j _) eqn:Ej; [apply dimk_eqb_iff in Ej; contradiction|reflexivity]).
Qed.
Lemma set_entries_defs m : forall s s', set_entries s m = (s', true) -> NoDup (map fst m) ->
  (forall k n, In (k, n) m -> reference k <> None -> defs s' k = Some n) /\ (forall j, ~ In j (map fst m) -> defs s' j = defs s j).
Proof.
  induction m as [|[k n] m IH]; intros s s'; simpl.
  - intros E _. injection E as <-. split; [intros k n []|auto].
  - destruct (set_entry s k n) as [s1 []] eqn:E1; [|discriminate]. intros E Hnd. inversion Hnd as [|? ? Hni Hnd']; subst.
    destruct (IH s1 s' E Hnd') as (A&B). apply set_entry_defs in E1. destruct E1 as (C&D). split.
    + intros k' n' [H|H] Hr; [|now apply A]. injection H as -> ->. rewrite B by auto. auto.
    + intros j Hj. rewrite B by tauto. apply D. intros ->. tauto.
Qed.
Lemma lookup_dimk k (m : list (dimk * text)) : NoDup (map fst m) -> (forall n, In (k, n) m -> lookup dimk_eqb k m = Some n) /\
  (~ In k (map fst m) -> lookup dimk_eqb k m = None).
Proof.
  induction m as [|[j n] m IH]; simpl; intros Hnd; [split; [intros n []|auto]|]. inversion Hnd as [|? ? Hni Hnd']; subst.
  destruct (IH Hnd') as (A&B). destruct (dimk_eqb j k) eqn:E.
  - apply dimk_eqb_iff in E. subst. split; [|tauto]. intros n' [H|H]; [congruence|]. exfalso. apply Hni. change k with (fst (k, n')). now apply in_map.
  - split; [|intros H; apply B; tauto]. intros n' [H|H]; [|auto]. injection H as -> ->. assert (dimk_eqb k k = true) by now apply dimk_eqb_iff. congruence.
Qed.
Lemma set_act_defs s n s' : set_act s n = (s', true) -> defs s' = dset (defs s) KActE n.
Proof. destruct (set_act_cases s n) as [->|[(u&_&_&->)|(u&f&_&_&->)]]; intros E; try discriminate. injection E as <-. reflexivity. Qed.
Lemma derive_defs s : defs (derive_act s) = defs s.
Proof. unfold derive_act. destruct (expl s); reflexivity. Qed.
Lemma set_map_defs m s s' : set_map s m = (s', true) -> NoDup (map fst m) ->
  forall k n, In (k, n) m -> reference k <> None \/ k = KActE -> defs s' k = Some n.
Proof.
  unfold set_map. destruct (set_entries s m) as [s1 []] eqn:E1; [|discriminate]. intros E Hnd k n Hin Hk.
  destruct (set_entries_defs _ _ _ E1 Hnd) as (A&B). destruct (lookup_dimk KActE m Hnd) as (L1&L2).
  destruct (lookup dimk_eqb KActE m) as [n0|] eqn:El.
  - apply set_act_defs in E. rewrite E, dset_get. destruct (dimk_eqb k KActE) eqn:Ek.
    + apply dimk_eqb_iff in Ek. subst. specialize (L1 n Hin). congruence.
    + destruct Hk as [Hk| ->]; [|discriminate]. now apply A.
  - injection E as <-. rewrite derive_defs. destruct Hk as [Hk| ->]; [now apply A|]. specialize (L1 n Hin). discriminate.
Qed.
Lemma defaults_of s k n : defs s k = Some n -> defaults s k = Some n.
Proof. intros H. unfold defaults. destruct k; rewrite ?H; auto. Qed.

(** names, not a map *)
Definition kinds : list dimk := [KMass; KLength; KTime; KQuantity; KPressure; KEnergy].
Lemma same_sym u v : same_dims u v -> same_dims v u.
Proof. intros H b. symmetry. apply H. Qed.
Lemma same_trans u v w : same_dims u v -> same_dims v w -> same_dims u w.
Proof. intros H1 H2 b. rewrite H1. apply H2. Qed.
Lemma refs_differ k1 k2 r1 r2 : reference k1 = Some r1 -> reference k2 = Some r2 -> same_dims r1 r2 -> k1 = k2.
Proof.
  intros H1 H2 Hs.
  assert (forall b, dim r1 b = dim r2 b) as H by exact Hs. pose proof (H Mass). pose proof (H Length). pose proof (H Time). pose proof (H Quantity).
  destruct k1; simpl in H1; try discriminate; injection H1 as <-; destruct k2; simpl in H2; try discriminate; injection H2 as <-; auto;
    exfalso; unfold uKg, uM, uS, uKmol, uPa, uJ in *; rewrite !make_dim in *; simpl in *; lra.
Qed.
Lemma set_one_defs s n s' ok u : Units n = Ok u -> set_one s n = (s', ok) -> forall k r, reference k = Some r ->
  (same_dims u r -> ok = true /\ defs s' k = Some n) /\ (~ same_dims u r -> defs s' k = defs s k).
Proof.
  intros Hu. unfold set_one. rewrite Hu.
  assert (forall k r, reference k = Some r -> forall k' s1, same_dims u (match reference k' with Some r' => r' | None => u end) -> reference k' <> None ->
     defs s1 = dset (defs s) k' n -> (same_dims u r -> true = true /\ defs s1 k = Some n) /\ (~ same_dims u r -> defs s1 k = defs s k)) as G.
  { intros k r Hk k' s1 Hs Hn Hd. rewrite Hd, dset_get. destruct (reference k') as [r'|] eqn:Er'; [|congruence].
    destruct (dimk_eqb k k') eqn:E.
    - apply dimk_eqb_iff in E. subst. split; auto. intros X. exfalso. apply X. congruence.
    - split; auto. intros X. exfalso. assert (k = k'); [|subst; assert (dimk_eqb k' k' = true) by (now apply dimk_eqb_iff); congruence].
      apply (refs_differ _ _ r r' Hk Er'). apply same_trans with u; [now apply same_sym|auto]. }
  destruct (convertible u uKg) eqn:E1; [apply convertible_iff in E1; intros E k r Hk; injection E as <- <-; apply (G k r Hk KMass); auto; discriminate|].
  destruct (convertible u uM) eqn:E2; [apply convertible_iff in E2; intros E k r Hk; injection E as <- <-; apply (G k r Hk KLength); auto; discriminate|].
  destruct (convertible u uS) eqn:E3; [apply convertible_iff in E3; intros E k r Hk; injection E as <- <-; apply (G k r Hk KTime); auto; discriminate|].
  destruct (convertible u uKmol) eqn:E4; [apply convertible_iff in E4; intros E k r Hk; injection E as <- <-; apply (G k r Hk KQuantity); auto; discriminate|].
  destruct (convertible u uPa) eqn:E5; [apply convertible_iff in E5; intros E k r Hk; injection E as <- <-; apply (G k r Hk KPressure); auto; discriminate|].
  destruct (convertible u uJ) eqn:E6; [apply convertible_iff in E6; intros E k r Hk; injection E as <- <-; apply (G k r Hk KEnergy); auto; discriminate|].
  intros E k r Hk. assert (s' = s) as -> by (destruct (convertible u uK); [|destruct (convertible u uA)]; congruence).
  split; auto. intros X. exfalso. apply convertible_false in E1, E2, E3, E4, E5, E6.
  destruct k; simpl in Hk; try discriminate; injection Hk as <-; contradiction.
Qed.
Lemma set_names_defs l1 n l2 u k r : Units n = Ok u -> reference k = Some r -> same_dims u r ->
  (forall n' u', In n' l2 -> Units n' = Ok u' -> ~ same_dims u' r) ->
  forall s s', set_names s (l1 ++ n :: l2) = (s', true) -> defs s' k = Some n.
Proof.
  intros Hu Hk Hs Hl. induction l1 as [|m l1 IH]; intros s s'; cbn [app set_names].
  - destruct (set_one s n) as [s1 ok] eqn:E1. pose proof (set_one_defs _ _ _ _ _ Hu E1 k r Hk) as (A&_). destruct (A Hs) as (->&Hd).
    clear E1 A. revert s1 s' Hd. induction l2 as [|m l2 IH2]; intros s1 s' Hd; cbn [set_names].
    + intros E. injection E as <-. now rewrite derive_defs.
    + destruct (set_one s1 m) as [s2 ok] eqn:E2. destruct ok; [|discriminate]. apply IH2.
      * intros n' u' Hin. apply Hl. now right.
      * destruct (Units m) as [um| | |] eqn:Em.
        -- pose proof (set_one_defs _ _ _ _ _ Em E2 k r Hk) as (_&B). rewrite B; auto. apply (Hl m); auto. now left.
        -- unfold set_one in E2. rewrite Em in E2. congruence.
        -- unfold set_one in E2. rewrite Em in E2. congruence.
        -- unfold set_one in E2. rewrite Em in E2. congruence.
  - destruct (set_one s m) as [s1 ok]. destruct ok; [|discriminate]. apply IH.
Qed.

(** * Explicit activation energy *)
Lemma ustep_expl o s s' : ustep s o = (s', true) -> expl s' = true <-> expl s = true \/ sets_act o.
Proof.
  assert (forall n s s', set_act s n = (s', true) -> expl s' = true) as SA.
  { intros n s0 s0' H. now apply set_act_act in H. }
  assert (forall s, expl (derive_act s) = expl s) as DA.
  { intros s0. unfold derive_act. destruct (expl s0) eqn:E; auto. }
  destruct o as [ns|m|n]; simpl.
  - revert s. induction ns as [|n ns IH]; intros s; cbn [set_names].
    + intros E. injection E as <-. rewrite DA. tauto.
    + pose proof (setting_act _ _ _ (set_one_setting s n)) as (A&_). destruct (set_one s n) as [s1 []]; [|discriminate]. simpl in A. intros E.
      rewrite (IH s1 E), A. tauto.
  - unfold set_map. assert (forall s s1, set_entries s m = (s1, true) -> expl s1 = expl s) as SE.
    { induction m as [|[k n] m IH]; intros s0 s1; cbn [set_entries]; [congruence|].
      pose proof (setting_act _ _ _ (set_entry_setting s0 k n)) as (A&_). destruct (set_entry s0 k n) as [s2 []]; [|discriminate]. simpl in A.
      intros E. now rewrite (IH s2 s1 E). }
    destruct (set_entries s m) as [s1 []] eqn:E1; [|discriminate]. apply SE in E1.
    assert ((exists n, lookup dimk_eqb KActE m = Some n) <-> In KActE (map fst m)) as L.
    { clear. induction m as [|[k n] m IH]; simpl; [split; [intros (n&H); discriminate|tauto]|]. destruct (dimk_eqb k KActE) eqn:E.
      - apply dimk_eqb_iff in E. subst. split; eauto.
      - rewrite IH. split; auto. intros [H|H]; auto. subst. discriminate. }
    destruct (lookup dimk_eqb KActE m) as [n|].
    + intros E. apply SA in E. rewrite E. split; auto. intros _. right. apply L. eauto.
    + intros E. injection E as <-. rewrite DA, E1. rewrite <- L. split; auto. intros [H|(n&H)]; auto. discriminate.
  - intros E. apply SA in E. tauto.
Qed.
Lemma urun_expl ops : forall s s', urun s ops = (s', true) -> expl s' = true <-> expl s = true \/ Exists sets_act ops.
Proof.
  induction ops as [|o ops IH]; intros s s'; simpl.
  - intros E. injection E as <-. rewrite Exists_nil. tauto.
  - destruct (ustep s o) as [s1 []] eqn:E1; [|destruct (urun s1 ops); discriminate]. intros E. rewrite (IH s1 s' E), (ustep_expl _ _ _ E1), Exists_cons. tauto.
Qed.

(** * getDelta *)
Ltac std_unit nm := let w := fresh "w" in let W1 := fresh in let W2 := fresh in let W3 := fresh in
  destruct (simple_std (tx nm) _ ltac:(simple_name) ltac:(simpl; intuition discriminate) eq_refl) as (w&W1&W2&W3&_).
Lemma entry_gen s k (nm : string) r f : Inv s -> reference k = Some r -> sys_factor s k = Some f ->
  (exists w, Units (tx nm) = Ok w /\ fac w = 1 /\ same_dims w r) ->
  exists u, Units (def_or s k nm) = Ok u /\ same_dims u r /\ fac u = f.
Proof.
  intros H Hr Hf (w&W1&W2&W3). specialize (H k f r Hf Hr). unfold default_ok in H. unfold def_or.
  destruct (defs s k) as [n|]; [destruct H as (u&U1&U2&U3); exists u; auto|]. exists w. split; auto. split; auto. now rewrite W2.
Qed.
Lemma std_names :
  (exists w, Units (tx "kg") = Ok w /\ fac w = 1 /\ same_dims w uKg) /\ (exists w, Units (tx "m") = Ok w /\ fac w = 1 /\ same_dims w uM) /\
  (exists w, Units (tx "s") = Ok w /\ fac w = 1 /\ same_dims w uS) /\ (exists w, Units (tx "Pa") = Ok w /\ fac w = 1 /\ same_dims w uPa) /\
  (exists w, Units (tx "J") = Ok w /\ fac w = 1 /\ same_dims w uJ) /\ (exists w, Units (tx "kmol") = Ok w /\ fac w = 1 /\ same_dims w uKmol).
Proof.
  split; [|split; [|split; [|split; [|split]]]].
  - destruct (simple_std (tx "kg") uKg ltac:(simple_name) ltac:(simpl; intuition discriminate) eq_refl) as (w&W1&W2&W3&_). exists w. unfold uKg in W2. rewrite make_fac in W2. auto.
  - destruct (simple_std (tx "m") uM ltac:(simple_name) ltac:(simpl; intuition discriminate) eq_refl) as (w&W1&W2&W3&_). exists w. unfold uM in W2. rewrite make_fac in W2. auto.
  - destruct (simple_std (tx "s") uS ltac:(simple_name) ltac:(simpl; intuition discriminate) eq_refl) as (w&W1&W2&W3&_). exists w. unfold uS in W2. rewrite make_fac in W2. auto.
  - destruct (simple_std (tx "Pa") uPa ltac:(simple_name) ltac:(simpl; intuition discriminate) eq_refl) as (w&W1&W2&W3&_). exists w. unfold uPa in W2. rewrite make_fac in W2. auto.
  - destruct (simple_std (tx "J") uJ ltac:(simple_name) ltac:(simpl; intuition discriminate) eq_refl) as (w&W1&W2&W3&_). exists w. unfold uJ in W2. rewrite make_fac in W2. auto.
  - destruct (simple_std (tx "kmol") uKmol ltac:(simple_name) ltac:(simpl; intuition discriminate) eq_refl) as (w&W1&W2&W3&_). exists w. unfold uKmol in W2. rewrite make_fac in W2. auto.
Qed.
Lemma act_factor_fun u f g : act_factor u f -> act_factor u g -> f = g.
Proof.
  assert (forall v w, same_dims u v -> same_dims u w -> forall b, dim v b = dim w b) as S by (intros v w H1 H2 b; rewrite <- H1; apply H2).
  assert (~ (same_dims u uJkmol /\ same_dims u uK)) as N1.
  { intros (H1&H2). pose proof (S _ _ H1 H2 Mass) as X. unfold uJkmol, uK in X. rewrite !make_dim in X. simpl in X. lra. }
  assert (~ (same_dims u uJkmol /\ same_dims u uEV)) as N2.
  { intros (H1&H2). pose proof (S _ _ H1 H2 Quantity) as X. unfold uJkmol, uEV in X. rewrite !make_dim in X. simpl in X. lra. }
  assert (~ (same_dims u uK /\ same_dims u uEV)) as N3.
  { intros (H1&H2). pose proof (S _ _ H1 H2 Mass) as X. unfold uK, uEV in X. rewrite !make_dim in X. simpl in X. lra. }
  intros [(A&->)|[(A&->)|(A&->)]] [(B&->)|[(B&->)|(B&->)]]; auto; exfalso; tauto.
Qed.
Definition same_factors (s s' : usys) : Prop :=
  fM s = fM s' /\ fL s = fL s' /\ fT s = fT s' /\ fP s = fP s' /\ fE s = fE s' /\ fQ s = fQ s' /\ fA s = fA s'.
Lemma set_entries_cons s k n m s1 : set_entry s k n = (s1, true) -> set_entries s ((k, n) :: m) = set_entries s1 m.
Proof. intros H. cbn [set_entries]. now rewrite H. Qed.
Lemma opt_entry (b : bool) s k n s1 m : set_entry s k n = (s1, true) -> (forall s2, s2 = (if b then s1 else s) -> set_entries s ((if b then [(k, n)] else []) ++ m) = set_entries s2 m).
Proof. intros H s2 ->. destruct b; cbn [app]; [now apply set_entries_cons|reflexivity]. Qed.

Lemma delta_ok s other : Inv s -> ActInv s -> (expl other = true -> expl s = true) ->
  exists s', set_map other (getDelta s other) = (s', true) /\ same_factors s' s.
Proof.
  intros HI (HA1&HA2) Hex. destruct std_names as (NM&NL&NT&NP&NE&NQ).
  destruct (entry_gen s KMass "kg" uKg _ HI eq_refl eq_refl NM) as (uM'&M1&M2&M3).
  destruct (entry_gen s KLength "m" uM _ HI eq_refl eq_refl NL) as (uL'&L1&L2&L3).
  destruct (entry_gen s KTime "s" uS _ HI eq_refl eq_refl NT) as (uT'&T1&T2&T3).
  destruct (entry_gen s KPressure "Pa" uPa _ HI eq_refl eq_refl NP) as (uP'&P1&P2&P3).
  destruct (entry_gen s KEnergy "J" uJ _ HI eq_refl eq_refl NE) as (uE'&E1&E2&E3).
  destruct (entry_gen s KQuantity "kmol" uKmol _ HI eq_refl eq_refl NQ) as (uQ'&Q1&Q2&Q3).
  apply convertible_iff in M2, L2, T2, P2, E2, Q2.
  set (bM := negb (reqb (fM s) (fM other))). set (bL := negb (reqb (fL s) (fL other))). set (bT := negb (reqb (fT s) (fT other))).
  set (bP := negb (reqb (fP s) (fP other))). set (bE := negb (reqb (fE s) (fE other))). set (bQ := negb (reqb (fQ s) (fQ other))).
  set (bA := expl s || (expl other && negb (reqb (fA s) (fE s / fQ s)))).
  set (s1 := if bM then setM other (fM s) (def_or s KMass "kg") else other).
  set (s2 := if bL then setL s1 (fL s) (def_or s KLength "m") else s1).
  set (s3 := if bT then setT s2 (fT s) (def_or s KTime "s") else s2).
  set (s4 := if bP then setP s3 (fP s) (def_or s KPressure "Pa") else s3).
  set (s5 := if bE then setE s4 (fE s) (def_or s KEnergy "J") else s4).
  set (s6 := if bQ then setQ s5 (fQ s) (def_or s KQuantity "kmol") else s5).
  assert (forall f g, (if negb (reqb f g) then f else g) = f) as Sel.
  { intros f g. destruct (reqb f g) eqn:E; auto. apply reqb_true in E. simpl. auto. }
  assert (fM s6 = fM s /\ fL s6 = fL s /\ fT s6 = fT s /\ fP s6 = fP s /\ fE s6 = fE s /\ fQ s6 = fQ s /\ expl s6 = expl other) as (F1&F2&F3&F4&F5&F6&F7).
  { unfold s6, s5, s4, s3, s2, s1.
    rewrite <- (Sel (fM s) (fM other)), <- (Sel (fL s) (fL other)), <- (Sel (fT s) (fT other)), <- (Sel (fP s) (fP other)), <- (Sel (fE s) (fE other)), <- (Sel (fQ s) (fQ other)).
    fold bM bL bT bP bE bQ. destruct bM, bL, bT, bP, bE, bQ; repeat split. }
  set (mA := if bA then [(KActE, def_or s KActE "J/kmol")] else []).
  assert (set_entries other (getDelta s other) = set_entries s6 mA) as EE.
  { unfold getDelta. fold bM bL bT bP bE bQ bA mA.
    rewrite (opt_entry bM other KMass _ (setM other (fM s) (def_or s KMass "kg"))) with (s2 := s1) by (auto; unfold set_entry; rewrite M1, M2, M3; reflexivity).
    rewrite (opt_entry bL s1 KLength _ (setL s1 (fL s) (def_or s KLength "m"))) with (s2 := s2) by (auto; unfold set_entry; rewrite L1, L2, L3; reflexivity).
    rewrite (opt_entry bT s2 KTime _ (setT s2 (fT s) (def_or s KTime "s"))) with (s2 := s3) by (auto; unfold set_entry; rewrite T1, T2, T3; reflexivity).
    rewrite (opt_entry bP s3 KPressure _ (setP s3 (fP s) (def_or s KPressure "Pa"))) with (s2 := s4) by (auto; unfold set_entry; rewrite P1, P2, P3; reflexivity).
    rewrite (opt_entry bE s4 KEnergy _ (setE s4 (fE s) (def_or s KEnergy "J"))) with (s2 := s5) by (auto; unfold set_entry; rewrite E1, E2, E3; reflexivity).
    rewrite (opt_entry bQ s5 KQuantity _ (setQ s5 (fQ s) (def_or s KQuantity "kmol"))) with (s2 := s6) by (auto; unfold set_entry; rewrite Q1, Q2, Q3; reflexivity).
    reflexivity. }
  assert (lookup dimk_eqb KActE (getDelta s other) = lookup dimk_eqb KActE mA) as EL.
  { unfold getDelta. fold bM bL bT bP bE bQ bA mA. destruct bM, bL, bT, bP, bE, bQ; reflexivity. }
  unfold set_map. rewrite EE, EL. unfold mA, bA. destruct (expl s) eqn:Es; cbn [orb].
  - unfold ActE in HA1. rewrite Es in HA1. destruct HA1 as (n&u&D1&D2&D3).
    assert (def_or s KActE "J/kmol" = n) as -> by (unfold def_or; now rewrite D1).
    cbn [set_entries]. assert (set_entry s6 KActE n = (s6, true)) as -> by (unfold set_entry; now rewrite D2).
    cbn [lookup]. assert (dimk_eqb KActE KActE = true) as -> by reflexivity.
    destruct (set_act_cases s6 n) as [X|[(u'&U1&U2&X)|(u'&f&U1&U2&X)]].
    + exfalso. unfold set_act in X. rewrite D2 in X. destruct D3 as [(D3&_)|[(D3&_)|(D3&_)]]; apply convertible_iff in D3; rewrite D3 in X;
        destruct (convertible u uJkmol); try discriminate; destruct (convertible u uK); discriminate.
    + exfalso. rewrite D2 in U1. injection U1 as <-. apply U2. destruct D3 as [(D3&_)|[(D3&_)|(D3&_)]]; eexists; [apply ae_molar|apply ae_kelvin|apply ae_molecule]; auto.
    + rewrite D2 in U1. injection U1 as <-. rewrite X. eexists. split; [reflexivity|]. unfold same_factors. simpl. repeat split; auto.
      eapply act_factor_fun; eauto.
  - assert (expl other = false) as Eo by (destruct (expl other); auto; specialize (Hex eq_refl); discriminate).
    rewrite Eo. cbn [andb set_entries lookup]. eexists. split; [reflexivity|]. unfold derive_act. rewrite F7, Eo.
    unfold same_factors, setA. simpl. rewrite F5, F6. repeat split; auto. symmetry. auto.
Qed.

(** * Unit stacks *)
Lemma ueqb_eq u v : ueqb u v = true -> u = v.
Proof.
  unfold ueqb. rewrite !andb_true_iff, !reqb_true. intros (((A&B)&C)&D). change (convertible u v = true) in B. apply convertible_iff in B.
  destruct u, v. simpl in *. subst. f_equal. apply functional_extensionality. exact B.
Qed.
Definition pos_stack (s : ustack) : Prop := Forall (fun p => 0 < fac (fst p)) s.
Lemma sum_dim_app f a b : sum_dim f (a ++ b) = sum_dim f a + sum_dim f b.
Proof. induction a as [|[u e] a IH]; simpl; [ring|]. rewrite IH. ring. Qed.
Lemma prod_pow_app a b : prod_pow (a ++ b) = prod_pow a * prod_pow b.
Proof. induction a as [|[u e] a IH]; simpl; [ring|]. rewrite IH. ring. Qed.
Lemma update_val s u e : 0 < fac u -> prod_pow (update s u e) = prod_pow s * Rpower (fac u) e /\
  (forall f, sum_dim f (update s u e) = sum_dim f s + f u * e) /\ (pos_stack s -> pos_stack (update s u e)).
Proof.
  intros Hu. induction s as [|[v e0] s (IH1&IH2&IH3)]; cbn [update].
  - simpl. split; [ring|]. split; [intros f; ring|]. intros _. constructor; auto.
  - destruct (ueqb v u) eqn:E.
    + apply ueqb_eq in E. subst. cbn [prod_pow sum_dim]. split; [rewrite Rpower_plus; ring|]. split; [intros f; ring|].
      intros H. inversion H; subst. constructor; auto.
    + cbn [prod_pow sum_dim]. split; [rewrite IH1; ring|]. split; [intros f; rewrite IH2; ring|]. intros H. inversion H; subst. constructor; auto. now apply IH3.
Qed.
Lemma stack_val ops : forall u0 e0 s, 0 < fac u0 -> pos_stack s -> Forall (fun p => 0 < fac (fst p)) (factors u0 ops) ->
  exists e1 s1, stack_run ((u0, e0) :: s) ops = Ok ((u0, e1) :: s1) /\ pos_stack s1 /\
    prod_pow ((u0, e1) :: s1) = prod_pow ((u0, e0) :: s) * prod_pow (factors u0 ops) /\
    forall f, sum_dim f ((u0, e1) :: s1) = sum_dim f ((u0, e0) :: s) + sum_dim f (factors u0 ops).
Proof.
  induction ops as [|o ops IH]; intros u0 e0 s H0 Hs Hf.
  - exists e0, s. simpl. repeat split; auto; intros; ring.
  - simpl in Hf. inversion Hf as [|? ? Hu Hf']; subst. destruct o as [e|u e]; cbn [stack_run factors map].
    + cbn [join obind]. destruct (IH u0 (e0 + e) s H0 Hs Hf') as (e1&s1&A&B&C&D). exists e1, s1. split; auto. split; auto.
      fold (factors u0 ops). split; [rewrite C; cbn [prod_pow]; rewrite Rpower_plus; ring|]. intros f. rewrite D. cbn [sum_dim]. ring.
    + simpl in Hu. cbn [update]. fold (factors u0 ops). destruct (ueqb u0 u) eqn:E.
      * apply ueqb_eq in E. subst u. destruct (IH u0 (e0 + e) s H0 Hs Hf') as (e1&s1&A&B&C&D). exists e1, s1. split; auto. split; auto.
        split; [rewrite C; cbn [prod_pow]; rewrite Rpower_plus; ring|]. intros f. rewrite D. cbn [sum_dim]. ring.
      * destruct (update_val s u e Hu) as (U1&U2&U3). destruct (IH u0 e0 (update s u e) H0 (U3 Hs) Hf') as (e1&s1&A&B&C&D). exists e1, s1.
        split; auto. split; auto. split; [rewrite C; cbn [prod_pow]; rewrite U1; ring|]. intros f. rewrite D. cbn [sum_dim]. rewrite U2. ring.
Qed.
Lemma product_val s : s <> [] -> pos_stack s -> fac (product s) = prod_pow s /\ forall b, dim (product s) b = sum_dim (fun v => dim v b) s.
Proof.
  intros Hne Hs. destruct s as [|p s]; [congruence|]. unfold product. set (l := p :: s) in *. clearbody l. clear Hne.
  assert (forall u, fac (fold_left (fun out '(u, e) => if reqb e 1 then mul out u else mul out (upow u e)) l u) = fac u * prod_pow l /\
     forall b, dim (fold_left (fun out '(u, e) => if reqb e 1 then mul out u else mul out (upow u e)) l u) b = dim u b + sum_dim (fun v => dim v b) l) as G.
  { induction l as [|[v e] l IH]; intros u; cbn [fold_left prod_pow sum_dim]; [split; intros; ring|]. inversion Hs as [|? ? Hv Hs']; subst. simpl in Hv.
    destruct (reqb e 1) eqn:E.
    - apply reqb_true in E. subst. destruct (IH Hs' (mul u v)) as (A&B). rewrite A. split; [simpl; rewrite Rpower_1 by auto; ring|].
      intros b. rewrite B. simpl. ring.
    - destruct (IH Hs' (mul u (upow v e))) as (A&B). rewrite A. split; [unfold mul, upow; cbn [fac]; rewrite make_fac, cpow_pos by auto; ring|].
      intros b. rewrite B. unfold mul, upow. cbn [dim]. rewrite make_dim. ring. }
  destruct (num_vals 1) as (N1&N2&_). destruct (G (num 1)) as (A&B). rewrite A, N1. split; [ring|]. intros b. rewrite B, N2. ring.
Qed.
Lemma assigned o k n s s' : assigns o k n -> ustep s o = (s', true) -> defs s' k = Some n.
Proof.
  intros H. destruct H as [l1 n l2 u k r H1 H2 H3 H4|m k n H1 H2 H3|n]; simpl.
  - eapply set_names_defs; eauto.
  - intros E. eapply set_map_defs; eauto.
  - intros E. apply set_act_defs in E. now rewrite E.
Qed.
Lemma set_entries_other m : forall s s' j, set_entries s m = (s', true) -> ~ In j (map fst m) -> defs s' j = defs s j.
Proof.
  induction m as [|[k n] m IH]; intros s s' j; simpl.
  - intros E _. injection E as <-. auto.
  - destruct (set_entry s k n) as [s1 []] eqn:E1; [|discriminate]. intros E Hj. rewrite (IH s1 s' j E) by tauto.
    apply set_entry_defs in E1. apply E1. intros ->. tauto.
Qed.
Lemma lookup_none k (m : list (dimk * text)) : ~ In k (map fst m) -> lookup dimk_eqb k m = None.
Proof.
  induction m as [|[j n] m IH]; simpl; auto. intros H. destruct (dimk_eqb j k) eqn:E; [apply dimk_eqb_iff in E; tauto|apply IH; tauto].
Qed.
Lemma untouched o k s s' : reference k <> None \/ k = KActE -> ~ touches o k -> ustep s o = (s', true) -> defs s' k = defs s k.
Proof.
  intros Hk. destruct o as [l|m|n]; simpl.
  - intros Ht. revert s. induction l as [|n l IH]; intros s; cbn [set_names].
    + intros E. injection E as <-. now rewrite derive_defs.
    + destruct (set_one s n) as [s1 ok] eqn:E1. destruct ok; [|discriminate]. intros E.
      rewrite (IH ltac:(intros (n'&u&r&H1&H2); apply Ht; exists n', u, r; simpl; tauto) s1 E).
      destruct Hk as [Hk| ->].
      * destruct (reference k) as [r|] eqn:Er; [|congruence]. destruct (Units n) as [u| | |] eqn:En.
        -- apply (set_one_defs _ _ _ _ _ En E1 k r Er). intros X. apply Ht. exists n, u, r. simpl. tauto.
        -- unfold set_one in E1. rewrite En in E1. discriminate.
        -- unfold set_one in E1. rewrite En in E1. discriminate.
        -- unfold set_one in E1. rewrite En in E1. discriminate.
      * pose proof (setting_act _ _ _ (set_one_setting s n)) as (_&A&_). rewrite E1 in A. exact A.
  - intros Ht. unfold set_map. destruct (set_entries s m) as [s1 []] eqn:E1; [|discriminate].
    pose proof (set_entries_other _ _ _ k E1 Ht) as Hd. destruct (lookup dimk_eqb KActE m) as [n|] eqn:El.
    + intros E. apply set_act_defs in E. rewrite E, dset_get. destruct (dimk_eqb k KActE) eqn:Ek; auto.
      apply dimk_eqb_iff in Ek. subst. rewrite (lookup_none _ _ Ht) in El. discriminate.
    + intros E. injection E as <-. now rewrite derive_defs.
  - intros Ht E. apply set_act_defs in E. rewrite E, dset_get. destruct (dimk_eqb k KActE) eqn:Ek; auto. apply dimk_eqb_iff in Ek. tauto.
Qed.
Lemma untouched_run ops k : reference k <> None \/ k = KActE -> (forall o, In o ops -> ~ touches o k) ->
  forall s s', urun s ops = (s', true) -> defs s' k = defs s k.
Proof.
  intros Hk. induction ops as [|o ops IH]; intros Ht s s'; simpl.
  - intros E. injection E as <-. auto.
  - destruct (ustep s o) as [s1 []] eqn:E1; [|destruct (urun s1 ops); discriminate]. intros E.
    rewrite (IH ltac:(intros o' Ho'; apply Ht; now right) s1 s' E). eapply untouched; eauto. apply Ht. now left.
Qed.
Lemma assigns_kind o k n : assigns o k n -> reference k <> None \/ k = KActE.
Proof. intros [l1 m l2 u k' r H1 H2 H3 H4|m k' m' H1 H2 H3|m]; auto. left. congruence. Qed.
Lemma product_pseudo s : s <> [] -> Forall (fun p => 0 < fac (fst p)) s -> Forall (fun p => pure (fst p)) s ->
  pdim (product s) = sum_dim pdim s /\ edim (product s) = sum_dim edim s.
Proof.
  intros Hne _ Hs. destruct s as [|p s]; [congruence|]. unfold product. set (l := p :: s) in *. clearbody l. clear Hne.
  assert (forall u, pdim (fold_left (fun out '(u, e) => if reqb e 1 then mul out u else mul out (upow u e)) l u) = pdim u + sum_dim pdim l /\
     edim (fold_left (fun out '(u, e) => if reqb e 1 then mul out u else mul out (upow u e)) l u) = edim u + sum_dim edim l) as G.
  { induction l as [|[v e] l IH]; intros u; cbn [fold_left sum_dim]; [split; ring|]. inversion Hs as [|? ? Hv Hs']; subst. simpl in Hv.
    destruct (reqb e 1) eqn:E.
    - apply reqb_true in E. subst. destruct (IH Hs' (mul u v)) as (A&B). rewrite A, B. simpl. split; ring.
    - destruct (IH Hs' (mul u (upow v e))) as (A&B). rewrite A, B. destruct (upow_pseudo v e Hv) as (P&Q). unfold mul. cbn [pdim edim]. rewrite P, Q. split; ring. }
  destruct (num_vals 1) as (_&_&N3&N4). destruct (G (num 1)) as (A&B). rewrite A, B, N3, N4. split; ring.
Qed.
Lemma update_all (P : units -> Prop) s u e : P u -> Forall (fun p => P (fst p)) s -> Forall (fun p : units * R => P (fst p)) (update s u e).
Proof.
  intros Hu. induction s as [|[v e0] s IH]; cbn [update]; intros H; [repeat constructor; auto|]. inversion H; subst.
  destruct (ueqb v u); constructor; auto.
Qed.
Lemma stack_all (P : units -> Prop) ops u0 : Forall (fun p => P (fst p)) (factors u0 ops) ->
  forall s s', s <> [] -> Forall (fun p => P (fst p)) s -> stack_run s ops = Ok s' -> Forall (fun p => P (fst p)) s'.
Proof.
  induction ops as [|o ops IH]; intros Hf s s' Hne Hs; cbn [stack_run].
  - intros E. injection E as <-. auto.
  - simpl in Hf. inversion Hf as [|? ? Hu Hf']; subst. destruct o as [e|u e].
    + destruct s as [|[v e0] s]; [congruence|]. cbn [join obind]. intros E. eapply (IH Hf'); [|  |exact E]; [discriminate|]. inversion Hs; subst. constructor; auto.
    + intros E. eapply (IH Hf'); [| |exact E]; [|now apply update_all]. destruct s as [|[v e0] s]; [congruence|]. cbn [update]. destruct (ueqb v u); discriminate.
Qed.
