From Coquelicot Require Import Coquelicot.
From Coq Require Import Reals ZArith List Bool Arith Lia Lra.
From Verif Require Import Base.Outcome Base.Fp SpThermo.Model SpThermo.Spec SpThermo.Proofs.
Import ListNotations.
Local Open Scope list_scope.
Local Open Scope R_scope.

(* -------- logarithms -------- *)
Lemma ln_below : forall x, 0 < x -> x <> 1 -> ln x < x - 1.
Proof.
  intros x P N. rewrite <- (ln_exp (x - 1)). apply ln_increasing; auto.
  generalize (exp_ineq1 (x - 1)). intros H. specialize (H ltac:(lra)). lra.
Qed.
Lemma den_down : forall T1 T2, 0 < T1 -> T1 < T2 -> T2 - T1 - T1 * ln (T2 / T1) <> 0.
Proof.
  intros T1 T2 P L. assert (Q : 1 < T2 / T1) by (apply Rmult_lt_reg_r with T1; auto; replace (T2 / T1 * T1) with T2 by (field; lra); lra).
  generalize (ln_below (T2 / T1)). intros H. specialize (H ltac:(lra) ltac:(lra)).
  apply (Rmult_lt_compat_l T1) in H; auto. replace (T1 * (T2 / T1 - 1)) with (T2 - T1) in H by (field; lra). lra.
Qed.
Lemma den_up : forall T1 T2, 0 < T1 -> T1 < T2 -> T2 - T1 - T2 * ln (T2 / T1) <> 0.
Proof.
  intros T1 T2 P L.
  assert (Q : 0 < T1 / T2) by (apply Rdiv_lt_0_compat; lra).
  assert (Q1 : T1 / T2 < 1) by (apply Rmult_lt_reg_r with T2; try lra; replace (T1 / T2 * T2) with T1 by (field; lra); lra).
  generalize (ln_below (T1 / T2)). intros H. specialize (H Q ltac:(lra)).
  replace (T2 / T1) with (/ (T1 / T2)) by (field; lra). rewrite ln_Rinv by auto.
  apply (Rmult_lt_compat_l T2) in H; [|lra]. replace (T2 * (T1 / T2 - 1)) with (T1 - T2) in H by (field; lra). lra.
Qed.

(* -------- rows -------- *)
Definition row := ((R * R) * (R * R * R))%type.
Definition rT (r : row) : R := fst (fst r).
Definition rmu (r : row) : R := snd (fst r).
Definition rh (r : row) : R := fst (fst (snd r)).
Definition rs_ (r : row) : R := snd (fst (snd r)).
Definition rcp (r : row) : R := snd (snd r).
Definition link (r1 r2 : row) : Prop :=
  0 < rT r1 /\ rT r1 < rT r2 /\ rh r2 = rh r1 + rcp r1 * (rT r2 - rT r1) /\ rs_ r2 = rs_ r1 + rcp r1 * ln (rT r2 / rT r1).
Definition good (r : row) : Prop := rmu r = rh r - rT r * rs_ r.
Fixpoint chain (l : list row) : Prop :=
  match l with a :: ((b :: _) as t) => link a b /\ chain t | [a] => 0 < rT a | [] => True end.

Lemma up_rows : forall pts T1 mu1 h1 s1 cp, 0 < T1 -> increasing ((T1, mu1) :: pts) -> mu1 = h1 - T1 * s1 ->
  length (go_up T1 mu1 h1 s1 cp pts) = S (length pts) /\
  chain (combine ((T1, mu1) :: pts) (go_up T1 mu1 h1 s1 cp pts)) /\
  Forall good (combine ((T1, mu1) :: pts) (go_up T1 mu1 h1 s1 cp pts)) /\
  exists c l, go_up T1 mu1 h1 s1 cp pts = (h1, s1, c) :: l.
Proof.
  induction pts as [|[T2 mu2] pts IH]; intros T1 mu1 h1 s1 cp P I E.
  - cbn. split; [reflexivity|]. split; [exact P|]. split; [repeat constructor; exact E | eauto].
  - cbn [increasing] in I. destruct I as [I1 I2]. cbn [fst] in I1.
    cbn [go_up]. cbv zeta.
    set (cpi := (mu2 - mu1 - T1 * s1 + T2 * s1) / (T2 - T1 - T2 * ln (T2 / T1))).
    assert (M2 : mu2 = h1 + cpi * (T2 - T1) - T2 * (s1 + cpi * ln (T2 / T1))).
    { replace (h1 + cpi * (T2 - T1) - T2 * (s1 + cpi * ln (T2 / T1))) with (h1 - T2 * s1 + cpi * (T2 - T1 - T2 * ln (T2 / T1))) by ring.
      unfold cpi. rewrite E. field. apply den_up; auto. }
    specialize (IH T2 mu2 (h1 + cpi * (T2 - T1)) (s1 + cpi * ln (T2 / T1)) cpi ltac:(lra) I2 M2).
    destruct IH as (L & C & F & c & l & X).
    split; [cbn [length]; rewrite L; reflexivity|].
    split; [|split; [constructor; [exact E | exact F] | eauto]].
    rewrite X in C |- *. cbn [combine] in C |- *. split; [|exact C].
    unfold link, rT, rh, rs_, rcp; cbn [fst snd]. repeat split; auto.
Qed.
Lemma chain_snoc_rev : forall l r, chain l -> (match l with a :: _ => link r a | [] => 0 < rT r end) -> chain (r :: l).
Proof. intros [|a l] r H L; cbn; auto. Qed.
(* Going down, nearest first; the rows are put before those already there. *)
Fixpoint decreasing_from (T : R) (l : list (R * R)) : Prop :=
  match l with [] => True | a :: l => fst a < T /\ 0 < fst a /\ decreasing_from (fst a) l end.
Lemma down_rows : forall pts T2 mu2 h2 s2 cp tail, decreasing_from T2 pts -> 0 < T2 -> mu2 = h2 - T2 * s2 ->
  chain (((T2, mu2), (h2, s2, cp)) :: tail) -> Forall good (((T2, mu2), (h2, s2, cp)) :: tail) ->
  length (go_down T2 mu2 h2 s2 pts) = length pts /\
  chain (rev (combine pts (go_down T2 mu2 h2 s2 pts)) ++ ((T2, mu2), (h2, s2, cp)) :: tail) /\
  Forall good (rev (combine pts (go_down T2 mu2 h2 s2 pts)) ++ ((T2, mu2), (h2, s2, cp)) :: tail).
Proof.
  induction pts as [|[T1 mu1] pts IH]; intros T2 mu2 h2 s2 cp tail D P E C G.
  - cbn. auto.
  - cbn [decreasing_from fst] in D. destruct D as (D1 & D2 & D3).
    cbn [go_down]. cbv zeta.
    set (cpi := (mu2 - mu1 - T1 * s2 + T2 * s2) / (T2 - T1 - T1 * ln (T2 / T1))).
    assert (M1 : mu1 = h2 - cpi * (T2 - T1) - T1 * (s2 - cpi * ln (T2 / T1))).
    { replace (h2 - cpi * (T2 - T1) - T1 * (s2 - cpi * ln (T2 / T1))) with (h2 - T1 * s2 - cpi * (T2 - T1 - T1 * ln (T2 / T1))) by ring.
      unfold cpi. rewrite E. field. apply den_down; auto. }
    specialize (IH T1 mu1 (h2 - cpi * (T2 - T1)) (s2 - cpi * ln (T2 / T1)) cpi (((T2, mu2), (h2, s2, cp)) :: tail) D3 D2 M1).
    destruct IH as (L & C' & F).
    + split; [|exact C]. unfold link, rT, rh, rs_, rcp; cbn [fst snd]. repeat split; auto; ring.
    + constructor; [exact M1 | exact G].
    + split; [cbn [length]; rewrite L; reflexivity|].
      cbn [combine rev]. rewrite <- !app_assoc. cbn [app]. auto.
Qed.

(* -------- evaluation on rows -------- *)
Definition atr (r : row) (T : R) : props := (rcp r, (rh r + (T - rT r) * rcp r) / T, rs_ r + rcp r * ln (T / rT r)).
Fixpoint eval (l : list row) (T : R) : props :=
  match l with
  | [] => (0, 0, 0)
  | r :: l' => match l' with [] => atr r T | r2 :: _ => if rltb (rT r2) T then eval l' T else atr r T end
  end.
Lemma eval_cons : forall r r2 l T, eval (r :: r2 :: l) T = if rltb (rT r2) T then eval (r2 :: l) T else atr r T.
Proof. reflexivity. Qed.
Definition of_rows (n : nat) (h : R) (rows : list row) : mu0 := Mu0 n h (map rT rows) (map rmu rows) (map rh rows) (map rs_ rows) (map rcp rows).
Lemma eval_eq : forall rows n h T, rows <> [] -> n = (length rows - 1)%nat -> mu0_props (of_rows n h rows) T = eval rows T.
Proof.
  intros rows n h T N ->. unfold mu0_props, of_rows; cbn [m_num m_t m_cp m_h m_s].
  destruct rows as [|r rows]; [easy|]. clear N. cbn [map tl length]. replace (S (length rows) - 1)%nat with (length rows) by lia.
  rewrite firstn_all2 by (rewrite map_length; lia). revert r.
  induction rows as [|r2 rows IH]; intros r; [reflexivity|].
  rewrite eval_cons. cbn [map find_interval]. destruct (rltb (rT r2) T); [|reflexivity].
  specialize (IH r2). cbv zeta in IH. rewrite <- IH. reflexivity.
Qed.
Lemma at_link : forall r1 r2, link r1 r2 -> snd (fst (atr r1 (rT r2))) = rh r2 / rT r2 /\ snd (atr r1 (rT r2)) = rs_ r2.
Proof.
  intros r1 r2 (P & L & H & S). unfold atr; cbn [fst snd]. rewrite H, S. split; [f_equal; ring | reflexivity].
Qed.
Lemma at_own : forall r, 0 < rT r -> snd (fst (atr r (rT r))) = rh r / rT r /\ snd (atr r (rT r)) = rs_ r.
Proof.
  intros r P. unfold atr; cbn [fst snd]. split; [f_equal; ring|]. replace (rT r / rT r) with 1 by (field; lra). rewrite ln_1. ring.
Qed.
Lemma chain_lt : forall l r r', chain (r :: l) -> In r' l -> rT r < rT r'.
Proof.
  induction l as [|a l IH]; intros r r' C I; [destruct I|]. destruct C as [(_ & L & _) C].
  destruct I as [<-|I]; [auto|]. specialize (IH a r' C I). lra.
Qed.
Lemma chain_pos : forall r l, chain (r :: l) -> 0 < rT r.
Proof. intros r [|a l] C; [exact C | apply C]. Qed.
Lemma eval_head : forall r l, chain (r :: l) -> snd (fst (eval (r :: l) (rT r))) = rh r / rT r /\ snd (eval (r :: l) (rT r)) = rs_ r.
Proof.
  intros r [|a l] C; [apply at_own; exact C|]. rewrite eval_cons.
  rewrite (proj2 (rltb_false (rT a) (rT r))); [apply at_own; apply C|].
  destruct C as [(_ & L & _) _]. lra.
Qed.
Lemma eval_at : forall l r, chain l -> In r l -> snd (fst (eval l (rT r))) = rh r / rT r /\ snd (eval l (rT r)) = rs_ r.
Proof.
  induction l as [|a l IH]; intros r C I; [destruct I|].
  destruct I as [<-|I]; [apply eval_head; auto|].
  destruct l as [|b l]; [destruct I|]. rewrite eval_cons.
  destruct (rltb (rT b) (rT r)) eqn:E.
  - apply IH; auto. apply C.
  - apply rltb_false in E. destruct I as [->|I].
    + apply at_link. apply C.
    + generalize (chain_lt l b r (proj2 C) I). lra.
Qed.

(* -------- continuity -------- *)
Lemma glue : forall (f g : R -> R) a, continuous f a -> continuous g a -> f a = g a ->
  continuous (fun x => if rltb a x then g x else f x) a.
Proof.
  intros f g a F G E P HP. rewrite (proj2 (rltb_false a a)) in HP by lra.
  assert (FP : locally a (fun x => P (f x))) by (apply F; exact HP).
  assert (GP : locally a (fun x => P (g x))) by (apply G; rewrite <- E; exact HP).
  unfold filtermap. generalize (filter_and _ _ FP GP). apply filter_imp.
  intros x [A B]. destruct (rltb a x); auto.
Qed.
Lemma glued : forall (f g : R -> R) a T, continuous f T -> continuous g T -> f a = g a ->
  continuous (fun x => if rltb a x then g x else f x) T.
Proof.
  intros f g a T F G E. destruct (Req_dec T a) as [->|N]; [apply glue; auto|].
  destruct (rltb a T) eqn:C.
  - apply (continuous_ext_loc _ g); [|exact G]. generalize (loc_rltb a T N). apply filter_imp. intros x Hx. rewrite Hx, C. reflexivity.
  - apply (continuous_ext_loc _ f); [|exact F]. generalize (loc_rltb a T N). apply filter_imp. intros x Hx. rewrite Hx, C. reflexivity.
Qed.
Lemma cont_atr : forall r T, 0 < rT r -> 0 < T -> continuous (fun x => snd (fst (atr r x))) T /\ continuous (fun x => snd (atr r x)) T.
Proof.
  intros r T P Q. unfold atr; cbn [fst snd]. split.
  - apply (ex_derive_continuous (fun x => (rh r + (x - rT r) * rcp r) / x) T). auto_derive. lra.
  - apply (ex_derive_continuous (fun x => rs_ r + rcp r * ln (x / rT r)) T). auto_derive.
    repeat split; try lra; apply Rdiv_lt_0_compat; lra.
Qed.
Lemma cont_eval : forall l T, chain l -> l <> [] -> 0 < T -> continuous (fun x => snd (fst (eval l x))) T /\ continuous (fun x => snd (eval l x)) T.
Proof.
  induction l as [|r l IH]; intros T C N P; [easy|]. destruct l as [|b l].
  - apply cont_atr; auto.
  - specialize (IH T (proj2 C) ltac:(easy) P). destruct IH as [H S].
    destruct (cont_atr r T (proj1 (proj1 C)) P) as [H' S'].
    destruct (at_link r b (proj1 C)) as [A B]. destruct (eval_head b l (proj2 C)) as [A' B'].
    split.
    + apply (continuous_ext (fun x => if rltb (rT b) x then snd (fst (eval (b :: l) x)) else snd (fst (atr r x)))).
      * intros x. rewrite eval_cons. destruct (rltb (rT b) x); reflexivity.
      * apply glued; auto. congruence.
    + apply (continuous_ext (fun x => if rltb (rT b) x then snd (eval (b :: l) x) else snd (atr r x))).
      * intros x. rewrite eval_cons. destruct (rltb (rT b) x); reflexivity.
      * apply glued; auto. congruence.
Qed.

(* -------- what setParameters makes -------- *)
Lemma split298_some : forall pts before b p a, split298 before pts = Some (b, p, a) -> rev before ++ pts = rev b ++ p :: a /\ fst p = T298.
Proof.
  induction pts as [|q pts IH]; cbn; intros before b p a E; [discriminate|].
  destruct (reqb (fst q) T298) eqn:C.
  - injection E as <- <- <-. apply reqb_true in C. auto.
  - apply IH in E as [E F]. cbn [rev] in E. rewrite <- app_assoc in E. auto.
Qed.
Lemma inc_app : forall l1 l2, increasing (l1 ++ l2) -> increasing l2.
Proof.
  induction l1 as [|a l1 IH]; cbn; intros l2 H; auto. apply IH.
  destruct (l1 ++ l2) eqn:E; [cbn; auto | apply H].
Qed.
Lemma inc_down : forall b p a, increasing (rev b ++ p :: a) -> (forall q, In q b -> 0 < fst q) -> decreasing_from (fst p) b.
Proof.
  induction b as [|q b IH]; intros p a I P; cbn; auto. cbn [rev] in I. rewrite <- app_assoc in I. cbn [app] in I.
  split; [apply inc_app in I; apply I|]. split; [apply P; left; auto|].
  apply (IH q (p :: a)); auto. intros; apply P; right; auto.
Qed.
Lemma combine_app : forall {A B} (a a' : list A) (b b' : list B), length a = length b -> combine (a ++ a') (b ++ b') = combine a b ++ combine a' b'.
Proof. induction a; destruct b; cbn; intros; try discriminate; f_equal; auto. Qed.
Lemma combine_rev : forall {A B} (a : list A) (b : list B), length a = length b -> combine (rev a) (rev b) = rev (combine a b).
Proof.
  induction a; destruct b; cbn; intros; try discriminate; auto.
  rewrite combine_app by (rewrite !rev_length; lia). rewrite IHa by lia. reflexivity.
Qed.
Lemma combine_maps : forall (l : list (R * R)) (m : list (R * R * R)), length l = length m ->
  map rT (combine l m) = map fst l /\ map rmu (combine l m) = map snd l /\
  map rh (combine l m) = map (fun a => fst (fst a)) m /\ map rs_ (combine l m) = map (fun a => snd (fst a)) m /\ map rcp (combine l m) = map snd m.
Proof.
  induction l as [|a l IH]; destruct m as [|b m]; cbn [length]; intros E; try discriminate; [cbn; auto|].
  injection E as E. destruct (IH m E) as (A & B & C & D & F). cbn [combine map].
  rewrite A, B, C, D, F. auto.
Qed.
Lemma mu0_rows : forall h0 pts m, increasing pts -> (forall q, In q pts -> 0 < fst q) -> mu0_set [] h0 pts = Ok m ->
  exists rows, m = of_rows (length pts - 1) (h0 / GasConstant) rows /\ chain rows /\ Forall good rows /\
    map fst rows = map (fun p => (fst p, snd p / GasConstant)) pts /\
    exists r, In r rows /\ rT r = T298 /\ rh r = h0 / GasConstant.
Proof.
  intros h0 pts m I P. unfold mu0_set. destruct (Nat.ltb_spec (length pts) 2) as [|L]; [discriminate|].
  set (new := map (fun p => (fst p, snd p / GasConstant)) pts).
  cbn [rev]. destruct (split298 [] new) as [[[before [T mu]] after]|] eqn:SP; [|discriminate].
  apply split298_some in SP as [SP F]. cbn [rev app fst] in SP, F. subst T.
  assert (LN : length new = length pts) by (unfold new; apply map_length).
  assert (LA : length new = (length before + S (length after))%nat) by (rewrite SP, app_length, rev_length; cbn [length]; lia).
  destruct (Nat.leb_spec (length pts) (length before)) as [|L2]; [lia|].
  rewrite firstn_all2 by lia.
  set (h := h0 / GasConstant). set (s := - (mu - h) / T298).
  intros E. cbn [app] in E. injection E as <-.
  assert (IN : increasing new).
  { clear - I. unfold new. clear new. induction pts as [|a [|b pts] IH]; cbn; auto. cbn in I. split; [apply I|]. apply IH. apply I. }
  assert (PN : forall q, In q new -> 0 < fst q).
  { unfold new. intros q Hq. apply in_map_iff in Hq as (x & <- & Hx). cbn. auto. }
  assert (MU : mu = h - T298 * s) by (unfold s; field; unfold T298; lra).
  set (down := go_down T298 mu h s before).
  set (cp0 := match down with [] => 0 | (_, _, cp) :: _ => cp end).
  assert (IU : increasing ((T298, mu) :: after)) by (apply (inc_app (rev before)); rewrite <- SP; exact IN).
  destruct (up_rows after T298 mu h s cp0 T298_pos IU MU) as (LU & CU & GU & c & l & X).
  assert (DD : decreasing_from T298 before).
  { apply (inc_down before (T298, mu) after); [rewrite <- SP; exact IN|]. intros q Hq. apply PN. rewrite SP. apply in_or_app. left. apply in_rev in Hq. exact Hq. }
  set (up := go_up T298 mu h s cp0 after) in *.
  rewrite X in CU, GU. cbn [combine] in CU, GU.
  destruct (down_rows before T298 mu h s c (combine after l) DD T298_pos MU CU GU) as (LD & CD & GD).
  fold down in LD, CD, GD.
  exists (combine new (rev down ++ up)).
  assert (LL : length new = length (rev down ++ up)) by (rewrite app_length, rev_length, LD, LU, LA; lia).
  assert (EQ : combine new (rev down ++ up) = rev (combine before down) ++ ((T298, mu), (h, s, c)) :: combine after l).
  { rewrite SP, combine_app by (rewrite !rev_length; lia). rewrite combine_rev by lia. rewrite X. reflexivity. }
  destruct (combine_maps new (rev down ++ up) LL) as (A & B & C & D & E).
  repeat split.
  - unfold of_rows. rewrite A, B, C, D, E. reflexivity.
  - rewrite EQ. exact CD.
  - rewrite EQ. exact GD.
  - clear - LL. revert LL. generalize (rev down ++ up). generalize new. intros a b. revert b.
    induction a; destruct b; cbn; intros; try discriminate; f_equal; auto.
  - exists ((T298, mu), (h, s, c)). split; [rewrite EQ; apply in_or_app; right; left; reflexivity|]. auto.
Qed.

(* -------- std::map -------- *)
Lemma map_set_in : forall m T mu q, In q (map_set m T mu) -> q = (T, mu) \/ In q m.
Proof.
  induction m as [|[a x] m IH]; cbn; intros T mu q H; [intuition|].
  destruct (rltb a T); [destruct H as [<-|H]; [auto | apply IH in H; intuition]|].
  destruct (rltb T a); cbn in H; intuition.
Qed.
Lemma map_set_inc : forall m T mu, increasing m -> increasing (map_set m T mu).
Proof.
  induction m as [|[a x] m IH]; cbn [map_set]; intros T mu I; [cbn; auto|].
  destruct (rltb a T) eqn:E.
  - apply rltb_true in E. assert (I' : increasing m) by (destruct m; [cbn; auto | apply I]).
    specialize (IH T mu I'). destruct m as [|[b y] m]; [cbn; auto|].
    cbn [map_set] in *. destruct (rltb b T); [split; [apply I | exact IH]|].
    destruct (rltb T b); (split; [exact E | exact IH]).
  - apply rltb_false in E. destruct (rltb T a) eqn:E2.
    + apply rltb_true in E2. split; [exact E2 | exact I].
    + apply rltb_false in E2. assert (T = a) by lra. subst T. destruct m; [cbn; auto|]. exact I.
Qed.
Lemma map_of_inc : forall l, increasing (map_of l).
Proof.
  intros l. unfold map_of. enough (G : forall m, increasing m -> increasing (fold_left (fun m p => map_set m (fst p) (snd p)) l m)) by (apply G; cbn; auto).
  induction l as [|a l IH]; cbn; intros m I; auto. apply IH. apply map_set_inc. exact I.
Qed.
Lemma map_of_in : forall l q, In q (map_of l) -> In q l.
Proof.
  intros l q. unfold map_of.
  enough (G : forall m, In q (fold_left (fun m p => map_set m (fst p) (snd p)) l m) -> In q l \/ In q m) by (intros H; apply G in H as [H|[]]; auto).
  induction l as [|a l IH]; cbn; intros m H; auto. apply IH in H as [H|H]; [auto|].
  apply map_set_in in H as [->|H]; [left; left; destruct a; reflexivity | auto].
Qed.
Lemma map_set_end : forall m T mu, (forall q, In q m -> fst q < T) -> map_set m T mu = m ++ [(T, mu)].
Proof.
  induction m as [|[a x] m IH]; cbn [map_set app]; intros T mu H; [reflexivity|].
  rewrite (proj2 (rltb_true a T) (H (a, x) (or_introl eq_refl))). f_equal. apply IH. intros q Hq. apply H. right. exact Hq.
Qed.
Lemma inc_all : forall l1 a l2, increasing (l1 ++ a :: l2) -> forall q, In q l1 -> fst q < fst a.
Proof.
  induction l1 as [|b l1 IH]; intros a l2 I q H; [destruct H|].
  destruct H as [<-|H].
  - destruct l1 as [|c l1]; [apply I|]. cbn [app] in I. destruct I as [I1 I2].
    specialize (IH a l2 I2 c (or_introl eq_refl)). lra.
  - apply (IH a l2); auto. cbn [app] in I. destruct (l1 ++ a :: l2) eqn:E; [destruct l1; discriminate E|]. apply I.
Qed.
Lemma map_of_id : forall l, increasing l -> map_of l = l.
Proof.
  intros l I. unfold map_of.
  enough (G : forall m l, increasing (m ++ l) -> fold_left (fun m p => map_set m (fst p) (snd p)) l m = m ++ l) by (apply (G []); exact I).
  clear l I. intros m l. revert m. induction l as [|a l IH]; intros m I; cbn [fold_left]; [rewrite app_nil_r; reflexivity|].
  rewrite map_set_end by (apply (inc_all m a l I)).
  replace (fst a, snd a) with a by (destruct a; reflexivity).
  rewrite IH; rewrite <- app_assoc; [reflexivity | exact I].
Qed.
