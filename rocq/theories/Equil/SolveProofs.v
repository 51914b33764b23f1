(** Proofs about Equil/SolveModel.v. *)
From Coq Require Import Reals String List Bool Arith Lia Lra.
From Verif Require Import Base.Fp Base.Outcome Base.Map2 Base.RSum.
From Verif Require Import Equil.ReactModel Equil.ReactSpec Equil.ReactProofs Equil.StepProofs Equil.SolveSpec.
From Verif Require Import Equil.MixModel Equil.MixSpec Equil.MixProofs Equil.ReadProofs Equil.SetProofs Equil.SolveModel.
Import ListNotations.
Local Open Scope R_scope.
Local Open Scope list_scope.

Lemma sum_n_plus f g n : sum_n (fun k => f k + g k) n = sum_n f n + sum_n g n.
Proof. apply sum_of_plus. Qed.
Lemma sum_n_zeros f n : (forall k, (k < n)%nat -> f k = 0) -> sum_n f n = 0.
Proof. intros H. apply sum_of_0. intros k Hk. apply in_seq in Hk. apply H. lia. Qed.
Lemma sum_nonneg_zero f N : (forall k, (k < N)%nat -> 0 <= f k) -> sum_n f N <= 0 -> forall k, (k < N)%nat -> f k = 0.
Proof.
  assert (S0 : forall N, (forall k, (k < N)%nat -> 0 <= f k) -> 0 <= sum_n f N).
  { induction N0 as [|M IH]; intros P; [cbn; lra|]. rewrite sum_n_S. pose proof (P M ltac:(lia)).
    specialize (IH ltac:(intros; apply P; lia)). lra. }
  induction N as [|N IH]; intros P X k Hk; [lia|]. rewrite sum_n_S in X.
  pose proof (S0 N ltac:(intros; apply P; lia)). pose proof (P N ltac:(lia)).
  destruct (Nat.eq_dec k N) as [->|]; [lra|]. apply IH; [intros; apply P; lia|lra|lia].
Qed.

(** ** Sequences of actions *)
Section Acts.
Context (nel nsp : nat) (at_ : nat -> nat -> R) (ds : nat -> bool).
Context (SEP : separated nel nsp at_).

Definition ready (s : est) : Prop :=
  ordering nsp (e_order s) /\ balanced nel nsp at_ (e_N s) (e_order s) /\ formed nel nsp (e_N s).
Lemma act_ok s a : (ready s \/ exists p, a = Components p) ->
  (forall p, a = Components p -> ordering nsp p) ->
  exists s', act_step nel nsp at_ ds s a = Some s' /\ ready s'.
Proof.
  intros R P. destruct a as [pref|fwd| |dG other g0 g1]; cbn [act_step].
  - pose proof (components_ok nel nsp at_ pref (e_moles s) (P pref eq_refl) SEP) as C.
    destruct (getComponents nel nsp at_ pref (e_moles s)) as [[N o] r]. eexists. split; [reflexivity|exact C].
  - destruct R as [R|[p R]]; [|discriminate]. eexists. split; [reflexivity|exact R].
  - destruct R as [R|[p R]]; [|discriminate]. eexists. split; [reflexivity|exact R].
  - destruct R as [R|[p R]]; [|discriminate]. destruct R as (R1 & R2 & R3).
    destruct (compose_spec nel nsp (e_N s) (e_order s) ds dG other g0 g1 (e_moles s) R3 R1) as (om & _ & E & _).
    rewrite E. eexists. split; [reflexivity|]. split; auto.
Qed.
Lemma act_total s s' a m : (ready s \/ exists p, a = Components p) -> good_act nel nsp ds s a -> (m < nel)%nat ->
  act_step nel nsp at_ ds s a = Some s' -> total nsp at_ (e_moles s') m = total nsp at_ (e_moles s) m.
Proof.
  intros R G Hm E. destruct a as [pref|fwd| |dG other g0 g1]; cbn [act_step good_act] in *.
  - destruct (getComponents nel nsp at_ pref (e_moles s)) as [[N o] r]. injection E as <-. reflexivity.
  - destruct R as [(R1 & R2 & R3)|[p R]]; [|discriminate]. injection E as <-. cbn [e_moles].
    assert (H : forall l, (forall j, In j l -> (j < nFree nel nsp)%nat) -> forall n,
      total nsp at_ (fold_left (run_reaction nsp (e_N s) (e_order s) fwd) l n) m = total nsp at_ n m).
    { induction l as [|j l IH]; intros HL n; cbn; [auto|]. rewrite IH by (intros; apply HL; now right).
      apply (run_reaction_total nel nsp at_); auto. apply HL. now left. }
    apply H. intros j Hj. apply in_seq in Hj. lia.
  - destruct R as [(R1 & R2 & R3)|[p R]]; [|discriminate]. injection E as <-. cbn [e_moles].
    rewrite !(total_order nsp at_ (e_order s)) by auto.
    transitivity (sum_n (fun k => at_ (e_order s k) m * e_moles s (e_order s k)) nsp
                  + sum_n (fun k => at_ (e_order s k) m * extents nel nsp (e_N s) (fun _ => Tiny) k) nsp).
    + rewrite <- sum_n_plus. apply sum_n_ext. intros k Hk. rewrite unsort_at by auto. ring.
    + rewrite (total_extents nel nsp at_) by auto. ring.
  - destruct R as [(R1 & R2 & R3)|[p R]]; [|discriminate].
    destruct (compose_spec nel nsp (e_N s) (e_order s) ds dG other g0 g1 (e_moles s) R3 R1) as (om & _ & EC & _).
    rewrite EC in E. injection E as <-. cbn [e_moles].
    pose proof (step_total nel nsp at_ (e_N s) (e_order s) ds dG om
      (reaction_steps nel (e_N s) (e_order s) (e_moles s) ds dG other) (e_moles s) m R1 R2 Hm) as S. cbv zeta in S.
    match type of S with _ = ?z => assert (Z : z = 0) end.
    2:{ lra. }
    { apply sum_n_zeros. intros ik Hik. destruct (Nat.ltb_spec ik nel) as [B|B]; cbn [orb]; [auto|].
      unfold is_major. destruct (ds (e_order s ik)) eqn:D; [|auto].
      assert (H : rltb MAJOR (e_moles s (e_order s ik)) = true) by (apply rltb_true, G; auto). now rewrite H. }
Qed.

Lemma acts_total l : forall s, (ready s \/ exists p l', l = Components p :: l') -> good nel nsp at_ ds s l ->
  exists s', acts nel nsp at_ ds s l = Some s' /\
    (forall m, (m < nel)%nat -> total nsp at_ (e_moles s') m = total nsp at_ (e_moles s) m).
Proof.
  induction l as [|a l IH]; intros s R G; cbn [acts].
  - eauto.
  - destruct G as [G1 G2].
    assert (R' : ready s \/ exists p, a = Components p).
    { destruct R as [R|(p & l' & E)]; [auto|]. injection E as -> ->. eauto. }
    destruct (act_ok s a R') as (s1 & E1 & R1); [intros p ->; exact G1|]. rewrite E1.
    destruct (IH s1 (or_introl R1) (G2 s1 E1)) as (s2 & E2 & T2). exists s2. split; [exact E2|].
    intros m Hm. rewrite T2 by auto. eapply act_total; eauto.
Qed.
End Acts.

(** ** Spreading the solver's mole numbers *)
Lemma set_nth_nth {A} (l : list A) i v d k : nth k (set_nth l i v) d
  = if (k =? i)%nat && (i <? List.length l)%nat then v else nth k l d.
Proof.
  revert i k. induction l as [|h t IH]; intros [|i] [|k]; cbn [set_nth nth List.length]; try reflexivity.
  - cbn. now rewrite andb_false_r.
  - rewrite IH. reflexivity.
Qed.
Lemma spread_fold sps moles : NoDup sps -> forall n l, (n <= List.length sps)%nat -> (forall k, In k sps -> (k < List.length l)%nat) ->
  let r := fold_left (fun l k => set_nth l (nth k sps 0%nat) (moles k)) (seq 0 n) l in
  List.length r = List.length l /\
  (forall i, (i < n)%nat -> nth (nth i sps 0%nat) r 0 = moles i) /\
  (forall k, ~ In k (firstn n sps) -> nth k r 0 = nth k l 0).
Proof.
  intros ND. induction n as [|n IH]; intros l Hn HL; [cbn; repeat split; auto; lia|].
  rewrite seq_S, fold_left_app. cbn [fold_left plus]. destruct (IH l ltac:(lia) HL) as (I1 & I2 & I3).
  set (r := fold_left _ (seq 0 n) l) in *. cbv zeta. rewrite set_nth_length. split; [auto|]. split.
  - intros i Hi. rewrite set_nth_nth.
    assert (IN : In (nth n sps 0%nat) sps) by (apply nth_In; lia). specialize (HL _ IN). rewrite I1.
    destruct (Nat.ltb_spec (nth n sps 0%nat) (List.length l)); [|lia]. rewrite andb_true_r.
    destruct (Nat.eqb_spec (nth i sps 0%nat) (nth n sps 0%nat)) as [E|E].
    + f_equal. symmetry. eapply (NoDup_nth sps 0%nat); eauto; lia.
    + apply I2. destruct (Nat.eq_dec i n); [congruence|lia].
  - intros k Hk. rewrite set_nth_nth. destruct (Nat.eqb_spec k (nth n sps 0%nat)) as [E|E].
    + exfalso. apply Hk. rewrite E. rewrite <- (firstn_skipn (S n) sps) at 1.
      rewrite app_nth1 by (rewrite firstn_length; lia). apply nth_In. rewrite firstn_length; lia.
    + cbn [andb]. apply I3. intros IN. apply Hk.
      assert (H : firstn n sps = firstn n (firstn (S n) sps)) by (rewrite firstn_firstn; f_equal; lia).
      rewrite H in IN. rewrite <- (firstn_skipn n (firstn (S n) sps)). apply in_or_app. now left.
Qed.
Lemma spread_ok size sps moles : NoDup sps -> (forall k, In k sps -> (k < size)%nat) ->
  List.length (spread size sps moles) = size /\
  (forall i, (i < List.length sps)%nat -> nth (nth i sps 0%nat) (spread size sps moles) 0 = moles i) /\
  (forall k, ~ In k sps -> nth k (spread size sps moles) 0 = 0).
Proof.
  intros ND HL. unfold spread.
  destruct (spread_fold sps moles ND (List.length sps) (repeat 0 size) ltac:(lia)) as (A & B & C).
  { intros k Hk. rewrite repeat_length. auto. }
  rewrite repeat_length in A. split; [exact A|]. split; [exact B|].
  intros k Hk. rewrite C by (now rewrite firstn_all). apply nth_repeat.
Qed.
Lemma species_nodup m : NoDup (species m).
Proof. apply NoDup_filter, seq_NoDup. Qed.
Lemma species_in m k : In k (species m) <-> (k < x_nsp m)%nat /\ incl_species m k = true.
Proof. unfold species. rewrite filter_In, in_seq. intuition lia. Qed.

(** Totals over all species and over a list containing those that matter. *)
Lemma sum_subset (f : nat -> R) n l : NoDup l -> (forall k, In k l -> (k < n)%nat) ->
  (forall k, (k < n)%nat -> ~ In k l -> f k = 0) ->
  sum_n f n = sum_n (fun i => f (nth i l 0%nat)) (List.length l).
Proof.
  revert l. induction n as [|n IH]; intros l ND HL Z.
  - destruct l as [|a l]; [reflexivity|]. specialize (HL a (or_introl eq_refl)). lia.
  - rewrite sum_n_S. destruct (in_dec Nat.eq_dec n l) as [I|I].
    + apply in_split in I as (l1 & l2 & E). subst l.
      rewrite (IH (l1 ++ l2)).
      * assert (G : forall l a b, sum_n (fun i => f (nth i (a ++ l) b)) (List.length (a ++ l)) = sum_of f (a ++ l)).
        { intros l a b. generalize (a ++ l). intros c. induction c as [|x c IHc]; [reflexivity|].
          cbn [List.length]. rewrite sum_n_shift. cbn [nth sum_of map rsum]. rewrite IHc. reflexivity. }
        rewrite !G. unfold sum_of. rewrite !map_app, !rsum_app. cbn [map rsum]. lra.
      * eapply NoDup_remove_1; eauto.
      * intros k Hk. assert (K : In k (l1 ++ n :: l2)) by (apply in_or_app; apply in_app_or in Hk as [|]; [now left|right; now right]).
        specialize (HL k K). apply NoDup_remove_2 in ND. assert (k <> n) by (intros ->; auto). lia.
      * intros k Hk NI. apply Z; [lia|]. intros K. apply NI. apply in_or_app. apply in_app_or in K as [|[|]]; auto. lia.
    + rewrite (Z n) by (auto; lia). rewrite Rplus_0_r. apply IH; auto.
      intros k Hk. specialize (HL k Hk). assert (k <> n) by congruence. lia.
Qed.
Lemma all_species_length ps : List.length (all_species ps) = before ps (List.length ps).
Proof.
  rewrite before_all. unfold all_species. induction ps as [|p ps IH]; [reflexivity|]. cbn [flat_map fold_right].
  rewrite app_length, map_length, seq_length, IH. reflexivity.
Qed.
Definition none : ph * nat := (PH EmptyString [] [] (fun _ _ => 0) (fun _ => 0) 0 0 false (fun _ => false), 0%nat).
Lemma tally_sum f ps n : List.length n = List.length (all_species ps) ->
  tally f ps n = sum_n (fun k => f (nth k (all_species ps) none) * nth k n 0) (List.length n).
Proof.
  unfold tally. generalize (all_species ps). intros l. revert n. induction l as [|s l IH]; intros [|v n] H; cbn in H; try discriminate; [reflexivity|].
  cbn [map2 rsum List.length]. rewrite sum_n_shift. cbn [nth]. now rewrite IH by lia.
Qed.

(** ** What the constructor leaves out holds nothing *)
Section Mixture.
Context (m : mix) (W : wf m) (I : x_init m = true) (NE : x_enames m <> []).
Let n := getMoles m.
Context (NN : forall v, In v n -> 0 <= v).
Context (AN : forall e s, In e (x_enames m) -> electron e = false -> In s (all_species (x_ph m)) -> 0 <= atoms_of e s).
Context (OK : existsb (refused m) (seq 0 (x_nsp m)) = false).

Let LN : List.length n = x_nsp m. Proof. now apply getMoles_length. Qed.
Let LS : List.length (all_species (x_ph m)) = x_nsp m.
Proof. rewrite all_species_length. symmetry. now apply w_nsp. Qed.
Lemma moles_nonneg k : 0 <= nth k n 0.
Proof. destruct (Nat.lt_ge_cases k (List.length n)); [apply NN, nth_In; auto|]. rewrite nth_overflow; auto. lra. Qed.
Lemma enames_at e : (e < List.length (x_enames m))%nat -> nth_error (x_enames m) e = Some (nth e (x_enames m) EmptyString).
Proof. intros H. now apply nth_error_nth'. Qed.
Lemma element_val e : (e < List.length (x_enames m))%nat ->
  val 0 (elementMoles m e) = tally (atoms_of (nth e (x_enames m) EmptyString)) (x_ph m) n.
Proof. intros H. rewrite (elementMoles_ok m e (nth e (x_enames m) EmptyString)); auto. now apply enames_at. Qed.
Lemma atoms_val k e : (k < x_nsp m)%nat -> (e < List.length (x_enames m))%nat ->
  val 0 (nAtoms m k e) = atoms_of (nth e (x_enames m) EmptyString) (nth k (all_species (x_ph m)) none).
Proof.
  intros Hk He. erewrite nAtoms_ok; [reflexivity|auto|auto|now apply enames_at|].
  apply nth_error_nth'. rewrite LS. auto.
Qed.
Lemma species_val k : (k < x_nsp m)%nat -> val 0 (speciesMoles m k) = nth k n 0.
Proof. intros Hk. rewrite speciesMoles_ok by auto. reflexivity. Qed.

(** Terms of an element that is left out. *)
Lemma excluded_zero e k : (e < List.length (x_enames m))%nat -> incl_element m e = false -> (k < x_nsp m)%nat ->
  atoms_of (nth e (x_enames m) EmptyString) (nth k (all_species (x_ph m)) none) * nth k n 0 = 0.
Proof.
  intros He X Hk. unfold incl_element in X. apply negb_false_iff, andb_true_iff in X as [X1 X2].
  apply negb_true_iff in X1, X2. apply rltb_false in X1. rewrite element_val in X1 by auto.
  rewrite tally_sum in X1 by (rewrite LN, LS; auto). rewrite LN in X1.
  assert (P : forall k, (k < x_nsp m)%nat -> 0 <= atoms_of (nth e (x_enames m) EmptyString) (nth k (all_species (x_ph m)) none) * nth k n 0).
  { intros j Hj. apply Rmult_le_pos; [|apply moles_nonneg]. apply AN; auto; apply nth_In; auto. rewrite LS; auto. }
  exact (sum_nonneg_zero _ _ P X1 k Hk).
Qed.
Lemma left_out_empty k : (k < x_nsp m)%nat -> ~ In k (species m) -> nth k n 0 = 0.
Proof.
  intros Hk NI. rewrite species_in in NI. destruct (incl_species m k) eqn:X; [exfalso; auto|].
  unfold incl_species in X. apply andb_false_iff in X as [X|X].
  - assert (Y : exists e, In e (seq 0 (List.length (x_enames m))) /\ incl_element m e || reqb (val 0 (nAtoms m k e)) 0 = false).
    { revert X. generalize (seq 0 (List.length (x_enames m))). intros l. induction l as [|a l IH]; intros X; [discriminate|].
      cbn in X. apply andb_false_iff in X as [X|X]; [exists a; split; [now left|auto]|].
      destruct (IH X) as (e & E1 & E2). exists e. split; [now right|auto]. }
    destruct Y as (e & He & Y). apply in_seq in He. apply orb_false_iff in Y as [Y1 Y2]. apply reqb_false in Y2.
    rewrite atoms_val in Y2 by (auto; lia). pose proof (excluded_zero e k ltac:(lia) Y1 Hk) as Z.
    apply Rmult_integral in Z as [Z|Z]; [contradiction|auto].
  - apply orb_false_iff in X as [X1 X2].
    assert (Y : refused m k = false).
    { destruct (refused m k) eqn:Y; [|auto]. rewrite <- OK. symmetry. apply existsb_exists. exists k. split; [apply in_seq; lia|auto]. }
    unfold refused in Y. rewrite X1, X2 in Y. cbn [negb andb] in Y. apply rltb_false in Y. rewrite species_val in Y by auto.
    pose proof (moles_nonneg k). lra.
Qed.
Lemma elements_in e : (e < List.length (x_enames m))%nat -> incl_element m e = true ->
  exists i, (i < List.length (elements m))%nat /\ nth i (elements m) 0%nat = e.
Proof.
  intros He X. assert (J : In e (elements m)); [|apply (In_nth _ _ 0%nat) in J as (i & A & B); eauto].
  unfold elements. apply in_or_app. destruct (find_last _ _) as [e'|] eqn:F.
  - destruct (Nat.eq_dec e e') as [<-|N]; [left; now left|]. right. apply filter_In. split; [apply in_seq; lia|].
    rewrite X. destruct (Nat.eqb_spec e e'); [contradiction|auto].
  - right. apply filter_In. split; [apply in_seq; lia|]. now rewrite X.
Qed.

(** Element totals of the mixture from those of the solver. *)
Lemma totals_match (q : vec) :
  (forall i, (i < List.length (elements m))%nat ->
     total (List.length (species m)) (solver_atoms m) q i
     = total (List.length (species m)) (solver_atoms m) (initial_moles m) i) ->
  forall name, In name (x_enames m) ->
  tally (atoms_of name) (x_ph m) (spread (x_nsp m) (species m) q) = tally (atoms_of name) (x_ph m) n.
Proof.
  intros T name Hn. apply (In_nth _ _ EmptyString) in Hn as (e & He & <-).
  destruct (spread_ok (x_nsp m) (species m) q (species_nodup m) ltac:(intros k Hk; now apply species_in in Hk)) as (SL & SI & SO).
  rewrite !tally_sum by (rewrite ?SL, ?LN, LS; auto). rewrite SL, LN.
  destruct (incl_element m e) eqn:X.
  - destruct (elements_in e He X) as (i & Hi & Ei). specialize (T i Hi). unfold total in T.
    rewrite (sum_subset _ (x_nsp m) (species m) (species_nodup m)); cycle 1.
    { intros k Hk. now apply species_in in Hk. }
    { intros k Hk NI. rewrite SO by auto. ring. }
    rewrite (sum_subset (fun k => _ * nth k n 0) (x_nsp m) (species m) (species_nodup m)); cycle 1.
    { intros k Hk. now apply species_in in Hk. }
    { intros k Hk NI. rewrite left_out_empty by auto. ring. }
    etransitivity; [|etransitivity; [exact T|]]; apply sum_n_ext; intros k Hk.
    + rewrite SI by auto. f_equal. unfold solver_atoms. rewrite Ei, atoms_val; auto.
      assert (K : In (nth k (species m) 0%nat) (species m)) by (now apply nth_In). now apply species_in in K.
    + assert (K : In (nth k (species m) 0%nat) (species m)) by (now apply nth_In). apply species_in in K as [K _].
      unfold solver_atoms, initial_moles. rewrite Ei, atoms_val, species_val; auto.
  - transitivity 0; [|symmetry]; apply sum_n_zeros.
    + intros k Hk. destruct (in_dec Nat.eq_dec k (species m)) as [J|J]; [|rewrite SO by auto; ring].
      apply species_in in J as [_ J]. unfold incl_species in J. apply andb_true_iff in J as [J _].
      rewrite forallb_forall in J. specialize (J e ltac:(apply in_seq; lia)). rewrite X in J. cbn [orb] in J.
      apply reqb_true in J. rewrite atoms_val in J by auto. rewrite J. ring.
    + intros k Hk. now apply excluded_zero.
Qed.
Lemma initial_nonneg k : 0 <= initial_moles m k.
Proof.
  unfold initial_moles. destruct (Nat.lt_ge_cases (nth k (species m) 0%nat) (x_nsp m)) as [H|H].
  - rewrite species_val by auto. apply moles_nonneg.
  - unfold speciesMoles, rd at 1. destruct (w_init m W I) as (_ & SP & _). destruct (SP NE) as (_ & _ & SO).
    assert (LO : forall ps a, List.length (owners ps a) = before ps (List.length ps)).
    { intros ps. rewrite before_all. induction ps as [|p ps IH]; intros a; [reflexivity|]. cbn. rewrite app_length, repeat_length, IH. reflexivity. }
    destruct (nth_error (x_spphase m) (nth k (species m) 0%nat)) eqn:E; [|cbn; lra].
    assert (nth k (species m) 0%nat < List.length (x_spphase m))%nat by (apply nth_error_Some; congruence).
    rewrite SO, LO, <- (w_nsp m W) in H0. lia.
Qed.
End Mixture.

(** The mixture's own record is only changed by setMoles. *)
Lemma setMoles_static m v : x_init m = true -> static m (snd (setMoles m v)).
Proof. intros I. exact (run_op_static m (SetMoles v) I). Qed.
Lemma setMoles_TP m v : x_init m = true -> x_T (snd (setMoles m v)) = x_T m /\ x_P (snd (setMoles m v)) = x_P m.
Proof.
  intros I. unfold setMoles, andthen. rewrite (init_id m I). cbn [fst snd]. destruct (_ <? _)%nat; split; reflexivity.
Qed.
Lemma solve_acts_ok nel nsp at_ ds sps l : forall s m s' m', wf m -> x_init m = true ->
  solve_acts nel nsp at_ ds sps s m l = (Ok s', m') ->
  acts nel nsp at_ ds s l = Some s' /\ wf m' /\ static m m' /\ x_T m' = x_T m /\ x_P m' = x_P m.
Proof.
  induction l as [|a l IH]; intros s m s' m' W I E; cbn [solve_acts acts] in *.
  - injection E as <- <-. split; [auto|]. split; [auto|]. split; [now apply static_refl|auto].
  - destruct (act_step nel nsp at_ ds s a) as [s1|] eqn:A; [|discriminate].
    assert (H : forall r, r = (match a with Components _ => (Ok tt, m) | _ => setMoles m (spread (x_nsp m) sps (e_moles s1)) end) ->
       static m (snd r) /\ wf (snd r) /\ x_T (snd r) = x_T m /\ x_P (snd r) = x_P m).
    { intros r ->. pose proof (setMoles_static m (spread (x_nsp m) sps (e_moles s1)) I).
      pose proof (setMoles_wf m (spread (x_nsp m) sps (e_moles s1)) W) as (H1 & _).
      pose proof (setMoles_TP m (spread (x_nsp m) sps (e_moles s1)) I).
      destruct a; cbn [snd]; auto. split; [now apply static_refl|auto]. }
    specialize (H _ eq_refl). destruct (match a with Components _ => _ | _ => _ end) as [[| | |] m1]; try discriminate.
    cbn [snd] in H. destruct H as (H1 & H2 & H3 & H4).
    destruct (IH s1 m1 s' m' H2 ltac:(apply H1) E) as (J1 & J2 & J3 & J4 & J5).
    split; [exact J1|]. split; [exact J2|]. split; [eapply static_trans; eauto|]. split; congruence.
Qed.
Lemma finish_id q k : 0 <= q k -> finish q k = q k.
Proof. intros H. unfold finish. destruct (rltb 0 (q k)) eqn:E; [auto|]. apply rltb_false in E. lra. Qed.
