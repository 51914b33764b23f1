(* Reactor networks: conservation (C29), flow devices (C31), agreement of the
   formulations (C55) and independence of earlier evaluations (C56). *)
From Coq Require Import String List Bool Reals Lra Lia Arith.
From Verif Require Import Base.Outcome Base.RSum Base.Fp ZeroD.NetModel ZeroD.NetSpec ZeroD.FrameProofs
  ZeroD.EvalProofs ZeroD.BalanceProofs ZeroD.EnergyProofs ZeroD.DevProofs ZeroD.HistoryProofs.
Import ListNotations.
Local Open Scope R_scope.
Local Open Scope list_scope.

(* Facts shared by the theorems below. *)
Lemma eval_facts ops t y yd s' : NoDup (w_order (run ops)) -> evalNet (run ops) t y = (Ok yd, s') ->
  linked s' /\ NoDup (w_order s') /\ Forall2 (settled s') (w_order s') yd /\
  (forall i, In i (w_order s') -> fresh_p (w_nodes s' i) /\ n_kind (w_nodes s' i) <> KReservoir).
Proof.
  intros ND H. destruct (evalNet_spec _ _ _ _ _ ND H) as (St & F & P & _).
  assert (L : linked s') by (eapply linked_static; [exact St|apply run_linked]).
  split; [exact L|]. split; [rewrite (st_order _ _ St); exact ND|]. split; [exact F|].
  intros i Hi. split; [apply P; exact Hi|]. apply (lk_order _ L). exact Hi.
Qed.

(** * C29: conservation *)

(* The conditions for a reactor whose unknowns are moles. *)
Definition mole_ok (s : net) (i : nat) : Prop :=
  molar (n_kind (w_nodes s i)) = true ->
  normalised (w_nodes s i) /\ reactions_conserve_mass (w_nodes s i) /\ weights_nonzero (w_nodes s i) /\
  names_distinct (w_nodes s i) /\ same_species_downstream s i /\ knows_upstream s i /\
  (forall d a, dv_ends (w_devs s d) = Some (a, i) -> normalised (w_nodes s a) /\ names_distinct (w_nodes s a)).

Lemma amount_1 n : normalised n -> amount n (fun _ => 1) (at_ (n_Y n)) = 1.
Proof. intros H. unfold normalised in H. transitivity (sum_n (at_ (n_Y n)) (n_nsp n)); [|exact H].
  unfold amount. apply sum_n_ext. intros k _. lra. Qed.

(* All species together gain what flows in, minus what flows out, plus what surfaces give off. *)
Lemma species_total s i v : linked s -> settled s i v -> n_kind (w_nodes s i) <> KReservoir ->
  normalised (w_nodes s i) -> reactions_conserve_mass (w_nodes s i) ->
  names_distinct (w_nodes s i) -> knows_upstream s i ->
  (forall d a, dv_ends (w_devs s d) = Some (a, i) -> normalised (w_nodes s a) /\ names_distinct (w_nodes s a)) ->
  (if molar (n_kind (w_nodes s i)) then weights_nonzero (w_nodes s i) /\ same_species_downstream s i else n_mass (w_nodes s i) <> 0) ->
  sum_n (species_mass_rate (w_nodes s i) v) (n_nsp (w_nodes s i)) =
    arriving s i (mflow s) - leaving s i (mflow s) + surface_mass (w_nodes s i).
Proof.
  intros L S NR Nm Cm Nd Ku Up X.
  rewrite (sum_n_ext _ (fun k => (from_reactions (w_nodes s i) k + from_surfaces (w_nodes s i) k) * at_ (th_mw (n_th (w_nodes s i))) k
    + arriving s i (fun d => carried s d (name (w_nodes s i) k)) - leaving s i (mflow s) * at_ (n_Y (w_nodes s i)) k)).
  2:{ intros k Hk. apply reactor_species; try assumption.
      destruct (molar (n_kind (w_nodes s i))); [split; [apply X; exact Hk|tauto]|exact X]. }
  unfold sum_n. rewrite sum_of_minus, sum_of_plus, sum_of_scal.
  assert (A : sum_of (fun k => arriving s i (fun d => carried s d (name (w_nodes s i) k))) (seq 0 (n_nsp (w_nodes s i))) = arriving s i (mflow s)).
  { pose proof (arriving_swap s i (fun k d => carried s d (name (w_nodes s i) k)) (n_nsp (w_nodes s i))) as Y.
    unfold sum_n at 1 in Y. rewrite Y. apply arriving_ext. intros d a E. destruct (Up d a E) as [Na Da].
    unfold carried, up. rewrite E. cbn [option_map fst]. unfold sum_n. rewrite sum_of_scal.
    pose proof (known_sum (w_nodes s a) (w_nodes s i) (fun _ => 1) Da Nd (Ku d a E)) as K. rewrite (amount_1 _ Na) in K.
    rewrite (sum_of_ext _ (fun k => 1 * by_name (w_nodes s a) (at_ (n_Y (w_nodes s a))) (name (w_nodes s i) k))) by (intros; lra).
    unfold sum_n in K. rewrite K. lra. }
  assert (B : sum_of (fun k => (from_reactions (w_nodes s i) k + from_surfaces (w_nodes s i) k) * at_ (th_mw (n_th (w_nodes s i))) k)
     (seq 0 (n_nsp (w_nodes s i))) = surface_mass (w_nodes s i)).
  { rewrite (sum_of_ext _ (fun k => n_vol (w_nodes s i) * (at_ (n_wdot (w_nodes s i)) k * at_ (th_mw (n_th (w_nodes s i))) k)
        + from_surfaces (w_nodes s i) k * at_ (th_mw (n_th (w_nodes s i))) k)) by (intros; unfold from_reactions; ring).
    rewrite sum_of_plus, sum_of_scal. unfold reactions_conserve_mass, sum_n in Cm. rewrite Cm. unfold surface_mass, sum_n. lra. }
  rewrite A, B. unfold normalised, sum_n in Nm. rewrite Nm. lra.
Qed.

Lemma mass_one s i v : linked s -> settled s i v -> n_kind (w_nodes s i) <> KReservoir -> mole_ok s i ->
  mass_rate (w_nodes s i) v = arriving s i (mflow s) - leaving s i (mflow s) + surface_mass (w_nodes s i).
Proof.
  intros L S NR OK. destruct (molar (n_kind (w_nodes s i))) eqn:M; [|apply reactor_mass_lead; assumption].
  destruct (OK M) as (Nm & Cm & Wn & Nd & Ss & Ku & Up).
  rewrite <- (species_total s i v) by (try assumption; rewrite M; tauto).
  unfold mass_rate. rewrite M. apply sum_n_ext. intros k _. unfold species_mass_rate. rewrite M. reflexivity.
Qed.

(* The mass fractions of a reactor keep their sum. *)
Theorem C29_fractions ops t y yd s' i v :
  NoDup (w_order (run ops)) -> evalNet (run ops) t y = (Ok yd, s') -> In (i, v) (combine (w_order s') yd) ->
  molar (n_kind (w_nodes s' i)) = false -> n_mass (w_nodes s' i) <> 0 ->
  normalised (w_nodes s' i) -> reactions_conserve_mass (w_nodes s' i) ->
  names_distinct (w_nodes s' i) -> knows_upstream s' i ->
  (forall d a, dv_ends (w_devs s' d) = Some (a, i) -> normalised (w_nodes s' a) /\ names_distinct (w_nodes s' a)) ->
  sum_n (fun k => at_ v (species_at (w_nodes s' i) + k)) (n_nsp (w_nodes s' i)) = 0.
Proof.
  intros ND H Hin M Hm Nm Cm Nd Ku Up. destruct (eval_facts _ _ _ _ _ ND H) as (L & _ & F & K).
  assert (S : settled s' i v).
  { clear -F Hin. induction F as [|a b la lb S F IH]; [destruct Hin|]. destruct Hin as [E|E]; [injection E as <- <-; exact S|auto]. }
  destruct (K i) as [P NR]; [eapply in_combine_l; exact Hin|].
  pose proof (species_total s' i v L S NR Nm Cm Nd Ku Up) as T. rewrite M in T. specialize (T Hm).
  rewrite <- (reactor_mass_lead s' i v L S NR M) in T. unfold mass_rate in T. rewrite M in T.
  rewrite (sum_n_ext _ (fun k => n_mass (w_nodes s' i) * at_ v (species_at (w_nodes s' i) + k) + at_ v 0 * at_ (n_Y (w_nodes s' i)) k)) in T.
  2:{ intros k _. unfold species_mass_rate. rewrite M. ring. }
  unfold sum_n in T. rewrite sum_of_plus, !sum_of_scal in T. unfold normalised, sum_n in Nm. rewrite Nm in T.
  apply (Rmult_eq_reg_l (n_mass (w_nodes s' i))); [|exact Hm]. unfold sum_n. lra.
Qed.

(* Mass of one reactor: what flows in, minus what flows out, plus what the surfaces give off. *)
Theorem C29_reactor_mass ops t y yd s' i v :
  NoDup (w_order (run ops)) -> evalNet (run ops) t y = (Ok yd, s') -> In (i, v) (combine (w_order s') yd) ->
  mole_ok s' i ->
  mass_rate (w_nodes s' i) v = arriving s' i (mflow s') - leaving s' i (mflow s') + surface_mass (w_nodes s' i).
Proof.
  intros ND H Hin OK. destruct (eval_facts _ _ _ _ _ ND H) as (L & _ & F & K).
  assert (S : settled s' i v).
  { clear -F Hin. induction F as [|a b la lb S F IH]; [destruct Hin|]. destruct Hin as [E|E]; [injection E as <- <-; exact S|auto]. }
  apply mass_one; [exact L|exact S| |exact OK]. apply K. eapply in_combine_l. exact Hin.
Qed.

(* Mass of the network: only surfaces and devices that cross its border change it. *)
Theorem C29_mass ops t y yd s' :
  NoDup (w_order (run ops)) -> evalNet (run ops) t y = (Ok yd, s') ->
  (forall i, In i (w_order s') -> mole_ok s' i) ->
  sum_of (fun p => mass_rate (fst p) (snd p)) (parts s' yd) =
    sum_of (fun i => surface_mass (w_nodes s' i)) (w_order s')
    + sum_n (fun d => mflow s' d * (ind (inside_o s' (down s' d)) - ind (inside_o s' (up s' d)))) (w_nd s').
Proof.
  intros ND H OK. destruct (eval_facts _ _ _ _ _ ND H) as (L & ND' & F & K).
  rewrite (parts_sum s' yd mass_rate (fun i => arriving s' i (mflow s') - leaving s' i (mflow s') + surface_mass (w_nodes s' i)) F).
  2:{ intros i v Hi S. apply mass_one; [exact L|exact S|apply K; exact Hi|apply OK; exact Hi]. }
  rewrite sum_of_plus, sum_of_minus, sum_arriving, sum_leaving by exact ND'.
  unfold sum_n. rewrite <- sum_of_minus.
  rewrite (sum_of_ext _ (fun d => mflow s' d * (ind (inside_o s' (down s' d)) - ind (inside_o s' (up s' d))))) by (intros; ring). lra.
Qed.

(* A network that nothing enters or leaves keeps its mass. *)
Theorem C29_closed_mass ops t y yd s' :
  NoDup (w_order (run ops)) -> evalNet (run ops) t y = (Ok yd, s') ->
  (forall i, In i (w_order s') -> mole_ok s' i) ->
  (forall i, In i (w_order s') -> n_surf (w_nodes s' i) = []) ->
  (forall d i j, dv_ends (w_devs s' d) = Some (i, j) -> inside s' i = inside s' j) ->
  sum_of (fun p => mass_rate (fst p) (snd p)) (parts s' yd) = 0.
Proof.
  intros ND H OK Sf Cl. rewrite (C29_mass _ _ _ _ _ ND H OK).
  unfold sum_n at 1. rewrite (sum_of_0 _ (w_order s')), (sum_of_0 _ (seq 0 (w_nd s'))); [lra|..].
  - intros d _. unfold up, down, inside_o. destruct (dv_ends (w_devs s' d)) as [[i j]|] eqn:E; cbn [option_map fst snd]; [|lra].
    rewrite (Cl d i j E). lra.
  - intros i Hi. unfold surface_mass. apply sum_of_0. intros k _. unfold from_surfaces. rewrite (Sf i Hi). rewrite sum_of_nil. lra.
Qed.

(* Species, or anything else that species hold, such as the atoms of an element: w nm is
   the amount in a unit mass of the species nm. The network gains what reactions and
   surfaces produce and what crosses the border. *)
Definition species_ok (s : net) (i : nat) : Prop :=
  names_distinct (w_nodes s i) /\ knows_upstream s i /\
  (forall d a, dv_ends (w_devs s d) = Some (a, i) -> names_distinct (w_nodes s a)) /\
  (if molar (n_kind (w_nodes s i)) then weights_nonzero (w_nodes s i) /\ same_species_downstream s i
   else n_mass (w_nodes s i) <> 0).
Definition produced (n : node) (w : string -> R) : R :=
  amount n w (fun k => (from_reactions n k + from_surfaces n k) * at_ (th_mw (n_th n)) k).

Theorem C29_amount ops t y yd s' w :
  NoDup (w_order (run ops)) -> evalNet (run ops) t y = (Ok yd, s') ->
  (forall i, In i (w_order s') -> species_ok s' i) ->
  sum_of (fun p => amount (fst p) w (species_mass_rate (fst p) (snd p))) (parts s' yd) =
    sum_of (fun i => produced (w_nodes s' i) w) (w_order s')
    + sum_n (fun d => mflow s' d * content s' w d * (ind (inside_o s' (down s' d)) - ind (inside_o s' (up s' d)))) (w_nd s').
Proof.
  intros ND H OK. destruct (eval_facts _ _ _ _ _ ND H) as (L & ND' & F & K).
  rewrite (parts_sum s' yd (fun n v => amount n w (species_mass_rate n v))
     (fun i => produced (w_nodes s' i) w + (arriving s' i (fun d => mflow s' d * content s' w d) - leaving s' i (fun d => mflow s' d * content s' w d))) F).
  2:{ intros i v Hi S. destruct (OK i Hi) as (Nd & Ku & Up & X). destruct (K i Hi) as [_ NR]. unfold amount at 1.
      rewrite (sum_n_ext _ (fun k => w (name (w_nodes s' i) k) * ((from_reactions (w_nodes s' i) k + from_surfaces (w_nodes s' i) k) * at_ (th_mw (n_th (w_nodes s' i))) k)
        + arriving s' i (fun d => w (name (w_nodes s' i) k) * carried s' d (name (w_nodes s' i) k))
        - leaving s' i (mflow s') * (w (name (w_nodes s' i) k) * at_ (n_Y (w_nodes s' i)) k))).
      2:{ intros k Hk. rewrite (reactor_species s' i v L S NR k Hk).
          2:{ destruct (molar (n_kind (w_nodes s' i))); [split; [apply X; exact Hk|tauto]|exact X]. }
          assert (E : arriving s' i (fun d => w (name (w_nodes s' i) k) * carried s' d (name (w_nodes s' i) k)) =
                      w (name (w_nodes s' i) k) * arriving s' i (fun d => carried s' d (name (w_nodes s' i) k))).
          { rewrite Rmult_comm, <- arriving_scal. unfold arriving. apply sum_n_ext. intros d _. destruct (is_at _ _); lra. }
          rewrite E. ring. }
      unfold sum_n. rewrite sum_of_minus, sum_of_plus, sum_of_scal.
      pose proof (arriving_swap s' i (fun k d => w (name (w_nodes s' i) k) * carried s' d (name (w_nodes s' i) k)) (n_nsp (w_nodes s' i))) as Sw.
      unfold sum_n at 1 in Sw. rewrite Sw.
      rewrite (arriving_ext s' i _ (fun d => mflow s' d * content s' w d)).
      2:{ intros d a E. unfold carried, content, up. rewrite E. cbn [option_map fst].
          rewrite <- (known_sum (w_nodes s' a) (w_nodes s' i) w (Up d a E) Nd (Ku d a E)).
          unfold sum_n. rewrite <- sum_of_scal. apply sum_of_ext. intros. ring. }
      rewrite (leaving_ext s' i (fun d => mflow s' d * content s' w d) (fun d => mflow s' d * amount (w_nodes s' i) w (at_ (n_Y (w_nodes s' i))))).
      2:{ intros d b E. unfold content, up. rewrite E. reflexivity. }
      rewrite leaving_scal. unfold produced, amount, sum_n. ring. }
  rewrite sum_of_plus, sum_of_minus, sum_arriving, sum_leaving by exact ND'.
  unfold sum_n. rewrite <- sum_of_minus. f_equal. apply sum_of_ext. intros. ring.
Qed.

(* Elements: atoms nm is the number of atoms of an element in the species nm. If gas
   reactions and surfaces conserve it and no device crosses the border, it is conserved. *)
Theorem C29_elements ops t y yd s' (atoms : string -> R) (W : string -> R) :
  NoDup (w_order (run ops)) -> evalNet (run ops) t y = (Ok yd, s') ->
  (forall i, In i (w_order s') -> species_ok s' i) ->
  (forall i k, In i (w_order s') -> (k < n_nsp (w_nodes s' i))%nat ->
     at_ (th_mw (n_th (w_nodes s' i))) k = W (name (w_nodes s' i) k) /\ W (name (w_nodes s' i) k) <> 0) ->
  (forall i, In i (w_order s') ->
     sum_n (fun k => atoms (name (w_nodes s' i) k) * at_ (n_wdot (w_nodes s' i)) k) (n_nsp (w_nodes s' i)) = 0) ->
  (forall i, In i (w_order s') -> n_surf (w_nodes s' i) = []) ->
  (forall d i j, dv_ends (w_devs s' d) = Some (i, j) -> inside s' i = inside s' j) ->
  sum_of (fun p => amount (fst p) (fun nm => atoms nm / W nm) (species_mass_rate (fst p) (snd p))) (parts s' yd) = 0.
Proof.
  intros ND H OK HW Hr Sf Cl. rewrite (C29_amount _ _ _ _ _ (fun nm => atoms nm / W nm) ND H OK).
  unfold sum_n at 1. rewrite (sum_of_0 _ (w_order s')), (sum_of_0 _ (seq 0 (w_nd s'))); [lra|..].
  - intros d _. unfold up, down, inside_o. destruct (dv_ends (w_devs s' d)) as [[i j]|] eqn:E; cbn [option_map fst snd]; [|lra].
    rewrite (Cl d i j E). lra.
  - intros i Hi. unfold produced, amount. transitivity (n_vol (w_nodes s' i) *
      sum_n (fun k => atoms (name (w_nodes s' i) k) * at_ (n_wdot (w_nodes s' i)) k) (n_nsp (w_nodes s' i))); [|rewrite Hr by exact Hi; lra].
    unfold sum_n. rewrite <- sum_of_scal. apply sum_of_ext. intros k Hk. apply in_seq in Hk.
    destruct (HW i k Hi) as [E1 E2]; [lia|]. rewrite E1. unfold from_reactions, from_surfaces. rewrite (Sf i Hi), sum_of_nil. field. exact E2.
Qed.

(* Volume: what one side of a wall gains the other loses. *)
Theorem C29_volume ops t y yd s' :
  NoDup (w_order (run ops)) -> evalNet (run ops) t y = (Ok yd, s') ->
  (forall i, In i (w_order s') -> given_volume (w_nodes s' i) = true) ->
  sum_of (fun p => volume_rate (snd p)) (parts s' yd) =
    sum_n (fun w => wall_motion s' w * (ind (inside_o s' (wleft s' w)) - ind (inside_o s' (wright s' w)))) (w_nw s').
Proof.
  intros ND H GV. destruct (eval_facts _ _ _ _ _ ND H) as (L & ND' & F & K).
  rewrite (parts_sum s' yd (fun _ v => volume_rate v) (expansion s') F).
  2:{ intros i v Hi S. apply reactor_volume; [exact L|exact S|apply K; exact Hi|apply GV; exact Hi]. }
  unfold expansion. rewrite sum_of_minus, (sum_on_left s' (fun _ => wall_motion s') ND'), (sum_on_right s' (fun _ => wall_motion s') ND').
  unfold sum_n. rewrite <- sum_of_minus. apply sum_of_ext. intros w _. unfold inside_o.
  destruct (wleft s' w), (wright s' w); cbn [ind]; ring.
Qed.

(* Internal energy: enthalpy and heat crossing the border, and the work of the walls. *)
Theorem C29_energy ops t y yd s' :
  NoDup (w_order (run ops)) -> evalNet (run ops) t y = (Ok yd, s') ->
  (forall i, In i (w_order s') -> given_volume (w_nodes s' i) = true /\ n_energy (w_nodes s' i) = true /\ energy_ok s' i) ->
  sum_of (fun p => energy_rate (fst p) (snd p)) (parts s' yd) =
    sum_n (fun d => carried_h s' d * (ind (inside_o s' (down s' d)) - ind (inside_o s' (up s' d)))) (w_nd s')
    + sum_n (fun w => wall_heat s' w * (ind (inside_o s' (wright s' w)) - ind (inside_o s' (wleft s' w)))) (w_nw s')
    - sum_n (fun w => wall_motion s' w * (press_o s' (wleft s' w) * ind (inside_o s' (wleft s' w))
                                          - press_o s' (wright s' w) * ind (inside_o s' (wright s' w)))) (w_nw s').
Proof.
  intros ND H OK. destruct (eval_facts _ _ _ _ _ ND H) as (L & ND' & F & K).
  rewrite (parts_sum s' yd energy_rate (fun i => (arriving s' i (carried_h s') - leaving s' i (carried_h s'))
     + ((on_right s' i (wall_heat s') - on_left s' i (wall_heat s'))
        - (on_left s' i (fun w => press s' i * wall_motion s' w) - on_right s' i (fun w => press s' i * wall_motion s' w)))) F).
  2:{ intros i v Hi S. destruct (OK i Hi) as (GV & En & Ok_). destruct (K i Hi) as [P NR].
      rewrite (reactor_energy s' i v L S NR P En GV Ok_). unfold expansion, heating.
      assert (El : on_left s' i (fun w => press s' i * wall_motion s' w) = press s' i * on_left s' i (wall_motion s')).
      { unfold on_left, sum_n. rewrite <- sum_of_scal. apply sum_of_ext. intros w _. destruct (is_at _ _); lra. }
      assert (Er : on_right s' i (fun w => press s' i * wall_motion s' w) = press s' i * on_right s' i (wall_motion s')).
      { unfold on_right, sum_n. rewrite <- sum_of_scal. apply sum_of_ext. intros w _. destruct (is_at _ _); lra. }
      rewrite El, Er. unfold press. ring. }
  rewrite sum_of_plus, !sum_of_minus, sum_arriving, sum_leaving by exact ND'.
  rewrite (sum_on_left s' (fun _ => wall_heat s') ND'), (sum_on_right s' (fun _ => wall_heat s') ND').
  rewrite (sum_on_left s' (fun i w => press s' i * wall_motion s' w) ND'), (sum_on_right s' (fun i w => press s' i * wall_motion s' w) ND').
  unfold sum_n.
  rewrite (sum_of_ext (fun d => carried_h s' d * (ind (inside_o s' (down s' d)) - ind (inside_o s' (up s' d))))
     (fun d => carried_h s' d * ind (inside_o s' (down s' d)) - carried_h s' d * ind (inside_o s' (up s' d)))) by (intros; ring).
  rewrite (sum_of_ext (fun w => wall_heat s' w * (ind (inside_o s' (wright s' w)) - ind (inside_o s' (wleft s' w))))
     (fun w => match wright s' w with Some i => wall_heat s' w * ind (inside s' i) | None => 0 end
             - match wleft s' w with Some i => wall_heat s' w * ind (inside s' i) | None => 0 end)).
  2:{ intros w _. unfold inside_o. destruct (wleft s' w), (wright s' w); cbn [ind]; ring. }
  rewrite (sum_of_ext (fun w => wall_motion s' w * (press_o s' (wleft s' w) * ind (inside_o s' (wleft s' w))
              - press_o s' (wright s' w) * ind (inside_o s' (wright s' w))))
     (fun w => match wleft s' w with Some i => press s' i * wall_motion s' w * ind (inside s' i) | None => 0 end
             - match wright s' w with Some i => press s' i * wall_motion s' w * ind (inside s' i) | None => 0 end)).
  2:{ intros w _. unfold inside_o, press_o. destruct (wleft s' w), (wright s' w); cbn [ind]; ring. }
  rewrite !sum_of_minus. lra.
Qed.

(* The surface coverages of one surface keep their sum. *)
Theorem C29_coverages sf work : (0 < sf_nk sf)%nat -> rsum (surf_cov_rates sf work) = 0.
Proof.
  intros H. unfold surf_cov_rates. destruct (sf_nk sf); [lia|]. cbn [rsum].
  rewrite (fold_minus (fun x => x)). unfold sum_of. rewrite map_id. lra.
Qed.

(** * C55: the formulations of the energy equation agree *)
Theorem C55_energy ops t y yd s' i v :
  NoDup (w_order (run ops)) -> evalNet (run ops) t y = (Ok yd, s') -> In (i, v) (combine (w_order s') yd) ->
  n_energy (w_nodes s' i) = true -> given_volume (w_nodes s' i) = true -> energy_ok s' i ->
  energy_rate (w_nodes s' i) v = - n_press (w_nodes s' i) * expansion s' i + heating s' i
                    + arriving s' i (carried_h s') - leaving s' i (carried_h s').
Proof.
  intros ND H Hin En GV OK. destruct (eval_facts _ _ _ _ _ ND H) as (L & _ & F & K).
  assert (S : settled s' i v).
  { clear -F Hin. induction F as [|a b la lb S F IH]; [destruct Hin|]. destruct Hin as [E|E]; [injection E as <- <-; exact S|auto]. }
  destruct (K i) as [P NR]; [eapply in_combine_l; exact Hin|]. apply reactor_energy; assumption.
Qed.
Theorem C55_enthalpy ops t y yd s' i v :
  NoDup (w_order (run ops)) -> evalNet (run ops) t y = (Ok yd, s') -> In (i, v) (combine (w_order s') yd) ->
  n_energy (w_nodes s' i) = true -> given_pressure (w_nodes s' i) = true -> energy_ok s' i ->
  enthalpy_rate (w_nodes s' i) v = heating s' i + arriving s' i (carried_h s') - leaving s' i (carried_h s').
Proof.
  intros ND H Hin En GV OK. destruct (eval_facts _ _ _ _ _ ND H) as (L & _ & F & K).
  assert (S : settled s' i v).
  { clear -F Hin. induction F as [|a b la lb S F IH]; [destruct Hin|]. destruct Hin as [E|E]; [injection E as <- <-; exact S|auto]. }
  destruct (K i) as [P NR]; [eapply in_combine_l; exact Hin|]. apply reactor_enthalpy; assumption.
Qed.
(* Species: the mass and the mole formulations give the same rate of m Y_k = n_k W_k. *)
Theorem C55_species ops t y yd s' i v k :
  NoDup (w_order (run ops)) -> evalNet (run ops) t y = (Ok yd, s') -> In (i, v) (combine (w_order s') yd) ->
  (k < n_nsp (w_nodes s' i))%nat ->
  (if molar (n_kind (w_nodes s' i))
   then at_ (th_mw (n_th (w_nodes s' i))) k <> 0 /\ same_species_downstream s' i /\ names_distinct (w_nodes s' i)
   else n_mass (w_nodes s' i) <> 0) ->
  species_mass_rate (w_nodes s' i) v k =
    (from_reactions (w_nodes s' i) k + from_surfaces (w_nodes s' i) k) * at_ (th_mw (n_th (w_nodes s' i))) k
    + arriving s' i (fun d => carried s' d (name (w_nodes s' i) k)) - leaving s' i (mflow s') * at_ (n_Y (w_nodes s' i)) k.
Proof.
  intros ND H Hin Hk OK. destruct (eval_facts _ _ _ _ _ ND H) as (L & _ & F & K).
  assert (S : settled s' i v).
  { clear -F Hin. induction F as [|a b la lb S F IH]; [destruct Hin|]. destruct Hin as [E|E]; [injection E as <- <-; exact S|auto]. }
  destruct (K i) as [P NR]; [eapply in_combine_l; exact Hin|]. apply reactor_species; assumption.
Qed.

(** * C31: flow devices *)
Theorem C31_nonneg ops d m : dv_mdot (w_devs (run ops) d) = Some m -> 0 <= m.
Proof. apply run_nonneg. Qed.

Theorem C31_law ops t y yd s' d i j :
  NoDup (w_order (run ops)) -> plain_primaries (run ops) -> evalNet (run ops) t y = (Ok yd, s') ->
  dv_ends (w_devs s' d) = Some (i, j) -> inside s' i = true \/ inside s' j = true ->
  dv_mdot (w_devs s' d) = Some (law s' t d).
Proof.
  intros ND P H E I. apply (evalNet_law _ _ _ _ _ (run_linked ops) ND P H d i j E).
  assert (X : forall a, inside s' a = true -> In a (w_order s')).
  { intros a Ha. apply existsb_exists in Ha. destruct Ha as (x & Hx & Ex). apply Nat.eqb_eq in Ex. subst. exact Hx. }
  destruct I as [I|I]; [left|right]; apply X; exact I.
Qed.

(* The walls of an evaluation at time t follow their law at that time and state. *)
Definition emiss_ok (s : net) : Prop := forall w, 0 <= wl_emiss (w_walls s w).
Lemma emiss_upd f w x : (forall v, 0 <= wl_emiss (f v)) -> 0 <= wl_emiss x -> forall v, 0 <= wl_emiss (updf f w x v).
Proof. intros H X v. unfold updf. destruct (Nat.eqb v w); [exact X|apply H]. Qed.
Lemma emiss_static s s' : static s s' -> emiss_ok s -> emiss_ok s'.
Proof. intros St E w. destruct (wstrip_fields _ _ (st_wall _ _ St w)) as (_&_&_&_&->&_). apply E. Qed.
Lemma set_wall_emiss x o x' : set_wall x o = Ok x' -> 0 <= wl_emiss x -> 0 <= wl_emiss x'.
Proof.
  intros H E. destruct o as [a|k|u|e|[f|]|f]; cbn [set_wall] in H; try (injection H as <-; exact E).
  destruct (rltb 1 e || rltb e 0) eqn:B; [discriminate|]. injection H as <-. cbn [wl_emiss].
  apply Bool.orb_false_iff in B. destruct B as [_ B]. apply rltb_false in B. lra.
Qed.
Lemma step_emiss s o : emiss_ok s -> emiss_ok (step s o).
Proof.
  intros H. destruct o; cbn [step]; unfold dev_op, keep;
    try (repeat match goal with |- emiss_ok (match ?b with _ => _ end) => destruct b eqn:? end; exact H).
  - destruct (_ && _); [|exact H]. unfold install. destruct (dv_ends _); exact H.
  - intros v. cbn. apply emiss_upd; [exact H|cbn; lra].
  - destruct (_ && _); [|exact H]. unfold installWall. destruct (wl_ends _); [exact H|]. intros v. cbn. apply emiss_upd; [exact H|apply H].
  - destruct (set_wall _ _) as [x| | |] eqn:E; try exact H. intros v. cbn. apply emiss_upd; [exact H|]. eapply set_wall_emiss; [exact E|apply H].
  - eapply emiss_static; [apply evalNet_static|exact H].
Qed.
Lemma run_emiss ops : emiss_ok (run ops).
Proof.
  unfold run. assert (X : forall s, emiss_ok s -> emiss_ok (fold_left step ops s)).
  { induction ops as [|o ops IH]; intros s H; [exact H|]. apply IH, step_emiss, H. }
  apply X. intros w. cbn. lra.
Qed.
Theorem C31_wall_law ops t y yd s' w l r :
  NoDup (w_order (run ops)) -> evalNet (run ops) t y = (Ok yd, s') ->
  wl_ends (w_walls s' w) = Some (l, r) -> inside s' l = true \/ inside s' r = true ->
  wall_motion s' w = motion_law s' t w l r /\ wall_heat s' w = heat_law s' t w l r.
Proof.
  intros ND H E I. pose proof (run_linked ops) as L. set (s := run ops) in *.
  assert (St : static s s') by (rewrite <- (f_equal snd H : _ = s'); apply evalNet_static).
  assert (X : forall a, inside s' a = true -> In a (w_order s)).
  { intros a Ha. apply existsb_exists in Ha. destruct Ha as (x & Hx & Ex). apply Nat.eqb_eq in Ex. subst.
    rewrite <- (st_order _ _ St). exact Hx. }
  assert (E0 : wl_ends (w_walls s w) = Some (l, r)).
  { destruct (wstrip_fields _ _ (st_wall _ _ St w)) as (<-&_). exact E. }
  assert (T : wl_time (w_walls s' w) = t).
  { unfold evalNet in H. change (w_order (s_time s t)) with (w_order s) in H.
    destruct (updateAll_frame (w_order s) (s_time s t) y ND) as (_ & _ & _ & _ & F).
    pose proof (updateAll_static (w_order s) (s_time s t) y) as St1.
    destruct (updateAll (s_time s t) (w_order s) y) as [[[]| | |] s1] eqn:E1; try discriminate. cbn [fst snd] in *.
    assert (ND1 : NoDup (w_order s1)) by (rewrite (st_order _ _ St1); exact ND).
    destruct (evalAll_spec _ _ _ _ ND1 H) as (W & _ & _). rewrite (ws_walls _ _ W). change t with (w_time (s_time s t)). apply F.
    right. split; [reflexivity|]. destruct I as [I|I]; apply X in I.
    - exists l. split; [exact I|]. apply in_map_iff. exists (w, false). split; [reflexivity|]. apply (lk_wall _ L). exists l, r. split; [exact E0|reflexivity].
    - exists r. split; [exact I|]. apply in_map_iff. exists (w, true). split; [reflexivity|]. apply (lk_wall _ L). exists l, r. split; [exact E0|reflexivity]. }
  assert (P : 0 <= wl_emiss (w_walls s' w)) by (apply (emiss_static s); [exact St|apply run_emiss]).
  unfold wall_motion, wall_heat, motion_law, heat_law, expansionRate, heatRate, fun_at. rewrite E, T. cbn [rltb]. split.
  - destruct (wl_vf (w_walls s' w)); ring.
  - destruct (rltb 0 (wl_emiss (w_walls s' w))) eqn:B.
    + destruct (wl_qf (w_walls s' w)); ring.
    + apply rltb_false in B. assert (Z : wl_emiss (w_walls s' w) = 0) by lra. rewrite Z. destruct (wl_qf (w_walls s' w)); ring.
Qed.

(** * C56: evaluations do not depend on the evaluations before them *)
Definition evaluate (s : net) (evals : list (R * list R)) : net :=
  fold_left (fun s e => snd (evalNet s (fst e) (snd e))) evals s.

Theorem C56_history ops evals t y :
  NoDup (w_order (run ops)) -> plain_primaries (run ops) -> own_phases (run ops) ->
  fst (evalNet (evaluate (run ops) evals) t y) = fst (evalNet (run ops) t y).
Proof.
  intros ND P Al. apply evalNet_after; [apply run_linked|exact P|exact ND|exact Al|].
  apply evals_after; [exact ND|exact Al].
Qed.

(* Evaluations change neither the configuration nor what is outside the network. *)
Theorem C56_configuration ops evals :
  NoDup (w_order (run ops)) -> own_phases (run ops) ->
  let s := run ops in let s' := evaluate s evals in
  w_order s' = w_order s /\
  (forall j, ~ In j (w_order s) -> w_nodes s' j = w_nodes s j) /\
  (forall i, n_inlet (w_nodes s' i) = n_inlet (w_nodes s i) /\ n_outlet (w_nodes s' i) = n_outlet (w_nodes s i) /\
             n_energy (w_nodes s' i) = n_energy (w_nodes s i) /\ n_chem (w_nodes s' i) = n_chem (w_nodes s i)) /\
  (forall d, dv_ends (w_devs s' d) = dv_ends (w_devs s d) /\ dv_coeff (w_devs s' d) = dv_coeff (w_devs s d)).
Proof.
  intros ND Al s s'. pose proof (evals_after evals s ND Al) as A. destruct A as [St O _ _].
  split; [apply (st_order _ _ St)|]. split; [exact O|]. split.
  - intros i. destruct (nstrip_fields _ _ (st_node _ _ St i)) as (?&?&?&?&?&?&?&?&?&?). tauto.
  - intros d. destruct (dstrip_fields _ _ (st_dev _ _ St d)) as (?&?&?&?&?&?). tauto.
Qed.

(** * C55: surface species *)
(* The unknowns are coverages in the mass formulation and moles in the mole formulation,
   where updateState converts n_k to the coverage n_k size_k / (area density). *)
Definition coverage_of (sf : surf) (k : nat) (moles : R) : R := moles * at_ (sf_sizes sf) k / (sf_area sf * sf_dens sf).
Theorem C55_surfaces sf work k : (0 < k < sf_nk sf)%nat -> sf_area sf <> 0 -> sf_dens sf <> 0 ->
  at_ (sf_sizes sf) k = 1 ->
  coverage_of sf k (at_ (surf_mole_rates sf work) k) = at_ (surf_cov_rates sf work) k.
Proof.
  intros Hk Ha Hd Hs. unfold surf_mole_rates. rewrite at_map_seq by lia. unfold surf_cov_rates, coverage_of.
  destruct (sf_nk sf) as [|m] eqn:Em; [lia|]. destruct k as [|k]; [lia|]. rewrite at_S.
  replace (S m - 1)%nat with m by lia. rewrite <- seq_shift, map_map, at_map_seq by lia. rewrite Hs. field. tauto.
Qed.
(* With species that occupy two sites the two formulations disagree. *)
Theorem C55_surfaces_refuted :
  exists sf work k, (0 < k < sf_nk sf)%nat /\ sf_area sf = 1 /\ sf_dens sf = 1 /\ at_ (sf_sizes sf) k = 2 /\
    coverage_of sf k (at_ (surf_mole_rates sf work) k) <> at_ (surf_cov_rates sf work) k.
Proof.
  exists (Surf 1 1 [1; 2] [0; 0] 0 (fun _ _ _ _ => [])), [0; 1], 1%nat.
  repeat split; try reflexivity; try (unfold sf_nk; cbn; lia).
  unfold coverage_of, surf_mole_rates, surf_cov_rates, at_, sf_nk. cbn. lra.
Qed.

(** * Examples *)
Ltac rc := lazy -[Rplus Rmult Ropp Rinv Rdiv Rminus IZR Rmax pow rltb Rle_dec].
Ltac rci H := lazy -[Rplus Rmult Ropp Rinv Rdiv Rminus IZR Rmax pow rltb Rle_dec not] in H.
Lemma Rmax_pos x : 0 <= x -> Rmax x 0 = x.
Proof. intros H. apply Rmax_left. exact H. Qed.
Lemma rltb_00 : rltb 0 0 = false.
Proof. apply rltb_false. lra. Qed.

(* A made-up gas: p = rho T, u = 2 T, h = 3 T per unit mass. *)
Definition gas (names : list string) (mw : list R) (wdot : list R) : thermo :=
  Thermo names mw (fun T rho _ => rho * T) (fun T _ _ => 3 * T) (fun T _ _ => 2 * T) (fun _ _ _ => 2) (fun _ _ _ => 3)
    (fun T _ _ => map (fun w => 2 * T * w) mw) (fun T _ _ => map (fun w => 3 * T * w) mw)
    (fun _ _ _ => wdot) (fun T p _ => p / T)
    (fun U m _ _ => Ok (U / m / 2)) (fun h p _ => Ok (h / 3, p / (h / 3))).
(* B is A with a doubled molecular weight; two A react to one B. *)
Definition gasAB : thermo := gas ["A"; "B"]%string [2; 4] [-2; 1].

(* An ideal gas reactor flowing into a mole reactor, with a piston between them. *)
Definition demo : list op :=
  [ONode KIdealGas gasAB 0 true [] 300 1 [1; 0]; ONode KMole gasAB 1 true [] 300 1 [1; 0];
   ONode KReservoir gasAB 2 true [] 300 1 [1; 0];
   ODev MFC; OInstall 0 0 1; OCoeff 0 (1/2); OWall; OInstallWall 0 0 1; OWallSet 0 (WK 1); OAdd 0; OAdd 1].
Definition ydemo : list R := [2; 1; 400; 1/4; 3/4;  1200; 1; 1/2; 1/4].
Definition sdemo : net := snd (evalNet (run demo) 0 ydemo).

Example demo_evaluates : exists yd, evalNet (run demo) 0 ydemo = (Ok yd, sdemo).
Proof. eexists. unfold sdemo. rc. reflexivity. Qed.
Example demo_nodup : NoDup (w_order (run demo)).
Proof. change (NoDup [0; 1]%nat). repeat constructor; cbn; lia. Qed.
Lemma demo_linked : linked sdemo.
Proof. eapply linked_static; [apply evalNet_static|apply run_linked]. Qed.
Lemma demo_dev d a b : dv_ends (w_devs sdemo d) = Some (a, b) -> d = 0%nat /\ a = 0%nat /\ b = 1%nat.
Proof.
  intros E. destruct (lk_dev _ demo_linked d a b E) as (H & _). change (w_nd sdemo) with 1%nat in H.
  assert (d = 0%nat) by lia. subst d. change (Some (0, 1)%nat = Some (a, b)) in E. injection E as <- <-. tauto.
Qed.
Lemma names_AB n : n_th n = gasAB -> names_distinct n.
Proof. intros H. unfold names_distinct. rewrite H. repeat constructor; cbn; intuition discriminate. Qed.
Lemma demo_names i : (i < 2)%nat -> n_th (w_nodes sdemo i) = gasAB.
Proof. intros H. destruct i as [|[|i]]; [reflexivity|reflexivity|lia]. Qed.
Lemma demo_weights i : (i < 2)%nat -> weights_nonzero (w_nodes sdemo i).
Proof.
  intros H k. unfold n_nsp. rewrite (demo_names i H). intros Hk. cbn in Hk.
  destruct k as [|[|k]]; cbn; try lra. lia.
Qed.
Lemma demo_known i : (i < 2)%nat -> knows_upstream sdemo i /\ same_species_downstream sdemo i.
Proof.
  intros H. split.
  - intros d a E. apply demo_dev in E. destruct E as (-> & -> & ->). apply incl_refl.
  - intros d b E. apply demo_dev in E. destruct E as (-> & -> & ->). reflexivity.
Qed.
Lemma demo_norm i : (i < 2)%nat -> normalised (w_nodes sdemo i).
Proof.
  intros H. destruct i as [|[|i]]; [| |lia]; unfold normalised; rc; lra.
Qed.

Example demo_mole_ok : forall i, In i (w_order sdemo) -> mole_ok sdemo i.
Proof.
  intros i Hi. change (In i [0; 1]%nat) in Hi. assert (Hi2 : (i < 2)%nat) by (cbn in Hi; lia). intros _.
  split; [apply demo_norm; exact Hi2|].
  split. { destruct i as [|[|i]]; [| |lia]; unfold reactions_conserve_mass; rc; lra. }
  split; [apply demo_weights; exact Hi2|]. split; [apply names_AB, demo_names; exact Hi2|].
  destruct (demo_known i Hi2) as [K1 K2]. split; [exact K2|]. split; [exact K1|].
  intros d a E. apply demo_dev in E. destruct E as (-> & -> & _). split; [apply demo_norm|apply names_AB, demo_names]; lia.
Qed.
Example demo_fractions : molar (n_kind (w_nodes sdemo 0)) = false /\ n_mass (w_nodes sdemo 0) <> 0 /\
  normalised (w_nodes sdemo 0) /\ reactions_conserve_mass (w_nodes sdemo 0) /\
  names_distinct (w_nodes sdemo 0) /\ knows_upstream sdemo 0 /\
  (forall d a, dv_ends (w_devs sdemo d) = Some (a, 0%nat) -> normalised (w_nodes sdemo a) /\ names_distinct (w_nodes sdemo a)).
Proof.
  split; [reflexivity|]. split; [rc; lra|]. split; [apply demo_norm; lia|]. split; [unfold reactions_conserve_mass; rc; lra|].
  split; [apply names_AB, demo_names; lia|]. split; [apply demo_known; lia|].
  intros d a E. apply demo_dev in E. destruct E as (_ & _ & E). discriminate.
Qed.
Example demo_species_ok : forall i, In i (w_order sdemo) -> species_ok sdemo i.
Proof.
  intros i Hi. change (In i [0; 1]%nat) in Hi. assert (Hi2 : (i < 2)%nat) by (cbn in Hi; lia).
  destruct (demo_known i Hi2) as [K1 K2].
  split; [apply names_AB, demo_names; exact Hi2|]. split; [exact K1|].
  split. { intros d a E. apply demo_dev in E. destruct E as (-> & -> & _). apply names_AB, demo_names; lia. }
  destruct i as [|[|i]]; [| |lia].
  - change (n_mass (w_nodes sdemo 0) <> 0). rc. lra.
  - change (weights_nonzero (w_nodes sdemo 1) /\ same_species_downstream sdemo 1). split; [apply demo_weights; lia|exact K2].
Qed.
Example demo_energy_ok : forall i, In i (w_order sdemo) ->
  given_volume (w_nodes sdemo i) = true /\ n_energy (w_nodes sdemo i) = true /\ energy_ok sdemo i.
Proof.
  assert (K0 : n_kind (w_nodes sdemo 0) = KIdealGas) by (rc; reflexivity).
  assert (K1 : n_kind (w_nodes sdemo 1) = KMole) by (rc; reflexivity).
  intros i Hi. change (In i [0; 1]%nat) in Hi.
  destruct Hi as [<-|[<-|[]]]; unfold given_volume, energy_ok; rewrite ?K0, ?K1;
    (split; [reflexivity|split; [rc; reflexivity|]]); [|exact I].
  split; [rc; lra|]. split; [rc; lra|]. split; [apply demo_weights; lia|]. unfold u_mixture. rc. lra.
Qed.
Example demo_closed : (forall i, In i (w_order sdemo) -> n_surf (w_nodes sdemo i) = []) /\
  (forall d i j, dv_ends (w_devs sdemo d) = Some (i, j) -> inside sdemo i = inside sdemo j).
Proof.
  split.
  - intros i Hi. change (In i [0; 1]%nat) in Hi. destruct Hi as [<-|[<-|[]]]; reflexivity.
  - intros d i j E. apply demo_dev in E. destruct E as (-> & -> & ->). reflexivity.
Qed.
(* Gas does flow in the example. *)
Example demo_flow : mflow sdemo 0 = 1/2.
Proof. rc. rewrite Rmax_pos; lra. Qed.
Example demo_elements : forall i, In i (w_order sdemo) ->
  let atoms nm := if String.eqb nm "A" then 1 else 2 in let W nm := if String.eqb nm "A" then 2 else 4 in
  (forall k, (k < n_nsp (w_nodes sdemo i))%nat ->
     at_ (th_mw (n_th (w_nodes sdemo i))) k = W (name (w_nodes sdemo i) k) /\ W (name (w_nodes sdemo i) k) <> 0) /\
  sum_n (fun k => atoms (name (w_nodes sdemo i) k) * at_ (n_wdot (w_nodes sdemo i)) k) (n_nsp (w_nodes sdemo i)) = 0.
Proof.
  intros i Hi atoms W. change (In i [0; 1]%nat) in Hi. split.
  - intros k Hk. destruct Hi as [<-|[<-|[]]]; change (k < 2)%nat in Hk; destruct k as [|[|k]]; try lia;
      unfold W; rc; lra.
  - destruct Hi as [<-|[<-|[]]]; unfold atoms; rc; lra.
Qed.

(** * Claims that do not hold *)

(* The internal energy of a closed network is conserved - not if a wall moves because of
   a pressure difference: the work of the difference is lost. *)
Theorem C29_energy_refuted :
  exists ops t y yd s', NoDup (w_order (run ops)) /\ evalNet (run ops) t y = (Ok yd, s') /\
    (forall i, In i (w_order s') -> given_volume (w_nodes s' i) = true /\ n_energy (w_nodes s' i) = true /\ energy_ok s' i) /\
    (forall d i j, dv_ends (w_devs s' d) = Some (i, j) -> inside s' i = true /\ inside s' j = true) /\
    (forall w i j, wl_ends (w_walls s' w) = Some (i, j) -> inside s' i = true /\ inside s' j = true) /\
    sum_of (fun p => energy_rate (fst p) (snd p)) (parts s' yd) <> 0.
Proof.
  destruct demo_evaluates as (yd & E). exists demo, 0, ydemo, yd, sdemo.
  split; [exact demo_nodup|]. split; [exact E|]. split; [exact demo_energy_ok|].
  split. { intros d i j H. apply demo_dev in H. destruct H as (-> & -> & ->). split; reflexivity. }
  split. { intros w i j H. destruct (lk_wl _ demo_linked w i j H) as (Hw & _). change (w_nw sdemo) with 1%nat in Hw.
           assert (w = 0%nat) by lia. subst w. change (Some (0, 1)%nat = Some (i, j)) in H. injection H as <- <-. split; reflexivity. }
  rewrite (C29_energy _ _ _ _ _ demo_nodup E demo_energy_ok).
  rc. rewrite ?rltb_00. lra.
Qed.

(* A flow out of a mole reactor reduces its mass - not if the reactor or reservoir it
   flows to has another species list: the outlet's species flows are those of the
   downstream species, and are read as if they were the reactor's own. *)
Definition mole_demo : list op :=
  [ONode KMole gasAB 0 true [] 300 1 [1; 0]; ONode KReservoir (gas ["N"]%string [1] [0]) 1 true [] 300 1 [1];
   ODev MFC; OInstall 0 0 1; OCoeff 0 1; OAdd 0].
Definition mole_state : net := snd (evalNet (run mole_demo) 0 [1200; 1; 1/2; 1/4]).
Theorem C29_mole_outlet_refuted :
  exists ops t y yd s', NoDup (w_order (run ops)) /\ evalNet (run ops) t y = (Ok yd, s') /\
    In 0%nat (w_order s') /\ normalised (w_nodes s' 0) /\ reactions_conserve_mass (w_nodes s' 0) /\
    weights_nonzero (w_nodes s' 0) /\ names_distinct (w_nodes s' 0) /\ knows_upstream s' 0 /\
    leaving s' 0 (mflow s') = 1 /\ arriving s' 0 (mflow s') = 0 /\ surface_mass (w_nodes s' 0) = 0 /\
    sum_of (fun p => mass_rate (fst p) (snd p)) (parts s' yd) = 0.
Proof.
  exists mole_demo, 0, [1200; 1; 1/2; 1/4]. eexists. exists mole_state.
  split; [change (NoDup [0%nat]); repeat constructor; cbn; lia|].
  split; [unfold mole_state; rc; reflexivity|].
  split; [left; reflexivity|]. split; [unfold normalised; rc; lra|]. split; [unfold reactions_conserve_mass; rc; lra|].
  split. { intros k Hk. change (k < 2)%nat in Hk. destruct k as [|[|k]]; [rc; lra|rc; lra|lia]. }
  split; [apply names_AB; reflexivity|].
  split. { assert (L : linked mole_state) by (eapply linked_static; [apply evalNet_static|apply run_linked]).
           intros d a E. destruct (lk_dev _ L d a _ E) as (H & _). change (w_nd mole_state) with 1%nat in H.
           assert (d = 0%nat) by lia. subst d. change (Some (0, 1)%nat = Some (a, 0%nat)) in E. discriminate. }
  split; [rc; rewrite Rmax_pos; lra|]. split; [rc; lra|]. split; [rc; lra|]. rc. lra.
Qed.

(* setMassFlowRate replaces the mass flow rate - not after setTimeFunction: the functor
   is deleted and used by the next evaluation. *)
Definition rate_demo : list op :=
  [ONode KReactor gasAB 0 true [] 300 1 [1; 0]; ONode KReservoir gasAB 1 true [] 300 1 [1; 0];
   ODev MFC; OInstall 0 1 0; OTime 0 (Some (fun _ => 1)); ORate 0 2; OAdd 0].
Theorem C31_rate_refuted : exists ops t y, NoDup (w_order (run ops)) /\ plain_primaries (run ops) /\
  fst (evalNet (run ops) t y) = UB.
Proof.
  exists rate_demo, 0, [2; 1; 1200; 1/4; 3/4].
  split; [change (NoDup [0%nat]); repeat constructor; cbn; lia|]. split.
  - intros d p H. exfalso. destruct d as [|d]; [discriminate H|]. change (dv_kind (newDev MFC) = PCtrl (Some p)) in H. discriminate.
  - rc. reflexivity.
Qed.

(* A pressure controller with a valve as its primary device: its flow is computed with
   the flow the valve had before the valve's reactor was updated. *)
Definition valve_demo : list op :=
  [ONode KReactor gasAB 0 true [] 300 1 [1; 0]; ONode KReactor gasAB 1 true [] 300 1 [1; 0];
   ONode KReservoir gasAB 2 true [] 0 1 [1; 0];
   ODev Valv; OInstall 0 1 2; ODev (PCtrl None); OInstall 1 0 2; OCoeff 1 0; OPrimary 1 0; OAdd 0; OAdd 1].
Definition yvalve : list R := [2; 1; 1200; 1/4; 3/4;   2; 1; 1200; 1/4; 3/4].
Theorem C31_primary_refuted :
  exists ops t y yd s', NoDup (w_order (run ops)) /\ evalNet (run ops) t y = (Ok yd, s') /\
    dv_kind (w_devs s' 1) = PCtrl (Some 0%nat) /\ dv_coeff (w_devs s' 1) = 0 /\
    dv_mdot (w_devs s' 0) = Some 600 /\ dv_mdot (w_devs s' 1) = Some 300.
Proof.
  exists valve_demo, 0, yvalve. eexists. exists (snd (evalNet (run valve_demo) 0 yvalve)).
  split; [change (NoDup [0; 1]%nat); repeat constructor; cbn; lia|].
  split; [rc; reflexivity|]. split; [reflexivity|]. split; [reflexivity|].
  split; rc; f_equal; rewrite !Rmax_pos; try lra; rewrite ?Rmax_pos; lra.
Qed.
(* For the same reason a second evaluation at the same time and state differs. *)
Theorem C56_primary_refuted :
  exists ops t y, NoDup (w_order (run ops)) /\ own_phases (run ops) /\
    fst (evalNet (evaluate (run ops) [(t, y)]) t y) <> fst (evalNet (run ops) t y).
Proof.
  exists valve_demo, 0, yvalve.
  split; [change (NoDup [0; 1]%nat); repeat constructor; cbn; lia|]. split.
  - intros i j Hi Hj U _. exfalso. change (In i [0; 1]%nat) in Hi. destruct Hi as [<-|[<-|[]]]; discriminate U.
  - unfold evaluate. rc. intros H. injection H as H1 H2. revert H1. rewrite !Rmax_pos; try lra; rewrite ?Rmax_pos; lra.
Qed.

(* With chemistry switched off there are no gas reactions - not if the network was
   evaluated before: the last production rates stay in use. *)
Definition chem_demo : list op :=
  [ONode KReactor gasAB 0 true [] 300 1 [1; 0]; OAdd 0].
Definition ychem : list R := [2; 1; 1200; 1/4; 3/4].
Theorem C56_chemistry_refuted :
  exists ops t y,
    fst (evalNet (run (ops ++ [OChemistry 0 false])) t y) = Ok [[0; 0; 0; 0; 0]] /\
    exists x, fst (evalNet (run (ops ++ [OEval t y; OChemistry 0 false])) t y) = Ok [[0; 0; 0; -2; x]].
Proof.
  exists chem_demo, 0, ychem. split; [|exists 2]; rc; repeat f_equal; lra.
Qed.

(* Two reactors with one ThermoPhase, one of them with the energy equation off: it takes
   the temperature the other one left there. *)
Definition shared_demo : list op :=
  [ONode KReactor gasAB 0 true [] 300 1 [1; 0]; ONode KReactor gasAB 0 true [] 300 1 [1; 0];
   ONode KReservoir gasAB 2 true [] 0 1 [1; 0];
   ODev Valv; OInstall 0 0 2; OEnergy 0 false; OAdd 0; OAdd 1].
Definition yshared : list R := [2; 1; 1200; 1/4; 3/4;   2; 1; 1600; 1/4; 3/4].
Theorem C56_phase_refuted :
  exists ops t y, NoDup (w_order (run ops)) /\ plain_primaries (run ops) /\
    fst (evalNet (evaluate (run ops) [(t, y)]) t y) <> fst (evalNet (run ops) t y).
Proof.
  exists shared_demo, 0, yshared.
  split; [change (NoDup [0; 1]%nat); repeat constructor; cbn; lia|]. split.
  - intros d p H. exfalso. destruct d as [|d]; [discriminate H|]. change (dv_kind (newDev MFC) = PCtrl (Some p)) in H. discriminate.
  - unfold evaluate. rc. intros H. injection H as H1. revert H1. rewrite !Rmax_pos; lra.
Qed.

(** * Examples for C31 and C56 *)
(* A mass flow controller, a pressure controller that follows it, and a valve. *)
Definition open_demo : list op :=
  [ONode KReactor gasAB 0 true [] 300 1 [1; 0]; ONode KReservoir gasAB 1 true [] 300 1 [1; 0];
   ODev MFC; OInstall 0 1 0; OCoeff 0 3; ODev (PCtrl None); OInstall 1 0 1; OCoeff 1 (1/100); OPrimary 1 0;
   ODev Valv; OInstall 2 0 1; OAdd 0].
Definition open_state : net := snd (evalNet (run open_demo) 1 ychem).
Example open_plain : plain_primaries (run open_demo).
Proof.
  intros d p H. destruct d as [|[|[|d]]]; try discriminate H.
  change (PCtrl (Some 0%nat) = PCtrl (Some p)) in H. injection H as <-. reflexivity.
Qed.
Example open_own : own_phases (run open_demo).
Proof. intros i j Hi Hj U _. exfalso. change (In i [0]%nat) in Hi. destruct Hi as [<-|[]]; discriminate U. Qed.
Example open_evaluates : NoDup (w_order (run open_demo)) /\
  (exists yd, evalNet (run open_demo) 1 ychem = (Ok yd, open_state)) /\
  law open_state 1 0 = 3 /\ law open_state 1 1 = 6 /\ law open_state 1 2 = 300.
Proof.
  split; [change (NoDup [0]%nat); repeat constructor; cbn; lia|].
  split; [eexists; unfold open_state; rc; reflexivity|].
  split; [|split]; rc; rewrite ?Rmax_pos; try lra; rewrite ?Rmax_pos; lra.
Qed.

Print Assumptions C29_reactor_mass.
Print Assumptions C29_mass.
Print Assumptions C29_fractions.
Print Assumptions C29_closed_mass.
Print Assumptions C29_amount.
Print Assumptions C29_elements.
Print Assumptions C29_volume.
Print Assumptions C29_energy.
Print Assumptions C29_coverages.
Print Assumptions C29_energy_refuted.
Print Assumptions C29_mole_outlet_refuted.
Print Assumptions C31_nonneg.
Print Assumptions C31_law.
Print Assumptions C31_wall_law.
Print Assumptions C31_rate_refuted.
Print Assumptions C31_primary_refuted.
Print Assumptions C55_energy.
Print Assumptions C55_enthalpy.
Print Assumptions C55_species.
Print Assumptions C55_surfaces.
Print Assumptions C55_surfaces_refuted.
Print Assumptions C56_history.
Print Assumptions C56_configuration.
Print Assumptions C56_primary_refuted.
Print Assumptions C56_chemistry_refuted.
Print Assumptions C56_phase_refuted.
