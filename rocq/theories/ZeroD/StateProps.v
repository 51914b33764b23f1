(* C62: the state vector of reactors can be read and put back. *)
From Coq Require Import String.
From Coq Require Import List Bool Reals Arith Lra Lia.
From Verif Require Import Base.Outcome Base.RSum Base.Fp ZeroD.NetModel ZeroD.NetSpec ZeroD.StateModel ZeroD.StateSpec ZeroD.StateProofs ZeroD.Props.
Import ListNotations.
Local Open Scope R_scope.
Local Open Scope list_scope.

(* After a state vector has been given to a reactor, reading its state gives the same vector. With
   the energy equation off, that excepts the energy or enthalpy. *)
Theorem C62_read_back : forall s i y s', updateState s i y = (Ok tt, s') ->
  sized (w_nodes s i) -> faithful (n_th (w_nodes s i)) -> length y = neq (w_nodes s i) -> alive (w_nodes s' i) ->
  length (getState (w_nodes s' i)) = length y /\
  (forall j, n_energy (w_nodes s i) = true \/ energy_slot (n_kind (w_nodes s i)) <> Some j ->
     nth j (getState (w_nodes s' i)) 0 = nth j y 0) /\
  (n_energy (w_nodes s i) = true \/ energy_slot (n_kind (w_nodes s i)) = None -> getState (w_nodes s' i) = y).
Proof.
  intros s i y s' E SZ FA L AL. destruct (read_back s i y s' E SZ FA L AL) as (A & B). split; [exact A|]. split; [exact B|].
  intros H. exact (read_back_eq s i y s' E SZ FA L AL H).
Qed.
(* The same of the vector of the whole network. *)
Theorem C62_network : forall s order y s', NoDup order -> updateAll s order y = (Ok tt, s') ->
  length y = list_sum (map (fun i => neq (w_nodes s i)) order) ->
  (forall i, In i order -> sized (w_nodes s i) /\ faithful (n_th (w_nodes s i)) /\ alive (w_nodes s' i) /\
     (n_energy (w_nodes s i) = true \/ energy_slot (n_kind (w_nodes s i)) = None)) ->
  getAll s' order = y.
Proof. intros s order. intros. eapply network_back; eassumption. Qed.
(* Reading the state of a reactor and giving it back changes nothing, but for the mass being
   computed from density and volume. *)
Theorem C62_put_back : forall s i s', let n := w_nodes s i in
  sized n -> alive n -> coherent (w_phT s (n_phase n)) n -> (molar (n_kind n) = true -> rsum (n_Y n) = 1) ->
  updateState s i (getState n) = (Ok tt, s') -> w_nodes s' i = with_mass n (n_rho n * n_vol n).
Proof. intros s i s' n. apply put_back. Qed.

(* What is asked of sizes holds after every update if it holds before. *)
Theorem C62_sizes_kept : forall s i y s', updateState s i y = (Ok tt, s') -> sized (w_nodes s i) -> length y = neq (w_nodes s i) -> sized (w_nodes s' i).
Proof. exact sized_kept. Qed.

(* It does change the contents of a mole reactor if the mass fractions do not add up to one. *)
Definition part_demo : list op := [ONode KIGMole gasAB 0 true [] 300 1 [1/4; 1/4]; OAdd 0].
Theorem C62_unnormalised_refuted : exists ops s', let s := run ops in let n := w_nodes s 0 in
  sized n /\ alive n /\ coherent (w_phT s (n_phase n)) n /\ updateState s 0 (getState n) = (Ok tt, s') /\
  n_rho n * n_vol n = 1 /\ n_mass (w_nodes s' 0) = 1/2 /\ n_rho (w_nodes s' 0) <> n_rho n.
Proof.
  exists part_demo. eexists. cbv zeta.
  split. { split; [discriminate|]. split; [reflexivity|]. split; [reflexivity|]. split; [repeat constructor; cbn; lra|constructor]. }
  split; [split; rc; lra|]. split; [split; [rc; lra|]; split; [rc; lra|exact I]|].
  split; [rc; reflexivity|]. split; [rc; lra|]. split; rc; lra.
Qed.

(* Two reactors of different kinds, one with a surface. *)
Definition ex_surf : surf := Surf 2 3 [1; 2] [1/2; 1/4] 0 (fun _ _ _ _ => [0; 0; 0; 0]).
Definition surf_demo : list op :=
  [ONode KReactor gasAB 0 true [] 300 1 [1; 0]; ONode KMole gasAB 1 true [ex_surf] 300 1 [1; 0]; OAdd 0; OAdd 1].
Definition ysurf : list R := [2; 1; 1200; 1/4; 3/4;  1200; 1; 1/2; 1/4; 5; 7].
Definition s_surf : net := snd (updateAll (run surf_demo) [0; 1]%nat ysurf).
Lemma faithful_AB : faithful gasAB.
Proof.
  split.
  - intros U m V Y T M _ E. change (Ok (U / m / 2) = Ok T) in E. injection E as <-. change (2 * (U / m / 2) * m = U). field. exact M.
  - intros h p Y T rho E. change (Ok (h / 3, p / (h / 3)) = Ok (T, rho)) in E. injection E as <- <-. change (3 * (h / 3) = h). field.
Qed.
Example ex_network : NoDup [0; 1]%nat /\ updateAll (run surf_demo) [0; 1]%nat ysurf = (Ok tt, s_surf) /\
  length ysurf = list_sum (map (fun i => neq (w_nodes (run surf_demo) i)) [0; 1]%nat) /\
  (forall i, In i [0; 1]%nat -> sized (w_nodes (run surf_demo) i) /\ faithful (n_th (w_nodes (run surf_demo) i)) /\
     alive (w_nodes s_surf i) /\
     (n_energy (w_nodes (run surf_demo) i) = true \/ energy_slot (n_kind (w_nodes (run surf_demo) i)) = None)) /\
  getAll s_surf [0; 1]%nat = ysurf.
Proof.
  assert (A : NoDup [0; 1]%nat) by (repeat constructor; cbn; lia).
  assert (B : updateAll (run surf_demo) [0; 1]%nat ysurf = (Ok tt, s_surf)) by (unfold s_surf; rc; reflexivity).
  assert (C : length ysurf = list_sum (map (fun i => neq (w_nodes (run surf_demo) i)) [0; 1]%nat)) by reflexivity.
  assert (D : forall i, In i [0; 1]%nat -> sized (w_nodes (run surf_demo) i) /\ faithful (n_th (w_nodes (run surf_demo) i)) /\
     alive (w_nodes s_surf i) /\
     (n_energy (w_nodes (run surf_demo) i) = true \/ energy_slot (n_kind (w_nodes (run surf_demo) i)) = None)).
  { intros i [<-|[<-|[]]].
    - split. { split; [discriminate|]. split; [reflexivity|]. split; [reflexivity|]. split; [repeat constructor; cbn; lra|constructor]. }
      split; [exact faithful_AB|]. split; [split; rc; lra|left; reflexivity].
    - split. { split; [discriminate|]. split; [reflexivity|]. split; [reflexivity|]. split; [repeat constructor; cbn; lra|].
        constructor; [|constructor]. split; [reflexivity|]. split; [cbn; lra|]. split; [cbn; lra|]. repeat constructor; cbn; lra. }
      split; [exact faithful_AB|]. split; [split; rc; lra|left; reflexivity]. }
  split; [exact A|]. split; [exact B|]. split; [exact C|]. split; [exact D|]. exact (C62_network _ _ _ _ A B C D).
Qed.
Definition s_one : net := snd (updateState (run surf_demo) 1 (skipn 5 ysurf)).
Example ex_put_back : let n := w_nodes s_one 1 in
  sized n /\ alive n /\ coherent (w_phT s_one (n_phase n)) n /\ rsum (n_Y n) = 1 /\ length (n_surf n) = 1%nat /\
  fst (updateState s_one 1 (getState n)) = Ok tt.
Proof.
  cbv zeta. split.
  { apply (C62_sizes_kept (run surf_demo) 1 (skipn 5 ysurf)); [unfold s_one; rc; reflexivity| |reflexivity].
    apply ex_network. right. left. reflexivity. }
  split; [split; rc; lra|]. split. { split; [reflexivity|]. split; [reflexivity|]. rc. f_equal. lra. }
  split; [rc; lra|]. split; reflexivity.
Qed.

Print Assumptions C62_read_back.
Print Assumptions C62_network.
Print Assumptions C62_put_back.
Print Assumptions C62_sizes_kept.
Print Assumptions C62_unnormalised_refuted.
Print Assumptions ex_network.
