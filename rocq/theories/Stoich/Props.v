(** C17: the stoichiometry managers compute the products with the coefficient matrix. *)
From Coq Require Import Reals ZArith List Bool Arith Lia Lra.
From Verif Require Import Base.Outcome Base.RSum Base.Vec Stoich.Model Stoich.Spec Stoich.Proofs.
Import ListNotations.
Open Scope R_scope.

(** Every list of declarations with matching vector lengths is accepted. *)
Theorem C17_declarations_accepted nsp nrxn ds :
  Forall (well_formed nsp nrxn) ds -> exists m, mgr_adds mgr_init ds = Ok m.
Proof. exact (adds_total nsp nrxn ds mgr_init). Qed.
Print Assumptions C17_declarations_accepted.

(** A declaration whose order or coefficient vector has the wrong length is refused. *)
Theorem C17_bad_lengths_refused m rxn k order stoich :
  (length order <> length k \/ length stoich <> length k) <-> mgr_add m rxn k order stoich = Err.
Proof.
  unfold mgr_add. destruct (Nat.eqb_spec (length order) (length k)) as [E1|E1]; simpl; [|tauto].
  destruct (Nat.eqb_spec (length stoich) (length k)) as [E2|E2]; simpl; [|tauto].
  split; [tauto|]. destruct (is_frac _ || _); [discriminate|].
  destruct (kRep _) as [|a [|b [|c [|]]]]; discriminate.
Qed.
Print Assumptions C17_bad_lengths_refused.

(** incrementSpecies adds (matrix * reaction vector), decrementSpecies subtracts it. *)
Theorem C17_species_matrix nsp nrxn ds m (R0 S : vec) k :
  Forall (well_formed nsp nrxn) ds -> mgr_adds mgr_init ds = Ok m ->
  mgr_incSpecies m R0 S k = S k + sum_n (fun i => nu ds k i * R0 i) nrxn /\
  mgr_decSpecies m R0 S k = S k - sum_n (fun i => nu ds k i * R0 i) nrxn.
Proof.
  intros Hwf Hm. split;
    [exact (incSpecies_matrix nsp nrxn ds m Hwf Hm R0 S k)|exact (decSpecies_matrix nsp nrxn ds m Hwf Hm R0 S k)].
Qed.
Print Assumptions C17_species_matrix.

(** incrementReactions adds (transposed matrix * species vector), decrementReactions subtracts it. *)
Theorem C17_reactions_matrix nsp nrxn ds m (S R0 : vec) i :
  Forall (well_formed nsp nrxn) ds -> mgr_adds mgr_init ds = Ok m ->
  mgr_incReactions m S R0 i = R0 i + sum_n (fun k => nu ds k i * S k) nsp /\
  mgr_decReactions m S R0 i = R0 i - sum_n (fun k => nu ds k i * S k) nsp.
Proof.
  intros Hwf Hm. split;
    [exact (incReactions_matrix nsp nrxn ds m Hwf Hm S R0 i)|exact (decReactions_matrix nsp nrxn ds m Hwf Hm S R0 i)].
Qed.
Print Assumptions C17_reactions_matrix.

(** The sparse matrix handed to callers is that same matrix. *)
Theorem C17_coefficient_matrix nsp nrxn ds m k i :
  Forall (well_formed nsp nrxn) ds -> mgr_adds mgr_init ds = Ok m -> mgr_coeff m k i = nu ds k i.
Proof. intros Hwf Hm. exact (coeff_matrix nsp nrxn ds m Hwf Hm k i). Qed.
Print Assumptions C17_coefficient_matrix.

(** multiply multiplies every reaction entry by its mass-action product. *)
Theorem C17_multiply_mass_action nsp nrxn ds m (c R0 : vec) i :
  Forall (well_formed nsp nrxn) ds -> mgr_adds mgr_init ds = Ok m ->
  (forall k, (k < nsp)%nat -> 0 <= c k) ->
  mgr_multiply m c R0 i = R0 i * mass_action ds c i.
Proof. exact (multiply_mass_action nsp nrxn ds m c R0 i). Qed.
Print Assumptions C17_multiply_mass_action.

(** derivatives returns the partial derivatives of the products computed by multiply. *)
Theorem C17_derivatives nsp nrxn ds m (c R0 : vec) i k :
  Forall (well_formed nsp nrxn) ds -> mgr_adds mgr_init ds = Ok m ->
  NoDup (map d_rxn ds) -> (forall k, (k < nsp)%nat -> 0 < c k) -> (k < nsp)%nat ->
  derivable_pt_lim (fun x => mgr_multiply m (upd c k x) R0 i) (c k) (mgr_derivatives m c R0 i k).
Proof. exact (derivatives_correct nsp nrxn ds m c R0 i k). Qed.
Print Assumptions C17_derivatives.

(** scale multiplies by the overall order of the reaction. *)
Theorem C17_scale nsp nrxn ds m f (R0 out : vec) d :
  Forall (well_formed nsp nrxn) ds -> mgr_adds mgr_init ds = Ok m ->
  NoDup (map d_rxn ds) -> In d ds ->
  mgr_scale m f R0 out (d_rxn d) = total_order d * R0 (d_rxn d) * f.
Proof. exact (scale_correct nsp nrxn ds m f R0 out d). Qed.
Print Assumptions C17_scale.

(** Without the nonnegativity hypothesis the matrix statement is false: a negative integer
    coefficient equal to its order disappears from the manager. *)
Theorem C17_negative_coefficient_refuted :
  exists d m (R0 S : vec) k,
    mgr_adds mgr_init [d] = Ok m /\
    length (d_order d) = length (d_sp d) /\ length (d_stoich d) = length (d_sp d) /\
    mgr_incSpecies m R0 S k <> S k + sum_n (fun i => nu [d] k i * R0 i) 1.
Proof.
  exists (0%nat, [0%nat; 1%nat], [1; -1], [1; -1]).
  assert (forall z, is_integerb (IZR z) = true) as HI.
  { intros z. unfold is_integerb. apply Reqb_spec. unfold frac_part. rewrite Int_part_IZR'. lra. }
  assert (forall z, loop_count (IZR z) = Z.to_nat z) as HL.
  { intros z. unfold loop_count. rewrite <- opp_IZR, Int_part_IZR'. f_equal. lia. }
  exists (mkManager [mkC1 0 0] [] [] [] [(0%nat, 0%nat, 1); (1%nat, 0%nat, -1)]).
  exists (fun _ => 1), (fun _ => 0), 1%nat. split; [|split; [|split]]; [|reflexivity|reflexivity|].
  - unfold mgr_adds, mgr_add, is_frac, kRep. simpl.
    rewrite (HI 1%Z), (HI (-1)%Z), (HL 1%Z), (HL (-1)%Z).
    assert (forall x, Reqb x x = true) as HR by (intros; now apply Reqb_spec). rewrite !HR. reflexivity.
  - unfold sum_n, nu, sum_of, mgr_incSpecies, over, c1_incS, upd. simpl. lra.
Qed.
Print Assumptions C17_negative_coefficient_refuted.

(** Non-vacuity: 2 A + B, A^(1.5) with order 0.5 on B, and a four-participant reaction. *)
Definition ex_decls : list decl :=
  [ (0%nat, [0%nat; 1%nat], [2; 1], [2; 1]);
    (2%nat, [0%nat; 1%nat], [3/2; 1/2], [3/2; 0]);
    (1%nat, [0%nat; 1%nat; 2%nat; 3%nat], [1; 1; 1; 1], [1; 1; 1; 1]) ].

Example ex_decls_well_formed : Forall (well_formed 4 3) ex_decls.
Proof.
  repeat (apply Forall_cons || apply Forall_nil);
    (split; [|split; [|split; [|split]]]; simpl; try lia;
     try (repeat (apply Forall_cons; [lia || lra|]); apply Forall_nil); unfold d_rxn; simpl; lia).
Qed.

Example ex_decls_distinct : NoDup (map d_rxn ex_decls).
Proof. simpl. repeat constructor; simpl; intros H; repeat destruct H as [H|H]; try discriminate; destruct H. Qed.

Example ex_decls_nu : nu ex_decls 0 0 = 2 /\ nu ex_decls 0 2 = 3/2 /\ nu ex_decls 3 1 = 1.
Proof. unfold nu, sum_of. simpl. lra. Qed.

Example ex_built : exists m, mgr_adds mgr_init ex_decls = Ok m /\
  mgr_incSpecies m (fun _ => 1) zeros 0%nat = 9/2.
Proof.
  destruct (C17_declarations_accepted 4 3 ex_decls ex_decls_well_formed) as [m Hm]. exists m. split; [exact Hm|].
  destruct (C17_species_matrix 4 3 ex_decls m (fun _ => 1) zeros 0 ex_decls_well_formed Hm) as [-> _].
  unfold zeros, sum_n, nu, sum_of. simpl. lra.
Qed.
