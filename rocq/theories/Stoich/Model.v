(** Model of the stoichiometry managers: include/cantera/kinetics/StoichManager.h.
    [double] is idealised as [R]; [double*] arguments are [vec]. *)
From Coq Require Import Reals ZArith List Bool Arith.
From Verif Require Import Base.Outcome Base.Vec.
Import ListNotations.
Open Scope R_scope.

(** C1, StoichManager.h:131-182 (the derivative index m_jc0 is not stored, see [derivatives]). *)
Record C1 := mkC1 { c1_rxn : nat; c1_ic0 : nat }.
(** C2, StoichManager.h:189-250. *)
Record C2 := mkC2 { c2_rxn : nat; c2_ic0 : nat; c2_ic1 : nat }.
(** C3, StoichManager.h:257-324. *)
Record C3 := mkC3 { c3_rxn : nat; c3_ic0 : nat; c3_ic1 : nat; c3_ic2 : nat }.

(** One position n of the parallel vectors m_ic, m_order, m_stoich of C_AnyN. *)
Record part := mkPart { p_sp : nat; p_order : R; p_stoich : R }.
(** C_AnyN, StoichManager.h:332-477. *)
Record CN := mkCN { cn_rxn : nat; cn_parts : list part }.

(** ** incrementSpecies / decrementSpecies *)

(** StoichManager.h:139-141 and 143-145. *)
Definition c1_incS (c : C1) (R0 : vec) (S : vec) : vec :=
  upd S (c1_ic0 c) (S (c1_ic0 c) + R0 (c1_rxn c)).
Definition c1_decS (c : C1) (R0 : vec) (S : vec) : vec :=
  upd S (c1_ic0 c) (S (c1_ic0 c) - R0 (c1_rxn c)).

(** StoichManager.h:195-198 and 200-203. *)
Definition c2_incS (c : C2) (R0 : vec) (S : vec) : vec :=
  let S := upd S (c2_ic0 c) (S (c2_ic0 c) + R0 (c2_rxn c)) in
  upd S (c2_ic1 c) (S (c2_ic1 c) + R0 (c2_rxn c)).
Definition c2_decS (c : C2) (R0 : vec) (S : vec) : vec :=
  let S := upd S (c2_ic0 c) (S (c2_ic0 c) - R0 (c2_rxn c)) in
  upd S (c2_ic1 c) (S (c2_ic1 c) - R0 (c2_rxn c)).

(** StoichManager.h:263-267 and 269-273. *)
Definition c3_incS (c : C3) (R0 : vec) (S : vec) : vec :=
  let S := upd S (c3_ic0 c) (S (c3_ic0 c) + R0 (c3_rxn c)) in
  let S := upd S (c3_ic1 c) (S (c3_ic1 c) + R0 (c3_rxn c)) in
  upd S (c3_ic2 c) (S (c3_ic2 c) + R0 (c3_rxn c)).
Definition c3_decS (c : C3) (R0 : vec) (S : vec) : vec :=
  let S := upd S (c3_ic0 c) (S (c3_ic0 c) - R0 (c3_rxn c)) in
  let S := upd S (c3_ic1 c) (S (c3_ic1 c) - R0 (c3_rxn c)) in
  upd S (c3_ic2 c) (S (c3_ic2 c) - R0 (c3_rxn c)).

(** StoichManager.h:366-371 and 373-378. *)
Definition cn_incS (c : CN) (input : vec) (output : vec) : vec :=
  let x := input (cn_rxn c) in
  fold_left (fun out p => upd out (p_sp p) (out (p_sp p) + p_stoich p * x)) (cn_parts c) output.
Definition cn_decS (c : CN) (input : vec) (output : vec) : vec :=
  let x := input (cn_rxn c) in
  fold_left (fun out p => upd out (p_sp p) (out (p_sp p) - p_stoich p * x)) (cn_parts c) output.

(** ** incrementReaction / decrementReaction *)

(** StoichManager.h:151-157. *)
Definition c1_incR (c : C1) (S : vec) (R0 : vec) : vec :=
  upd R0 (c1_rxn c) (R0 (c1_rxn c) + S (c1_ic0 c)).
Definition c1_decR (c : C1) (S : vec) (R0 : vec) : vec :=
  upd R0 (c1_rxn c) (R0 (c1_rxn c) - S (c1_ic0 c)).
(** StoichManager.h:213-219. *)
Definition c2_incR (c : C2) (S : vec) (R0 : vec) : vec :=
  upd R0 (c2_rxn c) (R0 (c2_rxn c) + (S (c2_ic0 c) + S (c2_ic1 c))).
Definition c2_decR (c : C2) (S : vec) (R0 : vec) : vec :=
  upd R0 (c2_rxn c) (R0 (c2_rxn c) - (S (c2_ic0 c) + S (c2_ic1 c))).
(** StoichManager.h:284-290. *)
Definition c3_incR (c : C3) (S : vec) (R0 : vec) : vec :=
  upd R0 (c3_rxn c) (R0 (c3_rxn c) + (S (c3_ic0 c) + S (c3_ic1 c) + S (c3_ic2 c))).
Definition c3_decR (c : C3) (S : vec) (R0 : vec) : vec :=
  upd R0 (c3_rxn c) (R0 (c3_rxn c) - (S (c3_ic0 c) + S (c3_ic1 c) + S (c3_ic2 c))).
(** StoichManager.h:380-390. *)
Definition cn_incR (c : CN) (input : vec) (output : vec) : vec :=
  fold_left (fun out p => upd out (cn_rxn c) (out (cn_rxn c) + p_stoich p * input (p_sp p)))
            (cn_parts c) output.
Definition cn_decR (c : CN) (input : vec) (output : vec) : vec :=
  fold_left (fun out p => upd out (cn_rxn c) (out (cn_rxn c) - p_stoich p * input (p_sp p)))
            (cn_parts c) output.

(** ** multiply *)

Definition Rltb (x y : R) : bool := if Rlt_dec x y then true else false.
Definition Reqb (x y : R) : bool := if Req_EM_T x y then true else false.

(** StoichManager.h:147-149. *)
Definition c1_mul (c : C1) (S : vec) (R0 : vec) : vec :=
  upd R0 (c1_rxn c) (R0 (c1_rxn c) * S (c1_ic0 c)).
(** StoichManager.h:205-211. *)
Definition c2_mul (c : C2) (S : vec) (R0 : vec) : vec :=
  if Rltb (S (c2_ic0 c)) 0 && Rltb (S (c2_ic1 c)) 0
  then upd R0 (c2_rxn c) 0
  else upd R0 (c2_rxn c) (R0 (c2_rxn c) * (S (c2_ic0 c) * S (c2_ic1 c))).
(** StoichManager.h:275-282. *)
Definition c3_mul (c : C3) (S : vec) (R0 : vec) : vec :=
  if (Rltb (S (c3_ic0 c)) 0 && (Rltb (S (c3_ic1 c)) 0 || Rltb (S (c3_ic2 c)) 0))
     || (Rltb (S (c3_ic1 c)) 0 && Rltb (S (c3_ic2 c)) 0)
  then upd R0 (c3_rxn c) 0
  else upd R0 (c3_rxn c) (R0 (c3_rxn c) * (S (c3_ic0 c) * S (c3_ic1 c) * S (c3_ic2 c))).
(** StoichManager.h:352-364; [std::pow(c, order)] with c > 0 is [Rpower]. *)
Definition cn_mul (c : CN) (input : vec) (output : vec) : vec :=
  fold_left (fun out p =>
      if Reqb (p_order p) 0 then out
      else let x := input (p_sp p) in
           if Rltb 0 x
           then upd out (cn_rxn c) (out (cn_rxn c) * Rpower x (p_order p))
           else upd out (cn_rxn c) 0)
    (cn_parts c) output.

(** ** derivatives: entries of the (reaction, species) matrix.
    The flat storage index m_jc is replaced by the pair (reaction, species) that
    [resizeCoeffs] (StoichManager.h:622-634) maps to it. *)
Definition jac := nat -> nat -> R.
Definition jadd (j : jac) (i k : nat) (x : R) : jac :=
  fun i' k' => if Nat.eqb i' i && Nat.eqb k' k then j i' k' + x else j i' k'.

(** StoichManager.h:164-167. *)
Definition c1_der (c : C1) (S R0 : vec) (j : jac) : jac :=
  jadd j (c1_rxn c) (c1_ic0 c) (R0 (c1_rxn c)).
(** StoichManager.h:227-235. *)
Definition c2_der (c : C2) (S R0 : vec) (j : jac) : jac :=
  let j := if Rltb 0 (S (c2_ic1 c))
           then jadd j (c2_rxn c) (c2_ic0 c) (R0 (c2_rxn c) * S (c2_ic1 c)) else j in
  if Rltb 0 (S (c2_ic0 c))
  then jadd j (c2_rxn c) (c2_ic1 c) (R0 (c2_rxn c) * S (c2_ic0 c)) else j.
(** StoichManager.h:299-310. *)
Definition c3_der (c : C3) (S R0 : vec) (j : jac) : jac :=
  let j := if Rltb 0 (S (c3_ic1 c)) && Rltb 0 (S (c3_ic2 c))
           then jadd j (c3_rxn c) (c3_ic0 c) (R0 (c3_rxn c) * S (c3_ic1 c) * S (c3_ic2 c)) else j in
  let j := if Rltb 0 (S (c3_ic0 c)) && Rltb 0 (S (c3_ic2 c))
           then jadd j (c3_rxn c) (c3_ic1 c) (R0 (c3_rxn c) * S (c3_ic0 c) * S (c3_ic2 c)) else j in
  if Rltb 0 (S (c3_ic0 c)) && Rltb 0 (S (c3_ic1 c))
  then jadd j (c3_rxn c) (c3_ic2 c) (R0 (c3_rxn c) * S (c3_ic0 c) * S (c3_ic1 c)) else j.
(** StoichManager.h:412-421: multiplication with the factors of the other participants [ps]
    (ascending index, position i left out); a non-positive concentration gives zero. *)
Fixpoint cn_others (S : vec) (ps : list part) (prod : R) : R :=
  match ps with
  | [] => prod
  | p :: ps' => if Rltb 0 (S (p_sp p))
                then cn_others S ps' (prod * Rpower (S (p_sp p)) (p_order p))
                else 0
  end.
(** StoichManager.h:404-427; [pre] holds the participants before the current one (reversed). *)
Fixpoint cn_der_from (rxn : nat) (S R0 : vec) (pre ps : list part) (j : jac) : jac :=
  match ps with
  | [] => j
  | p :: ps' =>
    let prod :=
      if Rltb 0 (S (p_sp p)) && negb (Reqb (p_order p) 0)
      then cn_others S (rev pre ++ ps')
             (R0 rxn * (p_order p * Rpower (S (p_sp p)) (p_order p - 1)))
      else 0 in
    cn_der_from rxn S R0 (p :: pre) ps' (jadd j rxn (p_sp p) prod)
  end.
Definition cn_der (c : CN) (S R0 : vec) (j : jac) : jac :=
  cn_der_from (cn_rxn c) S R0 [] (cn_parts c) j.

(** ** The manager, StoichManager.h:588-819; [m_coeffs] is the triplet list m_coeffList as
    (species, reaction, coefficient). *)
Record manager := mkManager {
  m_c1 : list C1; m_c2 : list C2; m_c3 : list C3; m_cn : list CN;
  m_coeffs : list (nat * nat * R)
}.

(** StoichManager.h:594-597. *)
Definition mgr_init : manager := mkManager [] [] [] [] [].

(** [fmod(x, 1.0)] is zero exactly when x is an integer (StoichManager.h:687). *)
Definition is_integerb (x : R) : bool := Reqb (frac_part x) 0.

(** Number of iterations of [for (size_t i = 0; i < x; i++)] (StoichManager.h:700): the number of
    naturals below x. *)
Definition loop_count (x : R) : nat := Z.to_nat (- Int_part (- x)).

(** StoichManager.h:684-690. *)
Definition is_frac (ps : list part) : bool :=
  existsb (fun p => negb (is_integerb (p_stoich p)) || negb (Reqb (p_stoich p) (p_order p))) ps.

(** StoichManager.h:698-703. *)
Definition kRep (ps : list part) : list nat :=
  flat_map (fun p => repeat (p_sp p) (loop_count (p_stoich p))) ps.

(** Zipping of the three argument vectors (positions n of k, order, stoich). *)
Fixpoint zip3 (k : list nat) (order stoich : list R) : list part :=
  match k, order, stoich with
  | i :: k', o :: order', s :: stoich' => mkPart i o s :: zip3 k' order' stoich'
  | _, _, _ => []
  end.

(** StoichManager.h:673-720. *)
Definition mgr_add (m : manager) (rxn : nat) (k : list nat) (order stoich : list R)
  : outcome manager :=
  if negb (length order =? length k)%nat then Err
  else if negb (length stoich =? length k)%nat then Err
  else
    let ps := zip3 k order stoich in
    let coeffs := m_coeffs m ++ map (fun p => (p_sp p, rxn, p_stoich p)) ps in
    if is_frac ps || (3 <? length k)%nat
    then Ok (mkManager (m_c1 m) (m_c2 m) (m_c3 m) (m_cn m ++ [mkCN rxn ps]) coeffs)
    else
      match kRep ps with
      | [a] => Ok (mkManager (m_c1 m ++ [mkC1 rxn a]) (m_c2 m) (m_c3 m) (m_cn m) coeffs)
      | [a; b] => Ok (mkManager (m_c1 m) (m_c2 m ++ [mkC2 rxn a b]) (m_c3 m) (m_cn m) coeffs)
      | [a; b; c] => Ok (mkManager (m_c1 m) (m_c2 m) (m_c3 m ++ [mkC3 rxn a b c]) (m_cn m) coeffs)
      | _ => Ok (mkManager (m_c1 m) (m_c2 m) (m_c3 m) (m_cn m ++ [mkCN rxn ps]) coeffs)
      end.

(** StoichManager.h:479-548: loops over one list of handlers. *)
Definition over {A} (f : A -> vec -> vec -> vec) (l : list A) (inp out : vec) : vec :=
  fold_left (fun o a => f a inp o) l out.

(** StoichManager.h:722-727. *)
Definition mgr_multiply (m : manager) (inp out : vec) : vec :=
  over cn_mul (m_cn m) inp (over c3_mul (m_c3 m) inp (over c2_mul (m_c2 m) inp
    (over c1_mul (m_c1 m) inp out))).
(** StoichManager.h:729-734. *)
Definition mgr_incSpecies (m : manager) (inp out : vec) : vec :=
  over cn_incS (m_cn m) inp (over c3_incS (m_c3 m) inp (over c2_incS (m_c2 m) inp
    (over c1_incS (m_c1 m) inp out))).
(** StoichManager.h:736-741. *)
Definition mgr_decSpecies (m : manager) (inp out : vec) : vec :=
  over cn_decS (m_cn m) inp (over c3_decS (m_c3 m) inp (over c2_decS (m_c2 m) inp
    (over c1_decS (m_c1 m) inp out))).
(** StoichManager.h:743-748. *)
Definition mgr_incReactions (m : manager) (inp out : vec) : vec :=
  over cn_incR (m_cn m) inp (over c3_incR (m_c3 m) inp (over c2_incR (m_c2 m) inp
    (over c1_incR (m_c1 m) inp out))).
(** StoichManager.h:750-755. *)
Definition mgr_decReactions (m : manager) (inp out : vec) : vec :=
  over cn_decR (m_cn m) inp (over c3_decR (m_c3 m) inp (over c2_decR (m_c2 m) inp
    (over c1_decR (m_c1 m) inp out))).
(** StoichManager.h:607 and 758-768: the sparse matrix assembled from the triplets (Eigen sums
    triplets with the same position). *)
Definition mgr_coeff (m : manager) (k i : nat) : R :=
  fold_right (fun '(k', i', s) acc => if Nat.eqb k' k && Nat.eqb i' i then s + acc else acc)
             0 (m_coeffs m).
(** StoichManager.h:780-792. *)
Definition mgr_derivatives (m : manager) (S R0 : vec) : jac :=
  let over_j {A} (f : A -> vec -> vec -> jac -> jac) (l : list A) (j : jac) :=
      fold_left (fun j a => f a S R0 j) l j in
  over_j cn_der (m_cn m) (over_j c3_der (m_c3 m) (over_j c2_der (m_c2 m)
    (over_j c1_der (m_c1 m) (fun _ _ => 0)))).

(** StoichManager.h:170-173, 237-240, 312-315, 429-432 with m_sum_order of 398-401. *)
Definition c1_scale (factor : R) (c : C1) (R0 out : vec) : vec :=
  upd out (c1_rxn c) (R0 (c1_rxn c) * factor).
Definition c2_scale (factor : R) (c : C2) (R0 out : vec) : vec :=
  upd out (c2_rxn c) (2 * R0 (c2_rxn c) * factor).
Definition c3_scale (factor : R) (c : C3) (R0 out : vec) : vec :=
  upd out (c3_rxn c) (3 * R0 (c3_rxn c) * factor).
Definition cn_scale (factor : R) (c : CN) (R0 out : vec) : vec :=
  upd out (cn_rxn c)
      (fold_left (fun acc p => acc + p_order p) (cn_parts c) 0 * R0 (cn_rxn c) * factor).
(** StoichManager.h:795-801. *)
Definition mgr_scale (m : manager) (factor : R) (inp out : vec) : vec :=
  over (cn_scale factor) (m_cn m) inp (over (c3_scale factor) (m_c3 m) inp
    (over (c2_scale factor) (m_c2 m) inp (over (c1_scale factor) (m_c1 m) inp out))).

(** A sequence of [add] calls on a new manager; [None]-free: the first failing call stops. *)
Fixpoint mgr_adds (m : manager) (l : list (nat * list nat * list R * list R)) : outcome manager :=
  match l with
  | [] => Ok m
  | (rxn, k, order, stoich) :: l' =>
    match mgr_add m rxn k order stoich with
    | Ok m' => mgr_adds m' l'
    | r => r
    end
  end.
