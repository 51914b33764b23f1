(** Property theorems C01, C02, C03: the handle table of the C interface. *)
From stdpp Require Import gmap list.
From Coq Require Import ZArith Lia.
From Verif Require Import Base.Outcome Cabinet.Model Cabinet.Spec Cabinet.Proofs.
Open Scope Z_scope.

(** C01. For every history, every call returns what the specification (an append-only list of
    issued handles) allows. *)
Theorem C01_cabinet_refines_spec : forall ops,
  objects_only ops -> spec_run [] ops (snd (run cab_init ops)).
Proof. exact cabinet_refines. Qed.
Print Assumptions C01_cabinet_refines_spec.

(** C01. A handle keeps denoting the object (and parent) it was issued for until a call that deletes
    it, whatever else happens. *)
Theorem C01_handle_stable : forall ops1 a q ops2 h,
  objects_only (ops1 ++ Add (Some a) q :: ops2) ->
  snd (step (after ops1) (Add (Some a) q)) = RInt (Ok h) ->
  Forall (fun o => ~ may_kill h o) ops2 ->
  cab_at (after (ops1 ++ Add (Some a) q :: ops2)) h = Ok a /\
  cab_parent (after (ops1 ++ Add (Some a) q :: ops2)) h = Ok q.
Proof. exact handle_stable. Qed.
Print Assumptions C01_handle_stable.

(** C01. A deleted handle never denotes an object again (until the table is reset), and deleting it
    again changes nothing. *)
Theorem C01_deleted_stays_dead : forall ops1 h ops2,
  objects_only (ops1 ++ Del h :: ops2) ->
  snd (step (after ops1) (Del h)) = RUnit (Ok tt) ->
  Forall not_reset ops2 ->
  cab_at (after (ops1 ++ Del h :: ops2)) h = Err /\
  cab_del (after (ops1 ++ Del h :: ops2)) h = (after (ops1 ++ Del h :: ops2), Err).
Proof. exact deleted_handle_stays_dead. Qed.
Print Assumptions C01_deleted_stays_dead.

(** C01. Handles are never reused: later creations return larger handles. *)
Theorem C01_handles_fresh : forall ops1 a1 q1 ops2 a2 q2 h1 h2,
  objects_only (ops1 ++ Add (Some a1) q1 :: ops2) ->
  Forall not_reset ops2 ->
  snd (step (after ops1) (Add (Some a1) q1)) = RInt (Ok h1) ->
  snd (step (after (ops1 ++ Add (Some a1) q1 :: ops2)) (Add (Some a2) q2)) = RInt (Ok h2) ->
  h1 < h2.
Proof. exact handles_fresh. Qed.
Print Assumptions C01_handles_fresh.

(** C02. Reverse lookup agrees with forward lookup after every history. *)
Theorem C02_index_correct : forall ops a q,
  objects_only ops ->
  exists i, cab_index (after ops) a q = Ok i /\
   ( (i = -1 /\ forall h, cab_at (after ops) h <> Ok a)
   \/ (i = -2 /\ (exists h, cab_at (after ops) h = Ok a) /\
        forall h, cab_at (after ops) h = Ok a -> cab_parent (after ops) h <> Ok q)
   \/ (cab_at (after ops) i = Ok a /\ cab_parent (after ops) i = Ok q /\
        forall h, cab_at (after ops) h = Ok a -> cab_parent (after ops) h = Ok q -> h <= i)).
Proof. exact index_correct. Qed.
Print Assumptions C02_index_correct.

(** C03, what holds: if no handle of the table has been deleted since the last reset then [clear]
    succeeds and afterwards no handle denotes an object.  Missing: the case where some handle was
    deleted before, for which the property is false (see the refutations below). *)
Theorem C03_clear_total_partial : forall ops,
  objects_only ops ->
  (forall h, 0 <= h < cab_size (after ops) -> exists a, cab_at (after ops) h = Ok a) ->
  snd (cab_clear (after ops)) = Ok tt /\
  forall h, cab_at (fst (cab_clear (after ops))) h = Err.
Proof. exact clear_total_partial. Qed.
Print Assumptions C03_clear_total_partial.

(** C03 is false of the code: after one deletion, [clear] throws, and an object that was live stays
    live. *)
Theorem C03_clear_refuted : exists ops,
  objects_only ops /\
  snd (cab_clear (after ops)) = Err /\
  exists h a, cab_at (fst (cab_clear (after ops))) h = Ok a.
Proof.
  exists [Add (Some 7%N) (-1); Add (Some 8%N) (-1); Del 0].
  split; [repeat constructor|]. split; [reflexivity|]. exists 1, 8%N. reflexivity.
Qed.
Print Assumptions C03_clear_refuted.

(** C03 is false of the code: deleting the same handle twice throws (Cabinet.h:36-37 documents that
    nothing happens). *)
Theorem C03_del_twice_refuted : exists ops h,
  objects_only ops /\
  snd (step (after ops) (Del h)) = RUnit (Ok tt) /\
  snd (step (after (ops ++ [Del h])) (Del h)) = RUnit Err.
Proof.
  exists [Add (Some 7%N) (-1)], 0. split; [repeat constructor|]. split; reflexivity.
Qed.
Print Assumptions C03_del_twice_refuted.

(** The hypothesis [objects_only] cannot be dropped: once a null pointer is stored, deleting a dead
    handle succeeds although nothing is deleted. *)
Theorem C01_null_object_refuted : exists ops h,
  ~ objects_only ops /\
  snd (step (after ops) (Del h)) = RUnit (Ok tt) /\
  snd (step (after (ops ++ [Del h])) (Del h)) = RUnit (Ok tt).
Proof.
  exists [Add None (-1); Add (Some 3%N) (-1)], 1. split; [|split; reflexivity].
  intros H. inversion H. contradiction.
Qed.
Print Assumptions C01_null_object_refuted.

(** Non-vacuity: a history with sharing, deletion and different parents. *)
Definition ex_ops : list op :=
  [Add (Some 7%N) (-1); Add (Some 8%N) 0; Add (Some 7%N) 0; Add (Some 7%N) 0; Del 3; Add (Some 9%N) 2].
Example ex_ops_ok : objects_only ex_ops.
Proof. repeat constructor. Qed.
Example ex_index : cab_index (after ex_ops) 7 0 = Ok 2 /\ cab_index (after ex_ops) 7 (-1) = Ok 0
  /\ cab_index (after ex_ops) 7 5 = Ok (-2) /\ cab_index (after ex_ops) 5 0 = Ok (-1).
Proof. repeat split. Qed.
Example ex_stable_hyp :
  snd (step (after [Add (Some 7%N) (-1)]) (Add (Some 8%N) 0)) = RInt (Ok 1) /\
  Forall (fun o => ~ may_kill 1 o) [Add (Some 7%N) 0; Del 0; Index 7 0].
Proof. split; [reflexivity|]. repeat constructor; simpl; intuition lia. Qed.
Example ex_dead_hyp :
  snd (step (after [Add (Some 7%N) (-1); Add (Some 7%N) 0]) (Del 1)) = RUnit (Ok tt)
  /\ Forall not_reset [Add (Some 7%N) 0; Clear].
Proof. split; [reflexivity|]. repeat constructor. Qed.
Example ex_clear_hyp : forall h, 0 <= h < cab_size (after [Add (Some 7%N) (-1); Add (Some 7%N) 0]) ->
  exists a, cab_at (after [Add (Some 7%N) (-1); Add (Some 7%N) 0]) h = Ok a.
Proof.
  intros h Hh. change (0 <= h < 2) in Hh.
  assert (h = 0 \/ h = 1) as [->| ->] by lia; exists 7%N; reflexivity.
Qed.
