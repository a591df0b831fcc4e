(** Properties C08, C09, C57 of IntQueue. *)
From Coq Require Import ZArith List Bool.
From Verif Require Import GoBase QueueModel QueueSpec QueueProofs.
Import ListNotations.
Open Scope Z_scope.

(** C57: for EVERY history of Init/Clear/Push/Pop/Front/Back/Size/Empty on a
    zero-value queue, no call panics and every call returns exactly what
    [ring_step] says. *)
Theorem C57_queue_exact : forall ops,
  exists q, run_ops queue_step queue_zero ops
            = Ok (q, snd (spec_ops ring_step (AQueue [] 0 0) ops)) /\
    queue_size q = zlen (aq_items (fst (spec_ops ring_step (AQueue [] 0 0) ops))) /\
    queue_cap q = aq_cap (fst (spec_ops ring_step (AQueue [] 0 0) ops)).
Proof. exact queue_exact. Qed.
Print Assumptions C57_queue_exact.

Example C57_ex :
  snd (spec_ops ring_step (AQueue [] 0 0)
    [QInit 2; QPush 1; QPush 2; QPush 3; QPop; QPush 4; QSize; QPush 5; QSize])
  = [QUnit; QUnit; QUnit; QUnit; QVal (Some 1); QUnit; QInt 3; QUnit; QInt 0].
Proof. reflexivity. Qed.

(** C08 (part): every history in which no Push fills the last slot of a ring
    whose reading position has moved is served in first-in-first-out order.
    Missing from the full statement: the condition [no_overflow]; without it the
    claim is false, see [C08_queue_fifo_refuted]. *)
Theorem C08_queue_fifo_partial : forall ops, no_overflow (AQueue [] 0 0) ops ->
  exists q, run_ops queue_step queue_zero ops = Ok (q, snd (spec_ops fifo_step [] ops)) /\
    queue_size q = zlen (fst (spec_ops fifo_step [] ops)).
Proof. exact queue_fifo_partial. Qed.
Print Assumptions C08_queue_fifo_partial.

(** A wrap-around followed by a growth-free history satisfies the condition. *)
Example C08_ex :
  let ops := [QInit 4; QPush 1; QPush 2; QPop; QPush 3; QPush 4; QPop; QPush 5; QPop; QFront; QBack; QPop; QSize] in
  no_overflow (AQueue [] 0 0) ops /\
  exists q, run_ops queue_step queue_zero ops
    = Ok (q, [QUnit; QUnit; QUnit; QVal (Some 1); QUnit; QUnit; QVal (Some 2); QUnit;
              QVal (Some 3); QVal (Some 4); QVal (Some 5); QVal (Some 4); QInt 1]).
Proof.
  split.
  - vm_compute. repeat split; first [left; reflexivity | right; reflexivity].
  - eexists. vm_compute. reflexivity.
Qed.

(** C08 is false in general: a few calls on a queue of capacity 2
    lose both queued values. *)
Theorem C08_queue_fifo_refuted : exists ops q os,
  run_ops queue_step queue_zero ops = Ok (q, os) /\
  os <> snd (spec_ops fifo_step [] ops) /\
  queue_size q = 0 /\ zlen (fst (spec_ops fifo_step [] ops)) = 1.
Proof.
  exists [QInit 2; QPush 1; QPop; QPush 2; QPush 3; QPop]. do 2 eexists.
  split; [reflexivity|]. split; [discriminate|]. split; reflexivity.
Qed.
Print Assumptions C08_queue_fifo_refuted.

(** C09 (part): in every reachable state in which Shrink leaves the buffer alone
    or the queue holds at most one value, all later reads are unaffected; in
    every other reachable state Shrink is fatal: either Size() changes or the
    next Push panics.  Shrink returns false in all of them. *)
Theorem C09_queue_shrink_partial : forall ops rest,
  (exists q os, run_ops queue_step queue_zero ops = Ok (q, os) /\
    ((shrinks q = false \/ queue_size q <= 1) -> forallb is_read rest = true ->
     exists q' q1 q2 os', queue_shrink q = Ok (q', false) /\
       run_ops queue_step q rest = Ok (q1, os') /\ run_ops queue_step q' rest = Ok (q2, os'))) /\
  (exists q os, run_ops queue_step queue_zero ops = Ok (q, os) /\
    (shrinks q = true -> 2 <= queue_size q ->
     exists q', queue_shrink q = Ok (q', false) /\
       (queue_size q' <> queue_size q \/ forall v, queue_push q' v = Panic))).
Proof. exact (fun ops rest => conj (queue_shrink_keeps ops rest) (queue_shrink_loses ops)). Qed.
Print Assumptions C09_queue_shrink_partial.

Example C09_ex :
  (forall q os, run_ops queue_step queue_zero [QInit 9; QPush 1; QPush 2; QPop] = Ok (q, os) ->
     shrinks q = true /\ exists q', queue_shrink q = Ok (q', false) /\ queue_front q' = Ok (Some 2)) .
Proof. intros q os E. vm_compute in E. injection E as <- _. split; [reflexivity|]. eexists. split; reflexivity. Qed.

(** C09 is false in general: with two values queued, Shrink makes Push panic. *)
Theorem C09_queue_shrink_refuted : exists ops q os q',
  run_ops queue_step queue_zero ops = Ok (q, os) /\ queue_shrink q = Ok (q', false) /\
  queue_size q = 2 /\ queue_cap q' <> queue_cap q /\
  queue_push q' 3 = Panic /\ (exists q2, queue_push q 3 = Ok q2).
Proof.
  exists [QInit 9; QPush 1; QPush 2]. do 3 eexists.
  split; [reflexivity|]. split; [reflexivity|]. split; [reflexivity|].
  split; [discriminate|]. split; [reflexivity|]. eexists. reflexivity.
Qed.
Print Assumptions C09_queue_shrink_refuted.
