(** Properties C10, C11, C58 of IntDeque. *)
From Coq Require Import ZArith List Bool.
From Verif Require Import GoBase DequeModel DequeSpec DequeProofs.
Import ListNotations.
Open Scope Z_scope.

(** C58: for EVERY history of public calls on a zero-value deque, no call panics
    and every call returns exactly what [dring_step] says. *)
Theorem C58_deque_exact : forall ops,
  exists q, run_ops deque_step deque_zero ops
            = Ok (q, snd (spec_ops dring_step (ADeque [] 0 0) ops)) /\
    deque_size q = zlen (ad_items (fst (spec_ops dring_step (ADeque [] 0 0) ops))) /\
    deque_cap q = ad_cap (fst (spec_ops dring_step (ADeque [] 0 0) ops)).
Proof. exact deque_exact. Qed.
Print Assumptions C58_deque_exact.

Example C58_ex :
  fst (spec_ops dring_step (ADeque [] 0 0)
    [DInit 3; DPushBack 1; DPushBack 2; DPopFront; DPushBack 3; DPushBack 4])
  = ADeque [4; 3; 0] 6 0.
Proof. vm_compute. reflexivity. Qed.

(** C10 (part): every history in which the sequence does not reach around the
    end of the buffer whenever the buffer is replaced behaves as a double-ended
    sequence.  Missing from the full statement: the condition
    [no_wrapped_move]; without it the claim is false, see
    [C10_deque_refuted]. *)
Theorem C10_deque_partial : forall ops, no_wrapped_move (ADeque [] 0 0) ops ->
  exists q, run_ops deque_step deque_zero ops = Ok (q, snd (spec_ops seq_step [] ops)) /\
    deque_size q = zlen (fst (spec_ops seq_step [] ops)).
Proof. exact deque_seq_partial. Qed.
Print Assumptions C10_deque_partial.

Example C10_ex :
  let ops := [DInit 3; DPushFront 1; DPushBack 2; DBack; DPopBack; DPushFront 3; DFront; DPopBack;
              DPopBack; DPopBack; DClear; DPushBack 4; DPushBack 5; DPushBack 6; DPopFront; DSize] in
  no_wrapped_move (ADeque [] 0 0) ops /\
  exists q, run_ops deque_step deque_zero ops
    = Ok (q, [DUnit; DUnit; DUnit; DVal (Some 2); DVal (Some 2); DUnit; DVal (Some 3); DVal (Some 1);
              DVal (Some 3); DVal None; DUnit; DUnit; DUnit; DUnit; DVal (Some 4); DInt 2]).
Proof.
  split.
  - vm_compute. repeat split; first [left; reflexivity | right; reflexivity].
  - eexists. vm_compute. reflexivity.
Qed.

(** C10 is false in general: three values pushed around the end of a buffer of
    three come out as 4, 3, 0. *)
Theorem C10_deque_refuted : exists ops q os,
  run_ops deque_step deque_zero ops = Ok (q, os) /\
  os <> snd (spec_ops seq_step [] ops) /\
  (exists pre, os = pre ++ [DVal (Some 4); DVal (Some 3); DVal (Some 0)]) /\
  exists pre, snd (spec_ops seq_step [] ops) = pre ++ [DVal (Some 2); DVal (Some 3); DVal (Some 4)].
Proof.
  exists [DInit 3; DPushBack 1; DPushBack 2; DPopFront; DPushBack 3; DPushBack 4; DPopFront; DPopFront; DPopFront].
  do 2 eexists. split; [vm_compute; reflexivity|]. split; [vm_compute; discriminate|]. split.
  - exists [DUnit; DUnit; DUnit; DVal (Some 1); DUnit; DUnit]. reflexivity.
  - exists [DUnit; DUnit; DUnit; DVal (Some 1); DUnit; DUnit]. reflexivity.
Qed.
Print Assumptions C10_deque_refuted.

(** C11 (part): a Shrink inserted anywhere in such a history changes none of the
    other observations; it answers false. *)
Theorem C11_deque_shrink_partial : forall ops rest,
  no_wrapped_move (ADeque [] 0 0) (ops ++ DShrink :: rest) ->
  exists q os1 os2,
    run_ops deque_step deque_zero (ops ++ DShrink :: rest) = Ok (q, os1 ++ DBool false :: os2) /\
    snd (spec_ops seq_step [] (ops ++ rest)) = os1 ++ os2 /\ length os1 = length ops.
Proof. exact deque_shrink_partial. Qed.
Print Assumptions C11_deque_shrink_partial.

Example C11_ex :
  let ops := [DInit 12; DPushBack 1; DPushBack 2; DPushBack 3; DPopFront; DShrink; DPopFront; DPushBack 7; DBack; DSize] in
  no_wrapped_move (ADeque [] 0 0) ops /\
  exists q, run_ops deque_step deque_zero ops
    = Ok (q, [DUnit; DUnit; DUnit; DUnit; DVal (Some 1); DBool false; DVal (Some 2); DUnit; DVal (Some 7); DInt 2])
    /\ deque_cap q = 6.
Proof.
  split.
  - vm_compute. repeat split; first [left; reflexivity | right; reflexivity | right; discriminate].
  - eexists. vm_compute. split; reflexivity.
Qed.

(** C11 is false in general: with the values around the end of the buffer, Shrink
    scrambles them, and it answers false although the capacity changed. *)
Theorem C11_deque_shrink_refuted : exists ops q os q',
  run_ops deque_step deque_zero ops = Ok (q, os) /\ deque_shrink q = Ok (q', false) /\
  deque_cap q' <> deque_cap q /\
  deque_front q = Ok (Some 2) /\ deque_front q' = Ok (Some 1).
Proof.
  exists [DInit 9; DPushBack 1; DPushFront 2]. do 3 eexists.
  split; [vm_compute; reflexivity|]. split; [vm_compute; reflexivity|].
  split; [vm_compute; discriminate|]. split; vm_compute; reflexivity.
Qed.
Print Assumptions C11_deque_shrink_refuted.
