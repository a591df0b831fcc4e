(** Properties of the lock-free deque. *)
From Coq Require Import ZArith List Bool Lia.
From Verif Require Import GoBase ConcBase LFDModel LFDSpec LFDProofs LFDConc.
Import ListNotations.
Open Scope Z_scope.

(** C30: packing and unpacking are inverse. *)
Theorem C30_lfdeque_pack : forall h t, 0 <= h < 2 ^ 32 -> 0 <= t < 2 ^ 32 ->
  0 <= make_ht h t < 2 ^ 64 /\ head_of (make_ht h t) = h /\ tail_of (make_ht h t) = t.
Proof. exact pack_round. Qed.
Print Assumptions C30_lfdeque_pack.
Theorem C30_lfdeque_unpack : forall w, 0 <= w < 2 ^ 64 -> make_ht (head_of w) (tail_of w) = w.
Proof. exact unpack_round. Qed.
Print Assumptions C30_lfdeque_unpack.

(** C30, the part of the second claim that holds: PushBack and PopFront with
    Clear and the queries are a queue of capacity n-1. Missing: PushFront and
    PopBack, which panic at the ends of the buffer (below). *)
Theorem C30_lfdeque_fifo_partial : forall n ops, 0 < n < 2 ^ 31 -> fits (n - 1) [] ops ->
  fobs (run_ops fd_step lfd_zero (FInit n :: ops)) = Ok (FUnit :: snd (spec_ops fifo_step [] ops)).
Proof. exact lfd_fifo. Qed.
Print Assumptions C30_lfdeque_fifo_partial.

(** C30 is false for the other ends: PushFront on an empty deque panics; so does
    PopBack once the values end at the end of the buffer. *)
Theorem C30_lfdeque_refuted : exists n v, 0 < n < 2 ^ 31 /\
  run_ops fd_step lfd_zero [FInit n; FPushFront v] = Panic /\
  run_ops fd_step lfd_zero [FInit n; FPushBack v; FPushBack v; FPopFront; FPushBack v; FPopBack] = Panic.
Proof.
  exists 3, 7. split; [lia|]. split; (apply exact_panics; [repeat constructor; cbn; lia|vm_compute; reflexivity]).
Qed.
Print Assumptions C30_lfdeque_refuted.

Example C30_ex : make_ht 4000000000 7 = 34064771072 /\ head_of 34064771072 = 4000000000 /\ tail_of 34064771072 = 7 /\
  fits 2 [] [FPushBack 1; FPushBack 2; FPopFront; FPushBack 3; FSize; FPopFront; FPopFront; FPopFront] /\
  fobs (run_ops fd_step lfd_zero [FInit 3; FPushBack 1; FPushBack 2; FPopFront; FPushBack 3; FSize; FPopFront; FPopFront; FPopFront]) =
  Ok [FUnit; FBool true; FBool true; FVal 1 true; FBool true; FInt 2; FVal 2 true; FVal 3 true; FVal 0 false].
Proof. repeat split; vm_compute; reflexivity. Qed.

(** C31, the part that holds: one goroutine pushing and one popping, any number
    asking for the size. Missing: several pushers or several poppers (below). *)
Theorem C31_lfdeque_spsc_partial : forall n p c sched, 0 < n < 2 ^ 31 -> roles p c sched ->
  linearizable (cd_spec (n - 1)) [] (snd (crun cd_step (cd_init n) sched)) /\
  forall t, cd_pcs (fst (crun cd_step (cd_init n) sched)) t <> DPanic.
Proof. exact lfd_spsc. Qed.
Print Assumptions C31_lfdeque_spsc_partial.

(** C31 is false: with two pushers, 1 and 2 are pushed and 2 is popped twice;
    with two poppers, 1, 2 and 3 are pushed and 1, 2 and 1 popped. In both cases
    the deque ends empty. *)
Theorem C31_lfdeque_refuted :
  (exists sched, let s := crun cd_step (cd_init 8) sched in
     pushes (snd s) = [1; 2] /\ pops (snd s) = [2; 2] /\ fd_size (fd_d (cd_q (fst s))) (fd_ht (cd_q (fst s))) = 0) /\
  (exists sched, let s := crun cd_step (cd_init 2) sched in
     Forall (fun e => match snd e with DPush _ => fst e = 0%nat | _ => True end) sched /\
     pushes (snd s) = [1; 2; 3] /\ pops (snd s) = [1; 2; 1] /\ fd_size (fd_d (cd_q (fst s))) (fd_ht (cd_q (fst s))) = 0).
Proof.
  split.
  - exists [(0, DPush 1); (1, DPush 2); (0, DSize); (1, DSize); (0, DSize); (1, DSize); (0, DSize); (0, DSize);
            (1, DSize); (1, DSize); (1, DSize); (1, DSize); (1, DSize);
            (2, DPop); (2, DPop); (2, DPop); (2, DPop); (2, DPop); (2, DPop); (2, DPop); (2, DPop); (2, DPop); (2, DPop)]%nat.
    vm_compute. auto.
  - exists [(0, DPush 1); (0, DSize); (0, DSize); (0, DSize); (0, DSize); (1, DPop); (1, DPop); (1, DPop);
            (2, DPop); (2, DPop); (2, DPop); (2, DPop); (2, DPop);
            (0, DPush 2); (0, DSize); (0, DSize); (0, DSize); (0, DSize);
            (2, DPop); (2, DPop); (2, DPop); (2, DPop); (2, DPop);
            (0, DPush 3); (0, DSize); (0, DSize); (0, DSize); (0, DSize);
            (1, DPop); (1, DPop)]%nat.
    split; [repeat constructor|]. vm_compute. auto.
Qed.
Print Assumptions C31_lfdeque_refuted.

(** A push that loses its CAS to a pop and tries again. *)
Example C31_ex : snd (crun cd_step (cd_init 3)
  [(0, DPush 1); (0, DSize); (0, DSize); (0, DSize); (0, DSize); (0, DPush 2); (0, DSize); (1, DPop); (1, DPop); (1, DPop); (1, DPop);
   (0, DSize); (0, DSize); (1, DPop); (0, DSize); (0, DSize); (0, DSize); (0, DSize); (2, DSize); (2, DSize); (2, DSize);
   (1, DPop); (1, DPop); (1, DPop); (1, DPop); (1, DPop)]%nat) =
  [Inv 0 (DPush 1); Ret 0 (DPush 1) (FBool true); Inv 0 (DPush 2); Inv 1 DPop; Ret 1 DPop (FVal 1 true);
   Ret 0 (DPush 2) (FBool true); Inv 2 DSize; Ret 2 DSize (FInt 1); Inv 1 DPop; Ret 1 DPop (FVal 2 true)]%nat.
Proof. vm_compute. reflexivity. Qed.

(** C74: every sequential history, all calls: results, waits and panics. *)
Theorem C74_lfdeque_exact : forall ops, Forall arg_ok ops ->
  fobs (run_ops fd_step lfd_zero ops) = fobs (run_ops exact_step (0, 0, []) ops).
Proof. exact lfd_exact. Qed.
Print Assumptions C74_lfdeque_exact.

Example C74_ex : fobs (run_ops fd_step lfd_zero [FPopBack; FPushBack 1; FPushBack 2; FPushBack 3; FPopFront; FPushFront 4; FPopBack; FSize; FCap; FPopFront; FPopFront; FPopFront]) =
    Ok [FVal 0 false; FBool true; FBool true; FBool true; FVal 1 true; FBool true; FVal 3 true; FInt 2; FInt 8; FVal 4 true; FVal 2 true; FVal 0 false] /\
  fobs (run_ops fd_step lfd_zero [FPushFront 1]) = Panic /\
  fobs (run_ops fd_step lfd_zero [FInit 1; FPushBack 1]) = Diverge.
Proof.
  split; [vm_compute; reflexivity|]. split; [|vm_compute; reflexivity].
  rewrite C74_lfdeque_exact by (repeat constructor). vm_compute. reflexivity.
Qed.
