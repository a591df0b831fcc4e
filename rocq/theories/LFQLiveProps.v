(** Properties: progress of the calls of the lock-free queue. *)
From Coq Require Import ZArith List Arith Lia.
From Verif Require Import GoBase ConcBase LFQModel ProgSpec ProgBase LFQLive LFQLive2.
Import ListNotations.
Local Open Scope nat_scope.

(** C169: the queue is lock-free: with P goroutines, in every stretch of (3P+5)(r+2P)+1 steps of an execution more
    than r calls return. *)
Theorem C169_lfqueue_lock_free : forall P before sched, members P sched ->
  length sched <= (3 * P + 5) * (length (rets (snd (crun lq_step (fst (crun lq_step lq_init before)) sched))) + 2 * P).
Proof. exact lq_lock_free. Qed.
Print Assumptions C169_lfqueue_lock_free.

(** Two pushes and a pop get in each other's way; all three return within 23 steps. *)
Example C169_ex :
  let sched := [(0, QPush 1%Z); (1, QPush 2%Z); (0, QPop); (1, QPop); (0, QPop); (1, QPop); (1, QPop); (2, QPop); (2, QPop); (2, QPop);
                (1, QPop); (1, QPop); (2, QPop); (1, QPop); (2, QPop); (2, QPop); (2, QPop); (2, QPop); (2, QPop); (2, QPop); (0, QPop); (0, QPop); (0, QSize)] in
  members 3 sched /\ length sched = 23 /\ rets (snd (crun lq_step lq_init sched)) =
    [(1, QPush 2%Z, RBool true); (2, QPop, RVal 2%Z true); (0, QPush 1%Z, RBool true)].
Proof. split; [repeat constructor|]. vm_compute. auto. Qed.

(** C170: a call returns if its goroutine acts often enough.  Full statement: there is a bound on the number of steps
    that a call takes (wait-freedom).  What holds: running alone, a goroutine
    returns from its call within 8 steps; a call that has not returned has taken at most 8 steps and 3 more for every call
    that the others completed and every goroutine.  Missing: a bound that does not depend on the others, see below. *)
Theorem C170_lfqueue_call_partial : forall P before sched t, members P sched -> t < P ->
  let h := snd (crun lq_step (fst (crun lq_step lq_init before)) sched) in
  rets_of t h = 0 -> steps_of t sched <= 8 + 3 * (length (rets h) + P).
Proof. exact lq_call_bound. Qed.
Print Assumptions C170_lfqueue_call_partial.
Theorem C170_lfqueue_solo : forall before t op, exists n, n <= 8 /\
  rets_of t (snd (crun lq_step (fst (crun lq_step lq_init before)) (repeat (t, op) n))) = 1.
Proof. exact lq_solo. Qed.
Print Assumptions C170_lfqueue_solo.
(** There is no such bound: a goroutine pushes for ever while another one completes call after call. *)
Theorem C170_lfqueue_wait_free_refuted : forall N, exists sched, members 2 sched /\ N <= steps_of 0 sched /\
  rets_of 0 (snd (crun lq_step lq_init sched)) = 0 /\ invs_of 0 (snd (crun lq_step lq_init sched)) = 1.
Proof. exact lq_starves. Qed.
Print Assumptions C170_lfqueue_wait_free_refuted.

(** Goroutine 0 has loaded the head for its pop; goroutine 1 pushes; alone, goroutine 0 then needs all 8 steps. *)
Example C170_ex :
  let before := [(1, QPush 1%Z); (1, QPop); (1, QPop); (1, QPop); (1, QPop); (0, QPop); (0, QPop);
                 (1, QPush 2%Z); (1, QPop); (1, QPop); (1, QPop); (1, QPop)] in
  let s := fst (crun lq_step lq_init before) in
  rets_of 0 (snd (crun lq_step s (repeat (0, QPop) 7))) = 0 /\
  rets (snd (crun lq_step s (repeat (0, QPop) 8))) = [(0, QPop, RVal 2%Z true)].
Proof. vm_compute. auto. Qed.
