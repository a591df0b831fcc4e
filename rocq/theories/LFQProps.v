(** Properties of the lock-free queue. *)
From Coq Require Import ZArith List Bool Lia.
From Verif Require Import ConcBase SListModel LFQModel LFQSpec LFQProofs.
Import ListNotations.

(** C26: every interleaving is linearizable to one sequence. *)
Theorem C26_lfqueue_linearizable : forall sched, linearizable lq_spec [] (snd (crun lq_step lq_init sched)).
Proof. exact lq_linearizable. Qed.
Print Assumptions C26_lfqueue_linearizable.

(** C26: when no call is running, every value was pushed as often as it was
    popped and is still stored. *)
Theorem C26_lfqueue_conserves : forall sched z,
  no_clear sched -> quiescent (fst (crun lq_step lq_init sched)) ->
  exists l, stored (lq_heap (fst (crun lq_step lq_init sched))) (lq_head (fst (crun lq_step lq_init sched))) l /\
    count_rets (pushed z) (snd (crun lq_step lq_init sched)) =
    (count_rets (popped z) (snd (crun lq_step lq_init sched)) + count_occ Z.eq_dec l z)%nat.
Proof. exact lq_conserves. Qed.
Print Assumptions C26_lfqueue_conserves.

(** Two pushes race (goroutine 1 loses the first CAS and retries), then a pop
    loses its CAS to another pop. *)
Definition c26_sched : list (nat * lq_op) :=
  [(0, QPush 7); (1, QPush 8); (0, QPop); (1, QPop); (0, QPop); (1, QPop); (1, QPop); (1, QPop); (1, QPop); (1, QPop);
   (0, QPop); (0, QPop); (0, QPop); (1, QPop); (0, QPop); (1, QPop); (0, QPop); (1, QPop); (0, QPop); (1, QPop);
   (0, QPop); (0, QPop); (0, QPop);
   (1, QPop); (1, QPop); (1, QPop); (1, QPop); (1, QPop); (1, QPop)]%nat%Z.
Example C26_ex : snd (crun lq_step lq_init c26_sched) =
  [Inv 0 (QPush 7); Inv 1 (QPush 8); Ret 1 (QPush 8) (RBool true); Ret 0 (QPush 7) (RBool true);
   Inv 0 QPop; Inv 1 QPop; Ret 0 QPop (RVal 8 true); Ret 1 QPop (RVal 7 true)]%nat%Z.
Proof. vm_compute. reflexivity. Qed.

(** C27, the part that holds: without Clear, at rest and within int32, Size is
    the number of stored values less the number of failed pops; so it is the
    number of stored values if no pop failed. Missing: failed pops and Clear,
    for which the claim is false (below). *)
Theorem C27_lfqueue_size_partial : forall sched,
  no_clear sched -> quiescent (fst (crun lq_step lq_init sched)) ->
  let s := fst (crun lq_step lq_init sched) in
  exists l, stored (lq_heap s) (lq_head s) l /\ (Z.of_nat (length l) < 2 ^ 31 ->
    Z.of_nat (count_rets pop_failed (snd (crun lq_step lq_init sched))) <= 2 ^ 31 -> forall t,
    snd (crun lq_step s [(t, QSize); (t, QSize); (t, QSize)]) =
    [Inv t QSize; Ret t QSize (RInt (Z.of_nat (length l) - Z.of_nat (count_rets pop_failed (snd (crun lq_step lq_init sched)))))])%Z.
Proof. exact lq_size_quiescent. Qed.
Print Assumptions C27_lfqueue_size_partial.

(** C27 is false: one failed pop gives an empty queue of size -1; Clear keeps
    the size. *)
Theorem C27_lfqueue_size_refuted :
  (exists sched, quiescent (fst (crun lq_step lq_init sched)) /\ no_clear sched /\
    stored (lq_heap (fst (crun lq_step lq_init sched))) (lq_head (fst (crun lq_step lq_init sched))) [] /\
    lq_size (fst (crun lq_step lq_init sched)) = (-1)%Z) /\
  (exists sched, quiescent (fst (crun lq_step lq_init sched)) /\
    count_rets pop_failed (snd (crun lq_step lq_init sched)) = 0%nat /\
    stored (lq_heap (fst (crun lq_step lq_init sched))) (lq_head (fst (crun lq_step lq_init sched))) [] /\
    lq_size (fst (crun lq_step lq_init sched)) = 1%Z).
Proof.
  split.
  - exists [(0, QPop); (0, QPop); (0, QPop); (0, QPop)]%nat.
    split; [intros [|t]; reflexivity|]. split; [repeat constructor; discriminate|]. split; [constructor|reflexivity].
  - exists [(0, QPush 5); (0, QPop); (0, QPop); (0, QPop); (0, QPop); (0, QClear); (0, QPop); (0, QPop)]%nat%Z.
    split; [intros [|t]; reflexivity|]. split; [reflexivity|]. split; [constructor|reflexivity].
Qed.
Print Assumptions C27_lfqueue_size_refuted.

Example C27_ex : snd (crun lq_step (fst (crun lq_step lq_init (c26_sched ++
  [(2, QPush 1); (2, QPop); (2, QPop); (2, QPop); (2, QPop)]%nat%Z))) [(3, QSize); (3, QSize); (3, QSize)]%nat) =
  [Inv 3 QSize; Ret 3 QSize (RInt 1)]%nat%Z.
Proof. vm_compute. reflexivity. Qed.

(** C71: under every interleaving Size is a linearizable int32 counter of
    pushes minus pops, failed pops included, untouched by Clear. *)
Theorem C71_lfqueue_size_counts : forall sched, linearizable lq_count_spec 0%Z (snd (crun lq_step lq_init sched)).
Proof. exact lq_size_linearizable. Qed.
Print Assumptions C71_lfqueue_size_counts.

(** Size lags behind: goroutine 1 pops the value while goroutine 0 has not yet
    counted its push. *)
Example C71_ex : snd (crun lq_step lq_init
  [(0, QPush 7); (0, QPop); (0, QPop); (1, QPop); (1, QPop); (1, QPop); (1, QPop); (1, QPop); (1, QPop); (1, QPop);
   (2, QSize); (2, QSize); (2, QSize); (0, QPop); (0, QPop)]%nat%Z) =
  [Inv 0 (QPush 7); Inv 1 QPop; Ret 1 QPop (RVal 7 true); Inv 2 QSize; Ret 2 QSize (RInt (-1)); Ret 0 (QPush 7) (RBool true)]%nat%Z.
Proof. vm_compute. reflexivity. Qed.
