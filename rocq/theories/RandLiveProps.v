(** Progress of concurrent calls of the generators. *)
From Coq Require Import ZArith List Bool Arith.
From Verif Require Import GoBase ConcBase ProgSpec RandLive RandModel.
Import ListNotations.
Local Open Scope nat_scope.

(** C201: the generators are lock-free: with P goroutines, in every stretch of (2P+2)(r+2P)+1 steps of an execution
    more than r calls of Rand, Srand and Seed return. *)
Theorem C201_rand_lock_free : forall g P seed before sched, members P sched ->
  length sched <=
  (2 * P + 2) * (length (rets (snd (crun (rnd_step g) (fst (crun (rnd_step g) (rnd_init seed) before)) sched))) + 2 * P).
Proof. intros g P seed before sched H. exact (rnd_lock_free g P _ sched H). Qed.
Print Assumptions C201_rand_lock_free.

(** Goroutines 0 and 1 load the seed 1, goroutine 2 sets the seed 5, and both have to try again. *)
Example C201_ex :
  let sched := [(0, ORand); (1, ORand); (2, OSrand 5%Z); (0, ORand); (1, ORand); (2, OSeed); (1, ORand); (1, ORand); (2, OSeed);
                (0, ORand); (1, ORand); (1, OSeed); (1, OSeed); (0, ORand); (0, ORand); (0, ORand)] in
  members 3 sched /\ length sched = 16 /\ rets (snd (crun (rnd_step gen32) (rnd_init 1) sched)) =
    [(2, OSrand 5, 1%Z); (1, ORand, 39594094%Z); (0, ORand, 3319476857%Z)].
Proof. split; [repeat constructor|]. vm_compute. auto. Qed.

(** C202: a call returns if its goroutine acts often enough.  Full statement: there is a bound on the number of steps
    that a call takes (wait-freedom).  What holds: calls of Seed and Srand take three steps; running alone, a goroutine
    returns from any call within 4 steps; a call that has not returned has taken at most 4 steps and 2 more for every
    call that returned meanwhile and every goroutine.  Missing: a bound for Rand that does not depend on the others,
    see below. *)
Theorem C202_rand_call_partial : forall g P seed before sched t, members P sched -> t < P ->
  let h := snd (crun (rnd_step g) (fst (crun (rnd_step g) (rnd_init seed) before)) sched) in
  rets_of t h = 0 -> steps_of t sched <= 4 + 2 * (length (rets h) + P).
Proof. intros g P seed before sched t H Ht. exact (rnd_call_bound g P t Ht _ sched H). Qed.
Print Assumptions C202_rand_call_partial.
Theorem C202_rand_solo : forall g seed before t op, exists n, n <= 4 /\
  rets_of t (snd (crun (rnd_step g) (fst (crun (rnd_step g) (rnd_init seed) before)) (repeat (t, op) n))) = 1.
Proof. intros g seed before t op. exact (rnd_solo g _ t op). Qed.
Print Assumptions C202_rand_solo.
Theorem C202_seed_wait_free : forall g seed before sched t,
  (forall op, In (t, op) (before ++ sched) -> op <> ORand) ->
  rets_of t (snd (crun (rnd_step g) (fst (crun (rnd_step g) (rnd_init seed) before)) sched)) = 0 -> steps_of t sched <= 2.
Proof. exact rnd_seed_wait_free. Qed.
Print Assumptions C202_seed_wait_free.
(** There is no such bound for Rand: a goroutine tries for ever while another one draws number after number. *)
Theorem C202_rand_wait_free_refuted : forall g seed N, g = gen32 \/ g = gen64 -> exists sched, members 2 sched /\
  N <= steps_of 0 sched /\ rets_of 0 (snd (crun (rnd_step g) (rnd_init seed) sched)) = 0 /\
  invs_of 0 (snd (crun (rnd_step g) (rnd_init seed) sched)) = 1.
Proof. intros g seed N H. exact (rnd_starves g H seed N). Qed.
Print Assumptions C202_rand_wait_free_refuted.

(** Goroutine 0 has loaded the seed; goroutine 1 sets another one; alone, goroutine 0 then needs all 4 steps. *)
Example C202_ex :
  let before := [(0, ORand); (0, ORand); (1, OSrand 7%Z); (1, OSeed)] in
  let s := fst (crun (rnd_step gen64) (rnd_init 1) before) in
  rets_of 0 (snd (crun (rnd_step gen64) s (repeat (0, ORand) 3))) = 0 /\
  rets (snd (crun (rnd_step gen64) s (repeat (0, ORand) 4))) = [(0, ORand, 34159667256%Z)].
Proof. vm_compute. auto. Qed.
