(** Properties: any number of goroutines using the lock-free deque. *)
From Coq Require Import ZArith List Arith Lia.
From Verif Require Import GoBase ConcBase LFDModel LFDSpec ProgSpec LFDLiveSpec LFDLive LFDLive2.
Import ListNotations.
Open Scope Z_scope.

(** C171: whoever pushes and pops, no call panics, a popped value has been passed to a push, Size stays
    below Cap, and when all calls have returned it is the number of pushes less the number of successful pops. *)
Theorem C171_lfdeque_counts : forall n sched, 0 < n < 2 ^ 31 ->
  let s := fst (crun cd_step (cd_init n) sched) in let hist := snd (crun cd_step (cd_init n) sched) in
  (forall t, cd_pcs s t <> DPanic) /\
  (forall v, In v (pops hist) -> exists t, In (Inv t (DPush v)) hist) /\
  0 <= size_now s <= n - 1 /\
  (quiet s -> size_now s = zlen (pushes hist) - zlen (pops hist)).
Proof. exact lfd_mpmc. Qed.
Print Assumptions C171_lfdeque_counts.

(** Two goroutines push at once, one overwrites the other's value; the counts are right all the same. *)
Example C171_ex :
  let sched := [(0, DPush 1); (1, DPush 2); (0, DPop); (1, DPop); (0, DPop); (1, DPop); (0, DPop); (1, DPop);
                (0, DPop); (1, DPop); (1, DPop); (1, DPop); (1, DPop); (2, DPop); (2, DPop); (2, DPop); (2, DPop); (2, DPop)]%nat in
  let s := crun cd_step (cd_init 4) sched in
  pushes (snd s) = [1; 2] /\ pops (snd s) = [2] /\ size_now (fst s) = 1.
Proof. vm_compute. auto. Qed.

(** C172: some call always completes unless pushes wait for room: with P goroutines, of any stretch of steps all but
    (3P+3)(r+2P), where r calls return, are spent on rounds of pushes that found the deque full; Busy counts these. *)
Theorem C172_lfdeque_progress : forall n P before sched, 0 < n < 2 ^ 31 -> members P sched ->
  let s := fst (crun cd_step (cd_init n) before) in
  (length sched <= (3 * P + 3) * (length (rets (snd (crun cd_step s sched))) + 2 * P) + 2 * waits s sched)%nat.
Proof. exact lfd_progress. Qed.
Print Assumptions C172_lfdeque_progress.
Theorem C172_lfdeque_busy : forall n sched, 0 < n < 2 ^ 31 ->
  fd_busy (cd_q (fst (crun cd_step (cd_init n) sched))) = Z.of_nat (waits (cd_init n) sched) mod 2 ^ 64.
Proof. exact lfd_busy. Qed.
Print Assumptions C172_lfdeque_busy.
(** Whatever the others are stopped in, a goroutine alone returns within 5 steps, except from a push into a full
    deque, which waits for ever. *)
Theorem C172_lfdeque_solo : forall n before t op, 0 < n < 2 ^ 31 ->
  let s := fst (crun cd_step (cd_init n) before) in cd_pcs s t = DIdle ->
  match op with DPush _ => size_now s <> n - 1 | _ => True end ->
  exists m, (m <= 5)%nat /\ rets_of t (snd (crun cd_step s (repeat (t, op) m))) = 1%nat.
Proof. exact lfd_solo. Qed.
Print Assumptions C172_lfdeque_solo.
Theorem C172_lfdeque_full_waits : forall n before t v m, 0 < n < 2 ^ 31 ->
  let s := fst (crun cd_step (cd_init n) before) in cd_pcs s t = DIdle -> size_now s = n - 1 ->
  rets (snd (crun cd_step s (repeat (t, DPush v) m))) = [] /\ size_now (fst (crun cd_step s (repeat (t, DPush v) m))) = n - 1.
Proof. exact lfd_full. Qed.
Print Assumptions C172_lfdeque_full_waits.

(** A deque for one value: the second push waits twice, then a pop lets it through. *)
Example C172_ex :
  let sched := (repeat (0, DPush 1) 5 ++ repeat (0, DPush 2) 5 ++ repeat (1, DPop) 5 ++ repeat (0, DSize) 4)%nat in
  let s := crun cd_step (cd_init 2) sched in
  (exists P, members P sched) /\ waits (cd_init 2) sched = 2%nat /\ fd_busy (cd_q (fst s)) = 2 /\
  rets (snd s) = [(0%nat, DPush 1, FBool true); (1%nat, DPop, FVal 1 true); (0%nat, DPush 2, FBool true)].
Proof. split; [exists 2%nat; repeat constructor|]. vm_compute. auto. Qed.
