(** Properties of the ring buffer. *)
From Coq Require Import ZArith List Bool Lia.
From Verif Require Import GoBase ConcBase RingModel RingSpec RingProofs RingSeq.
Import ListNotations.
Open Scope Z_scope.

(** C28: under every interleaving MustPush and MustPop are a bounded queue. *)
Theorem C28_ring_linearizable : forall k sched,
  Z.of_nat (length (invs (snd (crun cr_step (cr_init k) sched)))) + 2 ^ Z.of_nat k < 2 ^ 64 ->
  linearizable (ring_spec (2 ^ Z.of_nat k)) [] (snd (crun cr_step (cr_init k) sched)).
Proof. exact ring_linearizable. Qed.
Print Assumptions C28_ring_linearizable.

(** C28: no index is ever out of range, and no goroutine is about to write a
    slot that another is about to read or write. *)
Theorem C28_ring_race_free : forall k sched,
  Z.of_nat (length (invs (snd (crun cr_step (cr_init k) sched)))) + 2 ^ Z.of_nat k < 2 ^ 64 ->
  let s := fst (crun cr_step (cr_init k) sched) in
  (forall t, cr_pcs s t <> CPanic) /\
  (forall t u i w j w', t <> u -> access k (cr_pcs s t) = Some (i, w) -> access k (cr_pcs s u) = Some (j, w') ->
     w = true -> i <> j).
Proof. exact ring_safe. Qed.
Print Assumptions C28_ring_race_free.

(** Two producers and a consumer on one slot: producer 1 waits for room until
    consumer 2 has taken the first value. *)
Example C28_ex : snd (crun cr_step (cr_init 0)
  [(0, CPush 7); (1, CPush 8); (0, CPop); (1, CPop); (0, CPop); (1, CPop); (0, CPop); (1, CPop); (2, CPop); (2, CPop);
   (2, CPop); (1, CPop); (2, CPop); (1, CPop); (1, CPop); (1, CPop); (0, CSize); (2, CPop); (1, CPop); (2, CPop);
   (2, CPop); (2, CPop); (2, CPop); (2, CPop)]%nat%Z) =
  [Inv 0 (CPush 7); Inv 1 (CPush 8); Inv 2 CPop; Ret 0 (CPush 7) (ObsBool true); Ret 2 CPop (ObsVal 7 true);
   Ret 1 (CPush 8) (ObsBool true); Inv 2 CPop; Ret 2 CPop (ObsVal 8 true)]%nat%Z.
Proof. vm_compute. reflexivity. Qed.

(** C29, the part that holds: on a ring of 2^k slots, histories of Push, Pop and
    queries that never overfill or underrun it are those of a bounded queue,
    except that Push returns false. Missing: the capacity (Init makes one slot),
    the ok flags, full and empty rings; all false (below). *)
Theorem C29_ring_fifo_partial : forall k ops, (k < 32)%nat -> zlen ops < 2 ^ 63 -> within (2 ^ Z.of_nat k) [] ops ->
  exists s os, run_ops rb_step (ring k) ops = Ok (s, os) /\ agree ops os (snd (spec_ops (bq_step (2 ^ Z.of_nat k)) [] ops)).
Proof. exact ring_fifo. Qed.
Print Assumptions C29_ring_fifo_partial.

(** C29 is false: Init(16) makes one slot; Push succeeds in storing but returns
    false, twice in a row; the first value is lost; Pop on an empty ring returns
    ok. *)
Theorem C29_ring_refuted : exists n s o, 1 <= n /\ rb_step rb_zero (RInit n) = Ok (s, ObsUnit) /\
  run_ops rb_step s [RCap; RPush 5; RPush 6; RPop; RPop; RPop; RSize] = Ok (o,
    [ObsInt 1; ObsBool false; ObsBool false; ObsVal 6 true; ObsVal 6 true; ObsVal 6 true; ObsInt (-1)]).
Proof.
  exists 16, (ring 0), (RB 3 3 2 2 0 0 [6]). split; [lia|]. split; vm_compute; reflexivity.
Qed.
Print Assumptions C29_ring_refuted.

Example C29_ex : within 4 [] [RPush 1; RPush 2; RSize; RPop; RPush 3; RPush 4; RPush 5; RPop; REmpty; RCap] /\
  obs_of (run_ops rb_step (ring 2) [RPush 1; RPush 2; RSize; RPop; RPush 3; RPush 4; RPush 5; RPop; REmpty; RCap]) =
  Ok [ObsBool false; ObsBool false; ObsInt 2; ObsVal 1 true; ObsBool false; ObsBool false; ObsBool false; ObsVal 2 true;
      ObsBool false; ObsInt 4].
Proof. split; [cbn; repeat split; try reflexivity; discriminate|vm_compute; reflexivity]. Qed.

(** C72: what the ring does after Init(n), whatever n: one slot. *)
Theorem C72_ring_exact : forall n ops, zlen ops < 2 ^ 63 ->
  (n <= 2 ^ 62 -> exists s, rb_step rb_zero (RInit n) = Ok (s, ObsUnit) /\ zlen (rb_d s) = 1 /\
     obs_of (run_ops rb_step s ops) = obs_of (run_ops one_step (0, 0) ops)) /\
  (2 ^ 62 < n -> rb_step rb_zero (RInit n) = Diverge).
Proof. exact ring_exact. Qed.
Print Assumptions C72_ring_exact.

Example C72_ex : obs_of (run_ops rb_step rb_zero [RInit 100; RMustPush 3; RSize; RMustPop; RPop; RSize; RMustPush 4; RMustPush 5; RPop]) =
    Ok [ObsUnit; ObsBool true; ObsInt 1; ObsVal 3 true; ObsVal 3 true; ObsInt (-1); ObsBool true; ObsBool true; ObsVal 5 true] /\
  obs_of (run_ops rb_step rb_zero [RInit 100; RMustPush 3; RMustPush 4]) = Diverge.
Proof. split; vm_compute; reflexivity. Qed.

(** C72: MustPush, MustPop and the queries alone, on a ring of 2^k slots: exactly
    a bounded queue; a call that has to wait never returns. *)
Theorem C72_ring_blocking_exact : forall k ops, (k < 32)%nat -> zlen ops < 2 ^ 62 -> Forall blocking_op ops ->
  obs_of (run_ops rb_step (ring k) ops) = obs_of (run_ops (blocking_step (2 ^ Z.of_nat k)) [] ops).
Proof. exact ring_blocking. Qed.
Print Assumptions C72_ring_blocking_exact.

Example C72_ex2 : obs_of (run_ops rb_step (ring 1) [RMustPush 3; RMustPush 4; RMustPop; RMustPush 5; RSize; RMustPop; RMustPop; REmpty]) =
    Ok [ObsBool true; ObsBool true; ObsVal 3 true; ObsBool true; ObsInt 2; ObsVal 4 true; ObsVal 5 true; ObsBool true] /\
  obs_of (run_ops rb_step (ring 1) [RMustPush 3; RMustPush 4; RMustPush 5]) = Diverge.
Proof. split; vm_compute; reflexivity. Qed.

(** C73, the part that holds: a Size call that is not interrupted returns
    between 0 and the capacity, and at rest the number of values handed in and
    not yet handed out. Missing: Size calls interleaved with others. *)
Theorem C73_ring_size_partial : forall k sched t, (k < 63)%nat ->
  Z.of_nat (length (invs (snd (crun cr_step (cr_init k) sched)))) + 2 ^ Z.of_nat k < 2 ^ 64 ->
  let s := fst (crun cr_step (cr_init k) sched) in let h := snd (crun cr_step (cr_init k) sched) in
  cr_pcs s t = CIdle ->
  exists n, 0 <= n <= 2 ^ Z.of_nat k /\
    snd (crun cr_step s [(t, CSize); (t, CSize); (t, CSize)]) = [Inv t CSize; Ret t CSize (ObsInt n)] /\
    ((forall u, cr_pcs s u = CIdle) -> n = Z.of_nat (count_push h) - Z.of_nat (count_pop h)).
Proof. exact ring_size. Qed.
Print Assumptions C73_ring_size_partial.

(** C73 is false: one push and one pop between the two loads give -1. *)
Theorem C73_ring_size_refuted : exists sched t n, n < 0 /\ In (Ret t CSize (ObsInt n)) (snd (crun cr_step (cr_init 0) sched)).
Proof.
  exists [(0, CSize); (1, CPush 7); (1, CPop); (1, CPop); (1, CPop); (2, CPop); (2, CPop); (2, CPop); (2, CPop); (0, CSize); (0, CSize)]%nat%Z,
    0%nat, (-1). split; [lia|]. vm_compute. auto.
Qed.
Print Assumptions C73_ring_size_refuted.

Example C73_ex : snd (crun cr_step (fst (crun cr_step (cr_init 1)
    [(0, CPush 7); (0, CPop); (0, CPop); (0, CPop); (0, CPop); (1, CPush 8); (1, CPop); (1, CPop); (1, CPop); (1, CPop)]%nat%Z))
    [(3, CSize); (3, CSize); (3, CSize)]%nat) = [Inv 3 CSize; Ret 3 CSize (ObsInt 2)]%nat.
Proof. vm_compute. reflexivity. Qed.
