(** Data races, in the sense of the Go memory model. The accesses in RaceModel are those of the code: [honest]. *)
From Coq Require Import ZArith List Bool Arith.
From Verif Require Import LFQRace LFQHonest RingRace RingHonest LFDRace LFDHonest SpinRace SpinHonest RaceWit.
From Verif Require Import GoBase ConcBase SListModel LFQModel RingModel LFDModel LFDSpec SpinModel RaceSpec RaceModel.
Import ListNotations.
Open Scope nat_scope.

(** C178: any number of goroutines may use an LFQueue (Push, Pop, Clear, Size, Empty) without a data race. *)
Theorem C178_queue_race_free : forall sched, race_free (trace_of lq_step lq_accs lq_init sched).
Proof. exact lq_race_free. Qed.
Print Assumptions C178_queue_race_free.
Theorem C178_queue_accesses : honest lq_step lq_accs lq_at lq_pcs lq_fresh.
Proof. exact lq_honest. Qed.
Print Assumptions C178_queue_accesses.
Example C178_ex :
  trace_of lq_step lq_accs lq_init [(0, QPush 5%Z); (0, QPop); (0, QPop); (0, QPop); (1, QPop); (1, QPop); (1, QPop); (1, QPop); (1, QPop)] =
  [(0, PWrite (QVal 0)); (0, PWrite (QNext 0)); (0, ALoad QHead); (0, PWrite (QNext 0)); (0, PRead (QNext 0)); (0, ARmw QHead); (0, ARmw QCount);
   (1, ALoad QHead); (1, PRead (QNext 0)); (1, ARmw QHead); (1, PRead (QVal 0))].
Proof. vm_compute. reflexivity. Qed.

(** C179: any number of goroutines may call MustPush, MustPop and Size of a ring buffer without a data race, as
    long as the positions do not wrap around. *)
Theorem C179_ring_race_free : forall k sched,
  (Z.of_nat (length (invs (snd (crun cr_step (cr_init k) sched)))) + 2 ^ Z.of_nat k < 2 ^ 64)%Z ->
  race_free (trace_of cr_step cr_accs (cr_init k) sched).
Proof. exact ring_no_races. Qed.
Print Assumptions C179_ring_race_free.
Theorem C179_ring_accesses : honest cr_step cr_accs cr_at cr_pcs (fun _ => tt).
Proof. exact cr_honest. Qed.
Print Assumptions C179_ring_accesses.
Example C179_ex :
  trace_of cr_step cr_accs (cr_init 1) [(0, CPush 5%Z); (0, CPop); (0, CPop); (0, CPop); (1, CPop); (1, CPop); (1, CPop); (1, CPop)] =
  [(0, ARmw RTailR); (0, ALoad RHead); (0, PRead RMask); (0, PRead RMask); (0, PRead RBuf); (0, PWrite (RSlot 0)); (0, ARmw RTail);
   (1, ARmw RHeadR); (1, ALoad RTail); (1, PRead RMask); (1, PRead RBuf); (1, PRead (RSlot 0)); (1, ARmw RHead)].
Proof. vm_compute. reflexivity. Qed.

(** C180: a program that touches its data only between Lock and Unlock of a SpinLock has no data race. *)
Theorem C180_spin_guards : forall sched, race_free (trace_of g_step g_accs g_init sched).
Proof. exact spin_guards. Qed.
Print Assumptions C180_spin_guards.
Theorem C180_spin_accesses : honest g_step g_accs g_at g_pos (fun _ => tt).
Proof. exact g_honest. Qed.
Print Assumptions C180_spin_accesses.
Example C180_ex :
  trace_of g_step g_accs g_init
    [(0, GCall LLock); (0, GCall LLock); (0, GCall LLock); (0, GWrite 3); (1, GCall LLock); (1, GCall LLock); (0, GCall LUnlock); (0, GCall LUnlock);
     (1, GCall LLock); (1, GCall LLock); (1, GRead 3)] =
  [(0, ARmw GWord); (0, PWrite (GData 3)); (1, ALoad GWord); (0, ARmw GWord); (1, ARmw GWord); (1, PRead (GData 3))].
Proof. vm_compute. reflexivity. Qed.

(** C181: a program that guards its data by an RWSpinLock has no data race. This holds of programs that use Lock and
    Unlock only (partial: without RLock); with one reader it is false. *)
Theorem C181_rw_guards_partial : forall sched, (forall t, ~ In (t, WCall RLock) sched) -> race_free (trace_of w_step w_accs w_init sched).
Proof. exact rw_writers_guarded. Qed.
Print Assumptions C181_rw_guards_partial.
Theorem C181_rw_guards_refuted : exists sched i j, race (trace_of w_step w_accs w_init sched) i j.
Proof. exact (ex_intro _ rw_bad (ex_intro _ 4 (ex_intro _ 5 rw_races))). Qed.
Print Assumptions C181_rw_guards_refuted.
Theorem C181_rw_accesses : honest w_step w_accs w_at w_pos (fun _ => tt).
Proof. exact w_honest. Qed.
Print Assumptions C181_rw_accesses.
Example C181_ex :
  trace_of w_step w_accs w_init rw_bad =
  [(1, ALoad GReaders); (0, ARmw GWord); (0, ARmw GReaders); (1, ARmw GReaders); (0, PWrite (GData 7)); (1, PRead (GData 7))].
Proof. vm_compute. reflexivity. Qed.

(** C182: any number of goroutines may use an LFDeque without a data race. This holds when one goroutine calls
    PushBack and one calls PopFront (any may call Size); it is false of two that push, and of two that pop while a third pushes. *)
Theorem C182_deque_race_free_partial : forall n p c sched, (0 < n < 2 ^ 31)%Z -> roles p c sched ->
  race_free (trace_of cd_step cd_accs (cd_init n) sched).
Proof. exact lfd_no_races. Qed.
Print Assumptions C182_deque_race_free_partial.
Theorem C182_pushers_refuted : exists n sched i j, (0 < n < 2 ^ 31)%Z /\ (forall t op, In (t, op) sched -> op <> DPop) /\
  race (trace_of cd_step cd_accs (cd_init n) sched) i j.
Proof. exact push_witness. Qed.
Print Assumptions C182_pushers_refuted.
Theorem C182_poppers_refuted : exists n sched i j, (0 < n < 2 ^ 31)%Z /\ (forall t v, In (t, DPush v) sched -> t = 0) /\
  race (trace_of cd_step cd_accs (cd_init n) sched) i j.
Proof. exact pop_witness. Qed.
Print Assumptions C182_poppers_refuted.
Theorem C182_deque_accesses : honest cd_step cd_accs cd_at cd_pcs (fun _ => tt).
Proof. exact cd_honest. Qed.
Print Assumptions C182_deque_accesses.
Example C182_ex :
  trace_of cd_step cd_accs (cd_init 4) push_bad =
  [(0, PRead DBuf); (1, PRead DBuf); (0, ALoad DWord); (0, PRead DBuf); (1, ALoad DWord); (1, PRead DBuf);
   (0, PRead DBuf); (0, PWrite (DCell 0)); (1, PRead DBuf); (1, PWrite (DCell 0))].
Proof. vm_compute. reflexivity. Qed.
