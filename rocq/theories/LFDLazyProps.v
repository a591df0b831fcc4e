(** Property theorems about the lock-free deque used without Init (C199, C200). *)
From Coq Require Import ZArith List.
From Verif Require Import ConcBase RaceSpec RaceModel RaceWit LFDSpec LFDLazySpec LFDLazyProofs LFDLazyRace LFDModel LFDLazyModel.
Import ListNotations.
Open Scope Z_scope.

(** C199: an LFDeque needs no Init: the first PushBack makes a buffer of 8 slots, and calls are atomic.  This holds when one goroutine pushes and
    one pops (any may call Size).  Missing: several pushers, of which two may make the buffer (below). *)
Theorem C199_first_push_partial : forall p c sched, roles p c sched ->
  linearizable (cd_spec 7) [] (snd (crun cz_step cz_init sched)) /\
  forall t, cz_pcs (fst (crun cz_step cz_init sched)) t <> ZBase DPanic.
Proof. exact lazy_spsc. Qed.
Print Assumptions C199_first_push_partial.

(** C199 is false of two pushers, even if the second begins to store only after the first has returned: the Init of the second empties the deque.
    1 and 2 are pushed, 2 is popped, and then the deque is empty. *)
Theorem C199_first_push_refuted : exists sched, let s := crun cz_step cz_init sched in
  pushes (snd s) = [1; 2] /\ pops (snd s) = [2] /\ last (snd s) (Inv 0%nat DSize) = Ret 2%nat DPop (FVal 0 false) /\
  forall t, cz_pcs (fst s) t = ZBase DIdle.
Proof.
  exists two_first. split; [vm_compute; reflexivity |]. split; [vm_compute; reflexivity |]. split; [vm_compute; reflexivity |].
  intros [| [| [| t]]]; vm_compute; reflexivity.
Qed.
Print Assumptions C199_first_push_refuted.

(** A popper that comes before and after the first push. *)
Example C199_ex : snd (crun cz_step cz_init
  [(1, DPop); (1, DPop); (1, DPop); (0, DPush 5); (0, DSize); (0, DSize); (1, DPop); (0, DSize); (1, DPop); (1, DPop); (2, DSize); (2, DSize); (2, DSize);
   (0, DSize); (0, DSize); (0, DSize); (0, DSize); (0, DSize); (1, DPop); (1, DPop); (1, DPop); (1, DPop); (1, DPop)]%nat) =
  [Inv 1 DPop; Ret 1 DPop (FVal 0 false); Inv 0 (DPush 5); Inv 1 DPop; Ret 1 DPop (FVal 0 false); Inv 2 DSize; Ret 2 DSize (FInt 0);
   Ret 0 (DPush 5) (FBool true); Inv 1 DPop; Ret 1 DPop (FVal 5 true)]%nat.
Proof. vm_compute. reflexivity. Qed.

(** C200: the first calls of an LFDeque without Init have no data race.  This holds when one goroutine pushes and one pops (any may call Size). *)
Theorem C200_first_push_race_free_partial : forall p c sched, roles p c sched -> race_free (trace_of cz_step cz_accs cz_init sched).
Proof. exact lazy_no_races. Qed.
Print Assumptions C200_first_push_race_free_partial.

(** C200 is false of two pushers: one writes the field d, the other reads it. *)
Theorem C200_first_push_race_free_refuted : exists sched i j, (forall t op, In (t, op) sched -> op <> DPop) /\
  race (trace_of cz_step cz_accs cz_init sched) i j.
Proof.
  exists two_look, 2%nat, 3%nat. split.
  - intros t op H. repeat (destruct H as [H | H]; [injection H as <- <-; discriminate |]). contradiction.
  - exists 0%nat, 1%nat, (PWrite DBuf), (PRead DBuf). repeat split; try (vm_compute; reflexivity); try discriminate; auto.
    apply (not_hb fd_eqb fd_eqb_ok _ (fun i => Nat.eqb i 2)); vm_compute; reflexivity.
Qed.
Print Assumptions C200_first_push_race_free_refuted.

(** The accesses of two first pushes and of two pops. *)
Example C200_ex : trace_of cz_step cz_accs cz_init two_first =
  [(1, PRead DBuf); (0, PRead DBuf); (0, PRead DBuf); (0, PWrite DBuf); (0, AStore DWord); (0, PWrite DBusy);
   (0, ALoad DWord); (0, PRead DBuf); (0, PRead DBuf); (0, PWrite (DCell 0)); (0, PRead DBuf); (0, ARmw DWord);
   (1, PRead DBuf); (1, AStore DWord); (1, PWrite DBusy); (1, ALoad DWord); (1, PRead DBuf); (1, PRead DBuf); (1, PWrite (DCell 0));
   (1, PRead DBuf); (1, ARmw DWord);
   (2, ALoad DWord); (2, PRead DBuf); (2, PRead (DCell 0)); (2, PRead DBuf); (2, ARmw DWord); (2, ALoad DWord)]%nat.
Proof. vm_compute. reflexivity. Qed.
