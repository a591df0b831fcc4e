(** C121-C124: the file locks (sync/filelock). *)
From Coq Require Import ZArith List Bool.
From Verif Require Import GoBase ConcBase SpinSpec FileLockModel FileLockSpec FileLockProofs FileLockMore FileLockLive.
Import ListNotations.
Open Scope Z_scope.

(** C121: in every interleaving of any number of goroutines, values and paths, every
    call of Init, Lock and Unlock acts at one moment of the call: Lock succeeds only
    if the path of the value is set, is a file and is locked by no value. *)
Theorem C121_linearizable : forall busy file sched,
  linearizable (fl_spec busy file) fl_abs0 (snd (crun (fl_step busy file) fl_init sched)).
Proof. exact fl_linearizable. Qed.
Print Assumptions C121_linearizable.

(** Two goroutines with a value each, of the same path, never both have the lock. *)
Theorem C121_exclusion : forall busy file sched h t u p q, own sched ->
  h = snd (crun (fl_step busy file) fl_init sched) ->
  t <> u -> p <> 0%nat -> q <> 0%nat ->
  has_lock h t = true -> has_lock h u = true ->
  In (Ret t (FInit t p) (FOk true)) h -> In (Ret u (FInit u q) (FOk true)) h -> p <> q.
Proof. exact fl_exclusion. Qed.
Print Assumptions C121_exclusion.

(** Goroutines 1 and 2 set path 7; 1 locks it; the Lock of 2 waits; 1 unlocks; 2 gets it. *)
Definition fl_demo : list (nat * fl_op) :=
  repeat (1%nat, FInit 1 7) 5 ++ repeat (2%nat, FInit 2 7) 5 ++ repeat (1%nat, FLock 1) 5 ++ repeat (2%nat, FLock 2) 7.
Definition fl_demo2 : list (nat * fl_op) := fl_demo ++ repeat (1%nat, FUnlock 1) 5 ++ repeat (2%nat, FLock 2) 4.
Example C121_ex :
  let h := snd (crun (fl_step 536870913 (Nat.eqb 7)) fl_init fl_demo) in
  let h2 := snd (crun (fl_step 536870913 (Nat.eqb 7)) fl_init fl_demo2) in
  has_lock h 1 = true /\ has_lock h 2 = false /\ in_call h 2 = Some (FLock 2) /\
  has_lock h2 1 = false /\ has_lock h2 2 = true /\ In (Ret 1%nat (FInit 1 7) (FOk true)) h2.
Proof. vm_compute. auto 20. Qed.

(** C122, part: with one goroutine per value, Init and Unlock return after at most four
    steps of the goroutine, whatever the others do, and so does Lock if the error for a
    locked file is not EACCES. (Missing: Lock waits in general; see the refutation.) *)
Theorem C122_returns_partial : forall busy file sched l t op, own sched -> own l ->
  in_call (snd (crun (fl_step busy file) fl_init sched)) t = Some op ->
  busy <> 536870913 \/ op <> FLock t -> 4 <= mine t l ->
  exists r, In (Ret t op r) (snd (crun (fl_step busy file) (fst (crun (fl_step busy file) fl_init sched)) l)).
Proof. exact fl_own_returns. Qed.
Print Assumptions C122_returns_partial.

(** If the error is EACCES, a Lock that waits, or has just been called, gets the file
    within four steps once nobody has it. *)
Theorem C122_gets_it_partial : forall file sched h t p o1 o2 o3 o4, own sched ->
  h = snd (crun (fl_step 536870913 file) fl_init sched) ->
  in_call h t = Some (FLock t) -> has_lock h t = false ->
  (forall u, u <> t -> in_call h u = None /\ has_lock h u = false) ->
  In (Ret t (FInit t p) (FOk true)) h -> p <> 0%nat -> file p = true ->
  In (Ret t (FLock t) (FErr None))
     (snd (crun (fl_step 536870913 file) (fst (crun (fl_step 536870913 file) fl_init sched)) [(t, o1); (t, o2); (t, o3); (t, o4)])).
Proof. exact fl_lock_free. Qed.
Print Assumptions C122_gets_it_partial.

(** Lock does not wait when the system answers "sharing violation" (32), which is what
    Windows does; and if it waits, and the value is shared, the holder's Unlock never
    returns, in any continuation. *)
Theorem C122_wait_refuted : exists file sched1 sched2,
  (let h := snd (crun (fl_step 32 file) fl_init sched1) in
   own sched1 /\ has_lock h 1 = true /\
   In (Ret 1%nat (FInit 1 7) (FOk true)) h /\ In (Ret 2%nat (FInit 2 7) (FOk true)) h /\
   In (Ret 2%nat (FLock 2) (FErr (Some 32))) h) /\
  (forall l, let h := snd (crun (fl_step 536870913 file) fl_init (sched2 ++ l)) in
   In (Inv 1%nat (FUnlock 5)) h /\ forall r, ~ In (Ret 1%nat (FUnlock 5) r) h).
Proof.
  exists (Nat.eqb 7), fl_demo,
    (repeat (5%nat, FInit 5 7) 5 ++ repeat (5%nat, FLock 5) 5 ++ [(2%nat, FLock 5); (2%nat, FLock 5)] ++ [(1%nat, FUnlock 5)]).
  split.
  - vm_compute. repeat split; auto 20. repeat constructor.
  - intros l h. subst h. set (pre := repeat (5%nat, FInit 5 7) 5 ++ repeat (5%nat, FLock 5) 5).
    assert (E : (repeat (5%nat, FInit 5 7) 5 ++ repeat (5%nat, FLock 5) 5 ++ [(2%nat, FLock 5); (2%nat, FLock 5)] ++ [(1%nat, FUnlock 5)]) ++ l
              = pre ++ (2%nat, FLock 5) :: (2%nat, FLock 5) :: ((1%nat, FUnlock 5) :: l)) by reflexivity.
    rewrite E. split.
    + replace (pre ++ (2%nat, FLock 5) :: (2%nat, FLock 5) :: (1%nat, FUnlock 5) :: l)
        with ((pre ++ [(2%nat, FLock 5); (2%nat, FLock 5); (1%nat, FUnlock 5)]) ++ l) by (rewrite <- app_assoc; reflexivity).
      rewrite SpinProofs.crun_app. cbn [snd]. apply in_or_app. left. vm_compute. auto 20.
    + intros r H. rewrite SpinProofs.crun_app in H. cbn [snd] in H. apply in_app_or in H. destruct H as [H|H].
      * vm_compute in H. intuition discriminate.
      * revert H. intros H. eapply fl_deadlock in H; [now apply H|repeat constructor|reflexivity|vm_compute; reflexivity..].
Qed.
Print Assumptions C122_wait_refuted.

Example C122_ex :
  let h := snd (crun (fl_step 536870913 (Nat.eqb 7)) fl_init (fl_demo ++ repeat (1%nat, FUnlock 1) 5)) in
  in_call h 2 = Some (FLock 2) /\ has_lock h 2 = false /\ in_call h 1 = None /\ has_lock h 1 = false /\
  In (Ret 2%nat (FLock 2) (FErr None))
     (snd (crun (fl_step 536870913 (Nat.eqb 7)) fl_init (fl_demo ++ repeat (1%nat, FUnlock 1) 5 ++ repeat (2%nat, FLock 2) 4))).
Proof. vm_compute. auto 20. Qed.

(** C123: exactly when a value is dead. If a value is locked and any goroutine - its
    holder or another one - calls Lock on it and gets past the first step, then no call
    on this value returns any more, in any continuation. *)
Theorem C123_deadlock : forall file sched h m t o l, own sched ->
  h = snd (crun (fl_step 536870913 file) fl_init sched) ->
  has_lock h m = true -> in_call h m = None -> in_call h t = None ->
  forall v op r,
  In (Ret v op r) (snd (crun (fl_step 536870913 file) (fst (crun (fl_step 536870913 file) fl_init sched))
                             ((t, FLock m) :: (t, o) :: l))) -> fl_obj op <> m.
Proof. exact fl_deadlock. Qed.
Print Assumptions C123_deadlock.

(** If the error is not EACCES, nobody is ever stuck: every call, of any value, shared or
    not, can return within six steps of some goroutines. *)
Theorem C123_no_wait : forall busy file sched t op, busy <> 536870913 ->
  in_call (snd (crun (fl_step busy file) fl_init sched)) t = Some op ->
  exists l r, (length l <= 6)%nat /\
    In (Ret t op r) (snd (crun (fl_step busy file) (fst (crun (fl_step busy file) fl_init sched)) l)).
Proof. exact fl_no_wait. Qed.
Print Assumptions C123_no_wait.

Example C123_ex :
  let h := snd (crun (fl_step 536870913 (Nat.eqb 7)) fl_init (repeat (5%nat, FInit 5 7) 5 ++ repeat (5%nat, FLock 5) 5)) in
  has_lock h 5 = true /\ in_call h 5 = None /\ in_call h 2 = None /\
  in_call (snd (crun (fl_step 32 (Nat.eqb 7)) fl_init
     (repeat (5%nat, FInit 5 7) 5 ++ repeat (5%nat, FLock 5) 2 ++ [(2%nat, FLock 5)]))) 2 = Some (FLock 5).
Proof. vm_compute. auto. Qed.

(** C124, part: the calls of RWMutex return at the next step of the goroutine.
    (Missing: they exclude nobody.) *)
Theorem C124_rw_partial : forall sched t o h, h = snd (crun fr_step (fun _ => None) sched) -> running h t = true ->
  exists op, snd (crun fr_step (fun _ => None) (sched ++ [(t, o)])) = h ++ [Ret t op tt].
Proof. exact fr_never_blocks. Qed.
Print Assumptions C124_rw_partial.

(** Two writers and a reader at the same time. *)
Theorem C124_rw_refuted : exists sched, let h := snd (crun fr_step (fun _ => None) sched) in
  fr_writing h 1 = true /\ fr_writing h 2 = true /\ fr_reading h 3 = true.
Proof.
  exists [(1%nat, FrLock); (1%nat, FrLock); (2%nat, FrLock); (3%nat, FrRLock); (2%nat, FrLock); (3%nat, FrRLock)].
  vm_compute. auto.
Qed.
Print Assumptions C124_rw_refuted.

Example C124_ex : running (snd (crun fr_step (fun _ => None) [(1%nat, FrLock)])) 1 = true.
Proof. reflexivity. Qed.
