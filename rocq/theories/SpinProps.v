(** Properties of the spin locks (sync/spinlock.go, sync/spinrwlock.go). *)
From Coq Require Import ZArith List Bool.
From Verif Require Import GoBase ConcBase SpinModel SpinSpec SpinProofs SpinRW SpinMore SpinSeq.
Import ListNotations.
Open Scope Z_scope.

(** C49: under every schedule the calls behave as those of one lock object: Lock
    returns only by taking a free lock, Unlock of a free lock panics and changes
    nothing, and Lock gives up only while the lock is taken. *)
Theorem C49_spin_linearizable : forall sched, linearizable lock_spec false (snd (crun sl_step sl_init sched)).
Proof. exact sl_lin. Qed.
Print Assumptions C49_spin_linearizable.
(** C49: when goroutines unlock only what they locked, at no moment are two of
    them inside, and no Unlock panics. *)
Theorem C49_spin_exclusion : forall sched, let h := snd (crun sl_step sl_init sched) in disciplined h ->
  (forall h1 h2 t u, h = h1 ++ h2 -> inside h1 t = true -> inside h1 u = true -> t = u) /\
  (forall t, ~ In (Ret t LUnlock LPanic) h).
Proof. exact sl_exclusion. Qed.
Print Assumptions C49_spin_exclusion.
Example C49_ex :
  let h := snd (crun sl_step sl_init [(1%nat, LLock); (2%nat, LLock); (2%nat, LLock); (1%nat, LLock); (2%nat, LLock); (2%nat, LUnlock);
     (2%nat, LUnlock); (1%nat, LLock); (1%nat, LLock)]) in
  h = [Inv 1%nat LLock; Inv 2%nat LLock; Ret 2%nat LLock LOk; Inv 2%nat LUnlock; Ret 1%nat LLock LOk] /\
  inside (firstn 3 h) 2 = true /\ inside h 2 = false /\ inside h 1 = true.
Proof. repeat split; reflexivity. Qed.

(** C50, part: with well-nested calls two writers are never inside together, no
    Unlock or RUnlock panics, and a reader that calls while a writer is inside
    does not get in before that writer calls Unlock. Missing: a reader that called
    earlier is not excluded, and the lock is not released; both are false
    (below). The number of RLock calls is below 2^30, the capacity the code
    names. *)
Theorem C50_rw_writers_partial : forall sched, let h := snd (crun rw_step rw_init sched) in well_nested h -> rlocks h < rw_max ->
  (forall h1 h2 t u, h = h1 ++ h2 -> writing h1 t = true -> writing h1 u = true -> t = u) /\
  (forall t, ~ In (Ret t WUnlock LPanic) h /\ ~ In (Ret t RUnlock LPanic) h).
Proof. exact rw_writers. Qed.
Print Assumptions C50_rw_writers_partial.
Theorem C50_rw_late_reader_partial : forall sched tw tr h1 h2, snd (crun rw_step rw_init sched) = h1 ++ Inv tr RLock :: h2 ->
  well_nested (h1 ++ Inv tr RLock :: h2) -> rlocks (h1 ++ Inv tr RLock :: h2) < rw_max ->
  writing h1 tw = true -> ~ In (Inv tw WUnlock) h2 -> ~ In (Ret tr RLock LOk) h2.
Proof. exact rw_late. Qed.
Print Assumptions C50_rw_late_reader_partial.
(** C50 fails: a reader that has looked at the counter before a writer arrives gets
    in beside it; and after one reader has come and gone no Lock ever succeeds. *)
Theorem C50_rw_exclusion_refuted : exists sched, let h := snd (crun rw_step rw_init sched) in well_nested h /\ rlocks h = 1 /\
  writing h 0 = true /\ reading h 1 = true.
Proof. exact rw_race. Qed.
Print Assumptions C50_rw_exclusion_refuted.
Theorem C50_rw_release_refuted : exists l1, let h1 := snd (crun rw_step rw_init l1) in
  well_nested h1 /\ (forall t, running h1 t = false /\ reading h1 t = false /\ writing h1 t = false) /\
  forall l2, let h := snd (crun rw_step rw_init (l1 ++ l2)) in well_nested h -> rlocks h < rw_max ->
    forall t, ~ In (Ret t WLock LOk) h.
Proof. exact rw_no_release. Qed.
Print Assumptions C50_rw_release_refuted.
Example C50_ex :
  snd (crun rw_step rw_init [(1%nat, WLock); (1%nat, WLock); (1%nat, WLock); (1%nat, WLock); (2%nat, RLock); (2%nat, RLock); (2%nat, RLock);
     (1%nat, WUnlock); (1%nat, WUnlock); (1%nat, WUnlock); (1%nat, WUnlock); (2%nat, RLock); (2%nat, RLock); (2%nat, RLock); (2%nat, RLock)]) =
  [Inv 1%nat WLock; Ret 1%nat WLock LOk; Inv 2%nat RLock; Inv 1%nat WUnlock; Ret 1%nat WUnlock LOk; Ret 2%nat RLock LOk].
Proof. reflexivity. Qed.

(** C89: once readers alone have used the lock, at least one got in, and no call is
    running, no Lock ever succeeds, whatever happens later. *)
Theorem C89_readers_lock_out_writers : forall l1 l2 tr, let h1 := snd (crun rw_step rw_init l1) in
  let h := snd (crun rw_step rw_init (l1 ++ l2)) in
  well_nested h -> rlocks h < rw_max -> (forall t, ~ In (Inv t WLock) h1) -> (forall t, running h1 t = false) ->
  In (Ret tr RLock LOk) h1 -> forall t, ~ In (Ret t WLock LOk) h.
Proof. exact rw_stuck. Qed.
Print Assumptions C89_readers_lock_out_writers.
Example C89_ex : snd (crun rw_step rw_init (read_once ++ [(1%nat, WLock); (1%nat, WLock); (1%nat, WLock); (1%nat, WLock)])) =
    [Inv 0%nat RLock; Ret 0%nat RLock LOk; Inv 0%nat RUnlock; Ret 0%nat RUnlock LOk; Inv 1%nat WLock] /\
  rw_pcs (fst (crun rw_step rw_init (read_once ++ [(1%nat, WLock); (1%nat, WLock); (1%nat, WLock); (1%nat, WLock)]))) 1 = PWSpin 3.
Proof. split; reflexivity. Qed.

(** C90: no call spins forever: whatever the others do, a call returns or panics
    within a fixed number of its goroutine's own steps. *)
Theorem C90_spin_bounded : forall l1 l2 t, running (snd (crun sl_step sl_init l1)) t = true -> 16777219 <= mine t l2 ->
  exists o r, In (Ret t o r) (snd (crun sl_step (fst (crun sl_step sl_init l1)) l2)).
Proof. exact sl_ends. Qed.
Print Assumptions C90_spin_bounded.
Theorem C90_rw_bounded : forall l1 l2 t, running (snd (crun rw_step rw_init l1)) t = true -> 33554442 <= mine t l2 ->
  exists o r, In (Ret t o r) (snd (crun rw_step (fst (crun rw_step rw_init l1)) l2)).
Proof. exact rw_ends. Qed.
Print Assumptions C90_rw_bounded.
Example C90_ex : running (snd (crun sl_step sl_init [(1%nat, LLock); (1%nat, LLock); (2%nat, LLock)])) 2 = true /\
  snd (crun sl_step sl_init [(2%nat, LUnlock); (2%nat, LUnlock); (2%nat, LLock)]) = [Inv 2%nat LUnlock; Ret 2%nat LUnlock LPanic].
Proof. split; reflexivity. Qed.

(** C102: the locks are patient: Lock and RLock panic only after spin_max + 1 =
    16777217 attempts that failed, with the call, the last test of the counter and
    the return spin_max + 4 steps of the caller's own. *)
Theorem C102_spin_patient : forall l1 l2 t, running (snd (crun sl_step sl_init l1)) t = false ->
  In (Ret t LLock LPanic) (snd (crun sl_step (fst (crun sl_step sl_init l1)) l2)) -> 16777220 <= mine t l2.
Proof. exact sl_patient. Qed.
Print Assumptions C102_spin_patient.
Theorem C102_rw_patient : forall o l1 l2 t, o = WLock \/ o = RLock -> running (snd (crun rw_step rw_init l1)) t = false ->
  In (Ret t o LPanic) (snd (crun rw_step (fst (crun rw_step rw_init l1)) l2)) -> 16777220 <= mine t l2.
Proof. exact rw_patient. Qed.
Print Assumptions C102_rw_patient.
(** And they do give up: with the lock held by another goroutine that many steps
    end in a panic. *)
Theorem C102_gives_up : mine 2 sl_wait = 16777220 /\ running (snd (crun sl_step sl_init sl_held)) 2 = false /\
  snd (crun sl_step (fst (crun sl_step sl_init sl_held)) sl_wait) = [Inv 2%nat LLock; Ret 2%nat LLock LPanic].
Proof. exact sl_gives_up. Qed.
Print Assumptions C102_gives_up.
Example C102_ex : snd (crun sl_step (fst (crun sl_step sl_init sl_held)) (firstn 20 sl_held ++ repeat (2%nat, LLock) 50)) = [Inv 1%nat LLock; Inv 2%nat LLock].
Proof. vm_compute. reflexivity. Qed.

(** C108: what an RWSpinLock does as long as no two calls overlap, for right and
    wrong use by any goroutines: the history is that of [rw_call], call by call. *)
Theorem C108_rw_sequential : forall sched, let h := snd (crun rw_step rw_init sched) in one_by_one h ->
  exists l, h = rw_calls (false, 0) l \/ exists t op, h = rw_calls (false, 0) l ++ [Inv t op].
Proof. exact rw_one_by_one. Qed.
Print Assumptions C108_rw_sequential.
Example C108_ex : rw_calls (false, 0) [(1%nat, WLock); (2%nat, RLock); (2%nat, RUnlock); (1%nat, WUnlock)] =
    [Inv 1%nat WLock; Ret 1%nat WLock LOk; Inv 2%nat RLock; Ret 2%nat RLock LPanic; Inv 2%nat RUnlock; Ret 2%nat RUnlock LPanic;
     Inv 1%nat WUnlock; Ret 1%nat WUnlock LOk] /\
  rw_calls (false, 0) [(1%nat, RUnlock); (2%nat, RLock)] = [Inv 1%nat RUnlock; Ret 1%nat RUnlock LPanic; Inv 2%nat RLock; Ret 2%nat RLock LPanic].
Proof. vm_compute. auto. Qed.
(** C108: an Unlock too many panics, but the lock is not what it was: a reader and
    then a writer get in. *)
Theorem C108_misuse_damages : exists sched, snd (crun rw_step rw_init sched) =
  [Inv 1%nat WUnlock; Ret 1%nat WUnlock LPanic; Inv 2%nat RLock; Ret 2%nat RLock LOk; Inv 1%nat WLock; Ret 1%nat WLock LOk].
Proof. exact (ex_intro _ misuse_sched misuse_damage). Qed.
Print Assumptions C108_misuse_damages.
