(** Properties of package errors under concurrent use, access by access. *)
From Coq Require Import String.
From Coq Require Import ZArith List Bool.
From Verif Require Import GoBase GoLists GoStrings ConcBase RaceSpec RegModel RegSpec ErrConcModel ErrConcSpec ErrFineModel.
From Verif Require Import ErrFineRace ErrFineProofs ErrFineHonest ErrFineLive.
Import ListNotations.
Open Scope Z_scope.

(** C183 (partial): concurrent calls of package errors have no data race.  Proved for Reg, Get, String and Error, whatever capacity append
    gives new arrays.  Missing: ShowAll, with which it is false; all races are then on g_id_cur_max. *)
Theorem C183_errors_race_free_partial : forall grow sched, (forall t, ~ In (t, EShowAll) sched) ->
  race_free (trace_of (ef_step grow) ef_accs ef_init sched).
Proof. exact errors_race_free. Qed.
Print Assumptions C183_errors_race_free_partial.
Theorem C183_errors_race_free_refuted : forall grow, exists sched i j, race (trace_of (ef_step grow) ef_accs ef_init sched) i j.
Proof. exact show_races. Qed.
Print Assumptions C183_errors_race_free_refuted.
Theorem C183_errors_races : forall grow sched i j, race (trace_of (ef_step grow) ef_accs ef_init sched) i j ->
  exists u a, nth_error (trace_of (ef_step grow) ef_accs ef_init sched) i = Some (u, a) /\ loc_of a = ECur.
Proof. exact errors_races. Qed.
Print Assumptions C183_errors_races.
(** The accesses are those of the steps. *)
Theorem C183_errors_accesses : forall grow, honest (ef_step grow) ef_accs ef_at ef_pcs ef_env.
Proof. exact ef_honest. Qed.
Print Assumptions C183_errors_accesses.
(** A lookup, then a registration for which append needs a new array. *)
Example C183_ex :
  trace_of (ef_step (fun n => (2 * n)%nat)) ef_accs ef_init
    (repeat (1%nat, EGet 1001) 5 ++ [(0%nat, EReg [97])] ++ repeat (0%nat, EReg [98]) 6) =
  [(1%nat, ALoad EMu); (1%nat, PRead ECur); (1%nat, PRead ESlice); (1%nat, PRead (EElt 0 0)); (1%nat, AStore (ERd 1));
   (0%nat, ALoad EMu); (0%nat, ALoad (ERd 1)); (0%nat, PRead ECur);
   (0%nat, PRead ESlice); (0%nat, PRead (EElt 0 0)); (0%nat, PWrite (EElt 1 0)); (0%nat, PWrite (EElt 1 1)); (0%nat, PWrite ESlice);
   (0%nat, PRead ECur); (0%nat, PWrite ECur); (0%nat, PRead ECur); (0%nat, AStore EMu)].
Proof. vm_compute. reflexivity. Qed.

(** C184: with the critical sections taken apart, concurrent calls of Reg, Get, String and Error still behave as if they were made one
    after the other; no call panics; whatever happened so far, every call in progress can still return; and the calls and
    returns of any execution, with ShowAll too, are those of an execution in which each critical section is one step. *)
Theorem C184_fine_linearizable : forall grow sched, Forall (fun e => er_ok (snd e) /\ snd e <> EShowAll) sched ->
  linearizable er_seq [] (snd (crun (ef_step grow) ef_init sched)).
Proof. exact fine_lin. Qed.
Print Assumptions C184_fine_linearizable.
Theorem C184_fine_no_panic : forall grow sched t, sched_ok sched -> ef_pcs (fst (crun (ef_step grow) ef_init sched)) t <> FDead.
Proof. exact fine_no_panic. Qed.
Print Assumptions C184_fine_no_panic.
Theorem C184_fine_no_deadlock : forall grow sched t, sched_ok sched -> ef_pcs (fst (crun (ef_step grow) ef_init sched)) t <> FIdle ->
  exists more o r, sched_ok more /\ In (Ret t o r) (snd (crun (ef_step grow) (fst (crun (ef_step grow) ef_init sched)) more)).
Proof. exact fine_no_deadlock. Qed.
Print Assumptions C184_fine_no_deadlock.
Theorem C184_fine_refines : forall grow sched, exists sched', incl sched' sched /\
  snd (crun (ef_step grow) ef_init sched) = snd (crun ec_step ec_init sched').
Proof. exact fine_refines. Qed.
Print Assumptions C184_fine_refines.
(** Goroutine 1 waits for the lock while 0 registers a name; 2 looks it up afterwards. *)
Example C184_ex : snd (crun (ef_step (fun n => n)) ef_init
  ([(0%nat, EReg [97]); (0%nat, EReg [97]); (1%nat, EReg [98]); (1%nat, EReg [98]); (2%nat, EGet 1002); (2%nat, EGet 1002)] ++
   repeat (0%nat, EReg [97]) 6 ++ repeat (1%nat, EReg [97]) 7 ++ repeat (2%nat, EReg []) 5)) =
  [Inv 0%nat (EReg [97]); Inv 1%nat (EReg [98]); Inv 2%nat (EGet 1002); Ret 0%nat (EReg [97]) (EId 1002 true);
   Ret 1%nat (EReg [98]) (EId 1003 true); Ret 2%nat (EGet 1002) (EName [97] true)].
Proof. vm_compute. reflexivity. Qed.
