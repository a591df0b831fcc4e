(** Properties of package regable under concurrent use, access by access. *)
From Coq Require Import String.
From Coq Require Import ZArith List Bool.
From Verif Require Import RegFineRace RegFineProofs RegFineHonest RegFineLive RegFineWit.
From Verif Require Import GoBase GoLists GoStrings ConcBase RaceSpec RegModel RegSpec RegObjModel RegObjSpec RegFineModel RegFineSpec.
Import ListNotations.
Open Scope Z_scope.

(** C187 (partial): concurrent calls of package regable have no data race.  Proved for all calls that leave the registry itself alone (every
    method of ids and objects, and the texts).  Missing: registering, with which it is false. *)
Theorem C187_regable_race_free_partial : forall r sched, rf_sched_ok sched -> race_free (trace_of rf_step rf_accs (rf_init r) sched).
Proof. exact reg_race_free. Qed.
Print Assumptions C187_regable_race_free_partial.
Theorem C187_regable_race_free_refuted : exists sched i j, race (trace_of rf_step rf_accs (rf_init (state_of one_reger)) sched) i j.
Proof. exact reg_races. Qed.
Print Assumptions C187_regable_race_free_refuted.
(** The accesses are those of the steps. *)
Theorem C187_regable_accesses : honest rf_step rf_accs rf_at rf_pcs rf_lk.
Proof. exact rf_honest. Qed.
Print Assumptions C187_regable_accesses.
(** Set by one goroutine, then Get by another. *)
Example C187_ex :
  trace_of rf_step rf_accs (rf_init (state_of two_cells)) (repeat (0%nat, RBase (GSet 16777217 7)) 9 ++ repeat (1%nat, RBase (GGet 16777217)) 9) =
  let p := (0%nat, 0%nat) in
  [(0%nat, PRead XGens); (0%nat, PRead XRegers); (0%nat, PRead (XSlot 0)); (0%nat, PRead (XGen 0)); (0%nat, PRead (XList 0)); (0%nat, PRead (XElem p));
   (0%nat, ALoad (XMu p)); (0%nat, PRead (XElem p)); (0%nat, PWrite (XVal p)); (0%nat, AStore (XMu p));
   (1%nat, PRead XGens); (1%nat, PRead XRegers); (1%nat, PRead (XSlot 0)); (1%nat, PRead (XGen 0)); (1%nat, PRead (XList 0)); (1%nat, PRead (XElem p));
   (1%nat, ALoad (XMu p)); (1%nat, PRead (XVal p)); (1%nat, AStore (XRd p 1))].
Proof. vm_compute. reflexivity. Qed.

(** C188 (partial): concurrent calls of package regable behave as if they were made one after the other.  Proved, after any calls made by one
    goroutine, for all calls that leave the registry itself alone; but a text of whole regers may show values of different moments (see C190).
    Missing: that texts are snapshots, and registering; with either it is false. *)
Theorem C188_regable_linearizable_partial : forall ops s os, Forall ro_ok ops -> ro_count_new ops <= 255 -> ro_count_reg ops < 2 ^ 24 ->
  run_ops ro_step regs_init ops = Ok (s, os) ->
  exists a, run_ops ro_spec (ARegs false []) ops = Ok (a, os) /\
    forall sched, rf_sched_ok sched -> linearizable rf_seq a (snd (crun rf_step (rf_init s) sched)).
Proof. exact lin_all. Qed.
Print Assumptions C188_regable_linearizable_partial.
Theorem C188_regable_texts_refuted : exists ops s os a sched,
  run_ops ro_step regs_init ops = Ok (s, os) /\ run_ops ro_spec (ARegs false []) ops = Ok (a, os) /\ rf_sched_ok sched /\
  ~ linearizable rf_strict a (snd (crun rf_step (rf_init s) sched)).
Proof. exact text_refuted. Qed.
Print Assumptions C188_regable_texts_refuted.
Theorem C188_regable_registering_refuted : exists ops s os a sched,
  run_ops ro_step regs_init ops = Ok (s, os) /\ run_ops ro_spec (ARegs false []) ops = Ok (a, os) /\ Forall (fun e => ro_ok (snd e)) sched /\
  ~ linearizable rf_strict a (snd (crun rf_step (rf_init s) sched)).
Proof. exact reg_refuted. Qed.
Print Assumptions C188_regable_registering_refuted.
(** Goroutine 1 reads by object while 0 sets by id; and two goroutines that register get the same id. *)
Example C188_ex :
  snd (crun rf_step (rf_init (state_of two_cells))
    (repeat (0%nat, RBase (GSet 16777217 7)) 6 ++ repeat (1%nat, OGet (Some (0%nat, 0%nat))) 6 ++ repeat (0%nat, RBase (GIds 0)) 3 ++ repeat (1%nat, GShowRegers) 4)) =
  [Inv 0%nat (RBase (GSet 16777217 7)); Inv 1%nat (OGet (Some (0%nat, 0%nat))); Ret 0%nat (RBase (GSet 16777217 7)) (RRes (GVal 7 true));
   Ret 1%nat (OGet (Some (0%nat, 0%nat))) (RRes (GVal 7 true))] /\
  snd (crun rf_step (rf_init (state_of one_reger)) reg_bad) =
  [Inv 0%nat (RBase (GReg 0 [97] 5)); Inv 1%nat (RBase (GReg 0 [98] 6)); Ret 0%nat (RBase (GReg 0 [97] 5)) (RRes (GId 16777217));
   Ret 1%nat (RBase (GReg 0 [98] 6)) (RRes (GId 16777217)); Inv 1%nat (RBase (GGet 16777217)); Ret 1%nat (RBase (GGet 16777217)) (RRes (GVal 5 true))].
Proof. vm_compute. split; reflexivity. Qed.

(** C189: whatever happened so far, every call in progress can still return, or it is a call that panics when made alone too. *)
Theorem C189_regable_no_deadlock : forall ops s os, Forall ro_ok ops -> ro_count_new ops <= 255 -> ro_count_reg ops < 2 ^ 24 ->
  run_ops ro_step regs_init ops = Ok (s, os) ->
  exists a, run_ops ro_spec (ARegs false []) ops = Ok (a, os) /\
  forall sched t, Forall (fun e => rf_safe (snd e) /\ obj_in a (snd e)) sched -> rf_pcs (fst (crun rf_step (rf_init s) sched)) t <> QIdle ->
  exists more, Forall (fun e => rf_safe (snd e) /\ obj_in a (snd e)) more /\
    ((exists o r, In (Ret t o r) (snd (crun rf_step (fst (crun rf_step (rf_init s) sched)) more))) \/
     (exists op, In (Inv t op) (snd (crun rf_step (rf_init s) (sched ++ more))) /\ forall b, same_names a b -> ro_spec b op = Panic)).
Proof. exact live_all. Qed.
Print Assumptions C189_regable_no_deadlock.
(** Goroutine 1 waits while 0 holds the lock; and an id of nothing panics. *)
Example C189_ex :
  let s := fst (crun rf_step (rf_init (state_of two_cells)) (repeat (0%nat, OSet (Some (0%nat, 1%nat)) 3) 2 ++ repeat (1%nat, OGet (Some (0%nat, 1%nat))) 4)) in
  rf_pcs s 1%nat = QRLock (OGet (Some (0%nat, 1%nat))) (0%nat, 1%nat) /\ lk_w (rf_lk s (0%nat, 1%nat)) = Some 0%nat /\
  snd (crun rf_step s (repeat (0%nat, RBase (GIds 0)) 3 ++ repeat (1%nat, RBase (GIds 0)) 4)) =
    [Ret 0%nat (OSet (Some (0%nat, 1%nat)) 3) (RRes (GVal 3 true)); Ret 1%nat (OGet (Some (0%nat, 1%nat))) (RRes (GVal 3 true))] /\
  rf_pcs (fst (crun rf_step s (repeat (2%nat, RBase (GGet 16777219)) 9))) 2%nat = QDead.
Proof. vm_compute. repeat split; reflexivity. Qed.

(** C190: a text made while other goroutines set values has the form of a text, and every value it shows was in its cell at some moment of
    the call. *)
Theorem C190_regable_text_values : forall ops s os, Forall ro_ok ops -> ro_count_new ops <= 255 -> ro_count_reg ops < 2 ^ 24 ->
  run_ops ro_step regs_init ops = Ok (s, os) ->
  exists a, run_ops ro_spec (ARegs false []) ops = Ok (a, os) /\
  forall s1 t op s2 op' o r, rf_sched_ok (s1 ++ (t, op) :: s2) ->
  snd (rf_step (fst (crun rf_step (rf_init s) s1)) t op) = [Inv t op] ->
  snd (rf_step (fst (crun rf_step (rf_init s) (s1 ++ (t, op) :: s2))) t op') = [Ret t o r] -> is_text o = true ->
  exists b, same_names a b /\ ro_spec b o = Ok (b, r) /\ forall p c, ocell (as_list b) p = Some c ->
    exists s2a s2b rc, s2 = s2a ++ s2b /\ rec_at (rf_regs (fst (crun rf_step (rf_init s) (s1 ++ (t, op) :: s2a)))) p = Ok rc /\ rc_val rc = snd c.
Proof. exact text_all. Qed.
Print Assumptions C190_regable_text_values.
(** Old "x", new "y": a state that never was. *)
Example C190_ex : exists h, snd (crun rf_step (rf_init (state_of two_cells)) text_bad) =
  h ++ [Ret 1%nat (GString 0) (RText (bytes_of "[Uint32Reger#1: r] ids:RangeUint32{val:3 min:0 max:1024}" ++ [10] ++ bytes_of "#1 [x]: 0" ++ [10] ++ bytes_of "#2 [y]: 1"))].
Proof.
  exists [Inv 1%nat (GString 0); Inv 0%nat (OSet (Some (0%nat, 0%nat)) 1); Ret 0%nat (OSet (Some (0%nat, 0%nat)) 1) (RRes (GVal 1 true));
    Inv 0%nat (OSet (Some (0%nat, 1%nat)) 1); Ret 0%nat (OSet (Some (0%nat, 1%nat)) 1) (RRes (GVal 1 true))].
  vm_compute. reflexivity.
Qed.
