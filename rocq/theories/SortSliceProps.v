(** Properties C12, C59 of IntSortSlice, for any element type. *)
From Coq Require Import ZArith List Bool.
From Verif Require Import GoBase GoLists SortSliceModel SortSliceSpec SortSliceProofs.
Import ListNotations.
Open Scope Z_scope.

(** C59: for every slice, every capacity and growth policy and every history, the
    calls panic exactly when [real_step] says so and otherwise return what it
    says and leave the list it says. *)
Theorem C59_sort_slice_exact : forall (A : Type) (zero : A) (grow : nat -> nat) s ops,
  gs_ok s -> sim_out RS (run_ops (ss_step zero grow) s ops) (run_ops real_step (visible s) ops).
Proof. exact @ss_history. Qed.
Print Assumptions C59_sort_slice_exact.

(** A new slice is empty and behaves from then on like the empty list; a negative capacity panics. *)
Theorem C59_sort_slice_created : forall (A : Type) (zero : A) (grow : nat -> nat) capacity ops,
  (0 <= capacity -> exists s, ss_init zero capacity = Ok s /\ visible s = [] /\
     sim_out RS (run_ops (ss_step zero grow) s ops) (run_ops real_step [] ops)) /\
  (capacity < 0 -> ss_init zero capacity = Panic).
Proof. exact @ss_created. Qed.
Print Assumptions C59_sort_slice_created.

Example C59_ex :
  run_ops (ss_step 0 (fun n => n)) (GSlice [7; 8; 9; 0] 3) [SInsert 5 1; SRemove 0; SPush 6; SPush 4; SPop; SGet 2; SGet 3]
  = Ok (GSlice [5; 9; 6; 4] 3, [SInt 3; SVal (Some 7); SInt 3; SInt 4; SVal (Some 4); SVal (Some 6); SVal None]).
Proof. vm_compute. reflexivity. Qed.
Example C59_created_ex :
  (s <- ss_init 0 2 ;; run_ops (ss_step 0 (fun n => n)) s [SLen; SPush 5; SInsert 6 7; SPush 4; SGet 1; SPop; SLen])
  = Ok (GSlice [5; 6; 4; 0; 0; 0] 2, [SInt 0; SInt 1; SInt 2; SInt 3; SVal (Some 6); SVal (Some 4); SInt 2]).
Proof. vm_compute. reflexivity. Qed.

(** C12 (part): histories that never Insert inside the range and never Pop an
    empty slice edit the list as documented.  Missing: Insert inside the range
    and Pop on an empty slice, where the claim is false
    ([C12_insert_refuted], [C12_pop_empty_refuted]). *)
Theorem C12_sort_slice_partial : forall (A : Type) (zero : A) (grow : nat -> nat) s ops,
  gs_ok s -> all_honoured (visible s) ops ->
  sim_out RS (run_ops (ss_step zero grow) s ops) (run_ops edit_step (visible s) ops).
Proof. exact @ss_edit_partial. Qed.
Print Assumptions C12_sort_slice_partial.

Example C12_ex :
  let ops := [SInsert 5 9; SRemove 1; SPush 6; SPop; SMustGet 1; SSwap 0 2; SRemove (-1); SLen] in
  all_honoured [7; 8; 9] ops /\
  run_ops edit_step [7; 8; 9] ops
  = Ok ([5; 9; 7], [SInt 4; SVal (Some 8); SInt 4; SVal (Some 6); SMust 9; SUnit; SVal None; SInt 3]).
Proof. vm_compute. repeat split. Qed.

(** Insert inside the range never does what is documented: it always leaves the
    length unchanged. *)
Theorem C12_insert_refuted : exists (s : gslice Z) v idx,
  gs_ok s /\ in_range (visible s) idx = true /\
  exists s', ss_insert 0 (fun n => n) s v idx = Ok (s', 3) /\
    visible s' = [7; 5; 9] /\ visible s = [7; 8; 9].
Proof.
  exists (GSlice [7; 8; 9] 3), 5, 1. split; [unfold gs_ok; cbn; auto|]. split; [reflexivity|].
  eexists. split; vm_compute; [reflexivity|]. split; reflexivity.
Qed.
Print Assumptions C12_insert_refuted.

Theorem C12_pop_empty_refuted : exists s : gslice Z, gs_ok s /\ visible s = [] /\ ss_pop s = Panic.
Proof. exists (GSlice [0; 0] 0). split; [unfold gs_ok; cbn; auto|]. split; reflexivity. Qed.
Print Assumptions C12_pop_empty_refuted.
