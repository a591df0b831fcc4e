(** Property C07: stl/stack.gp_int.go is a LIFO stack. *)
From Coq Require Import ZArith List Bool.
From Verif Require Import GoBase StackModel StackSpec StackProofs.
Import ListNotations.
Open Scope Z_scope.

(** C07: for every history of public calls, from every state, each call returns
    what the abstract last-in-first-out list returns and none panics. *)
Theorem C07_stack_lifo : forall (ops : list sop) (d : stack),
  exists d', run_ops stack_step d ops = Ok (d', snd (spec_ops lifo_step (rev d) ops)) /\
             rev d' = fst (spec_ops lifo_step (rev d) ops).
Proof. exact stack_history. Qed.
Print Assumptions C07_stack_lifo.

Example C07_ex :
  run_ops stack_step [] [SPop; SPush 1; SPush 2; STop; SPush 3; SPop; SPop; SSize; SClear; SEmpty]
  = Ok ([], [SVal None; SBool true; SBool true; SVal (Some 2); SBool true; SVal (Some 3);
             SVal (Some 2); SInt 1; SUnit; SBool true]).
Proof. vm_compute. reflexivity. Qed.
