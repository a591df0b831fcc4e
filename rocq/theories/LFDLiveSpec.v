(** Vocabulary for the concurrent use of the lock-free deque by any number of goroutines. *)
From Coq Require Import ZArith List Bool.
From Verif Require Import GoBase ConcBase LFDModel.
Import ListNotations.
Local Open Scope nat_scope.

(** No goroutine is in a call. *)
Definition quiet (s : cd_state) : Prop := forall t, cd_pcs s t = DIdle.
(** What Size would return. *)
Definition size_now (s : cd_state) : Z := fd_size (fd_d (cd_q s)) (fd_ht (cd_q s)).
(** How often a push that found the deque full counted that (stl/gp/lfdeque.gp.go:119-123) during [sched]. *)
Fixpoint waits (s : cd_state) (sched : list (nat * cd_op)) : nat :=
  match sched with
  | [] => 0
  | (t, op) :: rest => (match cd_pcs s t with DPushFull _ => 1 | _ => 0 end) + waits (fst (cd_step s t op)) rest
  end.
