(** Executions of the deque without Init. *)
From Coq Require Import ZArith List.
From Verif Require Import LFDModel.
Import ListNotations.
Open Scope nat_scope.

(** Goroutine 1 finds no buffer; then goroutine 0 makes one and pushes 1, alone; then goroutine 1 goes on alone with its Init and pushes 2; then
    goroutine 2 pops twice. *)
Definition two_first : list (nat * cd_op) :=
  [(1, DPush 2%Z); (0, DPush 1%Z); (0, DSize); (0, DSize); (0, DSize); (0, DSize); (0, DSize); (0, DSize); (0, DSize); (0, DSize);
   (1, DSize); (1, DSize); (1, DSize); (1, DSize); (1, DSize); (1, DSize); (1, DSize);
   (2, DPop); (2, DPop); (2, DPop); (2, DPop); (2, DPop); (2, DPop); (2, DPop); (2, DPop)].
(** Goroutine 0 makes the buffer while goroutine 1 looks for it. *)
Definition two_look : list (nat * cd_op) := [(0, DPush 1%Z); (0, DSize); (0, DSize); (1, DPush 2%Z)].
