(** What the lock-free queue promises. *)
From Coq Require Import ZArith List Bool.
From Verif Require Import ConcBase SListModel LFQModel.
Import ListNotations.
Open Scope Z_scope.

(** The sequential object: a sequence, pushed to and popped from at the front.
    Of Size nothing is said here. *)
Definition lq_spec (a : list Z) (op : lq_op) (r : lq_res) (b : list Z) : Prop :=
  match op with
  | QPush v => r = RBool true /\ b = v :: a
  | QPop => match a with [] => r = RVal 0 false /\ b = [] | v :: t => r = RVal v true /\ b = t end
  | QClear => r = RUnit /\ b = []
  | QSize => b = a
  | QEmpty => b = a /\ r = RBool (match a with [] => true | _ => false end)
  end.

(** A counter of pushes minus pops, failed pops included, shown as an int32. *)
Definition lq_count_spec (c : Z) (op : lq_op) (r : lq_res) (c' : Z) : Prop :=
  match op with
  | QPush _ => c' = c + 1
  | QPop => c' = c - 1
  | QSize => c' = c /\ r = RInt ((c + 2 ^ 31) mod 2 ^ 32 - 2 ^ 31)
  | _ => c' = c
  end.

(** Returned calls in a history. *)
Definition count_rets (f : lq_op -> lq_res -> bool) (h : list (ext lq_op lq_res)) : nat :=
  length (filter (fun e => match e with Ret _ op r => f op r | _ => false end) h).
Definition pushed (z : Z) (op : lq_op) (r : lq_res) : bool := match op with QPush v => v =? z | _ => false end.
Definition popped (z : Z) (op : lq_op) (r : lq_res) : bool :=
  match op, r with QPop, RVal v true => v =? z | _, _ => false end.
Definition is_push (op : lq_op) (r : lq_res) : bool := match op with QPush _ => true | _ => false end.
Definition is_pop (op : lq_op) (r : lq_res) : bool := match op with QPop => true | _ => false end.
Definition pop_failed (op : lq_op) (r : lq_res) : bool := match op, r with QPop, RVal _ false => true | _, _ => false end.
(** Schedules without Clear. *)
Definition no_clear (sched : list (nat * lq_op)) : Prop := Forall (fun e => snd e <> QClear) sched.
(** No call is running. *)
Definition quiescent (s : lq_state) : Prop := forall t, lq_pcs s t = PcIdle.

(** The values reachable from a pointer. *)
Inductive stored (h : nat -> snode) : option nat -> list Z -> Prop :=
| st_nil : stored h None []
| st_cons x l : stored h (snext (h x)) l -> stored h (Some x) (sval (h x) :: l).
