(** Vocabulary for the progress of concurrent calls. *)
From Coq Require Import List Arith.
From Verif Require Import ConcBase.
Import ListNotations.
Local Open Scope nat_scope.

(** Only the goroutines 0..P-1 act. *)
Definition members {X} (P : nat) (sched : list (nat * X)) : Prop := Forall (fun e => fst e < P) sched.
(** How often a goroutine acts; how often it calls; how often it returns. *)
Definition steps_of {X} (t : nat) (sched : list (nat * X)) : nat := length (filter (fun e => fst e =? t) sched).
Definition invs_of {Op Res} (t : nat) (h : list (ext Op Res)) : nat := length (filter (fun e => fst e =? t) (invs h)).
Definition rets_of {Op Res} (t : nat) (h : list (ext Op Res)) : nat := length (filter (fun e => fst (fst e) =? t) (rets h)).
