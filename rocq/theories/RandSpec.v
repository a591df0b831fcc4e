(** Linear congruential sequences, independent of the code. *)
From Coq Require Import ZArith List Bool.
From Verif Require Import GoBase ConcBase RandModel.
Import ListNotations.
Open Scope Z_scope.

(** [k] steps of x -> a x + c modulo 2^w. *)
Fixpoint lcg (w a c : Z) (k : nat) (x : Z) : Z :=
  match k with
  | O => x
  | S k => (a * lcg w a c k x + c) mod 2 ^ w
  end.

(** The generator as a sequential object. *)
Definition rnd_spec (w a c : Z) (s : Z) (op : rnd_op) (r : Z) (s' : Z) : Prop :=
  match op with
  | ORand => s' = (a * s + c) mod 2 ^ w /\ r = s'
  | OSrand x => r = s /\ s' = x
  | OSeed => r = s /\ s' = s
  end.

(** Only Rand is called. *)
Definition only_rand (sched : list (nat * rnd_op)) : Prop := Forall (fun e => snd e = ORand) sched.
