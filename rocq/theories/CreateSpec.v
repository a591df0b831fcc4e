(** Terms for the properties of fs.Create. *)
From Coq Require Import ZArith List Bool Arith.
From Verif Require Import GoBase CreateModel.
Import ListNotations.
Local Open Scope nat_scope.

(** A process that has opened [used] files, of which it still uses some. *)
Definition sound (limit : nat) (st : cst) : Prop := cs_leaked st <= cs_used st /\ cs_used st <= limit.
(** Nothing is collected. *)
Definition never (t : nat) : nat := 0.
(** Everything that is not referred to any more is closed at once. *)
Definition always (t : nat) : nat := 1.
(** There is something at the path. *)
Definition exists_ (st : cst) : Prop := cs_entry st <> None.
(** The path can be opened for reading. *)
Definition can_open (limit : nat) (readable : bool) (gc : nat -> nat) (st : cst) : bool :=
  match cs_entry st with
  | None => false
  | Some _ => readable && (cs_used st - Nat.min (gc (cs_time st)) (cs_leaked st) <? limit)%nat
  end.
