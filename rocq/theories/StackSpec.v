(** Last-in-first-out behaviour, independent of the stack model. *)
From Coq Require Import ZArith List Bool.
From Verif Require Import GoBase StackModel.
Import ListNotations.
Open Scope Z_scope.

Inductive sop := SInit (n : Z) | SClear | SPush (v : Z) | SPop | STop | SSize | SEmpty.
Inductive sobs := SUnit | SVal (o : option Z) | SInt (n : Z) | SBool (b : bool).

(** An abstract stack: newest value first. *)
Definition lifo_step (l : list Z) (op : sop) : list Z * sobs :=
  match op with
  | SInit _ | SClear => ([], SUnit)
  | SPush v => (v :: l, SBool true)
  | SPop => match l with x :: t => (t, SVal (Some x)) | [] => ([], SVal None) end
  | STop => (l, SVal (hd_error l))
  | SSize => (l, SInt (zlen l))
  | SEmpty => (l, SBool (match l with [] => true | _ => false end))
  end.

(** Calling the modelled IntStack through its public methods. *)
Definition stack_step (d : stack) (op : sop) : outcome (stack * sobs) :=
  match op with
  | SInit n => Ok (stack_init d n, SUnit)
  | SClear => Ok (stack_clear d, SUnit)
  | SPush v => let (d', b) := stack_push d v in Ok (d', SBool b)
  | SPop => ' (d', o) <- stack_pop d ;; Ok (d', SVal o)
  | STop => o <- stack_top d ;; Ok (d, SVal o)
  | SSize => Ok (d, SInt (stack_size d))
  | SEmpty => Ok (d, SBool (stack_empty d))
  end.
