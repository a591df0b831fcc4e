(** First-in-first-out behaviour, independent of the ring buffer. *)
From Coq Require Import ZArith List Bool.
From Verif Require Import GoBase QueueModel.
Import ListNotations.
Open Scope Z_scope.

Inductive qop := QInit (n : Z) | QClear | QPush (v : Z) | QPop | QFront | QBack | QSize | QEmpty.
Inductive qobs := QUnit | QVal (o : option Z) | QInt (n : Z) | QBool (b : bool).

Definition last_error (l : list Z) : option Z := hd_error (rev l).

(** The queue a user expects: a list, oldest value first. *)
Definition fifo_step (l : list Z) (op : qop) : list Z * qobs :=
  match op with
  | QInit _ | QClear => ([], QUnit)
  | QPush v => (l ++ [v], QUnit)
  | QPop => match l with x :: t => (t, QVal (Some x)) | [] => ([], QVal None) end
  | QFront => (l, QVal (hd_error l))
  | QBack => (l, QVal (last_error l))
  | QSize => (l, QInt (zlen l))
  | QEmpty => (l, QBool (match l with [] => true | _ => false end))
  end.

(** Calling the modelled IntQueue through its public methods. *)
Definition queue_step (q : queue) (op : qop) : outcome (queue * qobs) :=
  match op with
  | QInit n => Ok (queue_init q n, QUnit)
  | QClear => Ok (queue_clear q, QUnit)
  | QPush v => q' <- queue_push q v ;; Ok (q', QUnit)
  | QPop => ' (q', o) <- queue_pop q ;; Ok (q', QVal o)
  | QFront => o <- queue_front q ;; Ok (q, QVal o)
  | QBack => o <- queue_back q ;; Ok (q, QVal o)
  | QSize => Ok (q, QInt (queue_size q))
  | QEmpty => Ok (q, QBool (queue_empty q))
  end.

(** What the code really does, described without the buffer: the queued values,
    the current capacity, and the number of successful Pops since the last Init,
    Clear or growth, modulo the capacity.  A Push that fills the last free slot
    doubles the capacity if that number is 0 and otherwise FORGETS ALL VALUES. *)
Record aqueue := AQueue { aq_items : list Z; aq_cap : Z; aq_off : Z }.

Definition ring_step (a : aqueue) (op : qop) : aqueue * qobs :=
  let '(AQueue items cap off) := a in
  match op with
  | QInit n => (AQueue [] (if cap =? 0 then (if n <=? 0 then 8 else n) else cap) 0, QUnit)
  | QClear => (AQueue [] cap 0, QUnit)
  | QPush v =>
      let cap := if cap =? 0 then 8 else cap in
      if zlen items + 1 <? cap then (AQueue (items ++ [v]) cap off, QUnit)
      else if off =? 0 then (AQueue (items ++ [v]) (2 * cap) 0, QUnit)
      else (AQueue [] cap off, QUnit)
  | QPop => match items with
            | x :: t => (AQueue t cap ((off + 1) mod cap), QVal (Some x))
            | [] => (a, QVal None)
            end
  | QFront => (a, QVal (hd_error items))
  | QBack => (a, QVal (last_error items))
  | QSize => (a, QInt (zlen items))
  | QEmpty => (a, QBool (match items with [] => true | _ => false end))
  end.

(** A history in which no Push fills the last slot of a ring whose reading
    position has moved. *)
Fixpoint no_overflow (a : aqueue) (ops : list qop) : Prop :=
  match ops with
  | [] => True
  | op :: rest =>
      match op with
      | QPush _ => zlen (aq_items a) + 1 < (if aq_cap a =? 0 then 8 else aq_cap a) \/ aq_off a = 0
      | _ => True
      end /\ no_overflow (fst (ring_step a op)) rest
  end.

(** Calls that only take values out or look at them. *)
Definition is_read (op : qop) : bool :=
  match op with QPop | QFront | QBack | QSize | QEmpty => true | _ => false end.

(** The documented condition under which Shrink replaces the buffer, in terms of
    Cap() and Size(). *)
Definition shrinks (q : queue) : bool :=
  (8 <? queue_cap q) && (3 * queue_size q <=? queue_cap q).
