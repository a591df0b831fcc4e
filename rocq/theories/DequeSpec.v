(** Double-ended queue behaviour, independent of the ring buffer. *)
From Coq Require Import ZArith List Bool.
From Verif Require Import GoBase DequeModel.
Import ListNotations.
Open Scope Z_scope.

Inductive dop := DInit (n : Z) | DClear | DPushFront (v : Z) | DPushBack (v : Z)
  | DPopFront | DPopBack | DFront | DBack | DSize | DEmpty | DShrink.
Inductive dobs := DUnit | DVal (o : option Z) | DInt (n : Z) | DBool (b : bool).

Definition dlast_error (l : list Z) : option Z := hd_error (rev l).

(** The sequence a user expects.  Shrink is shown returning false, which is what
    it always does; it must not change the sequence. *)
Definition seq_step (l : list Z) (op : dop) : list Z * dobs :=
  match op with
  | DInit _ | DClear => ([], DUnit)
  | DPushFront v => (v :: l, DUnit)
  | DPushBack v => (l ++ [v], DUnit)
  | DPopFront => match l with x :: t => (t, DVal (Some x)) | [] => ([], DVal None) end
  | DPopBack => match rev l with x :: t => (rev t, DVal (Some x)) | [] => ([], DVal None) end
  | DFront => (l, DVal (hd_error l))
  | DBack => (l, DVal (dlast_error l))
  | DSize => (l, DInt (zlen l))
  | DEmpty => (l, DBool (match l with [] => true | _ => false end))
  | DShrink => (l, DBool false)
  end.

(** Calling the modelled IntDeque through its public methods. *)
Definition deque_step (q : deque) (op : dop) : outcome (deque * dobs) :=
  match op with
  | DInit n => Ok (deque_init q n, DUnit)
  | DClear => Ok (deque_clear q, DUnit)
  | DPushFront v => q' <- deque_push_front q v ;; Ok (q', DUnit)
  | DPushBack v => q' <- deque_push_back q v ;; Ok (q', DUnit)
  | DPopFront => ' (q', o) <- deque_pop_front q ;; Ok (q', DVal o)
  | DPopBack => ' (q', o) <- deque_pop_back q ;; Ok (q', DVal o)
  | DFront => o <- deque_front q ;; Ok (q, DVal o)
  | DBack => o <- deque_back q ;; Ok (q, DVal o)
  | DSize => Ok (q, DInt (deque_size q))
  | DEmpty => Ok (q, DBool (deque_empty q))
  | DShrink => ' (q', b) <- deque_shrink q ;; Ok (q', DBool b)
  end.

(** What the code really does when it moves a sequence of which the first [k]
    values lie before the end of the buffer and the rest at its start: the rest
    overwrites the beginning and as many zeros appear at the end. *)
Definition scramble (k : nat) (l : list Z) : list Z :=
  let a := firstn k l in
  let b := skipn k l in
  let t := Nat.min (length a) (length b) in
  firstn t b ++ skipn t a ++ repeat 0 t.

(** The exact abstract state: stored values, capacity, and position of the
    first value in the buffer. *)
Record adeque := ADeque { ad_items : list Z; ad_cap : Z; ad_off : Z }.

(** A sequence that has just been placed at position [off] of a ring of
    capacity [cap]: if it fills the ring, everything moves to a double one. *)
Definition settle (items : list Z) (cap off : Z) : adeque :=
  if zlen items <? cap then ADeque items cap off
  else ADeque (scramble (Z.to_nat (cap - off)) items) (2 * cap) 0.

Definition dring_step (a : adeque) (op : dop) : adeque * dobs :=
  let '(ADeque items cap off) := a in
  let cap1 := if cap =? 0 then 8 else cap in
  match op with
  | DInit n => (ADeque [] (if cap =? 0 then (if n <=? 0 then 8 else n) else cap) 0, DUnit)
  | DClear => (ADeque [] cap 0, DUnit)
  | DPushFront v => (settle (v :: items) cap1 ((off - 1) mod cap1), DUnit)
  | DPushBack v => (settle (items ++ [v]) cap1 off, DUnit)
  | DPopFront => match items with
                 | x :: t => (ADeque t cap ((off + 1) mod cap), DVal (Some x))
                 | [] => (a, DVal None)
                 end
  | DPopBack => match rev items with
                | x :: t => (ADeque (rev t) cap off, DVal (Some x))
                | [] => (a, DVal None)
                end
  | DFront => (a, DVal (hd_error items))
  | DBack => (a, DVal (dlast_error items))
  | DSize => (a, DInt (zlen items))
  | DEmpty => (a, DBool (match items with [] => true | _ => false end))
  | DShrink =>
      if (8 <? cap) && (3 * zlen items <=? cap)
      then (ADeque (scramble (Z.to_nat (cap - off)) items) (cap / 2) 0, DBool false)
      else (a, DBool false)
  end.

(** A history in which the sequence never reaches around the end of the buffer
    at a moment when the buffer is replaced. *)
Fixpoint no_wrapped_move (a : adeque) (ops : list dop) : Prop :=
  match ops with
  | [] => True
  | op :: rest =>
      let cap1 := if ad_cap a =? 0 then 8 else ad_cap a in
      match op with
      | DPushFront _ => zlen (ad_items a) + 1 < cap1 \/ (ad_off a - 1) mod cap1 = 0
      | DPushBack _ => zlen (ad_items a) + 1 < cap1 \/ ad_off a = 0
      | DShrink => (8 <? ad_cap a) && (3 * zlen (ad_items a) <=? ad_cap a) = false
                   \/ ad_off a + zlen (ad_items a) <= ad_cap a
      | _ => True
      end /\ no_wrapped_move (fst (dring_step a op)) rest
  end.
