(** What locks promise, said on histories of calls and returns. *)
From Coq Require Import ZArith List Bool.
From Verif Require Import GoBase ConcBase SpinModel.
Import ListNotations.
Open Scope Z_scope.

(** A lock as one object. Lock takes it when it is free, and may give up by a panic
    while it is taken; Unlock frees a taken lock and panics on a free one. *)
Inductive lock_spec : bool -> sl_op -> sl_res -> bool -> Prop :=
| lk_take : lock_spec false LLock LOk true
| lk_give_up : lock_spec true LLock LPanic true
| lk_free : lock_spec true LUnlock LOk false
| lk_wrong : lock_spec false LUnlock LPanic false.

(** [t] has come back from its Lock and has not called Unlock since. *)
Definition inside_after (t : nat) (b : bool) (e : ext sl_op sl_res) : bool :=
  match e with
  | Ret u LLock LOk => if Nat.eqb u t then true else b
  | Inv u LUnlock => if Nat.eqb u t then false else b
  | _ => b
  end.
Definition inside (h : list (ext sl_op sl_res)) (t : nat) : bool := fold_left (inside_after t) h false.
(** Every Unlock is called by a goroutine that is inside. *)
Definition disciplined (h : list (ext sl_op sl_res)) : Prop :=
  forall h1 t h2, h = h1 ++ Inv t LUnlock :: h2 -> inside h1 t = true.

(** The same for readers and writers. *)
Definition writing_after (t : nat) (b : bool) (e : ext rw_op sl_res) : bool :=
  match e with
  | Ret u WLock LOk => if Nat.eqb u t then true else b
  | Inv u WUnlock => if Nat.eqb u t then false else b
  | _ => b
  end.
Definition writing (h : list (ext rw_op sl_res)) (t : nat) : bool := fold_left (writing_after t) h false.
Definition reading_after (t : nat) (b : bool) (e : ext rw_op sl_res) : bool :=
  match e with
  | Ret u RLock LOk => if Nat.eqb u t then true else b
  | Inv u RUnlock => if Nat.eqb u t then false else b
  | _ => b
  end.
Definition reading (h : list (ext rw_op sl_res)) (t : nat) : bool := fold_left (reading_after t) h false.

(** Well-nested use: Unlock only while writing, RUnlock only while reading, Lock
    and RLock only while neither. *)
Definition may_call (h : list (ext rw_op sl_res)) (t : nat) (op : rw_op) : Prop :=
  match op with
  | WUnlock => writing h t = true
  | RUnlock => reading h t = true
  | _ => writing h t = false /\ reading h t = false
  end.
Definition well_nested (h : list (ext rw_op sl_res)) : Prop :=
  forall h1 t op h2, h = h1 ++ Inv t op :: h2 -> may_call h1 t op.

(** How many calls of RLock a history has. *)
Fixpoint rlocks (h : list (ext rw_op sl_res)) : Z :=
  match h with
  | [] => 0
  | Inv _ RLock :: h => 1 + rlocks h
  | _ :: h => rlocks h
  end.

(** [t] has called and not yet returned. *)
Definition running_after {Op Res : Type} (t : nat) (b : bool) (e : ext Op Res) : bool :=
  match e with
  | Inv u _ => if Nat.eqb u t then true else b
  | Ret u _ _ => if Nat.eqb u t then false else b
  end.
Definition running {Op Res : Type} (h : list (ext Op Res)) (t : nat) : bool := fold_left (running_after t) h false.

(** How many steps of a schedule are [t]'s. *)
Definition mine {Op : Type} (t : nat) (sched : list (nat * Op)) : Z := zlen (filter (fun e => Nat.eqb (fst e) t) sched).

(** A history in which no two calls overlap. *)
Definition one_by_one {Op Res : Type} (h : list (ext Op Res)) : Prop :=
  forall h1 t op h2, h = h1 ++ Inv t op :: h2 -> forall u, running h1 u = false.
(** An RWSpinLock used by one call at a time: whether the inner lock is taken, and
    the reader count, an int32. *)
Definition rw_call (s : bool * Z) (op : rw_op) : (bool * Z) * sl_res :=
  let (taken, n) := s in
  let int32 z := (z + 2147483648) mod 4294967296 - 2147483648 in
  match op with
  | WLock => if taken then (s, LPanic) else ((true, int32 (n - 1073741824)), LOk)
  | WUnlock =>
      let m := int32 (n + 1073741824) in
      if (1073741824 <=? m) || negb taken then ((taken, m), LPanic) else ((false, m), LOk)
  | RLock =>
      if n <? 0 then (s, LPanic)
      else let m := int32 (n + 1) in
           if m =? 1 then ((true, m), if taken then LPanic else LOk) else ((taken, m), LOk)
  | RUnlock => ((taken, int32 (n - 1)), if (n =? 0) || (n =? -1073741824) then LPanic else LOk)
  end.
(** The history of calls made one after the other. *)
Fixpoint rw_calls (s : bool * Z) (l : list (nat * rw_op)) : list (ext rw_op sl_res) :=
  match l with
  | [] => []
  | (t, op) :: l => Inv t op :: Ret t op (snd (rw_call s op)) :: rw_calls (fst (rw_call s op)) l
  end.
