(** What the lock-free deque promises, and what it does. *)
From Coq Require Import ZArith List Bool.
From Verif Require Import GoBase ConcBase LFDModel.
Import ListNotations.
Open Scope Z_scope.

(** Arguments of Init are int32. *)
Definition arg_ok (op : fd_op) : Prop := match op with FInit n => - 2 ^ 31 <= n < 2 ^ 31 | _ => True end.

(** The results of a history, without the final state. *)
Definition fobs {S : Type} (x : outcome (S * list fd_res)) : outcome (list fd_res) :=
  match x with Ok (_, o) => Ok o | Panic => Panic | Diverge => Diverge end.

(** The exact behaviour, one goroutine alone: number of slots (0 before the
    buffer exists), slot of the first value, values. *)
Definition exact_step (a : Z * Z * list Z) (op : fd_op) : outcome (Z * Z * list Z * fd_res) :=
  let '(n, h, l) := a in
  let n' := if n =? 0 then 8 else n in
  match op with
  | FInit m => Ok ((if n =? 0 then if m <=? 0 then 8 else m else n), 0, [], FUnit)
  | FClear => Ok (n, 0, [], FUnit)
  | FPushFront v => if h =? 0 then Panic else if zlen l =? n' - 1 then Diverge else Ok (n', h - 1, v :: l, FBool true)
  | FPushBack v => if zlen l =? n' - 1 then Diverge else Ok (n', h, l ++ [v], FBool true)
  | FPopFront => match l with [] => Ok (a, FVal 0 false) | v :: t => Ok (n, (h + 1) mod n, t, FVal v true) end
  | FPopBack => match l with
                | [] => Ok (a, FVal 0 false)
                | _ => if (h + zlen l) mod n =? 0 then Panic else Ok (n, h, removelast l, FVal (last l 0) true)
                end
  | FCap => Ok (a, FInt n)
  | FSize => Ok (a, FInt (zlen l))
  | FBusy => Ok (a, FInt 0)
  | FEmpty => Ok (a, FBool (zlen l =? 0))
  end.

(** A first-in first-out queue, and the histories that never push more than
    [cap] values into it. *)
Definition fifo_step (l : list Z) (op : fd_op) : list Z * fd_res :=
  match op with
  | FPushBack v => (l ++ [v], FBool true)
  | FPopFront => match l with [] => ([], FVal 0 false) | v :: t => (t, FVal v true) end
  | FSize => (l, FInt (zlen l))
  | FEmpty => (l, FBool (zlen l =? 0))
  | FClear => ([], FUnit)
  | _ => (l, FUnit)
  end.
Fixpoint fits (cap : Z) (l : list Z) (ops : list fd_op) : Prop :=
  match ops with
  | [] => True
  | op :: rest =>
      match op with FPushBack _ => zlen l < cap | FPopFront | FSize | FEmpty | FClear => True | _ => False end /\
      fits cap (fst (fifo_step l op)) rest
  end.

(** The concurrent object: a bounded queue. A failing pop may return any value
    beside false. *)
Definition cd_spec (cap : Z) (a : list Z) (op : cd_op) (r : fd_res) (b : list Z) : Prop :=
  match op with
  | DPush v => zlen a < cap /\ r = FBool true /\ b = a ++ [v]
  | DPop => match a with [] => b = [] /\ exists v, r = FVal v false | v :: t => b = t /\ r = FVal v true end
  | DSize => b = a /\ r = FInt (zlen a)
  end.
(** One goroutine pushes, one pops. *)
Definition roles (p c : nat) (sched : list (nat * cd_op)) : Prop :=
  Forall (fun e => match snd e with DPush _ => fst e = p | DPop => fst e = c | DSize => True end) sched.
(** Values of returned calls. *)
Fixpoint pushes (h : list (ext cd_op fd_res)) : list Z :=
  match h with Ret _ (DPush v) _ :: t => v :: pushes t | _ :: t => pushes t | [] => [] end.
Fixpoint pops (h : list (ext cd_op fd_res)) : list Z :=
  match h with Ret _ DPop (FVal v true) :: t => v :: pops t | _ :: t => pops t | [] => [] end.
