(** What the ring buffer promises, and what it does. *)
From Coq Require Import ZArith List Bool.
From Verif Require Import GoBase ConcBase RingModel.
Import ListNotations.
Open Scope Z_scope.

(** A bounded queue of capacity [cap]: a push takes effect only with room, a pop
    only on a stored value, the oldest. Of Size nothing is said. *)
Definition ring_spec (cap : Z) (a : list Z) (op : cr_op) (r : rb_res) (b : list Z) : Prop :=
  match op with
  | CPush v => zlen a < cap /\ r = ObsBool true /\ b = a ++ [v]
  | CPop => exists v, a = v :: b /\ r = ObsVal v true
  | CSize => b = a
  end.

(** The slot that a goroutine is about to access, and whether it writes. *)
Definition access (k : nat) (pc : cr_pc) : option (Z * bool) :=
  match pc with
  | CPushWrite _ i => Some (i mod 2 ^ Z.of_nat k, true)
  | CPopRead j => Some (j mod 2 ^ Z.of_nat k, false)
  | _ => None
  end.

(** The bounded queue that Push and Pop promise: results with the right ok flag. *)
Definition bq_step (cap : Z) (a : list Z) (op : rb_op) : list Z * rb_res :=
  match op with
  | RPush v => if zlen a <? cap then (a ++ [v], ObsBool true) else (a, ObsBool false)
  | RPop => match a with [] => ([], ObsVal 0 false) | v :: t => (t, ObsVal v true) end
  | RSize => (a, ObsInt (zlen a))
  | REmpty => (a, ObsBool (zlen a =? 0))
  | RCap => (a, ObsInt cap)
  | _ => (a, ObsUnit)
  end.

(** Histories of Push, Pop and queries that never push into a full and never
    pop from an empty queue. *)
Fixpoint within (cap : Z) (a : list Z) (ops : list rb_op) : Prop :=
  match ops with
  | [] => True
  | op :: rest =>
      match op with
      | RPush _ => zlen a < cap
      | RPop => a <> []
      | RSize | REmpty | RCap => True
      | _ => False
      end /\ within cap (fst (bq_step cap a op)) rest
  end.

(** Results up to the ok flag of Push, which is always false. *)
Fixpoint agree (ops : list rb_op) (os os' : list rb_res) : Prop :=
  match ops, os, os' with
  | [], [], [] => True
  | op :: ops, o :: os, o' :: os' =>
      match op with RPush _ => o = ObsBool false | _ => o = o' end /\ agree ops os os'
  | _, _, _ => False
  end.

(** The results of a history, without the final state. *)
Definition obs_of {S : Type} (x : outcome (S * list rb_res)) : outcome (list rb_res) :=
  match x with Ok (_, o) => Ok o | Panic => Panic | Diverge => Diverge end.

(** What a ring after Init does, one goroutine alone: one slot, and a balance of
    pushes and pops that may be negative. *)
Definition one_step (a : Z * Z) (op : rb_op) : outcome (Z * Z * rb_res) :=
  let (slot, n) := a in
  match op with
  | RPush v => Ok (v, n + 1, ObsBool false)
  | RPop => Ok (slot, n - 1, ObsVal slot true)
  | RMustPush v => if 0 <? n then Diverge else Ok (v, n + 1, ObsBool true)
  | RMustPop => if n <=? 0 then Diverge else Ok (slot, n - 1, ObsVal slot true)
  | RSize => Ok (slot, n, ObsInt n)
  | REmpty => Ok (slot, n, ObsBool (n =? 0))
  | RCap => Ok (slot, n, ObsInt 1)
  | RBusy => Ok (slot, n, ObsInt 0)
  | RInit _ => Ok (slot, n, ObsUnit)
  end.

(** A bounded queue used by one goroutine through MustPush and MustPop: nobody
    else can end the wait on a full or an empty queue. *)
Definition blocking_op (op : rb_op) : Prop :=
  match op with RMustPush _ | RMustPop | RSize | REmpty | RCap => True | _ => False end.
Definition blocking_step (cap : Z) (a : list Z) (op : rb_op) : outcome (list Z * rb_res) :=
  match op with
  | RMustPush v => if zlen a <? cap then Ok (a ++ [v], ObsBool true) else Diverge
  | RMustPop => match a with [] => Diverge | v :: t => Ok (t, ObsVal v true) end
  | _ => Ok (bq_step cap a op)
  end.

(** Returned calls in a history. *)
Definition count_push (h : list (ext cr_op rb_res)) : nat :=
  length (filter (fun e => match e with Ret _ (CPush _) _ => true | _ => false end) h).
Definition count_pop (h : list (ext cr_op rb_res)) : nat :=
  length (filter (fun e => match e with Ret _ CPop _ => true | _ => false end) h).
