(** What the calls of the list with a tail pointer mean. *)
From Coq Require Import ZArith List Bool Arith.
From Verif Require Import GoBase ConcBase ListSpec SListModel SListSpec TailModel.
Import ListNotations.
Open Scope nat_scope.

(** The abstract world of the list without the switch, and what Back answers. *)
Record tabs := TAbs { tq : sabs; tback : nat -> option nat }.
Definition tabs0 : tabs := TAbs sabs0 (fun _ => None).

(** ** The promise: Back is the last node. *)
Definition twant (a : sabs) (op : top) : sabs * sobs :=
  let seq k := qseq a k in
  match op with
  | TBase o => swant a o
  | TBack k => (a, SoNode (last_node (seq k)))
  | TPopBack k => (stake a k (last_node (seq k)), got a (last_node (seq k)))
  | TPushBack k v => (snew a k (seq k ++ [qfresh a]) v, SoNode (Some (qfresh a)))
  | TPushBackList k j =>
      (SAbs (fupd (fupd (qseq a) k (seq k ++ seq j)) j []) (qval a) (qfree a) (qlive a) (qhead a) (qfresh a), SoNone)
  | TMoveBack k None => (a, SoNode None)
  | TMoveBack k (Some n) =>
      if member n (seq k) && negb (is_last n (seq k))
      then (sput a k (without n (seq k) ++ [n]) (qfree a), SoNode (Some n)) else (a, SoNode None)
  end.
(** A client's obligations. *)
Definition tpre (a : sabs) (op : top) : Prop :=
  match op with
  | TBase o => spre a o
  | TBack k | TPopBack k | TPushBack k _ | TMoveBack k _ => qlive a k = true
  | TPushBackList k j => qlive a k = true /\ qlive a j = true /\ k <> j
  end.
(** The calls that keep the promise and the tail pointer: those that the list
    without the switch answers rightly, that do not take away the last node by
    its pointer, do not put a node behind the last one other than by PushBack
    or MoveBack, and do not put a node into an empty list by InsertFront. *)
Definition tregular (a : sabs) (op : top) : Prop :=
  let seq k := qseq a k in
  match op with
  | TBase o =>
      sregular a o /\
      match o with
      | SPopFront k | SRemoveFront k => length (seq k) <> 1
      | SRemove k (Some n) => is_last n (seq k) = false
      | SPushAfter k _ (Some m) => is_last m (seq k) = false
      | SInsertAfter k (Some n) (Some m) => n = m \/ is_last m (seq k) = false
      | SInsertFront k (Some _) => seq k <> []
      | SMoveAfter k (Some n) (Some m) => n = m \/ is_last m (seq k) = false \/ member n (seq k) = false
      | _ => True
      end
  | TPopBack k => seq k = []
  | TMoveBack k (Some n) => is_first n (seq k) = false \/ length (seq k) = 1
  | _ => True
  end.

(** ** The code *)
(** The member of a sequence before [n], starting from [p]. *)
Fixpoint pred_of (n p : nat) (l : list nat) : nat :=
  match l with [] => p | x :: t => if x =? n then p else pred_of n x t end.
Definition is_back (t : option nat) (n : nat) : bool := match t with Some x => x =? n | None => false end.
Definition behind (t : option nat) (n : option nat) : option nat := match t with None => n | Some _ => t end.

(** What the code does: the tail pointer is adjusted by these calls only. *)
Definition texact (s : tabs) (op : top) : tabs * sobs :=
  let a := tq s in let T := tback s in
  let seq k := qseq a k in
  let res r T := (TAbs (fst r) T, snd r) in
  match op with
  | TBase SNew => res (sexact a SNew) (fupd T (qfresh a) None)
  | TBase (SPushFront k v) => res (sexact a (SPushFront k v)) (fupd T k (behind (T k) (Some (qfresh a))))
  | TBase (SClear k) => res (sexact a (SClear k)) (fupd T k None)
  | TBase (SPushFrontList k j) => res (sexact a (SPushFrontList k j)) (fupd T k (behind (T k) (T j)))
  | TBase (SMoveFront k (Some n)) =>
      res (sexact a (SMoveFront k (Some n)))
        (if member n (seq k) && negb (is_first n (seq k)) && is_back (T k) n
         then fupd T k (Some (pred_of n k (seq k))) else T)
  | TBase (SMoveAfter k (Some n) (Some m)) =>
      res (sexact a (SMoveAfter k (Some n) (Some m)))
        (if member n (seq k) && negb (n =? m) && negb (is_first n (tl (from m (seq k)))) && is_back (T k) n
         then fupd T k (Some (pred_of n k (seq k))) else T)
  | TBase (SReverse k) => res (sexact a (SReverse k)) (fupd T k (hd_error (seq k)))
  | TBase o => res (sexact a o) T
  | TBack k => (s, SoNode (T k))
  | TPopBack k =>
      match T k with
      | Some n => if member n (seq k) then res (stake a k (Some n), SoVal (qval a n) true) T else (s, SoVal 0 false)
      | None => (s, SoVal 0 false)
      end
  | TPushBack k v => res (twant a op) (fupd T k (Some (qfresh a)))
  | TPushBackList k j =>
      match T j with None => (s, SoNone) | Some t => res (twant a op) (fupd (fupd T k (Some t)) j None) end
  | TMoveBack k None => (s, SoNode None)
  | TMoveBack k (Some n) =>
      if member n (seq k) && negb (is_first n (seq k)) && negb (is_last n (seq k))
      then res (twant a op) (fupd T k (Some n)) else (s, SoNode None)
  end.
(** The calls that write through the tail pointer need it to be right. *)
Definition ttrue (s : tabs) (k : nat) : Prop := tback s k = last_node (qseq (tq s) k).
Definition tsafe (s : tabs) (op : top) : Prop :=
  tpre (tq s) op /\
  match op with
  | TBase (SPushFrontList k j) => ttrue s j
  | TPushBack k _ | TMoveBack k _ => ttrue s k
  | TPushBackList k j => ttrue s k /\ ttrue s j
  | _ => True
  end.
