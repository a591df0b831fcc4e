(** What the calls of IntSList mean, in terms of sequences of nodes. *)
From Coq Require Import ZArith List Bool Arith.
From Verif Require Import GoBase ConcBase ListSpec SListModel.
Import ListNotations.
Open Scope nat_scope.

(** The abstract world: the sequence of every list, the value of every node,
    the nodes in no list, the usable lists, the addresses that are lists, and
    the next address. *)
Record sabs := SAbs { qseq : nat -> list nat; qval : nat -> Z; qfree : nat -> bool;
                      qlive : nat -> bool; qhead : nat -> bool; qfresh : nat }.
Definition sabs0 : sabs := SAbs (fun _ => []) (fun _ => 0%Z) (fun _ => false) (fun _ => false) (fun _ => false) 0.

(** A client's obligations: lists are usable; marks belong to the list;
    inserted nodes are in no list; a list is not spliced into itself, and a list
    that was spliced into another must be cleared before it is used again.
    [SSort] is allowed on at most one node. *)
Definition spre (a : sabs) (op : sop) : Prop :=
  match op with
  | SNew => True
  | SPushAfter k _ m => qlive a k = true /\ match m with Some m => In m (qseq a k) | None => True end
  | SInsertAfter k n m =>
      qlive a k = true /\
      match n, m with
      | Some n, Some m => n = m \/ (qfree a n = true /\ In m (qseq a k))
      | _, _ => True
      end
  | SInsertFront k n => qlive a k = true /\ match n with Some n => qfree a n = true | None => True end
  | SMoveAfter k _ m => qlive a k = true /\ match m with Some m => In m (qseq a k) | None => True end
  | SClear k => qhead a k = true
  | SPushFrontList k j => qlive a k = true /\ qlive a j = true /\ k <> j
  | SSort k => qlive a k = true /\ length (qseq a k) <= 1
  | STail k n => qlive a k = true /\ In n (qseq a k)
  | SGet n | SSet n _ => n < qfresh a /\ qhead a n = false
  | SPushFront k _ | SPopFront k | SRemoveFront k | SRemove k _ | SMoveFront k _ | SReverse k
  | SFront k | SEmpty k | SLen k | SVisit k | SIsValid k _ | SWalk k | SValues k => qlive a k = true
  end.

(** The sequence, the value table and the free nodes change; a new node; a node
    goes out of its list. *)
Definition sput (a : sabs) (k : nat) (l : list nat) (fr : nat -> bool) : sabs :=
  SAbs (fupd (qseq a) k l) (qval a) fr (qlive a) (qhead a) (qfresh a).
Definition snew (a : sabs) (k : nat) (l : list nat) (v : Z) : sabs :=
  SAbs (fupd (qseq a) k l) (fupd (qval a) (qfresh a) v) (qfree a) (qlive a) (qhead a) (S (qfresh a)).
Definition stake (a : sabs) (k : nat) (p : option nat) : sabs :=
  match p with
  | None => a
  | Some n => sput a k (without n (qseq a k)) (fupd (qfree a) n true)
  end.
Definition got (a : sabs) (p : option nat) : sobs :=
  match p with None => SoVal 0 false | Some n => SoVal (qval a n) true end.
(** The part of a sequence from [n] on. *)
Fixpoint from (n : nat) (l : list nat) : list nat :=
  match l with [] => [] | x :: t => if x =? n then l else from n t end.

(** What is promised. *)
Definition swant (a : sabs) (op : sop) : sabs * sobs :=
  let seq k := qseq a k in
  match op with
  | SNew => (SAbs (fupd (qseq a) (qfresh a) []) (fupd (qval a) (qfresh a) 0%Z) (qfree a)
                  (fupd (qlive a) (qfresh a) true) (fupd (qhead a) (qfresh a) true) (S (qfresh a)), SoList (qfresh a))
  | SPushFront k v => (snew a k (qfresh a :: seq k) v, SoNode (Some (qfresh a)))
  | SPopFront k => (stake a k (hd_error (seq k)), got a (hd_error (seq k)))
  | SPushAfter k v None => (a, SoNode None)
  | SPushAfter k v (Some m) => (snew a k (after (qfresh a) m (seq k)) v, SoNode (Some (qfresh a)))
  | SInsertAfter k (Some n) (Some m) =>
      if n =? m then (a, SoNode None)
      else (sput a k (after n m (seq k)) (fupd (qfree a) n false), SoNode (Some n))
  | SInsertAfter k _ _ => (a, SoNode None)
  | SInsertFront k None => (a, SoNode None)
  | SInsertFront k (Some n) => (sput a k (n :: seq k) (fupd (qfree a) n false), SoNode (Some n))
  | SRemoveFront k => (stake a k (hd_error (seq k)), SoNode (hd_error (seq k)))
  | SRemove k None => (a, SoNode None)
  | SRemove k (Some n) => if member n (seq k) then (stake a k (Some n), SoNode (Some n)) else (a, SoNode None)
  | SMoveFront k None => (a, SoNode None)
  | SMoveFront k (Some n) =>
      if member n (seq k) && negb (is_first n (seq k))
      then (sput a k (n :: without n (seq k)) (qfree a), SoNode (Some n)) else (a, SoNode None)
  | SMoveAfter k (Some n) (Some m) =>
      if member n (seq k) && negb (n =? m) && negb (is_first n (tl (from m (seq k))))
      then (sput a k (after n m (without n (seq k))) (qfree a), SoNode (Some n)) else (a, SoNode None)
  | SMoveAfter k _ _ => (a, SoNode None)
  | SReverse k => (sput a k (rev (seq k)) (qfree a), SoNone)
  | SClear k => (SAbs (fupd (qseq a) k []) (qval a)
                   (fun x => qfree a x || (qlive a k && member x (seq k))) (fupd (qlive a) k true) (qhead a) (qfresh a), SoNone)
  | SPushFrontList k j =>
      match seq j with
      | [] => (a, SoNone)
      | _ => (SAbs (fupd (qseq a) k (seq j ++ seq k)) (qval a) (qfree a) (fupd (qlive a) j false) (qhead a) (qfresh a), SoNone)
      end
  | SSort k => (sput a k (stable_sort (qval a) (seq k)) (qfree a), SoNone)
  | SFront k => (a, SoNode (hd_error (seq k)))
  | SEmpty k => (a, SoBool (match seq k with [] => true | _ => false end))
  | SLen k => (a, SoNat (length (seq k)))
  | SVisit k => (a, SoVals (map (qval a) (seq k)))
  | SIsValid k None => (a, SoBool false)
  | SIsValid k (Some n) => (a, SoBool (member n (seq k)))
  | STail k n => (a, SoTail (last_node (seq k)) (length (from n (seq k))))
  | SGet n => (a, SoVal (qval a n) true)
  | SSet n v => (SAbs (qseq a) (fupd (qval a) n v) (qfree a) (qlive a) (qhead a) (qfresh a), SoVal (qval a n) true)
  | SWalk k => (a, SoNodes (seq k))
  | SValues k => (a, SoVals (map (qval a) (seq k)))
  end.

(** The calls on which the code keeps the promise. *)
Definition sregular (a : sabs) (op : sop) : Prop :=
  match op with
  | SEmpty _ => False
  | SLen k | SVisit k => qseq a k = []
  | SIsValid k (Some n) => is_first n (qseq a k) = true \/ member n (qseq a k) = false
  | _ => True
  end.

(** What the code does, in all cases. *)
Definition sexact (a : sabs) (op : sop) : sabs * sobs :=
  match op with
  | SEmpty k => (a, SoBool (match qseq a k with [] => false | _ => true end))
  | SLen k => (a, SoNat 0)
  | SVisit k => (a, SoVals [])
  | SIsValid k (Some n) => (a, SoBool (is_first n (qseq a k)))
  | _ => swant a op
  end.

(** ** Chains of nodes, for HasCycle *)
(** The node reached from a pointer in [n] steps. *)
Fixpoint steps (h : sheap) (p : option nat) (n : nat) : option nat :=
  match n with O => p | S m => match p with None => None | Some x => steps h (snext (h x)) m end end.
(** The chain ends after [n] nodes. *)
Definition ends_after (h : sheap) (p : option nat) (n : nat) : Prop :=
  steps h p n = None /\ forall i, i < n -> steps h p i <> None.
(** The chain runs into a cycle of [c] nodes after [m] nodes. *)
Definition cycles (h : sheap) (p : option nat) (m c : nat) : Prop :=
  0 < c /\ steps h p m <> None /\ steps h p (m + c) = steps h p m /\
  (forall i j, i < j < m + c -> steps h p i <> steps h p j).
(** The chain is cyclic: it never ends. *)
Definition cyclic (h : sheap) (p : option nat) : Prop := forall n, steps h p n <> None.
