(** What the calls of IntList mean, in terms of sequences of nodes. *)
From Coq Require Import ZArith List Bool Arith.
From Verif Require Import GoBase ConcBase ListModel.
Import ListNotations.
Open Scope nat_scope.

(** ** Editing sequences *)
Definition without (n : nat) (l : list nat) : list nat := filter (fun x => negb (x =? n)) l.
Definition before (n m : nat) (l : list nat) : list nat := flat_map (fun x => if x =? m then [n; x] else [x]) l.
Definition after (n m : nat) (l : list nat) : list nat := flat_map (fun x => if x =? m then [x; n] else [x]) l.
Definition member (n : nat) (l : list nat) : bool := existsb (Nat.eqb n) l.
(** Is [y] the cyclic successor of [x]? *)
Definition adjacent (x y : nat) (l : list nat) : bool :=
  match l with
  | [] => false
  | a :: t => existsb (fun p => (fst p =? x) && (snd p =? y)) (combine l (t ++ [a]))
  end.
Definition is_first (n : nat) (l : list nat) : bool := match l with a :: _ => a =? n | [] => false end.
Definition is_last (n : nat) (l : list nat) : bool := is_first n (rev l).
Definition rotate_left (l : list nat) : list nat := match l with [] => [] | a :: t => t ++ [a] end.
Definition rotate_right (l : list nat) : list nat := rev (rotate_left (rev l)).

(** Stable sorting by value: insertion behind nothing that is equal. *)
Fixpoint insert_sorted (v : nat -> Z) (x : nat) (l : list nat) : list nat :=
  match l with
  | [] => [x]
  | y :: t => if (v x <=? v y)%Z then x :: l else y :: insert_sorted v x t
  end.
Definition stable_sort (v : nat -> Z) (l : list nat) : list nat := fold_right (insert_sorted v) [] l.

(** ** The abstract world: the sequence of every list, the value of every node,
    the nodes that are in no list and free to be inserted, and the number of
    the next node. *)
Record aworld := AWorld { aseq : nat -> list nat; aval : nat -> Z; afree : nat -> bool; afresh : nat }.
Definition aworld0 : aworld := AWorld (fun _ => []) (fun _ => 0%Z) (fun _ => false) 0.

(** A client's obligations: nodes passed as marks or moved belong to the list,
    inserted nodes are free, removed nodes belong to the list or are free; a
    list is not spliced in front of itself; sorted lists have fewer than 2^64 nodes. *)
Definition lpre (a : aworld) (op : lop) : Prop :=
  match op with
  | LPushBefore k _ m => In m (aseq a k)
  | LInsertFront k n | LInsertBack k n => afree a n = true
  | LInsertBefore k n m => afree a n = true /\ In m (aseq a k)
  | LRemove k n => In n (aseq a k) \/ afree a n = true
  | LInsertFrontList k j => k <> j
  | LMoveFront k n | LMoveBack k n => In n (aseq a k)
  | LMoveBefore k n m | LMoveAfter k n m => In n (aseq a k) /\ In m (aseq a k)
  | LSort k => (zlen (aseq a k) < 2 ^ 64)%Z
  | LSet n _ | LGet n => n < afresh a
  | _ => True
  end.

(** What the documentation promises. *)
Definition put_seq (a : aworld) (k : nat) (l : list nat) (fr : nat -> bool) : aworld :=
  AWorld (fupd (aseq a) k l) (aval a) fr (afresh a).
Definition with_new (a : aworld) (k : nat) (l : list nat) (v : Z) : aworld :=
  AWorld (fupd (aseq a) k l) (fupd (aval a) (afresh a) v) (fupd (afree a) (afresh a) false) (S (afresh a)).
Definition take_node (a : aworld) (k : nat) (p : option nat) : aworld :=
  match p with
  | None => a
  | Some n => put_seq a k (without n (aseq a k)) (fupd (afree a) n true)
  end.
Definition got_val (a : aworld) (p : option nat) : lobs :=
  match p with None => OVal 0 false | Some n => OVal (aval a n) true end.
Definition last_node (l : list nat) : option nat := hd_error (rev l).
Definition moved_end (n : nat) (l : list nat) : option nat := match l with [_] => None | _ => Some n end.

(** The meaning common to the promise and the code. *)
Definition lbase (a : aworld) (op : lop) : aworld * lobs :=
  let seq k := aseq a k in
  match op with
  | LPushFront k v => (with_new a k (afresh a :: seq k) v, ONode (Some (afresh a)))
  | LPushBack k v => (with_new a k (seq k ++ [afresh a]) v, ONode (Some (afresh a)))
  | LPopFront k => (take_node a k (hd_error (seq k)), got_val a (hd_error (seq k)))
  | LPopBack k => (take_node a k (last_node (seq k)), got_val a (last_node (seq k)))
  | LPushBefore k v m => (with_new a k (before (afresh a) m (seq k)) v, ONode (Some (afresh a)))
  | LInsertFront k n => (put_seq a k (n :: seq k) (fupd (afree a) n false), ONode (Some n))
  | LInsertBack k n => (put_seq a k (seq k ++ [n]) (fupd (afree a) n false), ONode (Some n))
  | LInsertBefore k n m => (put_seq a k (before n m (seq k)) (fupd (afree a) n false), ONode (Some n))
  | LRemove k n => if member n (seq k) then (take_node a k (Some n), ONode (Some n)) else (a, ONode None)
  | LRemoveFront k => (take_node a k (hd_error (seq k)), ONode (hd_error (seq k)))
  | LRemoveBack k => (take_node a k (last_node (seq k)), ONode (last_node (seq k)))
  | LInsertBackList k j =>
      (AWorld (fupd (fupd (aseq a) k (seq k ++ seq j)) j []) (aval a) (afree a) (afresh a),
       OBool (match seq j with [] => false | _ => true end))
  | LRotateForward k => (put_seq a k (rotate_left (seq k)) (afree a), ONone)
  | LRotateBackward k => (put_seq a k (rotate_right (seq k)) (afree a), ONone)
  | LClear k => (put_seq a k [] (afree a), ONone)
  | LSort k => (put_seq a k (stable_sort (aval a) (seq k)) (afree a), ONone)
  | LSet n v => (AWorld (aseq a) (fupd (aval a) n v) (afree a) (afresh a), OVal (aval a n) true)
  | LGet n => (a, OVal (aval a n) true)
  | LFront k => (a, ONode (hd_error (seq k)))
  | LBack k => (a, ONode (last_node (seq k)))
  | LEmpty k => (a, OBool (match seq k with [] => true | _ => false end))
  | LForward k => (a, OVals (map (aval a) (seq k)))
  | LBackward k => (a, OVals (map (aval a) (rev (seq k))))
  | _ => (a, ONone)
  end.

(** The promise. *)
Definition lwant (a : aworld) (op : lop) : aworld * lobs :=
  let seq k := aseq a k in
  match op with
  | LInsertFrontList k j =>
      (AWorld (fupd (fupd (aseq a) k (seq j ++ seq k)) j []) (aval a) (afree a) (afresh a),
       OBool (match seq j with [] => false | _ => true end))
  | LMoveFront k n => (put_seq a k (n :: without n (seq k)) (afree a), ONode (moved_end n (seq k)))
  | LMoveBack k n => (put_seq a k (without n (seq k) ++ [n]) (afree a), ONode (moved_end n (seq k)))
  | LMoveBefore k n m =>
      (put_seq a k (if n =? m then seq k else before n m (without n (seq k))) (afree a),
       ONode (if (n =? m) || adjacent n m (seq k) then None else Some n))
  | LMoveAfter k n m =>
      (put_seq a k (if n =? m then seq k else after n m (without n (seq k))) (afree a),
       ONode (if (n =? m) || adjacent m n (seq k) then None else Some n))
  | LReverse k => (put_seq a k (rev (seq k)) (afree a), ONone)
  | LIsValid k n => (a, OBool (member n (seq k)))
  | _ => lbase a op
  end.

(** The calls on which the code keeps the promise (see [lexact] for the others). *)
Definition lregular (a : aworld) (op : lop) : Prop :=
  match op with
  | LInsertBackList k j => k <> j
  | LInsertFrontList k j => length (aseq a j) <= 1 \/ aseq a k = []
  | LMoveFront k n | LMoveBack k n => is_first n (aseq a k) = false \/ length (aseq a k) <= 1
  | LMoveBefore k n m => is_first m (aseq a k) = false \/ n = m
  | LMoveAfter k n m => is_first n (aseq a k) = false \/ is_last m (aseq a k) = false \/ n = m
  | LReverse k => length (aseq a k) <= 1
  | LIsValid k n => length (aseq a k) <= 1 \/ is_first n (aseq a k) = true \/ member n (aseq a k) = false
  | _ => True
  end.

(** What the code does, in all cases. *)
Definition lexact (a : aworld) (op : lop) : aworld * lobs :=
  let seq k := aseq a k in
  match op with
  | LInsertBackList k j =>
      if k =? j then (put_seq a k [] (afree a), OBool (match seq j with [] => false | _ => true end))
      else lbase a op
  | LInsertFrontList k j =>
      (AWorld (fupd (fupd (aseq a) k
                 (match seq k, seq j with
                  | [], r => r
                  | l, [] => l
                  | l, r => rotate_right (l ++ r)
                  end)) j []) (aval a) (afree a) (afresh a),
       OBool (match seq j with [] => false | _ => true end))
  | LMoveFront k n =>
      (put_seq a k (if is_first n (seq k) then [n] else n :: without n (seq k)) (afree a), ONode (moved_end n (seq k)))
  | LMoveBack k n =>
      (put_seq a k (if is_first n (seq k) then [n] else without n (seq k) ++ [n]) (afree a), ONode (moved_end n (seq k)))
  | LMoveBefore k n m =>
      (put_seq a k (if (n =? m) || adjacent n m (seq k) then seq k
                    else if is_first m (seq k) then without n (seq k) ++ [n]
                    else before n m (without n (seq k))) (afree a),
       ONode (if (n =? m) || adjacent n m (seq k) then None else Some n))
  | LMoveAfter k n m =>
      (put_seq a k (if (n =? m) || adjacent m n (seq k) then seq k else after n m (without n (seq k))) (afree a),
       ONode (if (n =? m) || adjacent m n (seq k) then None else Some n))
  | LReverse k => (put_seq a k (firstn 1 (seq k)) (afree a), ONone)
  | LIsValid k n => (a, OBool (is_first n (seq k)))
  | _ => lbase a op
  end.

(** A history all of whose calls meet a condition. *)
Fixpoint run_meets {St Op Obs : Type} (step : St -> Op -> St * Obs) (P : St -> Op -> Prop) (a : St) (ops : list Op) : Prop :=
  match ops with
  | [] => True
  | op :: rest => P a op /\ run_meets step P (fst (step a op)) rest
  end.
