(** Model of stl/list.gp_int.go: the cyclic doubly linked list. *)
From Coq Require Import ZArith List Bool Arith.
From Verif Require Import GoBase ConcBase.
Import ListNotations.

(** stl/list.gp_int.go:34-37 IntListNode; a pointer is [None] (nil) or the
    number of a node. *)
Record dnode := DNode { dval : Z; dprev : option nat; dnext : option nat }.
(** Memory: the node at every address (Go language; no /repo lines). *)
Definition dheap := nat -> dnode.

(** Field reads and writes through a pointer; nil panics (Go language; no /repo lines). *)
Definition rd_next (h : dheap) (p : option nat) : outcome (option nat) :=
  match p with Some x => Ok (dnext (h x)) | None => Panic end.
(** Read of the field prev (Go language; no /repo lines). *)
Definition rd_prev (h : dheap) (p : option nat) : outcome (option nat) :=
  match p with Some x => Ok (dprev (h x)) | None => Panic end.
(** Read of the field val (Go language; no /repo lines). *)
Definition rd_val (h : dheap) (p : option nat) : outcome Z :=
  match p with Some x => Ok (dval (h x)) | None => Panic end.
(** Write of the field next (Go language; no /repo lines). *)
Definition wr_next (h : dheap) (p q : option nat) : outcome dheap :=
  match p with Some x => Ok (fupd h x (DNode (dval (h x)) (dprev (h x)) q)) | None => Panic end.
(** Write of the field prev (Go language; no /repo lines). *)
Definition wr_prev (h : dheap) (p q : option nat) : outcome dheap :=
  match p with Some x => Ok (fupd h x (DNode (dval (h x)) q (dnext (h x)))) | None => Panic end.
(** Pointer comparison (Go language; no /repo lines). *)
Definition peq (p q : option nat) : bool :=
  match p, q with
  | None, None => true
  | Some x, Some y => Nat.eqb x y
  | _, _ => false
  end.
(** Comparison with nil (Go language; no /repo lines). *)
Definition nonnil (p : option nat) : bool := match p with Some _ => true | None => false end.

(** stl/list.gp_int.go:43-46 IntListNode.Set: old value. *)
Definition node_set (h : dheap) (p : option nat) (v : Z) : outcome (dheap * Z) :=
  match p with
  | Some x => Ok (fupd h x (DNode v (dprev (h x)) (dnext (h x))), dval (h x))
  | None => Panic
  end.

(** stl/list.gp_int.go:62-64 IntListNodeVisitor. *)
Record dvisitor := DVisitor { vis_node : option nat; vis_head : option nat }.
(** stl/list.gp_int.go:70-80 IntListNodeVisitor.Next. *)
Definition vis_next (h : dheap) (v : dvisitor) : outcome (dvisitor * bool) :=
  match vis_node v with
  | None => if nonnil (vis_head v) then Ok (DVisitor (vis_head v) (vis_head v), true)
            else Ok (v, false)
  | Some x => let n := dnext (h x) in Ok (DVisitor n (vis_head v), negb (peq n (vis_head v)))
  end.
(** stl/list.gp_int.go:82-92 IntListNodeVisitor.Prev. *)
Definition vis_prev (h : dheap) (v : dvisitor) : outcome (dvisitor * bool) :=
  match vis_node v with
  | None => if nonnil (vis_head v)
            then p <- rd_prev h (vis_head v) ;; Ok (DVisitor p (vis_head v), true)
            else Ok (v, false)
  | Some x => let n := dprev (h x) in
              p <- rd_prev h (vis_head v) ;;
              Ok (DVisitor n (vis_head v), negb (peq n p))
  end.
(** stl/list.gp_int.go:98-101 Visitor. *)
Definition visitor (head : option nat) : dvisitor := DVisitor None head.

(** stl/list.gp_int.go:117-119 Front. *)
Definition front (head : option nat) : option nat := head.
(** stl/list.gp_int.go:120-125 Back. *)
Definition back (h : dheap) (head : option nat) : option nat :=
  match head with Some a => dprev (h a) | None => None end.
(** stl/list.gp_int.go:127-129 Clear. *)
Definition clear : option nat := None.
(** stl/list.gp_int.go:131-135 RotateForward: the new head. *)
Definition rotate_forward (h : dheap) (head : option nat) : option nat :=
  match head with Some a => dnext (h a) | None => None end.
(** stl/list.gp_int.go:136-140 RotateBackward. *)
Definition rotate_backward (h : dheap) (head : option nat) : option nat :=
  match head with Some a => dprev (h a) | None => None end.
(** stl/list.gp_int.go:331-333 Empty. *)
Definition empty (head : option nat) : bool := negb (nonnil head).

(** stl/list.gp_int.go:159-171 InsertBack: memory and head after the call (the
    result is the argument). *)
Definition insert_back (h : dheap) (head n : option nat) : outcome (dheap * option nat) :=
  if nonnil n then
    match head with
    | None => h <- wr_next h n n ;; h <- wr_prev h n n ;; Ok (h, n)
    | Some a =>
        h <- wr_next h n (Some a) ;;
        p <- rd_prev h (Some a) ;; h <- wr_prev h n p ;;
        p <- rd_prev h (Some a) ;; h <- wr_next h p n ;;
        h <- wr_prev h (Some a) n ;; Ok (h, Some a)
    end
  else Ok (h, head).
(** stl/list.gp_int.go:152-157 InsertFront. *)
Definition insert_front (h : dheap) (head n : option nat) : outcome (dheap * option nat) :=
  ' (h, head) <- insert_back h head n ;;
  if nonnil n then Ok (h, rotate_backward h head) else Ok (h, head).

(** Allocation of a node with nil links at the address [x]
    (stl/list.gp_int.go:143, 148, 213, 221: &IntListNode{val: v}). *)
Definition alloc (h : dheap) (x : nat) (v : Z) : dheap := fupd h x (DNode v None None).
(** stl/list.gp_int.go:142-145 PushFront; [x] is the address of the new node. *)
Definition push_front (h : dheap) (head : option nat) (x : nat) (v : Z) : outcome (dheap * option nat) :=
  insert_front (alloc h x v) head (Some x).
(** stl/list.gp_int.go:147-150 PushBack. *)
Definition push_back (h : dheap) (head : option nat) (x : nat) (v : Z) : outcome (dheap * option nat) :=
  insert_back (alloc h x v) head (Some x).

(** stl/list.gp_int.go:257-270 Remove: memory, head, result. *)
Definition remove (h : dheap) (head node : option nat) : outcome (dheap * option nat * option nat) :=
  match node with
  | None => Ok (h, head, None)
  | Some x =>
      if nonnil (dnext (h x)) && nonnil (dprev (h x)) then
        let head' := if peq (dnext (h x)) node then None
                     else if peq node head then dnext (h x) else head in
        h1 <- wr_prev h (dnext (h x)) (dprev (h x)) ;;
        h2 <- wr_next h1 (dprev (h1 x)) (dnext (h1 x)) ;;
        h3 <- wr_next h2 node None ;; h4 <- wr_prev h3 node None ;;
        Ok (h4, head', node)
      else Ok (h, head, None)
  end.
(** stl/list.gp_int.go:249-251 RemoveFront. *)
Definition remove_front (h : dheap) (head : option nat) : outcome (dheap * option nat * option nat) :=
  remove h head (front head).
(** stl/list.gp_int.go:253-255 RemoveBack. *)
Definition remove_back (h : dheap) (head : option nat) : outcome (dheap * option nat * option nat) :=
  remove h head (back h head).
(** stl/list.gp_int.go:173-178 PopFront: value and ok. *)
Definition pop_front (h : dheap) (head : option nat) : outcome (dheap * option nat * (Z * bool)) :=
  ' (h, head, n) <- remove h head (front head) ;;
  match n with Some x => Ok (h, head, (dval (h x), true)) | None => Ok (h, head, (0%Z, false)) end.
(** stl/list.gp_int.go:180-185 PopBack. *)
Definition pop_back (h : dheap) (head : option nat) : outcome (dheap * option nat * (Z * bool)) :=
  ' (h, head, n) <- remove h head (back h head) ;;
  match n with Some x => Ok (h, head, (dval (h x), true)) | None => Ok (h, head, (0%Z, false)) end.

(** stl/list.gp_int.go:195-209 InsertBackList: memory, head of this, head of
    other, ok. *)
Definition insert_back_list (h : dheap) (head other : option nat) : outcome (dheap * option nat * option nat * bool) :=
  if empty other then Ok (h, head, other, false)
  else if empty head then Ok (h, other, clear, true)
  else
    let myback := back h head in let oback := back h other in
    h <- wr_next h myback other ;; h <- wr_next h oback head ;;
    h <- wr_prev h other myback ;; h <- wr_prev h head oback ;;
    Ok (h, head, clear, true).
(** The same when other is this very list: other.Clear() then clears this list
    (stl/list.gp_int.go:195-209). *)
Definition insert_back_list_self (h : dheap) (head : option nat) : outcome (dheap * option nat * bool) :=
  ' (h, _, other, ok) <- insert_back_list h head head ;; Ok (h, other, ok).
(** stl/list.gp_int.go:187-193 InsertFrontList, for another list. *)
Definition insert_front_list (h : dheap) (head other : option nat) : outcome (dheap * option nat * option nat * bool) :=
  let rotate := negb (empty head) in
  ' (h, head, other, ok) <- insert_back_list h head other ;;
  if ok && rotate then Ok (h, rotate_backward h head, other, ok) else Ok (h, head, other, ok).

(** stl/list.gp_int.go:227-238 InsertBefore (the result is the node). *)
Definition insert_before (h : dheap) (head node mark : option nat) : outcome (dheap * option nat) :=
  if nonnil node && nonnil mark && negb (peq node mark) then
    h <- wr_next h node mark ;;
    p <- rd_prev h mark ;; h <- wr_prev h node p ;;
    p <- rd_prev h mark ;; h <- wr_next h p node ;;
    h <- wr_prev h mark node ;;
    if peq head mark then Ok (h, rotate_backward h head) else Ok (h, head)
  else Ok (h, head).
(** stl/list.gp_int.go:211-217 PushBefore with a mark that is not nil. *)
Definition push_before (h : dheap) (head : option nat) (x : nat) (v : Z) (mark : option nat) : outcome (dheap * option nat) :=
  insert_before (alloc h x v) head (Some x) mark.
(** stl/list.gp_int.go:240-247 InsertAfter. *)
Definition insert_after (h : dheap) (node mark : option nat) : outcome dheap :=
  if nonnil node && nonnil mark then
    n <- rd_next h mark ;; h <- wr_next h node n ;;
    h <- wr_prev h node mark ;; wr_next h mark node
  else Ok h.
(** stl/list.gp_int.go:219-225 PushAfter with a mark that is not nil. *)
Definition push_after (h : dheap) (x : nat) (v : Z) (mark : option nat) : outcome dheap :=
  insert_after (alloc h x v) (Some x) mark.

(** stl/list.gp_int.go:274-278: the loop of Reachable. *)
Fixpoint reach_loop (fuel : nat) (h : dheap) (p node dest : option nat) : outcome bool :=
  if nonnil p && negb (peq p node) then
    if peq p dest then Ok true
    else match fuel with
         | O => Diverge
         | S f => p' <- rd_next h p ;; reach_loop f h p' node dest
         end
  else Ok false.
(** stl/list.gp_int.go:272-281 Reachable. *)
Definition reachable (fuel : nat) (h : dheap) (node dest : option nat) : outcome bool :=
  if peq node dest && nonnil node then Ok true
  else if nonnil node && nonnil dest then reach_loop fuel h node node dest
  else Ok false.
(** stl/list.gp_int.go:283-285 IsValidNode. *)
Definition is_valid_node (fuel : nat) (h : dheap) (head node : option nat) : outcome bool :=
  reachable fuel h head node.

(** stl/list.gp_int.go:294-305 MoveBack (the head does not change): memory, result. *)
Definition move_back (h : dheap) (head node : option nat) : outcome (dheap * option nat) :=
  match node with
  | None => Ok (h, None)
  | Some x =>
      if nonnil (dnext (h x)) && nonnil (dprev (h x)) && negb (peq (dnext (h x)) node) then
        h <- wr_prev h (dnext (h x)) (dprev (h x)) ;;
        h <- wr_next h (dprev (h x)) (dnext (h x)) ;;
        h <- wr_next h node head ;;
        p <- rd_prev h head ;; h <- wr_prev h node p ;;
        p <- rd_prev h head ;; h <- wr_next h p node ;;
        h <- wr_prev h head node ;;
        Ok (h, node)
      else Ok (h, None)
  end.
(** stl/list.gp_int.go:287-292 MoveFront: memory, head, result. *)
Definition move_front (h : dheap) (head node : option nat) : outcome (dheap * option nat * option nat) :=
  ' (h, r) <- move_back h head node ;;
  if nonnil r then Ok (h, rotate_backward h head, r) else Ok (h, head, r).
(** stl/list.gp_int.go:307-317 MoveBefore: memory, head, result. *)
Definition move_before (h : dheap) (head node mark : option nat) : outcome (dheap * option nat * option nat) :=
  match node with
  | Some x =>
      if nonnil mark && negb (peq node mark) && negb (peq (dnext (h x)) mark) then
        ' (h, head, r) <- remove h head node ;;
        if nonnil r then
          p <- rd_prev h mark ;; q <- rd_next h p ;; h <- wr_next h node q ;;
          p <- rd_prev h mark ;; h <- wr_prev h node p ;;
          p <- rd_prev h mark ;; h <- wr_next h p node ;;
          h <- wr_prev h mark node ;; Ok (h, head, r)
        else Ok (h, head, r)
      else Ok (h, head, None)
  | None => Ok (h, head, None)
  end.
(** stl/list.gp_int.go:319-329 MoveAfter: memory, head, result. *)
Definition move_after (h : dheap) (head node mark : option nat) : outcome (dheap * option nat * option nat) :=
  match mark with
  | Some m =>
      if nonnil node && negb (peq node mark) && negb (peq (dnext (h m)) node) then
        ' (h, head, r) <- remove h head node ;;
        if nonnil r then
          p <- rd_next h mark ;; h <- wr_next h node p ;;
          h <- wr_prev h node mark ;;
          p <- rd_next h mark ;; h <- wr_prev h p node ;;
          h <- wr_next h mark node ;; Ok (h, head, r)
        else Ok (h, head, r)
      else Ok (h, head, None)
  | None => Ok (h, head, None)
  end.

(** stl/list.gp_int.go:338-340: the loop of Reverse. *)
Fixpoint reverse_loop (fuel : nat) (h : dheap) (head : option nat) (v : dvisitor) : outcome (dheap * option nat) :=
  ' (v, ok) <- vis_next h v ;;
  if ok then
    match fuel with
    | O => Diverge
    | S f => ' (h, head) <- insert_front h head (vis_node v) ;; reverse_loop f h head v
    end
  else Ok (h, head).
(** stl/list.gp_int.go:335-341 Reverse. *)
Definition reverse (fuel : nat) (h : dheap) (head : option nat) : outcome (dheap * option nat) :=
  reverse_loop fuel h clear (visitor head).

Section Sort.
(** The comparator gIntListGbl.cmp.F of stl/list.gp_int.go:25-31; package init
    makes it the default comparator "less" (see CmpModel). *)
Variable less : Z -> Z -> bool.

(** stl/list.gp_int.go:387-397: the loop of merge. *)
Fixpoint merge_loop (fuel : nat) (h : dheap) (head other p po : option nat)
  : outcome (dheap * option nat * option nat * option nat) :=
  if nonnil p && nonnil po then
    match fuel with
    | O => Diverge
    | S f =>
        vo <- rd_val h po ;; vp <- rd_val h p ;;
        if less vo vp then
          ' (h, other, n) <- remove_front h other ;;
          let po := front other in
          ' (h, head) <- insert_before h head n p ;;
          merge_loop f h head other p po
        else
          p' <- rd_next h p ;;
          merge_loop f h head other (if peq p' (front head) then None else p') po
    end
  else Ok (h, head, other, po).
(** stl/list.gp_int.go:380-401 merge: memory, head of this, head of other. *)
Definition merge_lists (fuel : nat) (h : dheap) (head other : option nat) : outcome (dheap * option nat * option nat) :=
  if empty head || empty other then
    ' (h, head, other, _) <- insert_back_list h head other ;; Ok (h, head, other)
  else
    ' (h, head, other, po) <- merge_loop fuel h head other (front head) (front other) ;;
    if nonnil po then
      ' (h, head, other, _) <- insert_back_list h head other ;; Ok (h, head, other)
    else Ok (h, head, other).

(** stl/list.gp_int.go:361-365: carrying the hand through the filled bins.
    Memory, hand, bins, index. *)
Fixpoint carry_loop (fuel : nat) (h : dheap) (hand : option nat) (bins : list (option nat)) (i nfilled : Z)
  : outcome (dheap * option nat * list (option nat) * Z) :=
  if (i <? nfilled)%Z then
    b <- zget bins i ;;
    if empty b then Ok (h, hand, bins, i)
    else
      match fuel with
      | O => Diverge
      | S f =>
          ' (h, b, hand) <- merge_lists fuel h b hand ;;
          bins <- zset bins i hand ;;
          carry_loop f h b bins (i + 1) nfilled
      end
  else Ok (h, hand, bins, i).
(** stl/list.gp_int.go:359-370: the main loop. *)
Fixpoint sort_loop (fuel : nat) (h : dheap) (head hand : option nat) (bins : list (option nat)) (nfilled : Z)
  : outcome (dheap * option nat * list (option nat) * Z) :=
  if empty head then Ok (h, hand, bins, nfilled)
  else
    match fuel with
    | O => Diverge
    | S f =>
        ' (h, head, n) <- remove_front h head ;;
        ' (h, hand) <- insert_front h hand n ;;
        ' (h, hand, bins, i) <- carry_loop fuel h hand bins 0 nfilled ;;
        b <- zget bins i ;; bins <- zset bins i hand ;;
        sort_loop f h head b bins (if (i =? nfilled)%Z then (nfilled + 1)%Z else nfilled)
    end.
(** stl/list.gp_int.go:372-374: merging the bins. *)
Fixpoint final_loop (fuel : nat) (h : dheap) (bins : list (option nat)) (i nfilled : Z) : outcome (dheap * list (option nat)) :=
  if (i <? nfilled)%Z then
    match fuel with
    | O => Diverge
    | S f =>
        b <- zget bins i ;; c <- zget bins (i - 1) ;;
        ' (h, b, c) <- merge_lists fuel h b c ;;
        bins <- zset bins i b ;; bins <- zset bins (i - 1) c ;;
        final_loop f h bins (i + 1) nfilled
    end
  else Ok (h, bins).
(** stl/list.gp_int.go:343-377 Sort, mergeSort: memory and head. *)
Definition sort_list (fuel : nat) (h : dheap) (head : option nat) : outcome (dheap * option nat) :=
  match head with
  | None => Ok (h, head)
  | Some a =>
      if peq (dnext (h a)) head then Ok (h, head)
      else
        ' (h, _, bins, nfilled) <- sort_loop fuel h head None (repeat None 64) 0 ;;
        ' (h, bins) <- final_loop fuel h bins 1 nfilled ;;
        b <- zget bins (nfilled - 1) ;; Ok (h, b)
  end.
End Sort.

(** A client's loop "for v := l.Visitor(); v.Next(); { use v.Get().Get() }"
    (stl/list.gp_int.go:70-101): the values seen. *)
Fixpoint traverse_next (fuel : nat) (h : dheap) (v : dvisitor) : outcome (list Z) :=
  ' (v, ok) <- vis_next h v ;;
  if ok then
    match fuel with
    | O => Diverge
    | S f => x <- rd_val h (vis_node v) ;; l <- traverse_next f h v ;; Ok (x :: l)
    end
  else Ok [].
(** The same with v.Prev() (stl/list.gp_int.go:82-101). *)
Fixpoint traverse_prev (fuel : nat) (h : dheap) (v : dvisitor) : outcome (list Z) :=
  ' (v, ok) <- vis_prev h v ;;
  if ok then
    match fuel with
    | O => Diverge
    | S f => x <- rd_val h (vis_node v) ;; l <- traverse_prev f h v ;; Ok (x :: l)
    end
  else Ok [].

(** ** Many lists sharing one memory *)

(** The calls a client can make (stl/list.gp_int.go); lists and nodes are
    numbered, a new node gets the next number. *)
Inductive lop :=
| LPushFront (k : nat) (v : Z) | LPushBack (k : nat) (v : Z)
| LPopFront (k : nat) | LPopBack (k : nat)
| LPushBefore (k : nat) (v : Z) (m : nat)
| LInsertFront (k n : nat) | LInsertBack (k n : nat) | LInsertBefore (k n m : nat)
| LRemove (k n : nat) | LRemoveFront (k : nat) | LRemoveBack (k : nat)
| LInsertBackList (k j : nat) | LInsertFrontList (k j : nat)
| LRotateForward (k : nat) | LRotateBackward (k : nat) | LClear (k : nat)
| LMoveFront (k n : nat) | LMoveBack (k n : nat) | LMoveBefore (k n m : nat) | LMoveAfter (k n m : nat)
| LReverse (k : nat) | LSort (k : nat)
| LSet (n : nat) (v : Z) | LGet (n : nat)
| LFront (k : nat) | LBack (k : nat) | LEmpty (k : nat) | LIsValid (k n : nat)
| LForward (k : nat) | LBackward (k : nat).
(** What a call returns (stl/list.gp_int.go). *)
Inductive lobs :=
| ONode (p : option nat) | OVal (v : Z) (ok : bool) | OBool (b : bool) | OVals (l : list Z) | ONone.

(** The memory, the head of every list, and the number of nodes allocated so
    far (stl/list.gp_int.go:104-106 for the head). *)
Record lworld := LWorld { lheap : dheap; lheads : nat -> option nat; lfresh : nat }.
(** No list has a node yet (stl/list.gp_int.go:109-111). *)
Definition lworld0 : lworld := LWorld (fun _ => DNode 0 None None) (fun _ => None) 0.

(** Enough iterations for loops over all nodes (test driver; no /repo lines). *)
Definition lfuel (w : lworld) : nat := 2 * lfresh w + 64.

(** One call (dispatch to stl/list.gp_int.go:39-401). *)
Definition lstep (w : lworld) (op : lop) : outcome (lworld * lobs) :=
  let h := lheap w in let hd k := lheads w k in let f := lfresh w in
  let put k h' hd' f' o := Ok (LWorld h' (fupd (lheads w) k hd') f', o) in
  let keep o := Ok (w, o) in
  match op with
  | LPushFront k v => ' (h', hd') <- push_front h (hd k) f v ;; put k h' hd' (S f) (ONode (Some f))
  | LPushBack k v => ' (h', hd') <- push_back h (hd k) f v ;; put k h' hd' (S f) (ONode (Some f))
  | LPopFront k => ' (h', hd', (x, ok)) <- pop_front h (hd k) ;; put k h' hd' f (OVal x ok)
  | LPopBack k => ' (h', hd', (x, ok)) <- pop_back h (hd k) ;; put k h' hd' f (OVal x ok)
  | LPushBefore k v m =>
      ' (h', hd') <- push_before h (hd k) f v (Some m) ;; put k h' hd' (S f) (ONode (Some f))
  | LInsertFront k n => ' (h', hd') <- insert_front h (hd k) (Some n) ;; put k h' hd' f (ONode (Some n))
  | LInsertBack k n => ' (h', hd') <- insert_back h (hd k) (Some n) ;; put k h' hd' f (ONode (Some n))
  | LInsertBefore k n m =>
      ' (h', hd') <- insert_before h (hd k) (Some n) (Some m) ;; put k h' hd' f (ONode (Some n))
  | LRemove k n => ' (h', hd', r) <- remove h (hd k) (Some n) ;; put k h' hd' f (ONode r)
  | LRemoveFront k => ' (h', hd', r) <- remove_front h (hd k) ;; put k h' hd' f (ONode r)
  | LRemoveBack k => ' (h', hd', r) <- remove_back h (hd k) ;; put k h' hd' f (ONode r)
  | LInsertBackList k j =>
      if Nat.eqb k j then
        ' (h', hd', ok) <- insert_back_list_self h (hd k) ;; put k h' hd' f (OBool ok)
      else
        ' (h', hd', hdo, ok) <- insert_back_list h (hd k) (hd j) ;;
        Ok (LWorld h' (fupd (fupd (lheads w) k hd') j hdo) f, OBool ok)
  | LInsertFrontList k j =>
      ' (h', hd', hdo, ok) <- insert_front_list h (hd k) (hd j) ;;
      Ok (LWorld h' (fupd (fupd (lheads w) k hd') j hdo) f, OBool ok)
  | LRotateForward k => put k h (rotate_forward h (hd k)) f ONone
  | LRotateBackward k => put k h (rotate_backward h (hd k)) f ONone
  | LClear k => put k h clear f ONone
  | LMoveFront k n => ' (h', hd', r) <- move_front h (hd k) (Some n) ;; put k h' hd' f (ONode r)
  | LMoveBack k n => ' (h', r) <- move_back h (hd k) (Some n) ;; put k h' (hd k) f (ONode r)
  | LMoveBefore k n m =>
      ' (h', hd', r) <- move_before h (hd k) (Some n) (Some m) ;; put k h' hd' f (ONode r)
  | LMoveAfter k n m =>
      ' (h', hd', r) <- move_after h (hd k) (Some n) (Some m) ;; put k h' hd' f (ONode r)
  | LReverse k => ' (h', hd') <- reverse (lfuel w) h (hd k) ;; put k h' hd' f ONone
  | LSort k => ' (h', hd') <- sort_list Z.ltb (lfuel w) h (hd k) ;; put k h' hd' f ONone
  | LSet n v => ' (h', old) <- node_set h (Some n) v ;; Ok (LWorld h' (lheads w) f, OVal old true)
  | LGet n => v <- rd_val h (Some n) ;; keep (OVal v true)
  | LFront k => keep (ONode (front (hd k)))
  | LBack k => keep (ONode (back h (hd k)))
  | LEmpty k => keep (OBool (empty (hd k)))
  | LIsValid k n => b <- is_valid_node (lfuel w) h (hd k) (Some n) ;; keep (OBool b)
  | LForward k => l <- traverse_next (lfuel w) h (visitor (hd k)) ;; keep (OVals l)
  | LBackward k => l <- traverse_prev (lfuel w) h (visitor (hd k)) ;; keep (OVals l)
  end.
