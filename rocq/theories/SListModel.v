(** Model of stl/slist.gp_int.go: the singly linked list. *)
From Coq Require Import ZArith List Bool Arith.
From Verif Require Import GoBase ConcBase.
Import ListNotations.
Open Scope nat_scope.

(** stl/slist.gp_int.go:34-37 IntSListNode; a pointer is [None] (nil) or an
    address. *)
Record snode := SNode { sval : Z; snext : option nat }.
(** Memory: the node at every address. A list is known by the address of the
    dummy node embedded in it (stl/slist.gp_int.go:84-89 IntSList.head; memory
    itself is the Go language). *)
Definition sheap := nat -> snode.

(** Write of the field next at an address (Go language; no /repo lines). *)
Definition set_next (h : sheap) (x : nat) (q : option nat) : sheap := fupd h x (SNode (sval (h x)) q).
(** Pointer comparison (Go language; no /repo lines). *)
Definition sp_eq (p q : option nat) : bool :=
  match p, q with
  | None, None => true
  | Some x, Some y => Nat.eqb x y
  | _, _ => false
  end.

(** stl/slist.gp_int.go:48-54 IntSListNode.Tail: the loop, from the node [x]
    with the count [n]. *)
Fixpoint tail_loop (fuel : nat) (h : sheap) (x : nat) (n : nat) : outcome (option nat * nat) :=
  match snext (h x) with
  | None => Ok (Some x, n)
  | Some y => match fuel with O => Diverge | S f => tail_loop f h y (S n) end
  end.
(** stl/slist.gp_int.go:48-54 IntSListNode.Tail: last node and size. *)
Definition s_tail (fuel : nat) (h : sheap) (p : option nat) : outcome (option nat * nat) :=
  match p with None => Ok (None, 0) | Some x => tail_loop fuel h x 1 end.
(** stl/slist.gp_int.go:56-61 IntSListNode.Next. *)
Definition s_next (h : sheap) (p : option nat) : option nat :=
  match p with None => None | Some x => snext (h x) end.

(** stl/slist.gp_int.go:63-65 IntSListNodeVisitor. *)
Record svisitor := SVisitor { sv_node : option nat; sv_head : option nat }.
(** stl/slist.gp_int.go:67-77 IntSListNodeVisitor.Next: the visitor afterwards
    and the result, which is the constant false. *)
Definition sv_next (h : sheap) (v : svisitor) : svisitor * bool :=
  match sv_node v with
  | None => (match sv_head v with Some _ => SVisitor (sv_head v) (sv_head v) | None => v end, false)
  | Some x => (SVisitor (snext (h x)) (sv_head v), false)
  end.
(** stl/slist.gp_int.go:106-109 Visitor. *)
Definition s_visitor (h : sheap) (k : nat) : svisitor := SVisitor None (snext (h k)).
(** A client's loop "for v := l.Visitor(); v.Next(); { use v.Get().Get() }":
    the values used (stl/slist.gp_int.go:39-41, 67-81). *)
Fixpoint visit_loop (fuel : nat) (h : sheap) (v : svisitor) : outcome (list Z) :=
  let (v, ok) := sv_next h v in
  if ok then
    match sv_node v with
    | None => Panic
    | Some x => match fuel with
                | O => Diverge
                | S f => l <- visit_loop f h v ;; Ok (sval (h x) :: l)
                end
    end
  else Ok [].
(** stl/slist.gp_int.go:100-104 Len: the loop. *)
Fixpoint len_loop (fuel : nat) (h : sheap) (v : svisitor) (n : nat) : outcome nat :=
  let (v, ok) := sv_next h v in
  if ok then match fuel with O => Diverge | S f => len_loop f h v (S n) end else Ok n.
(** stl/slist.gp_int.go:100-104 Len. *)
Definition s_len (fuel : nat) (h : sheap) (k : nat) : outcome nat := len_loop fuel h (s_visitor h k) 0.

(** stl/slist.gp_int.go:96-98 Empty (as written: head.next != nil). *)
Definition s_empty (h : sheap) (k : nat) : bool := match snext (h k) with Some _ => true | None => false end.
(** stl/slist.gp_int.go:111-113 Front. *)
Definition s_front (h : sheap) (k : nat) : option nat := snext (h k).
(** stl/slist.gp_int.go:115-118 Clear. *)
Definition s_clear (h : sheap) (k : nat) : sheap := set_next h k None.
(** stl/slist.gp_int.go:120-125 PushFront; [x] is the address of the new node. *)
Definition s_push_front (h : sheap) (k x : nat) (v : Z) : sheap :=
  set_next (fupd h x (SNode v (snext (h k)))) k (Some x).

(** stl/slist.gp_int.go:179-186: the loop of Remove at the predecessor
    candidate [b]. *)
Fixpoint remove_loop (fuel : nat) (h : sheap) (b node : nat) : outcome (sheap * option nat) :=
  match snext (h b) with
  | None => Ok (h, None)
  | Some c =>
      if c =? node then
        let h := set_next h b (snext (h node)) in Ok (set_next h node None, Some node)
      else match fuel with O => Diverge | S f => remove_loop f h c node end
  end.
(** stl/slist.gp_int.go:177-189 Remove: memory and result. *)
Definition s_remove (fuel : nat) (h : sheap) (k : nat) (node : option nat) : outcome (sheap * option nat) :=
  match node with None => Ok (h, None) | Some n => remove_loop fuel h k n end.
(** stl/slist.gp_int.go:172-175 RemoveFront. *)
Definition s_remove_front (fuel : nat) (h : sheap) (k : nat) : outcome (sheap * option nat) :=
  s_remove fuel h k (snext (h k)).
(** stl/slist.gp_int.go:127-132 PopFront: memory, value and ok. *)
Definition s_pop_front (fuel : nat) (h : sheap) (k : nat) : outcome (sheap * (Z * bool)) :=
  ' (h, n) <- s_remove fuel h k (s_front h k) ;;
  match n with Some x => Ok (h, (sval (h x), true)) | None => Ok (h, (0%Z, false)) end.

(** stl/slist.gp_int.go:134-144 PushFrontList. *)
Definition s_push_front_list (fuel : nat) (h : sheap) (k j : nat) : outcome sheap :=
  ' (t, _) <- s_tail fuel h (snext (h j)) ;;
  match t with
  | None => Ok h
  | Some t => let h := set_next h t (snext (h k)) in Ok (set_next h k (snext (h j)))
  end.

(** stl/slist.gp_int.go:158-165 InsertAfter: memory and result. *)
Definition s_insert_after (h : sheap) (node mark : option nat) : sheap * option nat :=
  match node, mark with
  | Some n, Some m => if n =? m then (h, None)
                      else let h := set_next h n (snext (h m)) in (set_next h m (Some n), Some n)
  | _, _ => (h, None)
  end.
(** stl/slist.gp_int.go:150-156 PushAfter; [x] is the address of the new node. *)
Definition s_push_after (h : sheap) (x : nat) (v : Z) (mark : option nat) : sheap * option nat :=
  match mark with
  | None => (h, None)
  | Some m => s_insert_after (fupd h x (SNode v (snext (h m)))) (Some x) mark
  end.
(** stl/slist.gp_int.go:167-170 InsertFront. *)
Definition s_insert_front (h : sheap) (k : nat) (node : option nat) : sheap * option nat :=
  s_insert_after h node (Some k).

(** stl/slist.gp_int.go:193-202: the loop of MoveFront. *)
Fixpoint move_front_loop (fuel : nat) (h : sheap) (k : nat) (b : option nat) (node : nat) : outcome (sheap * option nat) :=
  match b with
  | None => Ok (h, None)
  | Some x =>
      if sp_eq (snext (h x)) (Some node) then
        let h := set_next h x (snext (h node)) in
        let h := set_next h node (snext (h k)) in
        Ok (set_next h k (Some node), Some node)
      else match fuel with O => Diverge | S f => move_front_loop f h k (snext (h x)) node end
  end.
(** stl/slist.gp_int.go:191-205 MoveFront: memory and result. *)
Definition s_move_front (fuel : nat) (h : sheap) (k : nat) (node : option nat) : outcome (sheap * option nat) :=
  match node with None => Ok (h, None) | Some n => move_front_loop fuel h k (snext (h k)) n end.

(** stl/slist.gp_int.go:213-224: the loop of MoveAfter. *)
Fixpoint move_after_loop (fuel : nat) (h : sheap) (b : option nat) (node mark : nat) : outcome (sheap * option nat) :=
  match b with
  | None => Ok (h, None)
  | Some x =>
      if sp_eq (snext (h x)) (Some node) then
        if x =? mark then Ok (h, None)
        else let h := set_next h x (snext (h node)) in
             let h := set_next h node (snext (h mark)) in
             Ok (set_next h mark (Some node), Some node)
      else match fuel with O => Diverge | S f => move_after_loop f h (snext (h x)) node mark end
  end.
(** stl/slist.gp_int.go:211-227 MoveAfter: memory and result. *)
Definition s_move_after (fuel : nat) (h : sheap) (k : nat) (node mark : option nat) : outcome (sheap * option nat) :=
  match node, mark with
  | Some n, Some m => if n =? m then Ok (h, None) else move_after_loop fuel h (Some k) n m
  | _, _ => Ok (h, None)
  end.

(** stl/slist.gp_int.go:233-237: the loop of Reverse. *)
Fixpoint reverse_loop (fuel : nat) (h : sheap) (k : nat) (p : option nat) : outcome sheap :=
  match p with
  | None => Ok h
  | Some x => let q := snext (h x) in
              let h := fst (s_insert_front h k p) in
              match fuel with O => Diverge | S f => reverse_loop f h k q end
  end.
(** stl/slist.gp_int.go:229-238 Reverse. *)
Definition s_reverse (fuel : nat) (h : sheap) (k : nat) : outcome sheap :=
  let p := snext (h k) in reverse_loop fuel (s_clear h k) k p.

(** stl/slist.gp_int.go:240-253 HasCycle: the loop, entered with slow and fast. *)
Fixpoint has_cycle_loop (fuel : nat) (h : sheap) (slow fast : option nat) : outcome bool :=
  match fast with
  | None => Ok false
  | Some f0 =>
      match snext (h f0) with
      | None => Ok false
      | Some f1 =>
          let fast := snext (h f1) in
          match slow with
          | None => Panic
          | Some s0 =>
              let slow := snext (h s0) in
              if sp_eq fast slow then Ok true
              else match fast with
                   | None => Panic
                   | Some f2 =>
                       match snext (h f2) with
                       | None => Panic
                       | Some f3 =>
                           match slow with
                           | None => Panic
                           | Some s1 => match fuel with
                                        | O => Diverge
                                        | S f => has_cycle_loop f h (snext (h s1)) (snext (h f3))
                                        end
                           end
                       end
                   end
          end
      end
  end.
(** stl/slist.gp_int.go:240-253 HasCycle. *)
Definition s_has_cycle (fuel : nat) (h : sheap) (head : option nat) : outcome bool :=
  has_cycle_loop fuel h head head.

(** stl/slist.gp_int.go:263-267: the loop of Reachable. *)
Fixpoint s_reach_loop (fuel : nat) (h : sheap) (p node dest : option nat) : outcome bool :=
  match p with
  | None => Ok false
  | Some x =>
      if sp_eq p node then Ok false
      else if sp_eq p dest then Ok true
      else match fuel with O => Diverge | S f => s_reach_loop f h (snext (h x)) node dest end
  end.
(** stl/slist.gp_int.go:261-270 Reachable. *)
Definition s_reachable (fuel : nat) (h : sheap) (node dest : option nat) : outcome bool :=
  match node, dest with
  | Some x, Some y => if x =? y then Ok true else s_reach_loop fuel h node node dest
  | _, _ => Ok false
  end.
(** stl/slist.gp_int.go:272-274 IsValidNode. *)
Definition s_is_valid (fuel : nat) (h : sheap) (k : nat) (node : option nat) : outcome bool :=
  s_reachable fuel h (snext (h k)) node.

(** stl/slist.gp_int.go:316-325: the loop of merge of the list [o] into the
    list [k], at the position [p] with po = other.Front(); returns memory and
    the final p and po. *)
Fixpoint merge_loop (fuel : nat) (h : sheap) (o p : nat) (po : option nat) : outcome (sheap * nat * option nat) :=
  match snext (h p), po with
  | Some pn, Some y =>
      match fuel with
      | O => Diverge
      | S f =>
          if (sval (h y) <? sval (h pn))%Z then
            ' (h, n) <- s_remove_front f h o ;;
            let po := s_front h o in
            let (h, p') := s_insert_after h n (Some p) in
            match p' with None => Panic | Some p' => merge_loop f h o p' po end
          else merge_loop f h o pn po
      end
  | _, _ => Ok (h, p, po)
  end.
(** stl/slist.gp_int.go:314-331 merge. *)
Definition s_merge (fuel : nat) (h : sheap) (k o : nat) : outcome sheap :=
  ' (h, p, po) <- merge_loop fuel h o k (s_front h o) ;;
  match po with
  | None => Ok h
  | Some _ => Ok (s_clear (set_next h p po) o)
  end.

(** Swap of two list values (stl/slist.gp_int.go:297, 299: hand, binList[i] =
    binList[i], hand). *)
Definition s_swap (h : sheap) (a b : nat) : sheap :=
  let p := snext (h a) in let q := snext (h b) in set_next (set_next h a q) b p.
(** stl/slist.gp_int.go:295-298: merging the hand into the filled bins; bin [i]
    is at the address [bins + i]. *)
Fixpoint fill_loop (fuel : nat) (h : sheap) (hand bins i filled : nat) : outcome (sheap * nat) :=
  if (i <? filled) && negb (s_empty h (bins + i)) then
    match fuel with
    | O => Diverge
    | S f => h <- s_merge f h (bins + i) hand ;; fill_loop f (s_swap h hand (bins + i)) hand bins (S i) filled
    end
  else Ok (h, i).
(** stl/slist.gp_int.go:292-303: distributing the elements; panics at the 65th bin. *)
Fixpoint distribute (fuel : nat) (h : sheap) (unsorted hand bins filled : nat) : outcome (sheap * nat) :=
  if negb (s_empty h unsorted) then
    match fuel with
    | O => Diverge
    | S f =>
        ' (h, n) <- s_remove_front f h unsorted ;;
        let h := fst (s_insert_front h hand n) in
        ' (h, i) <- fill_loop f h hand bins 0 filled ;;
        if 64 <=? i then Panic
        else distribute f (s_swap h hand (bins + i)) unsorted hand bins (if i =? filled then S filled else filled)
    end
  else Ok (h, filled).
(** stl/slist.gp_int.go:305-307: merging the bins, from bin [i] on. *)
Fixpoint join_bins (n : nat) (fuel : nat) (h : sheap) (bins i : nat) : outcome sheap :=
  match n with
  | O => Ok h
  | S n' => h <- s_merge fuel h (bins + i) (bins + i - 1) ;; join_bins n' fuel h bins (S i)
  end.
(** stl/slist.gp_int.go:285-311 mergeSort; the local lists hand, unsorted and
    binList[64] are at the addresses base, base+1, base+2.. *)
Definition s_merge_sort (fuel : nat) (h : sheap) (k base : nat) : outcome sheap :=
  let hand := base in let unsorted := base + 1 in let bins := base + 2 in
  let h : sheap := fun x => if (base <=? x) && (x <? base + 66) then SNode 0 None else h x in
  let h := set_next h unsorted (snext (h k)) in
  ' (h, filled) <- distribute fuel h unsorted hand bins 0 ;;
  h <- join_bins (filled - 1) fuel h bins 1 ;;
  match filled with
  | O => Panic
  | S top => Ok (set_next h k (snext (h (bins + top))))
  end.
(** stl/slist.gp_int.go:277-282 Sort. *)
Definition s_sort (fuel : nat) (h : sheap) (k base : nat) : outcome sheap :=
  match snext (h k) with
  | None => Ok h
  | Some x => match snext (h x) with None => Ok h | Some _ => s_merge_sort fuel h k base end
  end.

(** A client's loop "for n := l.Front(); n != nil; n = n.Next()": the nodes met
    (stl/slist.gp_int.go:56-61, 111-113). *)
Fixpoint walk_loop (fuel : nat) (h : sheap) (p : option nat) : outcome (list nat) :=
  match p with
  | None => Ok []
  | Some x => match fuel with
              | O => Diverge
              | S f => l <- walk_loop f h (s_next h p) ;; Ok (x :: l)
              end
  end.

(** The calls of a client (stl/slist.gp_int.go:39-61, 92-282). Lists and nodes
    are named by their addresses; [SNew] is NewIntSList. *)
Inductive sop :=
| SNew | SPushFront (k : nat) (v : Z) | SPopFront (k : nat)
| SPushAfter (k : nat) (v : Z) (m : option nat) | SInsertAfter (k : nat) (n m : option nat)
| SInsertFront (k : nat) (n : option nat) | SRemoveFront (k : nat) | SRemove (k : nat) (n : option nat)
| SMoveFront (k : nat) (n : option nat) | SMoveAfter (k : nat) (n m : option nat)
| SReverse (k : nat) | SClear (k : nat) | SPushFrontList (k j : nat) | SSort (k : nat)
| SFront (k : nat) | SEmpty (k : nat) | SLen (k : nat) | SVisit (k : nat) | SIsValid (k : nat) (n : option nat)
| STail (k n : nat) | SGet (n : nat) | SSet (n : nat) (v : Z) | SWalk (k : nat) | SValues (k : nat).
(** What a call shows (stl/slist.gp_int.go:39-61, 92-282). *)
Inductive sobs :=
| SoNone | SoList (k : nat) | SoNode (p : option nat) | SoVal (v : Z) (ok : bool) | SoBool (b : bool)
| SoNat (n : nat) | SoTail (p : option nat) (n : nat) | SoNodes (l : list nat) | SoVals (l : list Z).
(** Memory and the next free address (Go language; no /repo lines). *)
Record sworld := SWorld { s_heap : sheap; s_fresh : nat }.
(** Nothing allocated yet (Go language; no /repo lines). *)
Definition sworld0 : sworld := SWorld (fun _ => SNode 0 None) 0.

(** One call (stl/slist.gp_int.go:39-61, 92-282). *)
Definition sstep (w : sworld) (op : sop) : outcome (sworld * sobs) :=
  let h := s_heap w in let x := s_fresh w in
  let same o := Ok (w, o) in
  let put h o := Ok (SWorld h x, o) in
  match op with
  | SNew => Ok (SWorld (fupd h x (SNode 0 None)) (S x), SoList x)
  | SPushFront k v => Ok (SWorld (s_push_front h k x v) (S x), SoNode (Some x))
  | SPopFront k => ' (h, r) <- s_pop_front x h k ;; put h (SoVal (fst r) (snd r))
  | SPushAfter k v m => let (h, r) := s_push_after h x v m in
                        Ok (SWorld h (match m with Some _ => S x | None => x end), SoNode r)
  | SInsertAfter k n m => let (h, r) := s_insert_after h n m in put h (SoNode r)
  | SInsertFront k n => let (h, r) := s_insert_front h k n in put h (SoNode r)
  | SRemoveFront k => ' (h, r) <- s_remove_front x h k ;; put h (SoNode r)
  | SRemove k n => ' (h, r) <- s_remove x h k n ;; put h (SoNode r)
  | SMoveFront k n => ' (h, r) <- s_move_front x h k n ;; put h (SoNode r)
  | SMoveAfter k n m => ' (h, r) <- s_move_after x h k n m ;; put h (SoNode r)
  | SReverse k => h <- s_reverse x h k ;; put h SoNone
  | SClear k => put (s_clear h k) SoNone
  | SPushFrontList k j => h <- s_push_front_list x h k j ;; put h SoNone
  | SSort k => h <- s_sort x h k x ;; put h SoNone
  | SFront k => same (SoNode (s_front h k))
  | SEmpty k => same (SoBool (s_empty h k))
  | SLen k => n <- s_len x h k ;; same (SoNat n)
  | SVisit k => l <- visit_loop x h (s_visitor h k) ;; same (SoVals l)
  | SIsValid k n => b <- s_is_valid x h k n ;; same (SoBool b)
  | STail k n => ' (p, c) <- s_tail x h (Some n) ;; same (SoTail p c)
  | SGet n => same (SoVal (sval (h n)) true)
  | SSet n v => put (fupd h n (SNode v (snext (h n)))) (SoVal (sval (h n)) true)
  | SWalk k => l <- walk_loop x h (s_front h k) ;; same (SoNodes l)
  | SValues k => l <- walk_loop x h (s_front h k) ;; same (SoVals (map (fun y => sval (h y)) l))
  end.
