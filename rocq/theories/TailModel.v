(** Model of the template stl/gp/slist.gp.go expanded with GOGP_HasTail: the
    singly linked list that also keeps a pointer to its last node. Code that
    the switch does not touch is the code of stl/slist.gp_int.go
    ([SListModel.sstep]). *)
From Coq Require Import ZArith List Bool Arith.
From Verif Require Import GoBase ConcBase SListModel.
Import ListNotations.
Open Scope nat_scope.

(** The field tail of every list (stl/gp/slist.gp.go:187-195), by the address of
    the list. *)
Definition tails := nat -> option nat.
(** Memory, the next free address, and the fields tail. *)
Record tworld := TWorld { t_base : sworld; t_tail : tails }.
(** Nothing allocated yet (Go language; no /repo lines). *)
Definition tworld0 : tworld := TWorld sworld0 (fun _ => None).

(** stl/gp/slist.gp.go:238-240, 285-287: "if this.tail == nil { this.tail = n }". *)
Definition if_nil (T : tails) (k : nat) (n : option nat) : tails :=
  match T k with None => fupd T k n | Some _ => T end.
(** stl/gp/slist.gp.go:360-362, 403-405: "if this.tail == node { this.tail = b }". *)
Definition if_tail (T : tails) (k node b : nat) : tails :=
  if sp_eq (T k) (Some node) then fupd T k (Some b) else T.

(** stl/gp/slist.gp.go:262-271 PushBack; [x] is the address of the new node. *)
Definition t_push_back (h : sheap) (T : tails) (k x : nat) (v : Z) : sheap * tails :=
  let h := fupd h x (SNode v None) in
  let h := match T k with Some t => set_next h t (Some x) | None => set_next h k (Some x) end in
  (h, fupd T k (Some x)).
(** stl/gp/slist.gp.go:274-290 PushFrontList with the switch: t = other.tail. *)
Definition t_push_front_list (h : sheap) (T : tails) (k j : nat) : sheap * tails :=
  match T j with
  | None => (h, T)
  | Some t => let h := set_next h t (snext (h k)) in
              let h := set_next h k (snext (h j)) in
              (h, if_nil T k (Some t))
  end.
(** stl/gp/slist.gp.go:293-303 PushBackList. *)
Definition t_push_back_list (h : sheap) (T : tails) (k j : nat) : sheap * tails :=
  match T j with
  | None => (h, T)
  | Some tj =>
      let h := match T k with
               | Some tk => set_next h tk (snext (h j))
               | None => set_next h k (snext (h j))
               end in
      let T := fupd T k (Some tj) in
      (s_clear h j, fupd T j None)
  end.
(** stl/gp/slist.gp.go:353-366: the loop of MoveFront. *)
Fixpoint t_move_front_loop (fuel : nat) (h : sheap) (T : tails) (k : nat) (b : option nat) (node : nat)
  : outcome (sheap * tails * option nat) :=
  match b with
  | None => Ok (h, T, None)
  | Some x =>
      if sp_eq (snext (h x)) (Some node) then
        let h := set_next h x (snext (h node)) in
        let h := set_next h node (snext (h k)) in
        let h := set_next h k (Some node) in
        Ok (h, if_tail T k node x, Some node)
      else match fuel with O => Diverge | S f => t_move_front_loop f h T k (snext (h x)) node end
  end.
(** stl/gp/slist.gp.go:351-369 MoveFront. *)
Definition t_move_front (fuel : nat) (h : sheap) (T : tails) (k : nat) (node : option nat) : outcome (sheap * tails * option nat) :=
  match node with None => Ok (h, T, None) | Some n => t_move_front_loop fuel h T k (snext (h k)) n end.
(** stl/gp/slist.gp.go:374-383: the loop of MoveBack. *)
Fixpoint t_move_back_loop (fuel : nat) (h : sheap) (T : tails) (k : nat) (b : option nat) (node : nat)
  : outcome (sheap * tails * option nat) :=
  match b with
  | None => Ok (h, T, None)
  | Some x =>
      if sp_eq (snext (h x)) (Some node) then
        let h := set_next h x (snext (h node)) in
        let h := set_next h node None in
        match T k with
        | None => Panic
        | Some t => Ok (set_next h t (Some node), fupd T k (Some node), Some node)
        end
      else match fuel with O => Diverge | S f => t_move_back_loop f h T k (snext (h x)) node end
  end.
(** stl/gp/slist.gp.go:372-386 MoveBack. *)
Definition t_move_back (fuel : nat) (h : sheap) (T : tails) (k : nat) (node : option nat) : outcome (sheap * tails * option nat) :=
  match node with
  | None => Ok (h, T, None)
  | Some n => match snext (h n) with
              | None => Ok (h, T, None)
              | Some _ => t_move_back_loop fuel h T k (snext (h k)) n
              end
  end.
(** stl/gp/slist.gp.go:395-410: the loop of MoveAfter. *)
Fixpoint t_move_after_loop (fuel : nat) (h : sheap) (T : tails) (k : nat) (b : option nat) (node mark : nat)
  : outcome (sheap * tails * option nat) :=
  match b with
  | None => Ok (h, T, None)
  | Some x =>
      if sp_eq (snext (h x)) (Some node) then
        if x =? mark then Ok (h, T, None)
        else let h := set_next h x (snext (h node)) in
             let h := set_next h node (snext (h mark)) in
             let h := set_next h mark (Some node) in
             Ok (h, if_tail T k node x, Some node)
      else match fuel with O => Diverge | S f => t_move_after_loop f h T k (snext (h x)) node mark end
  end.
(** stl/gp/slist.gp.go:393-413 MoveAfter. *)
Definition t_move_after (fuel : nat) (h : sheap) (T : tails) (k : nat) (node mark : option nat) : outcome (sheap * tails * option nat) :=
  match node, mark with
  | Some n, Some m => if n =? m then Ok (h, T, None) else t_move_after_loop fuel h T k (Some k) n m
  | _, _ => Ok (h, T, None)
  end.
(** stl/gp/slist.gp.go:465-501 Sort: as without the switch; a sort of two or
    more nodes sets the tail last (498-500). The tails of the local lists of
    mergeSort are never read before that and are left out. *)
Definition t_sort (fuel : nat) (h : sheap) (T : tails) (k base : nat) : outcome (sheap * tails) :=
  h' <- s_sort fuel h k base ;;
  match snext (h k) with
  | None => Ok (h', T)
  | Some x => match snext (h x) with
              | None => Ok (h', T)
              | Some _ => ' (t, _) <- s_tail fuel h' (snext (h' k)) ;; Ok (h', fupd T k t)
              end
  end.

(** The calls of a client: those of the list without the switch, and those the
    switch adds (stl/gp/slist.gp.go:222-224, 253-271, 293-303, 372-386). *)
Inductive top :=
| TBase (o : sop) | TBack (k : nat) | TPopBack (k : nat) | TPushBack (k : nat) (v : Z)
| TPushBackList (k j : nat) | TMoveBack (k : nat) (n : option nat).

(** One call (stl/gp/slist.gp.go:142-501). *)
Definition tstep (w : tworld) (op : top) : outcome (tworld * sobs) :=
  let h := s_heap (t_base w) in let x := s_fresh (t_base w) in let T := t_tail w in
  let put h T o := Ok (TWorld (SWorld h x) T, o) in
  match op with
  | TBase SNew => ' (b, o) <- sstep (t_base w) SNew ;; Ok (TWorld b (fupd T x None), o)
  | TBase (SPushFront k v) => ' (b, o) <- sstep (t_base w) (SPushFront k v) ;; Ok (TWorld b (if_nil T k (Some x)), o)
  | TBase (SClear k) => put (s_clear h k) (fupd T k None) SoNone
  | TBase (SPushFrontList k j) => let (h, T) := t_push_front_list h T k j in put h T SoNone
  | TBase (SMoveFront k n) => ' (h, T, r) <- t_move_front x h T k n ;; put h T (SoNode r)
  | TBase (SMoveAfter k n m) => ' (h, T, r) <- t_move_after x h T k n m ;; put h T (SoNode r)
  | TBase (SReverse k) => let p := snext (h k) in
                          h <- reverse_loop x (s_clear h k) k p ;; put h (fupd (fupd T k None) k p) SoNone
  | TBase (SSort k) => ' (h, T) <- t_sort x h T k x ;; put h T SoNone
  | TBase o => ' (b, o) <- sstep (t_base w) o ;; Ok (TWorld b T, o)
  | TBack k => Ok (w, SoNode (T k))
  | TPopBack k =>
      ' (h, n) <- s_remove x h k (T k) ;;
      match n with Some y => put h T (SoVal (sval (h y)) true) | None => put h T (SoVal 0 false) end
  | TPushBack k v => let (h, T) := t_push_back h T k x v in Ok (TWorld (SWorld h (S x)) T, SoNode (Some x))
  | TPushBackList k j => let (h, T) := t_push_back_list h T k j in put h T SoNone
  | TMoveBack k n => ' (h, T, r) <- t_move_back x h T k n ;; put h T (SoNode r)
  end.
