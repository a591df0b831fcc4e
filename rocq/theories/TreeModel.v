(** Model of stl/tree.gp_int.go (IntTreeNode and its visitor).  The file
    fs/tree.gp_filehash38b3.go is the same template for another value type, so
    the value type is a parameter.  Nodes are values instead of pointers: no
    modelled function changes a tree while a visitor is used. *)
From Coq Require Import ZArith List Bool.
From Verif Require Import GoBase.
Import ListNotations.
Open Scope Z_scope.

(** stl/tree.gp_int.go:39-42 IntTreeNode. *)
Inductive tree (V : Type) : Type := Node (val : V) (children : list (tree V)).
Arguments Node {V}.

(** Field access (stl/tree.gp_int.go:39-42). *)
Definition tval {V} (t : tree V) : V := match t with Node v _ => v end.
(** Field access (stl/tree.gp_int.go:39-42, 55-57). *)
Definition tchildren {V} (t : tree V) : list (tree V) := match t with Node _ c => c end.

(** stl/tree.gp_int.go:96-102 All: append the value, then All of every child. *)
Fixpoint all {V} (t : tree V) : list V :=
  match t with
  | Node v cs => fold_left (fun list c => list ++ all c) cs [v]
  end.

(** stl/tree.gp_int.go:105-110 IntTreeNodeVisitor: the current node, and the
    stack of (parent, brother index) pairs with the innermost first; the code
    keeps two parallel slices of equal length with the innermost last. *)
Record visitor (V : Type) := Visitor { vnode : option (tree V); vstack : list (tree V * Z) }.
Arguments Visitor {V}.
Arguments vnode {V}.
Arguments vstack {V}.

(** stl/tree.gp_int.go:89-93 Visitor, 112-115 push. *)
Definition new_visitor {V} (t : tree V) : visitor V := Visitor None [(t, -1)].

(** Length of the longest chain of children: the number of rounds of the loop at
    152-156 is bounded by it (fuel only; no /repo lines). *)
Fixpoint height {V} (t : tree V) : nat :=
  match t with
  | Node _ cs => fold_right (fun c n => Nat.max (S (height c)) n) O cs
  end.

(** stl/tree.gp_int.go:149-160 top_right, the loop at 152-156. *)
Fixpoint top_right_loop {V} (fuel : nat) (n : tree V) (st : list (tree V * Z))
  : outcome (tree V * list (tree V * Z)) :=
  match fuel with
  | O => Diverge
  | S fuel =>
      let l := zlen (tchildren n) in
      if 0 <? l then
        c <- zget (tchildren n) (l - 1) ;;
        top_right_loop fuel c ((n, l - 1) :: st)
      else Ok (n, st)
  end.

(** stl/tree.gp_int.go:149-160 top_right for a non-nil node. *)
Definition top_right {V} (n : tree V) (st : list (tree V * Z)) :=
  top_right_loop (S (height n)) n st.

(** stl/tree.gp_int.go:172-184: the loop of Next, which runs while node is nil and
    the stack is not empty.  Every round that does not end the loop pops. *)
Fixpoint next_loop {V} (st : list (tree V * Z)) : outcome (visitor V) :=
  match st with
  | [] => Ok (Visitor None [])
  | (p, bIdx) :: rest =>
      if bIdx <? 0 then Ok (Visitor (Some p) rest)
      else if bIdx <? zlen (tchildren p) - 1 then
        c <- zget (tchildren p) (bIdx + 1) ;;
        Ok (Visitor (Some c) ((p, bIdx + 1) :: rest))
      else next_loop rest
  end.

(** Result of Next/Prev: node != nil (stl/tree.gp_int.go:185-188, 213-216). *)
Definition is_some {A} (o : option A) : bool := match o with Some _ => true | None => false end.

(** stl/tree.gp_int.go:163-189 Next. *)
Definition visitor_next {V} (v : visitor V) : outcome (visitor V * bool) :=
  v' <- match vnode v with
        | Some n =>
            if 0 <? zlen (tchildren n) then
              c <- zget (tchildren n) 0 ;; Ok (Visitor (Some c) ((n, 0) :: vstack v))
            else next_loop (vstack v)
        | None => next_loop (vstack v)
        end ;;
  Ok (v', is_some (vnode v')).

(** stl/tree.gp_int.go:192-217 Prev.  On an empty stack tail() yields (nil, 0) and
    pop() does nothing (117-134). *)
Definition visitor_prev {V} (v : visitor V) : outcome (visitor V * bool) :=
  v' <- match vnode v, vstack v with
        | None, (p, _) :: rest =>
            ' (n, st) <- top_right p rest ;; Ok (Visitor (Some n) st)
        | None, [] => Ok v
        | Some _, [] => Ok (Visitor None [])
        | Some _, (p, bIdx) :: rest =>
            if 0 <? bIdx then
              c <- zget (tchildren p) (bIdx - 1) ;;
              ' (n, st) <- top_right c ((p, bIdx - 1) :: rest) ;;
              Ok (Visitor (Some n) st)
            else Ok (Visitor (Some p) rest)
        end ;;
  Ok (v', is_some (vnode v')).

(** stl/tree.gp_int.go:220-225 Get; [zero] is the zero value of the type. *)
Definition visitor_get {V} (zero : V) (v : visitor V) : V :=
  match vnode v with Some n => tval n | None => zero end.
