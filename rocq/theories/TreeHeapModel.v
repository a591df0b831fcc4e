(** Model of stl/tree.gp_int.go with nodes as pointers: trees that are changed
    while they are visited, nodes that hang at several places, nil children and
    cycles. (TreeModel has the same functions for trees that stay as they are.)
    The children are the sortable slices of SortSliceModel
    (stl/sort_slice.gp_#inttreenodeb60b.go). *)
From Coq Require Import ZArith List Bool Arith.
From Verif Require Import GoBase ConcBase SortSliceModel.
Import ListNotations.
Open Scope Z_scope.

(** stl/tree.gp_int.go:39-42 IntTreeNode; a child is an address or nil. *)
Record hnode := HNode { n_val : Z; n_kids : gslice (option nat) }.
(** A node of zero values (Go language; no /repo lines). *)
Definition hnode0 : hnode := HNode 0 (GSlice [] 0).
(** stl/tree.gp_int.go:105-110 IntTreeNodeVisitor: the current node, and the stack of
    (parent, brother index) pairs with the innermost first; the code keeps two
    parallel slices of equal length with the innermost last. *)
Record hvisitor := HV { hv_node : option nat; hv_stack : list (option nat * Z) }.
(** Memory: the nodes, the next address, and the visitors. *)
Record hworld := HW { hw_heap : nat -> hnode; hw_next : nat; hw_vis : nat -> hvisitor; hw_nvis : nat }.
(** Nothing allocated yet (Go language; no /repo lines). *)
Definition hworld0 : hworld := HW (fun _ => hnode0) 0 (fun _ => HV None []) 0.

(** The address [a], or nil if nothing is there (Go language; no /repo lines). *)
Definition ptr_of (w : hworld) (a : nat) : option nat := if (a <? hw_next w)%nat then Some a else None.
(** Reading through a pointer; nil panics (Go language; no /repo lines). *)
Definition deref (w : hworld) (p : option nat) : outcome (nat * hnode) :=
  match p with Some a => Ok (a, hw_heap w a) | None => Panic end.
(** Writing the children of a node (Go language; no /repo lines). *)
Definition set_kids (w : hworld) (a : nat) (g : gslice (option nat)) : hworld :=
  HW (fupd (hw_heap w) a (HNode (n_val (hw_heap w a)) g)) (hw_next w) (hw_vis w) (hw_nvis w).
(** A new node (stl/tree.gp_int.go:61; new(IntTreeNode) in client code). *)
Definition alloc (w : hworld) (v : Z) : hworld * nat :=
  (HW (fupd (hw_heap w) (hw_next w) (HNode v (GSlice [] 0))) (S (hw_next w)) (hw_vis w) (hw_nvis w), hw_next w).

(** stl/tree.gp_int.go:66-69 AddChildNode. *)
Definition add_child_node (grow : nat -> nat) (w : hworld) (p c : option nat) (idx : Z) : outcome (hworld * option nat) :=
  ' (a, n) <- deref w p ;;
  ' (g, _) <- ss_insert None grow (n_kids n) c idx ;;
  Ok (set_kids w a g, c).
(** stl/tree.gp_int.go:60-63 AddChild. *)
Definition add_child (grow : nat -> nat) (w : hworld) (p : option nat) (v : Z) (idx : Z) : outcome (hworld * option nat) :=
  let (w, x) := alloc w v in add_child_node grow w p (Some x) idx.
(** stl/tree.gp_int.go:83-86 RemoveChild. *)
Definition remove_child (grow : nat -> nat) (w : hworld) (p : option nat) (idx : Z) : outcome (hworld * option (option nat)) :=
  ' (a, n) <- deref w p ;;
  ' (g, r) <- ss_remove None grow (n_kids n) idx ;;
  Ok (set_kids w a g, r).
(** stl/tree.gp_int.go:51-53 SortChildren, 44-49 Less. [srt] is sort.Sort on the children
    with their values; comparing a nil child panics, and with two or more
    children every child is compared. *)
Definition sort_children (srt : list (nat * Z) -> list (nat * Z)) (w : hworld) (p : option nat) : outcome hworld :=
  ' (a, n) <- deref w p ;;
  let ks := visible (n_kids n) in
  if (length ks <=? 1)%nat then Ok w
  else
    let fix vals ks := match ks with
                       | [] => Ok []
                       | None :: _ => Panic
                       | Some c :: ks => r <- vals ks ;; Ok ((c, n_val (hw_heap w c)) :: r)
                       end in
    l <- vals ks ;;
    let g := n_kids n in
    Ok (set_kids w a (GSlice (map (fun e => Some (fst e)) (srt l) ++ skipn (glen g) (garr g)) (glen g))).

(** stl/tree.gp_int.go:96-102 All; [fuel] bounds the depth of the recursion. *)
Fixpoint all_rec (fuel : nat) (w : hworld) (p : option nat) : outcome (list Z) :=
  match fuel with
  | O => Diverge
  | S f =>
      ' (a, n) <- deref w p ;;
      fold_left (fun acc c => l <- acc ;; r <- all_rec f w c ;; Ok (l ++ r)) (visible (n_kids n)) (Ok [n_val n])
  end.

(** stl/tree.gp_int.go:152-156: the loop of top_right. *)
Fixpoint h_top_loop (fuel : nat) (w : hworld) (p : option nat) (st : list (option nat * Z))
  : outcome (option nat * list (option nat * Z)) :=
  match fuel with
  | O => Diverge
  | S f =>
      ' (a, n) <- deref w p ;;
      let l := ss_len (n_kids n) in
      if 0 <? l then
        c <- ss_must_get (n_kids n) (l - 1) ;;
        h_top_loop f w c ((p, l - 1) :: st)
      else Ok (p, st)
  end.
(** stl/tree.gp_int.go:149-160 top_right. A path longer than the number of nodes never
    ends. *)
Definition h_top_right (w : hworld) (p : option nat) (st : list (option nat * Z)) :=
  match p with
  | None => Ok (None, st)
  | Some _ => h_top_loop (S (hw_next w)) w p st
  end.

(** stl/tree.gp_int.go:172-184: the loop of Next. A round that does not end the loop
    either pops or moves to the next brother (which may be nil). *)
Fixpoint h_next_loop (fuel : nat) (w : hworld) (st : list (option nat * Z)) : outcome hvisitor :=
  match fuel with
  | O => Diverge
  | S f =>
      match st with
      | [] => Ok (HV None [])
      | (p, bIdx) :: rest =>
          if bIdx <? 0 then match p with Some _ => Ok (HV p rest) | None => h_next_loop f w rest end
          else
            ' (a, n) <- deref w p ;;
            if bIdx <? ss_len (n_kids n) - 1 then
              c <- ss_must_get (n_kids n) (bIdx + 1) ;;
              match c with Some _ => Ok (HV c ((p, bIdx + 1) :: rest)) | None => h_next_loop f w ((p, bIdx + 1) :: rest) end
            else h_next_loop f w rest
      end
  end.
(** Rounds the loop of Next can take: one for every stack entry and for every
    child of the parents on it (fuel only; no /repo lines). *)
Definition next_fuel (w : hworld) (st : list (option nat * Z)) : nat :=
  fold_right (fun e n => (match fst e with Some a => glen (n_kids (hw_heap w a)) | None => 0 end + 1 + n)%nat) 1%nat st.

(** stl/tree.gp_int.go:163-189 Next. *)
Definition h_next (w : hworld) (v : hvisitor) : outcome (hvisitor * bool) :=
  v' <- match hv_node v with
        | Some a =>
            let n := hw_heap w a in
            if 0 <? ss_len (n_kids n) then
              c <- ss_must_get (n_kids n) 0 ;;
              let st := (Some a, 0) :: hv_stack v in
              match c with Some _ => Ok (HV c st) | None => h_next_loop (next_fuel w st) w st end
            else h_next_loop (next_fuel w (hv_stack v)) w (hv_stack v)
        | None => h_next_loop (next_fuel w (hv_stack v)) w (hv_stack v)
        end ;;
  Ok (v', match hv_node v' with Some _ => true | None => false end).

(** stl/tree.gp_int.go:192-217 Prev. On an empty stack tail() yields (nil, 0) and pop()
    does nothing (117-134). *)
Definition h_prev (w : hworld) (v : hvisitor) : outcome (hvisitor * bool) :=
  v' <- match hv_node v, hv_stack v with
        | None, (p, _) :: rest => ' (n, st) <- h_top_right w p rest ;; Ok (HV n st)
        | None, [] => Ok v
        | Some _, [] => Ok (HV None [])
        | Some _, (p, bIdx) :: rest =>
            if 0 <? bIdx then
              ' (a, n) <- deref w p ;;
              c <- ss_must_get (n_kids n) (bIdx - 1) ;;
              ' (n, st) <- h_top_right w c ((p, bIdx - 1) :: rest) ;;
              Ok (HV n st)
            else Ok (HV p rest)
        end ;;
  Ok (v', match hv_node v' with Some _ => true | None => false end).

(** stl/tree.gp_int.go:220-225 Get. *)
Definition h_get (w : hworld) (v : hvisitor) : Z := match hv_node v with Some a => n_val (hw_heap w a) | None => 0 end.

(** The calls of a client. Nodes are named by their address (an address without a node
    is nil), visitors by their number (stl/tree.gp_int.go:51-93, 96-102, 163-225). *)
Inductive hop :=
| HNew | HAddChild (n : nat) (v idx : Z) | HAddChildNode (n c : nat) (idx : Z) | HRemove (n : nat) (idx : Z)
| HGetChild (n : nat) (idx : Z) | HNum (n : nat) | HSort (n : nat) | HAll (n : nat)
| HVisitor (n : nat) | HNext (i : nat) | HPrev (i : nat) | HGet (i : nat).
(** Results. *)
Inductive hobs := HPtr (p : option nat) | HChild (r : option (option nat)) | HInt (z : Z) | HList (l : list Z) | HBool (b : bool) | HNone.

(** One call (stl/tree.gp_int.go:51-225). A visitor that does not exist is nil, and its
    methods panic. *)
Definition h_step (srt : list (nat * Z) -> list (nat * Z)) (grow : nat -> nat) (w : hworld) (op : hop) : outcome (hworld * hobs) :=
  let put_vis i v := HW (hw_heap w) (hw_next w) (fupd (hw_vis w) i v) (hw_nvis w) in
  match op with
  | HNew => let (w, x) := alloc w 0 in Ok (w, HPtr (Some x))
  | HAddChild n v idx => ' (w, p) <- add_child grow w (ptr_of w n) v idx ;; Ok (w, HPtr p)
  | HAddChildNode n c idx => ' (w, p) <- add_child_node grow w (ptr_of w n) (ptr_of w c) idx ;; Ok (w, HPtr p)
  | HRemove n idx => ' (w, r) <- remove_child grow w (ptr_of w n) idx ;; Ok (w, HChild r)
  | HGetChild n idx => ' (a, nd) <- deref w (ptr_of w n) ;; r <- ss_get (n_kids nd) idx ;; Ok (w, HChild r)
  | HNum n => ' (a, nd) <- deref w (ptr_of w n) ;; Ok (w, HInt (ss_len (n_kids nd)))
  | HSort n => w <- sort_children srt w (ptr_of w n) ;; Ok (w, HNone)
  | HAll n => l <- all_rec (S (hw_next w)) w (ptr_of w n) ;; Ok (w, HList l)
  | HVisitor n => Ok (HW (hw_heap w) (hw_next w) (fupd (hw_vis w) (hw_nvis w) (HV None [(ptr_of w n, -1)])) (S (hw_nvis w)),
                      HInt (Z.of_nat (hw_nvis w)))
  | HNext i => if (i <? hw_nvis w)%nat then ' (v, b) <- h_next w (hw_vis w i) ;; Ok (put_vis i v, HBool b) else Panic
  | HPrev i => if (i <? hw_nvis w)%nat then ' (v, b) <- h_prev w (hw_vis w i) ;; Ok (put_vis i v, HBool b) else Panic
  | HGet i => if (i <? hw_nvis w)%nat then Ok (w, HInt (h_get w (hw_vis w i))) else Panic
  end.
