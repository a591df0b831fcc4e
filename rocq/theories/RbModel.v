(** Model of stl/gp/rbtree.gp.go (the template RBTree with int keys and values):
    nodes in a heap, with their links. *)
From Coq Require Import ZArith List Bool.
From Verif Require Import GoBase CmpModel.
Import ListNotations.
Open Scope Z_scope.

(** A pointer to a node: nil or an address (Go language; no /repo lines). *)
Definition ptr := option nat.
(** stl/gp/rbtree.gp.go:173-178, 191-195 GOGPGlobalNamePrefixRBTreeNode with its
    data. Colours: 0 red, 1 black (145-148). *)
Record rnode := RN { rn_key : Z; rn_val : Z; rn_left : ptr; rn_right : ptr; rn_parent : ptr; rn_color : Z }.
(** stl/gp/rbtree.gp.go:151-155 GOGPGlobalNamePrefixRBTree: the header is the node
    at address 0, other nodes get the next free address. Simplified: size is not
    reduced to 64 bits. *)
Record rbt := RB { rb_heap : nat -> rnode; rb_next : nat; rb_size : Z; rb_cmp : Z }.
(** A node as made by &Node{} (Go language; no /repo lines). *)
Definition zero_node : rnode := RN 0 0 None None None 0.
(** stl/gp/rbtree.gp.go:305-307 New: the zero value. *)
Definition rb_new : rbt := RB (fun _ => zero_node) 1 0 CMPLesser.

(** Equality of pointers (Go language; no /repo lines). *)
Definition peqb (p q : ptr) : bool :=
  match p, q with
  | None, None => true
  | Some a, Some b => Nat.eqb a b
  | _, _ => false
  end.
(** Writing to a node (Go language; no /repo lines). *)
Definition hset (h : nat -> rnode) (a : nat) (n : rnode) : nat -> rnode := fun b => if Nat.eqb b a then n else h b.
(** Assignments to the fields of the node at [a] (Go language; no /repo lines). *)
Definition set_left h a p := let n := h a in hset h a (RN (rn_key n) (rn_val n) p (rn_right n) (rn_parent n) (rn_color n)).
(** See set_left. *)
Definition set_right h a p := let n := h a in hset h a (RN (rn_key n) (rn_val n) (rn_left n) p (rn_parent n) (rn_color n)).
(** See set_left. *)
Definition set_parent h a p := let n := h a in hset h a (RN (rn_key n) (rn_val n) (rn_left n) (rn_right n) p (rn_color n)).
(** See set_left. *)
Definition set_color h a c := let n := h a in hset h a (RN (rn_key n) (rn_val n) (rn_left n) (rn_right n) (rn_parent n) c).

(** Loops run for at most [fuel] rounds; more is reported as divergence. *)
(** stl/gp/rbtree.gp.go:225-231 topLeft of a node. *)
Fixpoint top_left (fuel : nat) (h : nat -> rnode) (a : nat) : outcome nat :=
  match rn_left (h a), fuel with
  | None, _ => Ok a
  | Some b, S f => top_left f h b
  | _, O => Diverge
  end.
(** stl/gp/rbtree.gp.go:233-239 topRight of a node. *)
Fixpoint top_right (fuel : nat) (h : nat -> rnode) (a : nat) : outcome nat :=
  match rn_right (h a), fuel with
  | None, _ => Ok a
  | Some b, S f => top_right f h b
  | _, O => Diverge
  end.
(** stl/gp/rbtree.gp.go:247-250, the loop of next: the last [x] and [y]. *)
Fixpoint climb_right (fuel : nat) (h : nat -> rnode) (x : nat) (y : ptr) : outcome (nat * nat) :=
  match y with
  | None => Panic
  | Some b =>
      if peqb (Some x) (rn_right (h b)) then
        match fuel with O => Diverge | S f => climb_right f h b (rn_parent (h b)) end
      else Ok (x, b)
  end.
(** stl/gp/rbtree.gp.go:268-271, the loop of prev. *)
Fixpoint climb_left (fuel : nat) (h : nat -> rnode) (x : nat) (y : ptr) : outcome (nat * nat) :=
  match y with
  | None => Panic
  | Some b =>
      if peqb (Some x) (rn_left (h b)) then
        match fuel with O => Diverge | S f => climb_left f h b (rn_parent (h b)) end
      else Ok (x, b)
  end.
(** stl/gp/rbtree.gp.go:242-258 next. *)
Definition rb_nextp (fuel : nat) (h : nat -> rnode) (this : ptr) : outcome ptr :=
  match this with
  | None => Ok None
  | Some a =>
      match rn_right (h a) with
      | Some r => n <- top_left fuel h r ;; Ok (Some n)
      | None =>
          xy <- climb_right fuel h a (rn_parent (h a)) ;;
          let '(x, y) := xy in
          Ok (Some (if negb (peqb (rn_right (h x)) (Some y)) then y else x))
      end
  end.
(** stl/gp/rbtree.gp.go:261-276 prev. *)
Definition rb_prevp (fuel : nat) (h : nat -> rnode) (this : ptr) : outcome ptr :=
  match this with
  | None => Ok None
  | Some a =>
      if (rn_color (h a) =? 0) && peqb (rn_parent (h a)) (Some a) then Ok (rn_right (h a))
      else match rn_left (h a) with
           | Some l => n <- top_right fuel h l ;; Ok (Some n)
           | None =>
               xy <- climb_left fuel h a (rn_parent (h a)) ;;
               Ok (Some (snd xy))
           end
  end.
(** stl/gp/rbtree.gp.go:278-289 rotateLeft, called with the address of the field
    parent of the header. *)
Definition rotate_left (s : rbt) (this : ptr) : outcome rbt :=
  let h := rb_heap s in
  match this with
  | None => Ok s
  | Some a =>
      if peqb (rn_parent (h 0%nat)) this then
        match rn_right (h a) with
        | None => Panic
        | Some y =>
            let h1 := set_right h a (rn_left (h y)) in
            let h2 := match rn_left (h1 y) with Some b => set_parent h1 b (Some a) | None => h1 end in
            let h3 := set_parent h2 y (rn_parent (h2 a)) in
            let h4 := set_parent h3 0%nat (Some y) in
            let h5 := set_left h4 y (Some a) in
            let h6 := set_parent h5 a (Some y) in
            Ok (RB h6 (rb_next s) (rb_size s) (rb_cmp s))
        end
      else Ok s
  end.
(** stl/gp/rbtree.gp.go:291-302 rotateRight. *)
Definition rotate_right (s : rbt) (this : ptr) : outcome rbt :=
  let h := rb_heap s in
  match this with
  | None => Ok s
  | Some a =>
      if peqb (rn_parent (h 0%nat)) this then
        match rn_left (h a) with
        | None => Panic
        | Some y =>
            let h1 := set_left h a (rn_right (h y)) in
            let h2 := match rn_right (h1 y) with Some b => set_parent h1 b (Some a) | None => h1 end in
            let h3 := set_parent h2 y (rn_parent (h2 a)) in
            let h4 := set_parent h3 0%nat (Some y) in
            let h5 := set_right h4 y (Some a) in
            let h6 := set_parent h5 a (Some y) in
            Ok (RB h6 (rb_next s) (rb_size s) (rb_cmp s))
        end
      else Ok s
  end.

(** stl/gp/rbtree.gp.go:309-316 Init: the comparison made by CreateByBool is not
    stored. *)
Definition rb_init (s : rbt) (bigFirst : bool) : rbt :=
  let h := rb_heap s in
  RB (hset h 0%nat (RN (rn_key (h 0%nat)) (rn_val (h 0%nat)) None None None 0)) (rb_next s) 0 (rb_cmp s).
(** stl/gp/rbtree.gp.go:355-376 insert, with createNode (157-161) and rebalence
    (219-223). *)
Definition rb_insert (s : rbt) (x : ptr) (y : nat) (k v : Z) : rbt * nat :=
  let z := rb_next s in
  let h0 := hset (rb_heap s) z (RN k v None None None 0) in
  let h1 :=
    if Nat.eqb y 0 || negb (peqb x None) || cmp_F (rb_cmp s) k (rn_key (h0 y)) then
      let h := set_left h0 y (Some z) in
      if Nat.eqb y 0 then set_right (set_parent h 0%nat (Some z)) 0%nat (Some z)
      else if peqb (Some y) (rn_left (h 0%nat)) then set_left h 0%nat (Some z)
      else h
    else
      let h := set_right h0 y (Some z) in
      if peqb (Some y) (rn_right (h 0%nat)) then set_right h 0%nat (Some z) else h in
  let h2 := set_right (set_left (set_parent h1 z (Some y)) z None) z None in
  let h3 := if peqb (rn_parent (h2 0%nat)) (Some z) then set_color h2 z 0 else h2 in
  (RB h3 (S z) (rb_size s + 1) (rb_cmp s), z).
(** stl/gp/rbtree.gp.go:319-328 and 343-351, the loops of insertUnique and
    insertEqual: the last [y] and [comp]; [x] ends as nil. *)
Fixpoint descend (fuel : nat) (h : nat -> rnode) (cmp k : Z) (x : ptr) (y : nat) (comp : bool) : outcome (nat * bool) :=
  match x, fuel with
  | None, _ => Ok (y, comp)
  | Some a, S f =>
      let c := cmp_F cmp k (rn_key (h a)) in
      descend f h cmp k (if c then rn_left (h a) else rn_right (h a)) a c
  | _, O => Diverge
  end.
(** stl/gp/rbtree.gp.go:342-353 insertEqual. *)
Definition insert_equal (s : rbt) (k v : Z) : outcome (rbt * ptr) :=
  r <- descend (S (rb_next s)) (rb_heap s) (rb_cmp s) k (rn_parent (rb_heap s 0%nat)) 0%nat true ;;
  let '(t, z) := rb_insert s None (fst r) k v in Ok (t, Some z).
(** stl/gp/rbtree.gp.go:318-340 insertUnique. *)
Definition insert_unique (s : rbt) (k v : Z) : outcome (rbt * ptr) :=
  let h := rb_heap s in
  r <- descend (S (rb_next s)) h (rb_cmp s) k (rn_parent (h 0%nat)) 0%nat true ;;
  let '(y, comp) := r in
  let last (y : nat) :=
    if cmp_F (rb_cmp s) (rn_key (h y)) k
    then let '(t, z) := rb_insert s None y k v in Ok (t, Some z)
    else Ok (s, None) in
  if comp : bool then
    if peqb (Some y) (rn_left (h 0%nat))
    then let '(t, z) := rb_insert s None y k v in Ok (t, Some z)
    else p <- rb_prevp (S (rb_next s)) h (Some y) ;;
         match p with Some y => last y | None => Panic end
  else last y.
(** stl/gp/rbtree.gp.go:422-435 Find; also the number of comparisons made. *)
Fixpoint find_loop (fuel : nat) (h : nat -> rnode) (cmp k : Z) (n y : ptr) (cost : Z) : outcome (ptr * Z) :=
  match n, fuel with
  | None, _ => Ok (y, cost)
  | Some a, S f =>
      if negb (cmp_F cmp (rn_key (h a)) k) then find_loop f h cmp k (rn_left (h a)) (Some a) (cost + 1)
      else find_loop f h cmp k (rn_right (h a)) y (cost + 1)
  | _, O => Diverge
  end.
(** See find_loop. *)
Definition rb_find (s : rbt) (k : Z) : outcome (ptr * Z) :=
  let h := rb_heap s in
  r <- find_loop (S (rb_next s)) h (rb_cmp s) k (rn_parent (h 0%nat)) None 0 ;;
  let '(y, cost) := r in
  match y with
  | None => Ok (None, cost)
  | Some a => Ok (if negb (cmp_F (rb_cmp s) k (rn_key (h a))) then Some a else None, cost + 1)
  end.

(** The loop [for n := t.Begin(); n != t.End(); n = n.next()] with n.Get() in the
    body (stl/gp/rbtree.gp.go:390-396 Begin and End, 199-201 Get, which panics for
    nil): the nodes with their keys and values. *)
Fixpoint walk (fuel : nat) (s : rbt) (n : ptr) : outcome (list (nat * Z * Z)) :=
  if peqb n (Some 0%nat) then Ok []
  else match n, fuel with
       | None, _ => Panic
       | _, O => Diverge
       | Some a, S f =>
           m <- rb_nextp (S (rb_next s)) (rb_heap s) n ;;
           l <- walk f s m ;;
           Ok ((a, rn_key (rb_heap s a), rn_val (rb_heap s a)) :: l)
       end.

(** Calls of a tree. BInsert, BRemove, BErase, BLower and BUpper are the exported
    functions without content (stl/gp/rbtree.gp.go:402-420). *)
Inductive rb_op :=
| BInit (bigFirst : bool) | BClear | BInsertEqual (k v : Z) | BFind (k : Z) | BSize | BEmpty | BBegin | BEnd | BWalk
| BInsertUnique (k v : Z) | BInsert (k v : Z) | BRemove (k v : Z) | BErase (n : ptr) | BLower (k v : Z) | BUpper (k v : Z).
(** What they return. *)
Inductive rb_obs := RNone | RPtr (p : ptr) | RNum (z : Z) | RBool (b : bool) | RList (l : list (nat * Z * Z)).
(** One call: stl/gp/rbtree.gp.go:309, 342, 378-420, 422. *)
Definition rb_step (s : rbt) (op : rb_op) : outcome (rbt * rb_obs) :=
  match op with
  | BInit b => Ok (rb_init s b, RNone)
  | BClear => Ok (rb_init s (rb_cmp s =? CMPGreater), RNone)
  | BInsertEqual k v => r <- insert_equal s k v ;; Ok (fst r, RPtr (snd r))
  | BInsertUnique k v => r <- insert_unique s k v ;; Ok (fst r, RPtr (snd r))
  | BFind k => r <- rb_find s k ;; Ok (s, RPtr (fst r))
  | BSize => Ok (s, RNum (rb_size s))
  | BEmpty => Ok (s, RBool (peqb (rn_parent (rb_heap s 0%nat)) None))
  | BBegin => Ok (s, RPtr (rn_left (rb_heap s 0%nat)))
  | BEnd => Ok (s, RPtr (Some 0%nat))
  | BWalk => l <- walk (rb_next s) s (rn_left (rb_heap s 0%nat)) ;; Ok (s, RList l)
  | BInsert _ _ | BRemove _ _ | BErase _ | BLower _ _ | BUpper _ _ => Ok (s, RPtr None)
  end.
(** A call, or a rotation at the root: [t.header.parent.rotateLeft(&t.header.parent)]
    (stl/gp/rbtree.gp.go:278-302; true for the left one). *)
Definition rot_step (s : rbt) (op : rb_op + bool) : outcome (rbt * rb_obs) :=
  match op with
  | inl o => rb_step s o
  | inr lft =>
      let root := rn_parent (rb_heap s 0%nat) in
      t <- (if lft : bool then rotate_left s root else rotate_right s root) ;; Ok (t, RNone)
  end.
