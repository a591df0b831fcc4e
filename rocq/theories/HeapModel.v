(** Model of stl/heap.gp_int.go (IntHeap) and of the alternative branch of the
    template stl/gp/heap.gp.go.  Arrays are lists of [Z]; indexes are [nat]
    except in [heap_reverse], where the code computes a negative one. *)
From Coq Require Import ZArith List Bool.
From Verif Require Import GoBase CmpModel.
Import ListNotations.
Open Scope Z_scope.

(** stl/heap.gp_int.go:172-175 cmpV: "c may stand below p". *)
Definition cmpV (cmp c p : Z) : bool := negb (cmp_F cmp p c).

(** stl/heap.gp_int.go:178-180 parent; only called with idx > 0, where Go's
    truncated division agrees with [Nat.div]. *)
Definition parent (idx : nat) : nat := Nat.div (idx - 1) 2.

(** stl/heap.gp_int.go:183-185 lchild. *)
Definition lchild (idx : nat) : nat := (2 * idx + 1)%nat.

(** stl/heap.gp_int.go:103-112 adjustUp.  [fuel] bounds the number of loop
    iterations; [S hole] always suffices. *)
Fixpoint adjust_up (cmp : Z) (fuel : nat) (b : list Z) (hole : nat) (v : Z)
  : outcome (list Z) :=
  match fuel with
  | O => Diverge
  | S f =>
      if (0 <? hole)%nat then
        x <- aget b (parent hole) ;;
        if negb (cmpV cmp v x)
        then b' <- aset b hole x ;; adjust_up cmp f b' (parent hole) v
        else aset b hole v
      else aset b hole v
  end.

(** stl/heap.gp_int.go:82-100 adjustDown, applied to the first [size] elements
    of the array [b] (the code passes the sub-slice b[:size] sharing the same
    memory).  [fuel] bounds the number of iterations; [S size] suffices. *)
Fixpoint adjust_down (cmp : Z) (fuel : nat) (b : list Z) (size hole : nat) (v : Z)
  : outcome (list Z) :=
  match fuel with
  | O => Diverge
  | S f =>
      let l := lchild hole in
      if (l <? size)%nat then
        bl <- aget b l ;;
        c <- (if (S l <? size)%nat
              then br <- aget b (S l) ;;
                   Ok (if negb (cmpV cmp br bl) then S l else l)
              else Ok l) ;;
        bc <- aget b c ;;
        if cmpV cmp bc v
        then aset b hole v
        else b' <- aset b hole bc ;; adjust_down cmp f b' size c v
      else aset b hole v
  end.

(** stl/heap.gp_int.go:50-54 PushHeap. *)
Definition push_heap (cmp : Z) (b : list Z) (v : Z) : outcome (list Z) :=
  let b' := b ++ [v] in
  adjust_up cmp (S (length b' - 1)) b' (length b' - 1) v.

(** stl/heap.gp_int.go:57-68 PopHeap on the slice consisting of the first [l]
    elements of the array [b].  The result is the array after the call, and
    [Some top] when ok is true; the slice returned by the code is the first
    [l-1] elements of that array. *)
Definition pop_heap (cmp : Z) (b : list Z) (l : nat) : outcome (list Z * option Z) :=
  if (0 <? l)%nat then
    top <- aget b 0 ;;
    if (1 <? l)%nat then
      last <- aget b (l - 1) ;;
      b1 <- aset b 0 last ;;
      b2 <- aset b1 (l - 1) top ;;
      v <- aget b2 0 ;;
      b3 <- adjust_down cmp (S (l - 1)) b2 (l - 1) 0 v ;;
      Ok (b3, Some top)
    else Ok (b, Some top)
  else Ok (b, None).

(** stl/heap.gp_int.go:71-79 CheckHeap; the loop variable runs from [i] to 1. *)
Fixpoint check_heap_from (cmp : Z) (b : list Z) (i : nat) : outcome bool :=
  match i with
  | O => Ok true
  | S j =>
      x <- aget b i ;;
      y <- aget b (parent i) ;;
      if negb (cmpV cmp x y) then Ok false else check_heap_from cmp b j
  end.
(** stl/heap.gp_int.go:71-79 CheckHeap. *)
Definition check_heap (cmp : Z) (b : list Z) : outcome bool :=
  check_heap_from cmp b (length b - 1).

(** stl/heap.gp_int.go:117-119, the loop of MakeHeap from index [i] down to 0. *)
Fixpoint make_heap_from (cmp : Z) (b : list Z) (i : nat) : outcome (list Z) :=
  v <- aget b i ;;
  b' <- adjust_down cmp (S (length b)) b (length b) i v ;;
  match i with
  | O => Ok b'
  | S j => make_heap_from cmp b' j
  end.
(** stl/heap.gp_int.go:115-121 MakeHeap. *)
Definition make_heap (cmp : Z) (b : list Z) : outcome (list Z) :=
  if (1 <? length b)%nat then make_heap_from cmp b (Nat.div (length b) 2) else Ok b.

(** stl/heap.gp_int.go:134-136, the loop of SortHeap: [l] is len(t). *)
Fixpoint sort_heap_loop (cmp : Z) (b : list Z) (l : nat) : outcome (list Z) :=
  match l with
  | S (S _ as l') =>
      r <- pop_heap cmp b l ;; sort_heap_loop cmp (fst r) l'
  | _ => Ok b
  end.
(** stl/heap.gp_int.go:132-138 SortHeap. *)
Definition sort_heap (cmp : Z) (b : list Z) : outcome (list Z) :=
  b' <- make_heap cmp b ;; sort_heap_loop cmp b' (length b').

(** stl/heap.gp_int.go:126-128, the loop of Reverse from index [i] down to 0;
    [l] is len(b)-1 and may be -1. *)
Fixpoint reverse_from (b : list Z) (l : Z) (i : nat) : outcome (list Z) :=
  x <- zget b (Z.of_nat i) ;;
  y <- zget b (l - Z.of_nat i) ;;
  b1 <- zset b (Z.of_nat i) y ;;
  b2 <- zset b1 (l - Z.of_nat i) x ;;
  match i with
  | O => Ok b2
  | S j => reverse_from b2 l j
  end.
(** stl/heap.gp_int.go:124-129 Reverse; l/2 is Go's truncated division, and the
    loop runs iff l/2 >= 0, which is always the case (l >= -1). *)
Definition heap_reverse (b : list Z) : outcome (list Z) :=
  let l := zlen b - 1 in
  reverse_from b l (Z.to_nat (Z.quot l 2)).

(** stl/heap.gp_int.go:25-29 IntHeap.  The buffer [hb] is the visible part of
    the slice; spare capacity is not modelled (append overwrites it). *)
Record heap := Heap { hb : list Z; hlimit : Z; hcmp : Z }.

(** stl/heap.gp_int.go:39-47 Init (and 32-36 NewIntHeap); capacity only affects
    allocation. *)
Definition heap_init (limitN : Z) (maxTop : bool) : heap :=
  Heap [] limitN (cmp_by_bool (negb maxTop)).

(** stl/heap.gp_int.go:199-201 Size. *)
Definition heap_size (h : heap) : Z := zlen (hb h).
(** stl/heap.gp_int.go:204-206 Empty. *)
Definition heap_empty (h : heap) : bool := heap_size h =? 0.

(** stl/heap.gp_int.go:158-161 Pop: the new buffer is b[:l-1], or nil when the
    heap was empty; [None] stands for ok=false. *)
Definition heap_pop (h : heap) : outcome (heap * option Z) :=
  r <- pop_heap (hcmp h) (hb h) (length (hb h)) ;;
  match snd r with
  | Some top => Ok (Heap (firstn (length (hb h) - 1) (fst r)) (hlimit h) (hcmp h), Some top)
  | None => Ok (Heap [] (hlimit h) (hcmp h), None)
  end.

(** stl/heap.gp_int.go:164-169 Top. *)
Definition heap_top (h : heap) : outcome (option Z) :=
  if heap_empty h then Ok None
  else t <- aget (hb h) 0 ;; Ok (Some t).

(** stl/heap.gp_int.go:146-155 Push. *)
Definition heap_push (h : heap) (v : Z) : outcome heap :=
  let put (h : heap) :=
    b <- push_heap (hcmp h) (hb h) v ;; Ok (Heap b (hlimit h) (hcmp h)) in
  if (0 <? hlimit h) && (hlimit h <=? heap_size h) then
    t <- heap_top h ;;
    match t with
    | Some top =>
        if cmpV (hcmp h) v top then r <- heap_pop h ;; put (fst r) else Ok h
    | None => Ok h
    end
  else put h.

(** stl/gp/heap.gp.go:205-211, adjustDown of the template when GOGP_ImproveSTL
    is not defined: walk the hole down to a leaf, then adjustUp. *)
Fixpoint sink_stl (cmp : Z) (fuel : nat) (b : list Z) (size hole : nat)
  : outcome (list Z * nat) :=
  match fuel with
  | O => Diverge
  | S f =>
      let l := lchild hole in
      if (l <? size)%nat then
        bl <- aget b l ;;
        c <- (if (S l <? size)%nat
              then br <- aget b (S l) ;;
                   Ok (if negb (cmpV cmp br bl) then S l else l)
              else Ok l) ;;
        bc <- aget b c ;;
        b' <- aset b hole bc ;; sink_stl cmp f b' size c
      else Ok (b, hole)
  end.
(** stl/gp/heap.gp.go:185-186, 203-212 adjustDown without GOGP_ImproveSTL. *)
Definition adjust_down_stl (cmp : Z) (b : list Z) (size hole : nat) (v : Z)
  : outcome (list Z) :=
  r <- sink_stl cmp (S size) b size hole ;;
  adjust_up cmp (S (snd r)) (fst r) (snd r) v.
(** stl/gp/heap.gp.go:231-233 MakeHeap loop over the variant above. *)
Fixpoint make_heap_stl_from (cmp : Z) (b : list Z) (i : nat) : outcome (list Z) :=
  v <- aget b i ;;
  b' <- adjust_down_stl cmp b (length b) i v ;;
  match i with
  | O => Ok b'
  | S j => make_heap_stl_from cmp b' j
  end.
(** stl/gp/heap.gp.go:229-235 MakeHeap over the variant above. *)
Definition make_heap_stl (cmp : Z) (b : list Z) : outcome (list Z) :=
  if (1 <? length b)%nat then make_heap_stl_from cmp b (Nat.div (length b) 2) else Ok b.
(** stl/gp/heap.gp.go:160-171 PopHeap of the template over the variant above,
    on a slice that fills its array; returns the slice h and top. *)
Definition pop_heap_stl (cmp : Z) (b : list Z) : outcome (list Z * option Z) :=
  match b with
  | [] => Ok ([], None)
  | top :: rest =>
      match rest with
      | [] => Ok ([], Some top)
      | _ =>
          v <- aget b (length b - 1) ;;
          (* b[0], b[l-1] = b[l-1], b[0]; then b[:l-1] *)
          let b2 := firstn (length b - 1) (upd b 0 v) in
          b3 <- adjust_down_stl cmp b2 (length b2) 0 v ;;
          Ok (b3, Some top)
      end
  end.
