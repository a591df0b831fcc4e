(** Model of stl/deque.gp_int.go (IntDeque), a double-ended ring buffer. *)
From Coq Require Import ZArith List Bool.
From Verif Require Import GoBase.
Import ListNotations.
Open Scope Z_scope.

(** stl/deque.gp_int.go:28-37 IntDeque.  A nil buffer is the empty list. *)
Record deque := Deque { dhead : Z; dtail : Z; dd : list Z }.

(** The zero value [IntDeque{}] (Go language; stl/deque.gp_int.go:28-37). *)
Definition deque_zero : deque := Deque 0 0 [].

(** stl/deque.gp_int.go:169-171 Cap. *)
Definition deque_cap (q : deque) : Z := zlen (dd q).

(** stl/deque.gp_int.go:174-181 Size. *)
Definition deque_size (q : deque) : Z :=
  if dhead q <=? dtail q then dtail q - dhead q
  else deque_cap q - (dhead q - dtail q).

(** stl/deque.gp_int.go:184-186 Empty. *)
Definition deque_empty (q : deque) : bool := deque_size q =? 0.

(** stl/deque.gp_int.go:189-194 next. *)
Definition deque_next (q : deque) (i : Z) : Z :=
  if deque_cap q <=? i + 1 then 0 else i + 1.

(** stl/deque.gp_int.go:197-202 prev. *)
Definition deque_prev (q : deque) (i : Z) : Z :=
  if i - 1 <? 0 then deque_cap q - 1 else i - 1.

(** stl/deque.gp_int.go:59-63 newBuf: the buffer that this.d holds afterwards. *)
Definition deque_new_buf (d : list Z) (bufSize : Z) : list Z :=
  if 0 <? bufSize then repeat 0 (Z.to_nat bufSize) else d.

(** stl/deque.gp_int.go:66-68 Clear. *)
Definition deque_clear (q : deque) : deque := Deque 0 0 (dd q).

(** stl/deque.gp_int.go:47-56 Init (and 40-44 New). *)
Definition deque_init (q : deque) (bufSize : Z) : deque :=
  match dd q with
  | [] => deque_clear (Deque (dhead q) (dtail q)
            (deque_new_buf (dd q) (if bufSize <=? 0 then 8 else bufSize)))
  | _ => deque_clear q
  end.

(** stl/deque.gp_int.go:83-85, 103-105, 158-160: copy the two parts of the ring
    [d] into the fresh buffer [nd]; the second copy goes to nd[:h] as in the
    code.  Returns the new buffer and h+t. *)
Definition deque_transfer (nd d : list Z) (head tail : Z) : outcome (list Z * Z) :=
  src1 <- zslice d head (zlen d) ;;
  let (nd1, h) := gocopy nd src1 in
  src2 <- zslice d 0 tail ;;
  dst <- zslice nd1 0 h ;;
  let (dst', t) := gocopy dst src2 in
  Ok (dst' ++ skipn (Z.to_nat h) nd1, h + t).

(** stl/deque.gp_int.go:79-86 and 99-106: the common "buffer full" step of both
    pushes. *)
Definition deque_grow (q : deque) : outcome deque :=
  if dhead q =? dtail q then
    ' (nd, t) <- deque_transfer (deque_new_buf (dd q) (deque_cap q * 2)) (dd q) (dhead q) (dtail q) ;;
    Ok (Deque 0 t nd)
  else Ok q.

(** stl/deque.gp_int.go:71-89 PushFront; always returns true. *)
Definition deque_push_front (q : deque) (v : Z) : outcome deque :=
  let q := match dd q with [] => deque_init q (-1) | _ => q end in
  let head := deque_prev q (dhead q) in
  d <- zset (dd q) head v ;;
  deque_grow (Deque head (dtail q) d).

(** stl/deque.gp_int.go:92-109 PushBack; always returns true. *)
Definition deque_push_back (q : deque) (v : Z) : outcome deque :=
  let q := match dd q with [] => deque_init q (-1) | _ => q end in
  d <- zset (dd q) (dtail q) v ;;
  deque_grow (Deque (dhead q) (deque_next q (dtail q)) d).

(** stl/deque.gp_int.go:112-118 PopFront; [None] stands for ok=false. *)
Definition deque_pop_front (q : deque) : outcome (deque * option Z) :=
  if dhead q =? dtail q then Ok (q, None)
  else
    v <- zget (dd q) (dhead q) ;;
    Ok (Deque (deque_next q (dhead q)) (dtail q) (dd q), Some v).

(** stl/deque.gp_int.go:121-127 PopBack. *)
Definition deque_pop_back (q : deque) : outcome (deque * option Z) :=
  if dhead q =? dtail q then Ok (q, None)
  else
    let tail := deque_prev q (dtail q) in
    v <- zget (dd q) tail ;;
    Ok (Deque (dhead q) tail (dd q), Some v).

(** stl/deque.gp_int.go:130-135 Front. *)
Definition deque_front (q : deque) : outcome (option Z) :=
  if dhead q =? dtail q then Ok None
  else v <- zget (dd q) (dhead q) ;; Ok (Some v).

(** stl/deque.gp_int.go:138-144 Back. *)
Definition deque_back (q : deque) : outcome (option Z) :=
  if dhead q =? dtail q then Ok None
  else v <- zget (dd q) (deque_prev q (dtail q)) ;; Ok (Some v).

(** stl/deque.gp_int.go:147-164 Shrink.  The inner [ok :=] shadows the result,
    so false is returned on every path. *)
Definition deque_shrink (q : deque) : outcome (deque * bool) :=
  let oldCap := deque_cap q in
  let oldSize := deque_size q in
  if (8 <? oldCap) && (3 * oldSize <=? oldCap) then
    let d := dd q in
    let nd := deque_new_buf d (Z.quot oldCap 2) in
    if dhead q <=? dtail q then
      src <- zslice d (dhead q) (dtail q) ;;
      let (nd', _) := gocopy nd src in
      Ok (Deque 0 (dtail q - dhead q) nd', false)
    else
      ' (nd', t) <- deque_transfer nd d (dhead q) (dtail q) ;;
      Ok (Deque 0 t nd', false)
  else Ok (q, false).
