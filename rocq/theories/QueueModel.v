(** Model of stl/queue.gp_int.go (IntQueue), a ring buffer. *)
From Coq Require Import ZArith List Bool.
From Verif Require Import GoBase.
Import ListNotations.
Open Scope Z_scope.

(** stl/queue.gp_int.go:26-33 IntQueue.  A nil buffer is the empty list: newBuf
    never allocates a buffer of length 0. *)
Record queue := Queue { qhead : Z; qtail : Z; qd : list Z }.

(** The zero value [IntQueue{}] (Go language; stl/queue.gp_int.go:26-33). *)
Definition queue_zero : queue := Queue 0 0 [].

(** stl/queue.gp_int.go:142-144 Cap. *)
Definition queue_cap (q : queue) : Z := zlen (qd q).

(** stl/queue.gp_int.go:147-154 Size. *)
Definition queue_size (q : queue) : Z :=
  if qhead q <=? qtail q then qtail q - qhead q
  else queue_cap q - qhead q + qtail q.

(** stl/queue.gp_int.go:157-159 Empty. *)
Definition queue_empty (q : queue) : bool := queue_size q =? 0.

(** stl/queue.gp_int.go:55-59 newBuf: the buffer that this.d holds afterwards
    (unchanged when bufSize <= 0). *)
Definition queue_new_buf (d : list Z) (bufSize : Z) : list Z :=
  if 0 <? bufSize then repeat 0 (Z.to_nat bufSize) else d.

(** stl/queue.gp_int.go:62-64 Clear. *)
Definition queue_clear (q : queue) : queue := Queue 0 0 (qd q).

(** stl/queue.gp_int.go:43-52 Init (and 36-40 New). *)
Definition queue_init (q : queue) (bufSize : Z) : queue :=
  match qd q with
  | [] => queue_clear (Queue (qhead q) (qtail q)
            (queue_new_buf (qd q) (if bufSize <=? 0 then 8 else bufSize)))
  | _ => queue_clear q
  end.

(** stl/queue.gp_int.go:78-81 (and 131-133): copy the two parts of the full ring
    [d] into the fresh buffer [nd]; the second copy goes to nd[:h] as in the
    code.  Returns the new buffer and h+t. *)
Definition ring_transfer (nd d : list Z) (head tail : Z) : outcome (list Z * Z) :=
  src1 <- zslice d head (zlen d) ;;
  let (nd1, h) := gocopy nd src1 in
  src2 <- zslice d 0 tail ;;
  dst <- zslice nd1 0 h ;;
  let (dst', t) := gocopy dst src2 in
  Ok (dst' ++ skipn (Z.to_nat h) nd1, h + t).

(** stl/queue.gp_int.go:67-86 Push; always returns true. *)
Definition queue_push (q : queue) (v : Z) : outcome queue :=
  let q := match qd q with [] => queue_init q (-1) | _ => q end in
  d <- zset (qd q) (qtail q) v ;;
  let tail := qtail q + 1 in
  if zlen d <=? tail then
    if 0 =? qhead q then
      ' (nd, t) <- ring_transfer (queue_new_buf d (zlen d * 2)) d (qhead q) 0 ;;
      Ok (Queue 0 t nd)
    else Ok (Queue (qhead q) 0 d)
  else Ok (Queue (qhead q) tail d).

(** stl/queue.gp_int.go:89-97 Pop; [None] stands for ok=false. *)
Definition queue_pop (q : queue) : outcome (queue * option Z) :=
  if qhead q =? qtail q then Ok (q, None)
  else
    front <- zget (qd q) (qhead q) ;;
    let head := qhead q + 1 in
    let head := if (queue_cap q <=? head) && negb (head =? qtail q) then 0 else head in
    Ok (Queue head (qtail q) (qd q), Some front).

(** stl/queue.gp_int.go:100-105 Front. *)
Definition queue_front (q : queue) : outcome (option Z) :=
  if qhead q =? qtail q then Ok None
  else v <- zget (qd q) (qhead q) ;; Ok (Some v).

(** stl/queue.gp_int.go:108-117 Back. *)
Definition queue_back (q : queue) : outcome (option Z) :=
  if qhead q =? qtail q then Ok None
  else
    let t := qtail q - 1 in
    let t := if t <? 0 then queue_cap q - 1 else t in
    v <- zget (qd q) t ;; Ok (Some v).

(** stl/queue.gp_int.go:120-137 Shrink.  The inner [ok :=] shadows the result,
    so false is returned on every path.  When oldSize/2 = 0, newBuf keeps the
    old buffer and the copies happen inside one array; Go's copy is memmove, so
    reading the sources before writing is faithful (in the wrapped case with
    oldSize <= 1 the second source is empty). *)
Definition queue_shrink (q : queue) : outcome (queue * bool) :=
  let oldCap := queue_cap q in
  let oldSize := queue_size q in
  if (8 <? oldCap) && (3 * oldSize <=? oldCap) then
    let d := qd q in
    let nd := queue_new_buf d (Z.quot oldSize 2) in
    if qhead q <=? qtail q then
      src <- zslice d (qhead q) (qtail q) ;;
      let (nd', _) := gocopy nd src in
      Ok (Queue 0 (qtail q - qhead q) nd', false)
    else
      ' (nd', t) <- ring_transfer nd d (qhead q) (qtail q) ;;
      Ok (Queue 0 t nd', false)
  else Ok (q, false).
