(** Model of stl/gp/lfdeque.gp.go: the deque whose two ends live in one 64-bit
    word. *)
From Coq Require Import ZArith List Bool.
From Verif Require Import GoBase ConcBase.
Import ListNotations.
Open Scope Z_scope.

(** stl/gp/lfdeque.gp.go:39-49 the fields; a nil slice is the empty list. *)
Record lfd := LFD { fd_ht : Z; fd_busy : Z; fd_d : list Z }.
(** The zero value (stl/gp/lfdeque.gp.go:39-49). *)
Definition lfd_zero : lfd := LFD 0 0 [].

(** stl/gp/lfdeque.gp.go:193-198 headTail, of the loaded word. *)
Definition head_of (w : Z) : Z := wrap 32 (Z.land w 4294967295).
(** stl/gp/lfdeque.gp.go:196 the other half. *)
Definition tail_of (w : Z) : Z := wrap 32 (Z.land (Z.shiftr w 32) 4294967295).
(** stl/gp/lfdeque.gp.go:200-203 makeHeadTail. *)
Definition make_ht (head tail : Z) : Z :=
  Z.lor (Z.land head 4294967295) (wrap 64 (Z.shiftl (Z.land tail 4294967295) 32)).
(** stl/gp/lfdeque.gp.go:169-171 Cap. *)
Definition fd_cap (d : list Z) : Z := wrap 32 (zlen d).
(** stl/gp/lfdeque.gp.go:206-211 next. *)
Definition fd_next (d : list Z) (idx : Z) : Z := let r := wrap 32 (idx + 1) in if fd_cap d <=? r then 0 else r.
(** stl/gp/lfdeque.gp.go:214-219 prev: the test r < 0 on a uint32. *)
Definition fd_prev (d : list Z) (idx : Z) : Z := let r := wrap 32 (idx - 1) in if r <? 0 then wrap 32 (fd_cap d - 1) else r.
(** stl/gp/lfdeque.gp.go:174-182 Size, of the loaded word. *)
Definition fd_size (d : list Z) (w : Z) : Z :=
  let head := head_of w in let tail := tail_of w in
  if head <=? tail then wrap 32 (tail - head) else wrap 32 (fd_cap d - wrap 32 (head - tail)).

(** stl/gp/lfdeque.gp.go:59-76 Init, newBuf and 79-82 Clear. *)
Definition fd_init (s : lfd) (bufSize : Z) : lfd :=
  match fd_d s with
  | [] => let bufSize := if bufSize <=? 0 then 8 else bufSize in LFD 0 0 (repeat 0 (Z.to_nat bufSize))
  | _ :: _ => LFD 0 0 (fd_d s)
  end.
(** The start of both pushes (stl/gp/lfdeque.gp.go:87-89, 112-114). *)
Definition fd_ready (s : lfd) : lfd := match fd_d s with [] => fd_init s (-1) | _ => s end.

(** Calls and results (stl/gp/lfdeque.gp.go:59-191). *)
Inductive fd_op := FInit (n : Z) | FClear | FPushFront (v : Z) | FPushBack (v : Z) | FPopFront | FPopBack | FCap | FSize | FBusy | FEmpty.
(** Results (same lines). *)
Inductive fd_res := FUnit | FBool (b : bool) | FVal (v : Z) (ok : bool) | FInt (n : Z).

(** One goroutine alone: a CAS succeeds at once, a full buffer is waited on for
    ever. stl/gp/lfdeque.gp.go:85-107 PushFront, 110-132 PushBack, 135-149
    PopFront, 152-166 PopBack, 169-191 the queries. *)
Definition fd_step (s : lfd) (op : fd_op) : outcome (lfd * fd_res) :=
  match op with
  | FInit n => Ok (fd_init s n, FUnit)
  | FClear => Ok (LFD 0 0 (fd_d s), FUnit)
  | FPushFront v =>
      let s := fd_ready s in
      let head := fd_prev (fd_d s) (head_of (fd_ht s)) in let tail := tail_of (fd_ht s) in
      if head =? tail then Diverge else
      d' <- zset (fd_d s) head v ;; Ok (LFD (make_ht head tail) (fd_busy s) d', FBool true)
  | FPushBack v =>
      let s := fd_ready s in
      let head := head_of (fd_ht s) in let tail := tail_of (fd_ht s) in
      let tailNext := fd_next (fd_d s) tail in
      if head =? tailNext then Diverge else
      d' <- zset (fd_d s) tail v ;; Ok (LFD (make_ht head tailNext) (fd_busy s) d', FBool true)
  | FPopFront =>
      let head := head_of (fd_ht s) in let tail := tail_of (fd_ht s) in
      if head =? tail then Ok (s, FVal 0 false) else
      front <- zget (fd_d s) head ;;
      Ok (LFD (make_ht (fd_next (fd_d s) head) tail) (fd_busy s) (fd_d s), FVal front true)
  | FPopBack =>
      let head := head_of (fd_ht s) in let tail := tail_of (fd_ht s) in
      let tailPrev := fd_prev (fd_d s) tail in
      if head =? tail then Ok (s, FVal 0 false) else
      back <- zget (fd_d s) tailPrev ;;
      Ok (LFD (make_ht head tailPrev) (fd_busy s) (fd_d s), FVal back true)
  | FCap => Ok (s, FInt (fd_cap (fd_d s)))
  | FSize => Ok (s, FInt (fd_size (fd_d s) (fd_ht s)))
  | FBusy => Ok (s, FInt (fd_busy s))
  | FEmpty => Ok (s, FBool (fd_size (fd_d s) (fd_ht s) =? 0))
  end.

(** ** Many goroutines *)
(** The calls modelled concurrently (stl/gp/lfdeque.gp.go:110 PushBack, 135
    PopFront, 174 Size), on a deque whose buffer exists. *)
Inductive cd_op := DPush (v : Z) | DPop | DSize.

(** Where a goroutine is: outside; before the load of line 117; before the
    counting of a full buffer at line 120; before the write of line 124 with the
    loaded ends; before the CAS of line 126; before the load of line 137, the
    read of line 141, the CAS of line 144; before the load of Size; before the
    return; stopped by an index panic (stl/gp/lfdeque.gp.go:110-149, 174-182). *)
Inductive cd_pc :=
| DIdle
| DPushLoad (v : Z) | DPushFull (v : Z) | DPushWrite (v head tail : Z) | DPushCas (v head tail : Z)
| DPopLoad (front : Z) | DPopRead (head tail : Z) | DPopCas (head tail front : Z)
| DSizeLoad
| DRet (op : cd_op) (r : fd_res)
| DPanic.

(** The shared deque and the goroutines (stl/gp/lfdeque.gp.go:39-49). *)
Record cd_state := CD { cd_q : lfd; cd_pcs : nat -> cd_pc }.

(** One atomic step of goroutine [t] (stl/gp/lfdeque.gp.go:110-149, 174-182);
    [front] keeps the value of an earlier attempt, which a failing PopFront
    returns with ok false. The word loaded is the one that its two halves make
    up again, so the CAS compares with that. *)
Definition cd_step (s : cd_state) (t : nat) (op : cd_op) : cd_state * list (ext cd_op fd_res) :=
  let q := cd_q s in
  let goto r pc := CD r (fupd (cd_pcs s) t pc) in
  match cd_pcs s t with
  | DIdle =>
      (goto q (match op with DPush v => DPushLoad v | DPop => DPopLoad 0 | DSize => DSizeLoad end), [Inv t op])
  | DPushLoad v =>
      let head := head_of (fd_ht q) in let tail := tail_of (fd_ht q) in
      (goto q (if head =? fd_next (fd_d q) tail then DPushFull v else DPushWrite v head tail), [])
  | DPushFull v => (goto (LFD (fd_ht q) (wrap 64 (fd_busy q + 1)) (fd_d q)) (DPushLoad v), [])
  | DPushWrite v head tail =>
      match zset (fd_d q) tail v with
      | Ok d' => (goto (LFD (fd_ht q) (fd_busy q) d') (DPushCas v head tail), [])
      | _ => (goto q DPanic, [])
      end
  | DPushCas v head tail =>
      if fd_ht q =? make_ht head tail
      then (goto (LFD (make_ht head (fd_next (fd_d q) tail)) (fd_busy q) (fd_d q)) (DRet (DPush v) (FBool true)), [])
      else (goto q (DPushLoad v), [])
  | DPopLoad front =>
      let head := head_of (fd_ht q) in let tail := tail_of (fd_ht q) in
      (goto q (if head =? tail then DRet DPop (FVal front false) else DPopRead head tail), [])
  | DPopRead head tail =>
      match zget (fd_d q) head with
      | Ok front => (goto q (DPopCas head tail front), [])
      | _ => (goto q DPanic, [])
      end
  | DPopCas head tail front =>
      if fd_ht q =? make_ht head tail
      then (goto (LFD (make_ht (fd_next (fd_d q) head) tail) (fd_busy q) (fd_d q)) (DRet DPop (FVal front true)), [])
      else (goto q (DPopLoad front), [])
  | DSizeLoad => (goto q (DRet DSize (FInt (fd_size (fd_d q) (fd_ht q)))), [])
  | DRet op' r => (goto q DIdle, [Ret t op' r])
  | DPanic => (goto q DPanic, [])
  end.

(** All goroutines outside a deque after Init(n) (stl/gp/lfdeque.gp.go:59-76). *)
Definition cd_init (n : Z) : cd_state := CD (fd_init lfd_zero n) (fun _ => DIdle).
