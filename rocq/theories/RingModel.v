(** Model of stl/gp/ringbuffer.gp.go: the ring buffer on ever-growing 64-bit
    positions. *)
From Coq Require Import ZArith List Bool.
From Verif Require Import GoBase ConcBase.
Import ListNotations.
Open Scope Z_scope.

(** stl/gp/ringbuffer.gp.go:20-32 the fields; a nil slice is the empty list. *)
Record rb := RB { rb_head : Z; rb_head_r : Z; rb_tail : Z; rb_tail_r : Z; rb_busy : Z; rb_mask : Z; rb_d : list Z }.
(** The zero value (stl/gp/ringbuffer.gp.go:20-32). *)
Definition rb_zero : rb := RB 0 0 0 0 0 0 [].

(** Conversion of a 64-bit word to int (Go language; no /repo lines). *)
Definition int64 (x : Z) : Z := (x + 2 ^ 63) mod 2 ^ 64 - 2 ^ 63.

(** stl/gp/ringbuffer.gp.go:41 the loop of Init over its own variable; true if
    it ends. After 64 doublings the variable is 0 for ever. *)
Fixpoint rnd_loop (fuel : nat) (i bufSize : Z) : bool :=
  if i <? bufSize then match fuel with O => false | S f => rnd_loop f (int64 (i * 2)) bufSize end else true.

(** stl/gp/ringbuffer.gp.go:35-50 Init and 53-57 newBuf: the loop at line 41
    declares its own sizeRndUp, so the one of line 40, used at lines 43-44, is
    still 1. *)
Definition rb_init (s : rb) (bufSize : Z) : outcome rb :=
  match rb_d s with
  | _ :: _ => Ok s
  | [] =>
      let bufSize := if bufSize <=? 8 then 8 else bufSize in
      let sizeRndUp := 1 in
      if rnd_loop 64 1 bufSize
      then Ok (RB (rb_head s) (rb_head_r s) (rb_tail s) (rb_tail_r s) (rb_busy s) (wrap 64 (sizeRndUp - 1))
                  (if 0 <? sizeRndUp then repeat 0 (Z.to_nat sizeRndUp) else []))
      else Diverge
  end.

(** Calls and results for the sequential model (stl/gp/ringbuffer.gp.go:35-125). *)
Inductive rb_op := RInit (n : Z) | RMustPush (v : Z) | RMustPop | RPush (v : Z) | RPop | RSize | REmpty | RCap | RBusy.
(** Results (same lines). *)
Inductive rb_res := ObsUnit | ObsBool (b : bool) | ObsVal (v : Z) (ok : bool) | ObsInt (n : Z).

(** One goroutine alone; a loop that only another goroutine could end is
    [Diverge].
    stl/gp/ringbuffer.gp.go:60-71 MustPush, 74-85 MustPop, 88-95 Push, 98-105
    Pop, 108-110 Cap, 113-115 Size, 118-120 Busy, 123-125 Empty. *)
Definition rb_step (s : rb) (op : rb_op) : outcome (rb * rb_res) :=
  let 'RB head head_r tail tail_r busy mask d := s in
  match op with
  | RInit n => s' <- rb_init s n ;; Ok (s', ObsUnit)
  | RMustPush v =>
      let tail_r' := wrap 64 (tail_r + 1) in
      let old := wrap 64 (tail_r' - 1) in
      if wrap 64 (wrap 64 (head + mask) + 1) <? tail_r' then Diverge else
      d' <- zset d (Z.land old mask) v ;;
      if tail =? old then Ok (RB head head_r tail_r' tail_r' busy mask d', ObsBool true) else Diverge
  | RMustPop =>
      let head_r' := wrap 64 (head_r + 1) in
      let old := wrap 64 (head_r' - 1) in
      if tail <=? old then Diverge else
      val <- zget d (Z.land old mask) ;;
      if head =? old then Ok (RB head_r' head_r' tail tail_r busy mask d, ObsVal val true) else Diverge
  | RPush v =>
      let tail_r' := wrap 64 (tail_r + 1) in
      d' <- zset d (Z.land tail_r' mask) v ;;
      if tail =? wrap 64 (tail_r' - 1) then Ok (RB head head_r tail_r' tail_r' busy mask d', ObsBool false) else Diverge
  | RPop =>
      let head_r' := wrap 64 (head_r + 1) in
      val <- zget d (Z.land head_r' mask) ;;
      if head =? wrap 64 (head_r' - 1) then Ok (RB head_r' head_r' tail tail_r busy mask d, ObsVal val true) else Diverge
  | RSize => Ok (s, ObsInt (int64 (wrap 64 (tail - head))))
  | REmpty => Ok (s, ObsBool (int64 (wrap 64 (tail - head)) =? 0))
  | RCap => Ok (s, ObsInt (wrap 32 (zlen d)))
  | RBusy => Ok (s, ObsInt busy)
  end.

(** A ring of 2^k slots in its initial state (stl/gp/ringbuffer.gp.go:20-32;
    Init only ever makes k = 0). *)
Definition ring (k : nat) : rb := RB 0 0 0 0 0 (2 ^ Z.of_nat k - 1) (repeat 0 (2 ^ k)).

(** ** Many goroutines *)
(** The calls that are meant for concurrent use: stl/gp/ringbuffer.gp.go:60
    MustPush, 74 MustPop, 113 Size. *)
Inductive cr_op := CPush (v : Z) | CPop | CSize.

(** Where a goroutine is (stl/gp/ringbuffer.gp.go:60-85, 113-115): outside;
    before the wait of line 63, the write of line 67, the CAS of line 68; before
    the wait of line 77, the read of line 81, the CAS of line 82; between the
    two loads of line 114; before the return; stopped by an index panic. *)
Inductive cr_pc :=
| CIdle
| CPushWait (v i : Z) | CPushWrite (v i : Z) | CPushCas (v i : Z)
| CPopWait (j : Z) | CPopRead (j : Z) | CPopCas (j val : Z)
| CSizeHead (tl : Z)
| CRet (op : cr_op) (r : rb_res)
| CPanic.

(** The shared ring and the goroutines (stl/gp/ringbuffer.gp.go:20-32). *)
Record cr_state := CR { cr_ring : rb; cr_pcs : nat -> cr_pc }.

(** One atomic step of goroutine [t]; a call takes its first atomic step at
    once. stl/gp/ringbuffer.gp.go:60-85, 113-115. *)
Definition cr_step (s : cr_state) (t : nat) (op : cr_op) : cr_state * list (ext cr_op rb_res) :=
  let 'RB head head_r tail tail_r busy mask d := cr_ring s in
  let goto r pc := CR r (fupd (cr_pcs s) t pc) in
  let stay pc := goto (cr_ring s) pc in
  match cr_pcs s t with
  | CIdle =>
      match op with
      | CPush v => let tail_r' := wrap 64 (tail_r + 1) in
                   (goto (RB head head_r tail tail_r' busy mask d) (CPushWait v (wrap 64 (tail_r' - 1))), [Inv t op])
      | CPop => let head_r' := wrap 64 (head_r + 1) in
                (goto (RB head head_r' tail tail_r busy mask d) (CPopWait (wrap 64 (head_r' - 1))), [Inv t op])
      | CSize => (stay (CSizeHead tail), [Inv t op])
      end
  | CPushWait v i =>
      if wrap 64 (wrap 64 (head + mask) + 1) <? wrap 64 (i + 1) then (stay (CPushWait v i), [])
      else (stay (CPushWrite v i), [])
  | CPushWrite v i =>
      match zset d (Z.land i mask) v with
      | Ok d' => (goto (RB head head_r tail tail_r busy mask d') (CPushCas v i), [])
      | _ => (stay CPanic, [])
      end
  | CPushCas v i =>
      if tail =? i then (goto (RB head head_r (wrap 64 (i + 1)) tail_r busy mask d) (CRet (CPush v) (ObsBool true)), [])
      else (stay (CPushCas v i), [])
  | CPopWait j => if tail <=? j then (stay (CPopWait j), []) else (stay (CPopRead j), [])
  | CPopRead j =>
      match zget d (Z.land j mask) with
      | Ok val => (stay (CPopCas j val), [])
      | _ => (stay CPanic, [])
      end
  | CPopCas j val =>
      if head =? j then (goto (RB (wrap 64 (j + 1)) head_r tail tail_r busy mask d) (CRet CPop (ObsVal val true)), [])
      else (stay (CPopCas j val), [])
  | CSizeHead tl => (stay (CRet CSize (ObsInt (int64 (wrap 64 (tl - head))))), [])
  | CRet op' r => (stay CIdle, [Ret t op' r])
  | CPanic => (stay CPanic, [])
  end.

(** All goroutines outside a ring of 2^k slots (stl/gp/ringbuffer.gp.go:20-32). *)
Definition cr_init (k : nat) : cr_state := CR (ring k) (fun _ => CIdle).
