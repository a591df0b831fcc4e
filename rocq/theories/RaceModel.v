(** Which memory locations the steps of the concurrent models touch, and how.
    Several accesses that are listed for one step are made in that order by that
    goroutine. *)
From Coq Require Import ZArith List Bool Arith.
From Verif Require Import GoBase ConcBase SListModel LFQModel RingModel LFDModel SpinModel RaceSpec.
Import ListNotations.
Open Scope nat_scope.

(** ** The lock-free queue *)
(** The locations of stl/gp/lfqueue.gp.go:33-43: head.next, size, and the fields
    of the nodes. *)
Inductive lq_loc := QHead | QCount | QVal (n : nat) | QNext (n : nat).

(** stl/gp/lfqueue.gp.go:45-50 makeNode; 56; 57; 92; 97; 98; 99; 65, 104; 109;
    116; 120. A CAS reads its second argument n.next of line 57 with a plain read;
    a CAS that fails only reads. *)
Definition lq_accs (s : lq_state) (t : nat) (op : lq_op) : list (acc lq_loc) :=
  match lq_pcs s t with
  | PcIdle => match op with QPush v => [PWrite (QVal (lq_fresh s)); PWrite (QNext (lq_fresh s))] | _ => [] end
  | PcPushLoad v n => [ALoad QHead; PWrite (QNext n)]
  | PcPushCas v n => [PRead (QNext n); if sp_eq (lq_head s) (snext (lq_heap s n)) then ARmw QHead else ALoad QHead]
  | PcPopLoad => [ALoad QHead]
  | PcPopNext n => [PRead (QNext n)]
  | PcPopCas n next => [if sp_eq (lq_head s) (Some n) then ARmw QHead else ALoad QHead]
  | PcPopVal n => [PRead (QVal n)]
  | PcAdd _ _ _ => [ARmw QCount]
  | PcClear => [AStore QHead]
  | PcSize => [ALoad QCount]
  | PcEmpty => [ALoad QHead]
  | PcRet _ _ => []
  end.
(** What a location holds: a number or a pointer (stl/gp/lfqueue.gp.go:33-43). *)
Inductive cell := CInt (z : Z) | CPtr (p : option nat).
(** stl/gp/lfqueue.gp.go:33-43. *)
Definition lq_at (s : lq_state) (l : lq_loc) : cell :=
  match l with
  | QHead => CPtr (lq_head s)
  | QCount => CInt (lq_size s)
  | QVal n => CInt (sval (lq_heap s n))
  | QNext n => CPtr (snext (lq_heap s n))
  end.

(** ** The ring buffer *)
(** The locations of stl/gp/ringbuffer.gp.go:20-32: the four positions, mask, the
    slice header d and the slots. *)
Inductive rb_loc := RHead | RHeadR | RTail | RTailR | RMask | RBuf | RSlot (c : Z).

(** stl/gp/ringbuffer.gp.go:61; 63; 66-67; 68; 75; 77; 80-81; 82; 114. An index
    that is out of range touches no slot. *)
Definition cr_accs (s : cr_state) (t : nat) (op : cr_op) : list (acc rb_loc) :=
  let 'RB head head_r tail tail_r busy mask d := cr_ring s in
  match cr_pcs s t with
  | CIdle => match op with CPush v => [ARmw RTailR] | CPop => [ARmw RHeadR] | CSize => [ALoad RTail] end
  | CPushWait v i => [ALoad RHead; PRead RMask]
  | CPushWrite v i => [PRead RMask; PRead RBuf] ++
      match zget d (Z.land i mask) with Ok _ => [PWrite (RSlot (Z.land i mask))] | _ => [] end
  | CPushCas v i => [if (tail =? i)%Z then ARmw RTail else ALoad RTail]
  | CPopWait j => [ALoad RTail]
  | CPopRead j => [PRead RMask; PRead RBuf] ++
      match zget d (Z.land j mask) with Ok _ => [PRead (RSlot (Z.land j mask))] | _ => [] end
  | CPopCas j val => [if (head =? j)%Z then ARmw RHead else ALoad RHead]
  | CSizeHead tl => [ALoad RHead]
  | CRet _ _ => []
  | CPanic => []
  end.

(** What a location holds; of the slice header the length
    (stl/gp/ringbuffer.gp.go:20-32). *)
Definition cr_at (s : cr_state) (l : rb_loc) : cell :=
  let r := cr_ring s in
  match l with
  | RHead => CInt (rb_head r) | RHeadR => CInt (rb_head_r r)
  | RTail => CInt (rb_tail r) | RTailR => CInt (rb_tail_r r)
  | RMask => CInt (rb_mask r) | RBuf => CInt (zlen (rb_d r))
  | RSlot c => match zget (rb_d r) c with Ok v => CInt v | _ => CPtr None end
  end.

(** ** The lock-free deque *)
(** The locations of stl/gp/lfdeque.gp.go:39-49: headtail, busy, the slice header
    d and its cells. *)
Inductive fd_loc := DWord | DBusy | DBuf | DCell (c : Z).

(** stl/gp/lfdeque.gp.go:112; 117-118; 120; 124; 126; 137; 141; 142-144; 175-179.
    next looks at len(d), Size only if the tail is before the head; the model computes tailNext of line 118 again at
    the CAS, so the read of len(d) is listed there again. *)
Definition cd_accs (s : cd_state) (t : nat) (op : cd_op) : list (acc fd_loc) :=
  let q := cd_q s in
  match cd_pcs s t with
  | DIdle => match op with DPush _ => [PRead DBuf] | _ => [] end
  | DPushLoad v => [ALoad DWord; PRead DBuf]
  | DPushFull v => [ARmw DBusy]
  | DPushWrite v head tail => PRead DBuf :: match zget (fd_d q) tail with Ok _ => [PWrite (DCell tail)] | _ => [] end
  | DPushCas v head tail => [PRead DBuf; if (fd_ht q =? make_ht head tail)%Z then ARmw DWord else ALoad DWord]
  | DPopLoad front => [ALoad DWord]
  | DPopRead head tail => PRead DBuf :: match zget (fd_d q) head with Ok _ => [PRead (DCell head)] | _ => [] end
  | DPopCas head tail front => [PRead DBuf; if (fd_ht q =? make_ht head tail)%Z then ARmw DWord else ALoad DWord]
  | DSizeLoad => ALoad DWord :: if (head_of (fd_ht q) <=? tail_of (fd_ht q))%Z then [] else [PRead DBuf]
  | DRet _ _ => []
  | DPanic => []
  end.

(** What a location holds; of the slice header the length
    (stl/gp/lfdeque.gp.go:39-49). *)
Definition cd_at (s : cd_state) (l : fd_loc) : cell :=
  match l with
  | DWord => CInt (fd_ht (cd_q s)) | DBusy => CInt (fd_busy (cd_q s)) | DBuf => CInt (zlen (fd_d (cd_q s)))
  | DCell c => match zget (fd_d (cd_q s)) c with Ok v => CInt v | _ => CPtr None end
  end.

(** ** Programs that guard shared data by a lock *)
(** The locations: the lock's word (sync/spinlock.go:17; sync/spinrwlock.go:12-13
    the word of w and readerCount), and the data of the program. *)
Inductive g_loc := GWord | GReaders | GData (x : nat).

(** sync/spinlock.go:26, 32: a CAS that fails only reads. *)
Definition sl_accs (s : sl_state) (t : nat) : list (acc g_loc) :=
  match sl_pcs s t with
  | SLock i => if (spin_max <? i)%Z then [] else [if (sl_word s =? 0)%Z then ARmw GWord else ALoad GWord]
  | SUnlock => [if (sl_word s =? spin_locked)%Z then ARmw GWord else ALoad GWord]
  | _ => []
  end.

(** What a goroutine of such a program does next: a call of the lock, or an
    access to the data (a program that uses sync/spinlock.go:20-35). *)
Inductive g_op := GCall (op : sl_op) | GRead (x : nat) | GWrite (x : nat).
(** The lock, and which goroutines have come back from Lock and not called Unlock
    since (same lines). *)
Record g_state := GS { g_lock : sl_state; g_in : nat -> bool }.
(** The program touches the data, and calls Unlock, only while it is inside, and
    calls Lock only outside; what breaks that rule is not done (same lines). *)
Definition g_step (s : g_state) (t : nat) (op : g_op) : g_state * list (ext sl_op sl_res) :=
  let sub op :=
    let (l, h) := sl_step (g_lock s) t op in
    (GS l (match h with
           | [Ret _ LLock LOk] => fupd (g_in s) t true
           | [Inv _ LUnlock] => fupd (g_in s) t false
           | _ => g_in s
           end), h) in
  match sl_pcs (g_lock s) t with
  | SIdle =>
      match op with
      | GCall LLock => if g_in s t then (s, []) else sub LLock
      | GCall LUnlock => if g_in s t then sub LUnlock else (s, [])
      | _ => (s, [])
      end
  | _ => sub LLock
  end.
(** The accesses of such a step (same lines). *)
Definition g_accs (s : g_state) (t : nat) (op : g_op) : list (acc g_loc) :=
  match sl_pcs (g_lock s) t with
  | SIdle => if g_in s t then match op with GRead x => [PRead (GData x)] | GWrite x => [PWrite (GData x)] | _ => [] end else []
  | _ => sl_accs (g_lock s) t
  end.
(** The program starts with a free lock (sync/spinlock.go:16-18). *)
Definition g_init : g_state := GS sl_init (fun _ => false).

(** The same for RWSpinLock: sync/spinrwlock.go:19, 23, 35, 36, 44 are atomic
    operations on readerCount, 18, 26, 37, 50 the CAS of sync/spinlock.go:26, 32
    on w.state. *)
Definition rw_accs (s : rw_state) (t : nat) : list (acc g_loc) :=
  match rw_pcs s t with
  | PWSpin i | PRSpin i => if (spin_max <? i)%Z then [] else [if (rw_w s =? 0)%Z then ARmw GWord else ALoad GWord]
  | PWUCas | PRUCas => [if (rw_w s =? spin_locked)%Z then ARmw GWord else ALoad GWord]
  | PWAdd | PWUAdd | PAdd | PRUAdd => [ARmw GReaders]
  | PLoad i => if (spin_max <? i)%Z then [] else [ALoad GReaders]
  | _ => []
  end.
(** A program guarding its data by sync/spinrwlock.go:17-53. *)
Inductive w_op := WCall (op : rw_op) | WGet (x : nat) | WPut (x : nat).
(** Which goroutines may write, which may read (same lines). *)
Record w_state := WS { w_lock : rw_state; w_wr : nat -> bool; w_rd : nat -> bool }.
(** It writes only between Lock and Unlock, reads only there or between RLock and
    RUnlock, and calls in that order (same lines). *)
Definition w_step (s : w_state) (t : nat) (op : w_op) : w_state * list (ext rw_op sl_res) :=
  let sub op :=
    let (l, h) := rw_step (w_lock s) t op in
    (WS l (match h with
           | [Ret _ WLock LOk] => fupd (w_wr s) t true
           | [Inv _ WUnlock] => fupd (w_wr s) t false
           | _ => w_wr s
           end)
          (match h with
           | [Ret _ RLock LOk] => fupd (w_rd s) t true
           | [Inv _ RUnlock] => fupd (w_rd s) t false
           | _ => w_rd s
           end), h) in
  match rw_pcs (w_lock s) t with
  | PIdle =>
      match op with
      | WCall WUnlock => if w_wr s t then sub WUnlock else (s, [])
      | WCall RUnlock => if w_rd s t then sub RUnlock else (s, [])
      | WCall op => if w_wr s t || w_rd s t then (s, []) else sub op
      | _ => (s, [])
      end
  | _ => sub WLock
  end.
(** The accesses of such a step (same lines). *)
Definition w_accs (s : w_state) (t : nat) (op : w_op) : list (acc g_loc) :=
  match rw_pcs (w_lock s) t with
  | PIdle =>
      match op with
      | WGet x => if w_wr s t || w_rd s t then [PRead (GData x)] else []
      | WPut x => if w_wr s t then [PWrite (GData x)] else []
      | _ => []
      end
  | _ => rw_accs (w_lock s) t
  end.
(** The start (sync/spinrwlock.go:11-15). *)
Definition w_init : w_state := WS rw_init (fun _ => false) (fun _ => false).
(** What the words of the lock hold; the data is not looked at (sync/spinlock.go:17). *)
Definition g_at (s : g_state) (l : g_loc) : Z := match l with GWord => sl_word (g_lock s) | _ => 0%Z end.
(** Where a goroutine is (sync/spinlock.go:20-35). *)
Definition g_pos (s : g_state) (t : nat) : sl_pc * bool := (sl_pcs (g_lock s) t, g_in s t).
(** The same for sync/spinrwlock.go:11-15. *)
Definition w_at (s : w_state) (l : g_loc) : Z := match l with GWord => rw_w (w_lock s) | GReaders => rw_rc (w_lock s) | _ => 0%Z end.
(** Where a goroutine is (sync/spinrwlock.go:17-53). *)
Definition w_pos (s : w_state) (t : nat) : rw_pc * (bool * bool) := (rw_pcs (w_lock s) t, (w_wr s t, w_rd s t)).
