(** Models of sync/spinlock.go and sync/spinrwlock.go: any number of goroutines,
    one atomic operation per step, in any order. A call that panics returns with
    the result [LPanic]: the caller may recover. *)
From Coq Require Import ZArith List Bool.
From Verif Require Import GoBase ConcBase.
Import ListNotations.
Open Scope Z_scope.

(** ** SpinLock *)
(** sync/spinlock.go:11 spinLockLocked. *)
Definition spin_locked : Z := 1.
(** sync/spinlock.go:13 spinLockMaxLoop. *)
Definition spin_max : Z := 16777216.

(** Calls (sync/spinlock.go:20, 31). *)
Inductive sl_op := LLock | LUnlock.
(** Outcomes. *)
Inductive sl_res := LOk | LPanic.
(** Where a goroutine is: outside, in the loop of Lock with its counter
    (sync/spinlock.go:21), before the exchange of Unlock (32), before returning. *)
Inductive sl_pc := SIdle | SLock (i : Z) | SUnlock | SRet (op : sl_op) (r : sl_res).
(** sync/spinlock.go:16-18 SpinLock, and the goroutines. *)
Record sl_state := SL { sl_word : Z; sl_pcs : nat -> sl_pc }.
(** A SpinLock variable before use (sync/spinlock.go:16-18). *)
Definition sl_init : sl_state := SL 0 (fun _ => SIdle).

(** One step of goroutine [t]; [op] is what it calls if it is outside.
    sync/spinlock.go:20-30 Lock, 31-35 Unlock. *)
Definition sl_step (s : sl_state) (t : nat) (op : sl_op) : sl_state * list (ext sl_op sl_res) :=
  let goto pc := SL (sl_word s) (fupd (sl_pcs s) t pc) in
  match sl_pcs s t with
  | SIdle => match op with
             | LLock => (goto (SLock 0), [Inv t LLock])
             | LUnlock => (goto SUnlock, [Inv t LUnlock])
             end
  | SLock i =>
      if spin_max <? i then (goto (SRet LLock LPanic), [])
      else if sl_word s =? 0 then (SL spin_locked (fupd (sl_pcs s) t (SRet LLock LOk)), [])
      else (goto (SLock (i + 1)), [])
  | SUnlock =>
      if sl_word s =? spin_locked then (SL 0 (fupd (sl_pcs s) t (SRet LUnlock LOk)), [])
      else (goto (SRet LUnlock LPanic), [])
  | SRet op r => (goto SIdle, [Ret t op r])
  end.

(** ** RWSpinLock *)
(** sync/spinrwlock.go:8 rwSpinLockMaxReaders. *)
Definition rw_max : Z := 1073741824.
(** Reduction to an int32 (Go language; no /repo lines). *)
Definition i32 (z : Z) : Z := (z + 2147483648) mod 4294967296 - 2147483648.

(** Calls (sync/spinrwlock.go:17, 22, 29, 43). *)
Inductive rw_op := WLock | WUnlock | RLock | RUnlock.
(** Where a goroutine is. [PWSpin i]: in w.Lock of Lock (sync/spinrwlock.go:18);
    [PWAdd]: before 19; [PWUAdd]: before 23; [PWUCas]: before 26; [PLoad i]: in the
    loop of RLock (30-35); [PAdd]: before 36; [PRSpin i]: in w.Lock of RLock (37);
    [PRUAdd]: before 44; [PRUCas]: before 50; [PRet]: before returning. *)
Inductive rw_pc := PIdle | PWSpin (i : Z) | PWAdd | PWUAdd | PWUCas | PLoad (i : Z) | PAdd | PRSpin (i : Z)
  | PRUAdd | PRUCas | PRet (op : rw_op) (r : sl_res).
(** sync/spinrwlock.go:11-15 RWSpinLock, and the goroutines. *)
Record rw_state := RW { rw_w : Z; rw_rc : Z; rw_pcs : nat -> rw_pc }.
(** An RWSpinLock variable before use (sync/spinrwlock.go:11-15). *)
Definition rw_init : rw_state := RW 0 0 (fun _ => PIdle).

(** One step of goroutine [t]. sync/spinrwlock.go:17-20 Lock, 22-27 Unlock, 29-42
    RLock, 43-53 RUnlock, with sync/spinlock.go:20-35 for the field w. *)
Definition rw_step (s : rw_state) (t : nat) (op : rw_op) : rw_state * list (ext rw_op sl_res) :=
  let goto pc := RW (rw_w s) (rw_rc s) (fupd (rw_pcs s) t pc) in
  let unlock_w op := if rw_w s =? spin_locked then RW 0 (rw_rc s) (fupd (rw_pcs s) t (PRet op LOk))
                     else goto (PRet op LPanic) in
  match rw_pcs s t with
  | PIdle => (goto match op with WLock => PWSpin 0 | WUnlock => PWUAdd | RLock => PLoad 0 | RUnlock => PRUAdd end, [Inv t op])
  | PWSpin i =>
      if spin_max <? i then (goto (PRet WLock LPanic), [])
      else if rw_w s =? 0 then (RW spin_locked (rw_rc s) (fupd (rw_pcs s) t PWAdd), [])
      else (goto (PWSpin (i + 1)), [])
  | PWAdd => (RW (rw_w s) (i32 (rw_rc s - rw_max)) (fupd (rw_pcs s) t (PRet WLock LOk)), [])
  | PWUAdd =>
      let r := i32 (rw_rc s + rw_max) in
      (RW (rw_w s) r (fupd (rw_pcs s) t (if rw_max <=? r then PRet WUnlock LPanic else PWUCas)), [])
  | PWUCas => (unlock_w WUnlock, [])
  | PLoad i =>
      if spin_max <? i then (goto (PRet RLock LPanic), [])
      else if 0 <=? rw_rc s then (goto PAdd, [])
      else (goto (PLoad (i + 1)), [])
  | PAdd =>
      let r := i32 (rw_rc s + 1) in
      (RW (rw_w s) r (fupd (rw_pcs s) t (if r =? 1 then PRSpin 0 else PRet RLock LOk)), [])
  | PRSpin i =>
      if spin_max <? i then (goto (PRet RLock LPanic), [])
      else if rw_w s =? 0 then (RW spin_locked (rw_rc s) (fupd (rw_pcs s) t (PRet RLock LOk)), [])
      else (goto (PRSpin (i + 1)), [])
  | PRUAdd =>
      let r := i32 (rw_rc s - 1) in
      (RW (rw_w s) r (fupd (rw_pcs s) t
         (if r <? 0 then
            if (r + 1 =? 0) || (r + 1 =? - rw_max) then PRet RUnlock LPanic
            else if r =? 0 then PRUCas else PRet RUnlock LOk
          else PRet RUnlock LOk)), [])
  | PRUCas => (unlock_w RUnlock, [])
  | PRet op r => (goto PIdle, [Ret t op r])
  end.
