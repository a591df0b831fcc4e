(** Model of sync/filelock/mutex.go and sync/filelock/rwmutex.go: any number of
    goroutines (of any number of processes) and Mutex values, one call of the
    operating system or of sync.Mutex per step, in any order. *)
From Coq Require Import ZArith List Bool.
From Verif Require Import GoBase ConcBase.
Import ListNotations.
Open Scope Z_scope.

(** Calls on the Mutex value [m] (sync/filelock/mutex.go:15, 25, 47). A path is a
    number; 0 is the empty string. *)
Inductive fl_op := FInit (m p : nat) | FLock (m : nat) | FUnlock (m : nat).
(** Results: ok of Init, the error of Lock ([None] is nil), nothing. *)
Inductive fl_res := FOk (b : bool) | FErr (e : option Z) | FUnit.
(** The value a call is made on (sync/filelock/mutex.go:15, 25, 47). *)
Definition fl_obj (op : fl_op) : nat := match op with FInit m _ | FLock m | FUnlock m => m end.

(** Where a goroutine is: outside; before this.w.Lock() (sync/filelock/mutex.go:16,
    26, 48); after it, before the next CreateFile (29), the assignment (18) or
    CloseHandle (50); in time.Sleep (42); before the deferred this.w.Unlock() (17,
    27, 49); before returning. *)
Inductive fl_pc := FIdle | FEnter (op : fl_op) | FBody (op : fl_op) | FSleep (op : fl_op)
  | FLeave (op : fl_op) (r : fl_res) | FRet (op : fl_op) (r : fl_res).
(** sync/filelock/mutex.go:9-13 Mutex: who holds w, h and path of every value; the
    handle with which a path is open (an operating-system fact), the next handle,
    and the goroutines. Handles are never used twice; the real system may reuse a
    closed one. *)
Record fl_state := FL { fl_w : nat -> option nat; fl_h : nat -> nat; fl_path : nat -> nat;
                        fl_open : nat -> option nat; fl_next : nat; fl_pcs : nat -> fl_pc }.
(** Before any call (sync/filelock/mutex.go:9-13). *)
Definition fl_init : fl_state := FL (fun _ => None) (fun _ => 0%nat) (fun _ => 0%nat) (fun _ => None) 1 (fun _ => FIdle).

(** syscall.EACCES of Go on Windows: APPLICATION_ERROR + 1
    (sync/filelock/mutex.go:39). *)
Definition EACCES : Z := 536870913.
(** syscall.ERROR_FILE_NOT_FOUND (operating system; no /repo lines). *)
Definition ENOFILE : Z := 2.

(** syscall.CreateFile with share mode 0 and OPEN_EXISTING on a path
    (sync/filelock/mutex.go:29-35): a handle, or an error; [file] tells which
    paths are files, [busy] is the error for a file that is open already. The
    empty path is no file. *)
Definition create_file (busy : Z) (file : nat -> bool) (s : fl_state) (p : nat) : nat + Z :=
  if negb (Nat.eqb p 0) && file p then
    match fl_open s p with None => inl (fl_next s) | Some _ => inr busy end
  else inr ENOFILE.
(** syscall.CloseHandle (sync/filelock/mutex.go:50): the file open with this handle is
    closed; a handle that is not open is ignored. *)
Definition close_handle (open : nat -> option nat) (h : nat) : nat -> option nat :=
  fun p => match open p with Some h' => if Nat.eqb h' h then None else Some h' | None => None end.

(** One step of goroutine [t]; [op] is what it calls if it is outside.
    sync/filelock/mutex.go:15-23 Init, 25-45 Lock, 47-53 Unlock. A goroutine that waits
    for this.w stays where it is. *)
Definition fl_step (busy : Z) (file : nat -> bool) (s : fl_state) (t : nat) (op : fl_op)
  : fl_state * list (ext fl_op fl_res) :=
  let goto pc := FL (fl_w s) (fl_h s) (fl_path s) (fl_open s) (fl_next s) (fupd (fl_pcs s) t pc) in
  match fl_pcs s t with
  | FIdle => (goto (FEnter op), [Inv t op])
  | FEnter op =>
      match fl_w s (fl_obj op) with
      | Some _ => (s, [])
      | None => (FL (fupd (fl_w s) (fl_obj op) (Some t)) (fl_h s) (fl_path s) (fl_open s) (fl_next s)
                    (fupd (fl_pcs s) t (FBody op)), [])
      end
  | FBody (FInit m p) =>
      if Nat.eqb (fl_path s m) 0
      then (FL (fl_w s) (fl_h s) (fupd (fl_path s) m p) (fl_open s) (fl_next s)
               (fupd (fl_pcs s) t (FLeave (FInit m p) (FOk true))), [])
      else (goto (FLeave (FInit m p) (FOk false)), [])
  | FBody (FLock m) =>
      match create_file busy file s (fl_path s m) with
      | inl h => (FL (fl_w s) (fupd (fl_h s) m h) (fl_path s) (fupd (fl_open s) (fl_path s m) (Some h)) (S (fl_next s))
                     (fupd (fl_pcs s) t (FLeave (FLock m) (FErr None))), [])
      | inr e => if negb (e =? EACCES) then (goto (FLeave (FLock m) (FErr (Some e))), [])
                 else (goto (FSleep (FLock m)), [])
      end
  | FBody (FUnlock m) =>
      (FL (fl_w s) (fupd (fl_h s) m 0%nat) (fl_path s) (close_handle (fl_open s) (fl_h s m)) (fl_next s)
          (fupd (fl_pcs s) t (FLeave (FUnlock m) FUnit)), [])
  | FSleep op => (goto (FBody op), [])
  | FLeave op r => (FL (fupd (fl_w s) (fl_obj op) None) (fl_h s) (fl_path s) (fl_open s) (fl_next s)
                       (fupd (fl_pcs s) t (FRet op r)), [])
  | FRet op r => (goto FIdle, [Ret t op r])
  end.

(** Calls of RWMutex (sync/filelock/rwmutex.go:8-22). *)
Inductive fr_op := FrLock | FrUnlock | FrRLock | FrRUnlock.
(** sync/filelock/rwmutex.go:8-22: all bodies are empty; a call returns at once. The
    state is who is in a call. *)
Definition fr_step (s : nat -> option fr_op) (t : nat) (op : fr_op) : (nat -> option fr_op) * list (ext fr_op unit) :=
  match s t with
  | None => (fupd s t (Some op), [Inv t op])
  | Some op => (fupd s t None, [Ret t op tt])
  end.
