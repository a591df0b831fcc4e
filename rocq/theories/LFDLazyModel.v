(** Model of stl/gp/lfdeque.gp.go used without Init: the first PushBack makes the buffer.  One step per access to the field d and to the word. *)
From Coq Require Import ZArith List Bool.
From Verif Require Import GoBase ConcBase LFDModel RaceSpec RaceModel.
Import ListNotations.
Open Scope Z_scope.

(** Where a goroutine is: at a place of the model of the deque with a buffer (LFDModel.v); before the test of line
    60; before line 74, which makes the buffer; before the store of line 80; before line 81 (stl/gp/lfdeque.gp.go:59-82, 110-114). *)
Inductive cz_pc :=
| ZBase (pc : cd_pc)
| ZInit (v : Z) | ZMake (v : Z) | ZStore (v : Z) | ZBusy (v : Z).

(** The shared deque, whose buffer is the empty list as long as d is nil, and the goroutines (stl/gp/lfdeque.gp.go:39-49). *)
Record cz_state := CZ { cz_q : lfd; cz_pcs : nat -> cz_pc }.

(** The state of LFDModel.v in which goroutine [t] is at [pc] (stl/gp/lfdeque.gp.go:39-49). *)
Definition cz_at_pc (s : cz_state) (pc : cd_pc) : cd_state := CD (cz_q s) (fun _ => pc).

(** One step of goroutine [t]: stl/gp/lfdeque.gp.go:110-114 the beginning of PushBack, 59-69 Init(-1), 71-76 newBuf, 79-82 Clear; everything else as in
    LFDModel.v. *)
Definition cz_step (s : cz_state) (t : nat) (op : cd_op) : cz_state * list (ext cd_op fd_res) :=
  let q := cz_q s in
  let goto r pc := CZ r (fupd (cz_pcs s) t pc) in
  match cz_pcs s t with
  | ZBase pc =>
      match pc, op with
      | DIdle, DPush v => (goto q (match fd_d q with [] => ZInit v | _ => ZBase (DPushLoad v) end), [Inv t op])
      | _, _ => let '(b, h) := cd_step (cz_at_pc s pc) t op in (goto (cd_q b) (ZBase (cd_pcs b t)), h)
      end
  | ZInit v => (goto q (match fd_d q with [] => ZMake v | _ => ZStore v end), [])
  | ZMake v => (goto (LFD (fd_ht q) (fd_busy q) (repeat 0 8)) (ZStore v), [])
  | ZStore v => (goto (LFD 0 (fd_busy q) (fd_d q)) (ZBusy v), [])
  | ZBusy v => (goto (LFD (fd_ht q) 0 (fd_d q)) (ZBase (DPushLoad v)), [])
  end.

(** All goroutines outside a deque that is the zero value (stl/gp/lfdeque.gp.go:39-49). *)
Definition cz_init : cz_state := CZ lfd_zero (fun _ => ZBase DIdle).

(** The accesses of a step (same lines).  Clear (79-82) stores the word atomically and busy plainly. *)
Definition cz_accs (s : cz_state) (t : nat) (op : cd_op) : list (acc fd_loc) :=
  match cz_pcs s t with
  | ZBase pc => cd_accs (cz_at_pc s pc) t op
  | ZInit v => [PRead DBuf]
  | ZMake v => [PWrite DBuf]
  | ZStore v => [AStore DWord]
  | ZBusy v => [PWrite DBusy]
  end.
