(** Model of stl/gp/lfqueue.gp.go: the lock-free queue (a stack: values enter
    and leave at the front). *)
From Coq Require Import ZArith List Bool Arith.
From Verif Require Import GoBase ConcBase SListModel.
Import ListNotations.
Open Scope nat_scope.

(** Arithmetic of int32 (Go language; no /repo lines). *)
Definition int32 (x : Z) : Z := ((x + 2 ^ 31) mod 2 ^ 32 - 2 ^ 31)%Z.

(** The calls: stl/gp/lfqueue.gp.go:52 PushFront, 90 PopFront, 108 Clear, 115
    Size, 119 Empty. *)
Inductive lq_op := QPush (v : Z) | QPop | QClear | QSize | QEmpty.
(** Their results (same lines). *)
Inductive lq_res := RUnit | RBool (b : bool) | RVal (v : Z) (ok : bool) | RInt (n : Z).

(** Where a goroutine is (stl/gp/lfqueue.gp.go:52-121): outside; before line 56
    with the new node; before line 57; before line 92; before line 97 with t;
    before line 98 with t and next; before line 99; before line 65 or 104 with
    what will be returned and added; before the only access of Clear, Size or
    Empty; before the return. *)
Inductive lq_pc :=
| PcIdle
| PcPushLoad (v : Z) (n : nat)
| PcPushCas (v : Z) (n : nat)
| PcPopLoad
| PcPopNext (t : nat)
| PcPopCas (t : nat) (next : option nat)
| PcPopVal (t : nat)
| PcAdd (op : lq_op) (r : lq_res) (d : Z)
| PcClear | PcSize | PcEmpty
| PcRet (op : lq_op) (r : lq_res).

(** stl/gp/lfqueue.gp.go:33-43: memory, head.next, size, and the next unused
    address (garbage collection: an address that a goroutine still holds is not
    given out again; here none is given out twice), and the goroutines. *)
Record lq_state := LQ { lq_heap : sheap; lq_head : option nat; lq_size : Z; lq_fresh : nat; lq_pcs : nat -> lq_pc }.

(** One atomic step of goroutine [t]; [op] is what it calls if it is outside.
    stl/gp/lfqueue.gp.go:45-66 PushFront (makeNode happens with the call, the
    node being private), 90-106 PopFront, 108-121. *)
Definition lq_step (s : lq_state) (t : nat) (op : lq_op) : lq_state * list (ext lq_op lq_res) :=
  let goto pc := LQ (lq_heap s) (lq_head s) (lq_size s) (lq_fresh s) (fupd (lq_pcs s) t pc) in
  match lq_pcs s t with
  | PcIdle =>
      match op with
      | QPush v => (LQ (fupd (lq_heap s) (lq_fresh s) (SNode v None)) (lq_head s) (lq_size s) (S (lq_fresh s))
                       (fupd (lq_pcs s) t (PcPushLoad v (lq_fresh s))), [Inv t op])
      | QPop => (goto PcPopLoad, [Inv t op])
      | QClear => (goto PcClear, [Inv t op])
      | QSize => (goto PcSize, [Inv t op])
      | QEmpty => (goto PcEmpty, [Inv t op])
      end
  | PcPushLoad v n => (LQ (set_next (lq_heap s) n (lq_head s)) (lq_head s) (lq_size s) (lq_fresh s)
                          (fupd (lq_pcs s) t (PcPushCas v n)), [])
  | PcPushCas v n =>
      if sp_eq (lq_head s) (snext (lq_heap s n))
      then (LQ (lq_heap s) (Some n) (lq_size s) (lq_fresh s) (fupd (lq_pcs s) t (PcAdd (QPush v) (RBool true) 1)), [])
      else (goto (PcPushLoad v n), [])
  | PcPopLoad => match lq_head s with
                 | None => (goto (PcAdd QPop (RVal 0 false) (-1)), [])
                 | Some n => (goto (PcPopNext n), [])
                 end
  | PcPopNext n => (goto (PcPopCas n (snext (lq_heap s n))), [])
  | PcPopCas n next =>
      if sp_eq (lq_head s) (Some n)
      then (LQ (lq_heap s) next (lq_size s) (lq_fresh s) (fupd (lq_pcs s) t (PcPopVal n)), [])
      else (goto PcPopLoad, [])
  | PcPopVal n => (goto (PcAdd QPop (RVal (sval (lq_heap s n)) true) (-1)), [])
  | PcAdd op' r d => (LQ (lq_heap s) (lq_head s) (int32 (lq_size s + d)) (lq_fresh s) (fupd (lq_pcs s) t (PcRet op' r)), [])
  | PcClear => (LQ (lq_heap s) None (lq_size s) (lq_fresh s) (fupd (lq_pcs s) t (PcRet QClear RUnit)), [])
  | PcSize => (goto (PcRet QSize (RInt (lq_size s))), [])
  | PcEmpty => (goto (PcRet QEmpty (RBool (match lq_head s with None => true | _ => false end))), [])
  | PcRet op' r => (goto PcIdle, [Ret t op' r])
  end.

(** An empty queue, no call running (stl/gp/lfqueue.gp.go:39-43, zero value). *)
Definition lq_init : lq_state := LQ (fun _ => SNode 0 None) None 0 0 (fun _ => PcIdle).
