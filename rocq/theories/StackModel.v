(** Model of stl/stack.gp_int.go (IntStack). *)
From Coq Require Import ZArith List Bool.
From Verif Require Import GoBase.
Import ListNotations.
Open Scope Z_scope.

(** stl/stack.gp_int.go:26-28 IntStack: the visible part of the slice d, oldest
    value first.  Spare capacity and the difference between a nil and an empty
    slice only affect allocation and are not modelled. *)
Definition stack := list Z.

(** stl/stack.gp_int.go:38-49 Init (and 31-35 New): in every branch d becomes
    d[:0]. *)
Definition stack_init (d : stack) (bufSize : Z) : stack := firstn 0 d.
(** stl/stack.gp_int.go:52-54 Clear. *)
Definition stack_clear (d : stack) : stack := stack_init d (-1).
(** stl/stack.gp_int.go:57-62 Push; always returns true. *)
Definition stack_push (d : stack) (v : Z) : stack * bool := (d ++ [v], true).
(** stl/stack.gp_int.go:84-86 Size. *)
Definition stack_size (d : stack) : Z := zlen d.
(** stl/stack.gp_int.go:89-91 Empty. *)
Definition stack_empty (d : stack) : bool := stack_size d =? 0.
(** stl/stack.gp_int.go:73-81 Top; [None] stands for ok=false. *)
Definition stack_top (d : stack) : outcome (option Z) :=
  let n := stack_size d in
  if 0 <? n then top <- zget d (n - 1) ;; Ok (Some top) else Ok None.
(** stl/stack.gp_int.go:65-70 Pop. *)
Definition stack_pop (d : stack) : outcome (stack * option Z) :=
  t <- stack_top d ;;
  match t with
  | Some top => d' <- zslice d 0 (stack_size d - 1) ;; Ok (d', Some top)
  | None => Ok (d, None)
  end.
