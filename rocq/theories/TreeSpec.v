(** Pre-order and cursors over a list, independent of the visitor. *)
From Coq Require Import ZArith List Bool.
From Verif Require Import GoBase TreeModel.
Import ListNotations.
Open Scope Z_scope.

(** [Preorder t l]: l lists the value of t, then the pre-orders of its children
    from left to right. *)
Inductive Preorder {V} : tree V -> list V -> Prop :=
| Preorder_node v cs ls : Forall2 Preorder cs ls -> Preorder (Node v cs) (v :: concat ls).

Inductive vop := VNext | VPrev.

(** A cursor over a list. *)
Inductive cursor := Fresh | At (k : nat) | Done.

Definition cursor_step {V} (l : list V) (zero : V) (c : cursor) (op : vop) : cursor * (bool * V) :=
  let c' := match c, op with
            | Fresh, VNext => At 0
            | Fresh, VPrev => At (length l - 1)
            | At k, VNext => if (S k <? length l)%nat then At (S k) else Done
            | At k, VPrev => match k with O => Done | S k' => At k' end
            | Done, _ => Done
            end in
  (c', match c' with At k => (true, nth k l zero) | _ => (false, zero) end).

(** Calling the modelled visitor: Next or Prev, then Get. *)
Definition visitor_step {V} (zero : V) (v : visitor V) (op : vop) : outcome (visitor V * (bool * V)) :=
  ' (v', ok) <- (match op with VNext => visitor_next v | VPrev => visitor_prev v end) ;;
  Ok (v', (ok, visitor_get zero v')).
