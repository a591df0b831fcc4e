(** Properties C13-C15 of the tree and its visitor, for any value type. *)
From Coq Require Import ZArith List Bool.
From Verif Require Import GoBase TreeModel TreeSpec TreeProofs.
Import ListNotations.
Open Scope Z_scope.

Definition sample : tree Z :=
  Node 1 [Node 2 [Node 3 []; Node 4 [Node 5 []]]; Node 6 []; Node 7 [Node 8 []]].

(** C13: All() is the (unique) pre-order list. *)
Theorem C13_all_is_preorder : forall (V : Type) (t : tree V) l, Preorder t l <-> l = all t.
Proof.
  exact (fun V t l => conj (preorder_unique t l)
           (fun E => eq_ind_r (fun l => Preorder t l) (all_preorder t) E)).
Qed.
Print Assumptions C13_all_is_preorder.

Example C13_ex1 : all sample = [1; 2; 3; 4; 5; 6; 7; 8].
Proof. reflexivity. Qed.

(** C13: the successive Next calls of a fresh visitor give All() and then false,
    however often Next is called again. *)
Theorem C13_forward_visit : forall (V : Type) (root : tree V) zero m,
  exists v, run_ops (visitor_step zero) (new_visitor root) (repeat VNext (length (all root) + m))
    = Ok (v, map (pair true) (all root) ++ repeat (false, zero) m).
Proof. exact @forward_all. Qed.
Print Assumptions C13_forward_visit.

Example C13_ex2 : exists v,
  run_ops (visitor_step 0) (new_visitor sample) (repeat VNext 10)
  = Ok (v, [(true, 1); (true, 2); (true, 3); (true, 4); (true, 5); (true, 6); (true, 7); (true, 8);
            (false, 0); (false, 0)]).
Proof. eexists. vm_compute. reflexivity. Qed.

(** C14: the successive Prev calls of a fresh visitor give All() backwards and
    then false. *)
Theorem C14_backward_visit : forall (V : Type) (root : tree V) zero m,
  exists v, run_ops (visitor_step zero) (new_visitor root) (repeat VPrev (length (all root) + m))
    = Ok (v, map (pair true) (rev (all root)) ++ repeat (false, zero) m).
Proof. exact @backward_all. Qed.
Print Assumptions C14_backward_visit.

Example C14_ex : exists v,
  run_ops (visitor_step 0) (new_visitor sample) (repeat VPrev 9)
  = Ok (v, [(true, 8); (true, 7); (true, 6); (true, 5); (true, 4); (true, 3); (true, 2); (true, 1);
            (false, 0)]).
Proof. eexists. vm_compute. reflexivity. Qed.

(** C15: under every interleaving of Next and Prev the visitor is a cursor over
    All(), and no call panics or loops. *)
Theorem C15_visitor_is_cursor : forall (V : Type) (root : tree V) zero ops,
  exists v, run_ops (visitor_step zero) (new_visitor root) ops
    = Ok (v, snd (spec_ops (cursor_step (all root) zero) Fresh ops)).
Proof. exact @visitor_history. Qed.
Print Assumptions C15_visitor_is_cursor.

Example C15_ex :
  snd (spec_ops (cursor_step (all sample) 0) Fresh
    [VNext; VNext; VNext; VNext; VNext; VNext; VPrev; VPrev; VNext; VPrev; VPrev; VPrev; VPrev; VPrev; VNext])
  = [(true, 1); (true, 2); (true, 3); (true, 4); (true, 5); (true, 6); (true, 5); (true, 4); (true, 5);
     (true, 4); (true, 3); (true, 2); (true, 1); (false, 0); (false, 0)].
Proof. reflexivity. Qed.
