(** What the parts of a path are: independent of the loops of the model. *)
From Coq Require Import ZArith List.
From Verif Require Import PathSpec.
Import ListNotations.
Open Scope Z_scope.

(** Texts written one after another with colons between them, as in a list of search paths. *)
Fixpoint with_colons (l : list (list Z)) : list Z :=
  match l with
  | [] => []
  | [x] => x
  | x :: r => x ++ 58 :: with_colons r
  end.
(** A text that contains no colon. *)
Definition no_colon (x : list Z) : Prop := ~ In 58 x.
(** [f] is the last element of the path [s]: what is written after the last slash. *)
Definition last_elem (s f : list Z) : Prop := ~ In 47 f /\ (s = f \/ exists d, s = d ++ 47 :: f).
(** [e] is the extension of the file name [f]: the text from the last full stop on, or nothing if there is none. *)
Definition ext_spec_of (f e : list Z) : Prop :=
  (e = [] /\ ~ In 46 f) \/ exists a b, f = a ++ 46 :: b /\ e = 46 :: b /\ ~ In 46 b.
