(** Parts of paths and lists of paths on Windows. *)
From Coq Require Import ZArith List Bool.
From Verif Require Import PathSpec WinSpec WrelSpec.
Import ListNotations.
Open Scope Z_scope.

(** [f] is the last element of the path [s]: what is written behind the last separator. *)
Definition last_part (s f : list Z) : Prop := Forall (fun c => ~ sep c) f /\ (s = f \/ exists d c, sep c /\ s = d ++ c :: f).

(** An entry of a list of paths, as it is written, and the path it stands for: parts of it may stand between quotation marks, where
    the semicolon is a character like others. *)
Inductive entry : list Z -> list Z -> Prop :=
| en_end : entry [] []
| en_char c s v : c <> 59 -> c <> 34 -> entry s v -> entry (c :: s) (c :: v)
| en_quoted q s v : ~ In 34 q -> entry s v -> entry (34 :: q ++ 34 :: s) (q ++ v).
(** The last entry: the quotation mark at the end may be missing. *)
Definition last_entry (s v : list Z) : Prop := entry s v \/ exists s' v' q, entry s' v' /\ ~ In 34 q /\ s = s' ++ 34 :: q /\ v = v' ++ q.
(** A list of paths as it is written, and the paths. *)
Inductive listing : list Z -> list (list Z) -> Prop :=
| ls_last s v : last_entry s v -> listing s [v]
| ls_more s v t l : entry s v -> listing t l -> listing (s ++ 59 :: t) (v :: l).
(** Paths between quotation marks, with semicolons between them. *)
Fixpoint quoted_list (l : list (list Z)) : list Z :=
  match l with
  | [] => []
  | [x] => 34 :: x ++ [34]
  | x :: r => 34 :: x ++ 34 :: 59 :: quoted_list r
  end.

(** What is known of strings.ToLower: a slash remains, and what is before and behind it is changed on its own. *)
Record lowers (lower : list Z -> list Z) : Prop := {
  lowers_nil : lower [] = [];
  lowers_slash : forall a b, lower (a ++ 47 :: b) = lower a ++ 47 :: lower b
}.
(** The lower case of ASCII letters. *)
Definition ascii_lower (s : list Z) : list Z := map low s.
