(** What loading an INI text promises. *)
From Coq Require Import ZArith List Bool.
From Verif Require Import GoBase GoStrings.
Import ListNotations.
Open Scope Z_scope.

(** A text is the concatenation of its lines: each ends with its only line feed
    (10), but the last has none. *)
Inductive splits : list Z -> list (list Z) -> Prop :=
  | split_last l : ~ In 10 l -> splits l [l]
  | split_line l text ls : ~ In 10 l -> splits text ls -> splits (l ++ 10 :: text) ((l ++ [10]) :: ls).

(** What a line is: nothing (blank, or a comment starting with ;), a section
    header [name], or an entry: the trimmed texts before and after the first =,
    an empty value without one. *)
Inductive line_kind := KNone | KHeader (name : list Z) | KEntry (key val : list Z).
Definition kind (line : list Z) : line_kind :=
  let t := trim_space line in
  if str_eqb t [] || (hd 0 t =? 59) then KNone
  else if (hd 0 t =? 91) && (last t 0 =? 93) then KHeader (removelast (tl t))
  else let (k, v) := cut 61 t in KEntry (trim_space k) (match v with None => [] | Some v => trim_space v end).

(** After the lines [before], the latest header is [name]. *)
Definition in_block (before : list (list Z)) (name : list Z) : Prop :=
  exists a h b, before = a ++ h :: b /\ kind h = KHeader name /\ forall x n, In x b -> kind x <> KHeader n.

(** The line after [before] assigns [val] to [key] of the section [sec]; sections
    and keys have non-empty names. *)
Definition assigns (before : list (list Z)) (line sec key val : list Z) : Prop :=
  in_block before sec /\ sec <> [] /\ key <> [] /\ kind line = KEntry key val.

(** The last assignment to [key] of [sec], if there is one. *)
Definition last_assignment (ls : list (list Z)) (sec key : list Z) (r : option (list Z)) : Prop :=
  match r with
  | Some v => exists a x b, ls = a ++ x :: b /\ assigns a x sec key v /\
      forall c y d w, b = c ++ y :: d -> ~ assigns (a ++ x :: c) y sec key w
  | None => forall a x b w, ls = a ++ x :: b -> ~ assigns a x sec key w
  end.

(** There is a header [name]. *)
Definition has_header (ls : list (list Z)) (name : list Z) : Prop := exists x, In x ls /\ kind x = KHeader name.
(** Some line assigns to [key] of [sec]. *)
Definition assigned (ls : list (list Z)) (sec key : list Z) : Prop :=
  exists a x b v, ls = a ++ x :: b /\ assigns a x sec key v.
