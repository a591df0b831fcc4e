(** What a pattern means on Windows, by the documentation of filepath.Match: there is no escaping, and the separator is the backslash. *)
From Coq Require Import ZArith List Bool.
From Verif Require Import MatchSpec.
Import ListNotations.
Open Scope Z_scope.

(** The grammar: a character of a class, a range, ranges. *)
Inductive wclass_char : list Z -> Z -> Prop :=
| wcc_plain c : c <> 45 -> c <> 93 -> wclass_char [c] c.
Inductive wrange : list Z -> Z * Z -> Prop :=
| wrg_one s c : wclass_char s c -> wrange s (c, c)
| wrg_two s lo s' hi : wclass_char s lo -> wclass_char s' hi -> wrange (s ++ 45 :: s') (lo, hi).
Inductive wranges : list Z -> list (Z * Z) -> Prop :=
| wrs_one s r : wrange s r -> wranges s [r]
| wrs_more s r s' l : wrange s r -> wranges s' l -> wranges (s ++ s') (r :: l).
(** The grammar of patterns; a caret at the beginning of a class negates it. *)
Inductive wpattern : list Z -> list term -> Prop :=
| wpt_end : wpattern [] []
| wpt_star s ts : wpattern s ts -> wpattern (42 :: s) (Star :: ts)
| wpt_any s ts : wpattern s ts -> wpattern (63 :: s) (Any :: ts)
| wpt_char c s ts : c <> 42 -> c <> 63 -> c <> 91 -> wpattern s ts -> wpattern (c :: s) (Lit c :: ts)
| wpt_class b l s ts : wranges b l -> hd 0 b <> 94 -> wpattern s ts -> wpattern (91 :: b ++ 93 :: s) (Class false l :: ts)
| wpt_negated b l s ts : wranges b l -> wpattern s ts -> wpattern (91 :: 94 :: b ++ 93 :: s) (Class true l :: ts).

(** Which texts a pattern stands for. *)
Inductive wmatches : list term -> list Z -> Prop :=
| wmt_end : wmatches [] []
| wmt_star_none ts cs : wmatches ts cs -> wmatches (Star :: ts) cs
| wmt_star_more c ts cs : c <> 92 -> wmatches (Star :: ts) cs -> wmatches (Star :: ts) (c :: cs)
| wmt_any c ts cs : c <> 92 -> wmatches ts cs -> wmatches (Any :: ts) (c :: cs)
| wmt_lit c ts cs : wmatches ts cs -> wmatches (Lit c :: ts) (c :: cs)
| wmt_class l c ts cs : in_ranges l c -> wmatches ts cs -> wmatches (Class false l :: ts) (c :: cs)
| wmt_negated l c ts cs : ~ in_ranges l c -> wmatches ts cs -> wmatches (Class true l :: ts) (c :: cs).

(** Example: s/[a-f]*.g? , its terms, s/fs/世.go (matched, across a slash) and s/f.g . *)
Definition wex_pattern : list Z := [115; 47; 91; 97; 45; 102; 93; 42; 46; 103; 63].
Definition wex_terms : list term := [Lit 115; Lit 47; Class false [(97, 102)]; Star; Lit 46; Lit 103; Any].
Definition wex_yes : list Z := [115; 47; 102; 115; 47; 19990; 46; 103; 111].
Definition wex_no : list Z := [115; 47; 102; 46; 103].
(** A term that is not well-formed: a class that is not closed or has a misplaced minus. *)
Definition wmalformed_term (s : list Z) : Prop :=
  exists b, s = 91 :: b /\ forall b' l r, wranges b' l -> (hd 0 b' <> 94 -> b <> b' ++ 93 :: r) /\ b <> 94 :: b' ++ 93 :: r.
