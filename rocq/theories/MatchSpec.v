(** What a pattern means, by the documentation of filepath.Match; characters and UTF-8. *)
From Coq Require Import ZArith List Bool.
Import ListNotations.
Open Scope Z_scope.

(** Code points, and their encoding. *)
Definition rune (c : Z) : Prop := 0 <= c < 55296 \/ 57344 <= c < 1114112.
Definition enc1 (c : Z) : list Z :=
  if c <? 128 then [c]
  else if c <? 2048 then [192 + c / 64; 128 + c mod 64]
  else if c <? 65536 then [224 + c / 4096; 128 + c / 64 mod 64; 128 + c mod 64]
  else [240 + c / 262144; 128 + c / 4096 mod 64; 128 + c / 64 mod 64; 128 + c mod 64].
Definition utf8 (l : list Z) : list Z := concat (map enc1 l).
Definition text (l : list Z) : Prop := Forall rune l.

(** Terms of a pattern: [*], [?], a character, a class of ranges, perhaps negated. *)
Inductive term := Star | Any | Lit (c : Z) | Class (neg : bool) (l : list (Z * Z)).

(** The grammar: a character of a class, a range, ranges. *)
Inductive class_char : list Z -> Z -> Prop :=
| cc_plain c : c <> 92 -> c <> 45 -> c <> 93 -> class_char [c] c
| cc_escaped c : class_char [92; c] c.
Inductive range : list Z -> Z * Z -> Prop :=
| rg_one s c : class_char s c -> range s (c, c)
| rg_two s lo s' hi : class_char s lo -> class_char s' hi -> range (s ++ 45 :: s') (lo, hi).
Inductive ranges : list Z -> list (Z * Z) -> Prop :=
| rs_one s r : range s r -> ranges s [r]
| rs_more s r s' l : range s r -> ranges s' l -> ranges (s ++ s') (r :: l).
(** The grammar of patterns; a caret at the beginning of a class negates it. *)
Inductive pattern : list Z -> list term -> Prop :=
| pt_end : pattern [] []
| pt_star s ts : pattern s ts -> pattern (42 :: s) (Star :: ts)
| pt_any s ts : pattern s ts -> pattern (63 :: s) (Any :: ts)
| pt_char c s ts : c <> 42 -> c <> 63 -> c <> 92 -> c <> 91 -> pattern s ts -> pattern (c :: s) (Lit c :: ts)
| pt_escaped c s ts : pattern s ts -> pattern (92 :: c :: s) (Lit c :: ts)
| pt_class b l s ts : ranges b l -> hd 0 b <> 94 -> pattern s ts -> pattern (91 :: b ++ 93 :: s) (Class false l :: ts)
| pt_negated b l s ts : ranges b l -> pattern s ts -> pattern (91 :: 94 :: b ++ 93 :: s) (Class true l :: ts).

(** Which texts a pattern stands for. *)
Definition in_ranges (l : list (Z * Z)) (c : Z) : Prop := exists lo hi, In (lo, hi) l /\ lo <= c <= hi.
Inductive matches : list term -> list Z -> Prop :=
| mt_end : matches [] []
| mt_star_none ts cs : matches ts cs -> matches (Star :: ts) cs
| mt_star_more c ts cs : c <> 47 -> matches (Star :: ts) cs -> matches (Star :: ts) (c :: cs)
| mt_any c ts cs : c <> 47 -> matches ts cs -> matches (Any :: ts) (c :: cs)
| mt_lit c ts cs : matches ts cs -> matches (Lit c :: ts) (c :: cs)
| mt_class l c ts cs : in_ranges l c -> matches ts cs -> matches (Class false l :: ts) (c :: cs)
| mt_negated l c ts cs : ~ in_ranges l c -> matches ts cs -> matches (Class true l :: ts) (c :: cs).

(** Classes that contain the slash; stars followed by something that is not written out. *)
Definition slash_free (t : term) : Prop :=
  match t with Class false l => ~ in_ranges l 47 | Class true l => in_ranges l 47 | _ => True end.
Fixpoint stars_anchored (ts : list term) : Prop :=
  match ts with
  | Star :: ts' => match ts' with Any :: _ | Class _ _ :: _ => False | _ => True end /\ stars_anchored ts'
  | _ :: ts' => stars_anchored ts'
  | [] => True
  end.
Definition ascii (cs : list Z) : Prop := Forall (fun c => c < 128) cs.

(** Example: a[b-d]*/?\* , its terms, ab世x/y* and ab世x/yz . *)
Definition ex_pattern : list Z := [97; 91; 98; 45; 100; 93; 42; 47; 63; 92; 42].
Definition ex_terms : list term := [Lit 97; Class false [(98, 100)]; Star; Lit 47; Any; Lit 42].
Definition ex_yes : list Z := [97; 98; 19990; 120; 47; 121; 42].
Definition ex_no : list Z := [97; 98; 19990; 120; 47; 121; 122].

(** A term that is not well-formed: a backslash at the end, or a class that is not closed or has a misplaced minus. *)
Definition malformed_term (s : list Z) : Prop :=
  s = [92] \/
  exists b, s = 91 :: b /\ forall b' l r, ranges b' l -> (hd 0 b' <> 94 -> b <> b' ++ 93 :: r) /\ b <> 94 :: b' ++ 93 :: r.
(** No stars among the terms. *)
Definition no_stars (ts : list term) : Prop := Forall (fun t => t <> Star) ts.
