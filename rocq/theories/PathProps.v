(** Properties C53 and C93 to C97: paths. *)
From Coq Require Import String ZArith List Bool Lia.
From Verif Require Import GoBase GoStrings PathModel PathSpec PathProofs PathMore.
Import ListNotations.
Open Scope Z_scope.

(** C53: joining the parts that SplitAll returns gives the path back. True for
    absolute paths if the root is put back in front; missing: SplitAll panics for
    every relative path, and drops the root of an absolute one (see below). *)
Theorem C53_split_join_partial : forall cs, Forall name cs -> cs <> [] ->
  split_all (file_path (abs_path cs)) = Ok cs /\ joins ([47] :: cs) = file_path (abs_path cs).
Proof. exact split_join. Qed.
Print Assumptions C53_split_join_partial.
Example C53_split_join_ex : split_all (file_path (bytes_of "/usr//lib/./go/")) = Ok [bytes_of "usr"; bytes_of "lib"; bytes_of "go"] /\
  joins [[47]; bytes_of "usr"; bytes_of "lib"; bytes_of "go"] = bytes_of "/usr/lib/go".
Proof. vm_compute. auto. Qed.

(** C53 as stated is false: an absolute path comes back as a relative one, and
    there is no result at all for a relative path. *)
Theorem C53_split_join_refuted : (exists s parts, split_all (file_path s) = Ok parts /\ joins parts <> file_path s) /\
  exists s, split_all (file_path s) = Panic.
Proof. exact split_join_false. Qed.
Print Assumptions C53_split_join_refuted.

(** C93: what SplitAll does with every string: the names of an absolute path from
    the root on, the slash alone for the root, and a panic for every relative
    path. *)
Theorem C93_split_all_exact : forall s,
  (forall t, s = 47 :: t ->
     (exists cs, Forall name cs /\ cs <> [] /\ split_all (file_path s) = Ok cs /\ forall from, leads from s = rev cs) \/
     (split_all (file_path s) = Ok [[47]] /\ forall from, leads from s = [])) /\
  ((forall t, s <> 47 :: t) -> split_all (file_path s) = Panic).
Proof. exact split_exact'. Qed.
Print Assumptions C93_split_all_exact.
Example C93_split_all_ex : split_all (file_path (bytes_of "/a/../b")) = Ok [bytes_of "b"] /\ split_all (file_path (bytes_of "/..")) = Ok [[47]] /\
  split_all (file_path (bytes_of "x.go")) = Panic /\ split_all (file_path []) = Panic.
Proof. vm_compute. auto. Qed.

(** C94: FilePath of a string leads to the same place as the string, from
    everywhere. *)
Theorem C94_same_place : forall s from, leads from (file_path s) = leads from s.
Proof. exact clean_leads. Qed.
Print Assumptions C94_same_place.
(** C94: two strings that lead to the same places have the same FilePath, so
    comparing FilePath values compares places. *)
Theorem C94_unique : forall s t, (forall from, leads from s = leads from t) <-> file_path s = file_path t.
Proof. exact clean_iff. Qed.
Print Assumptions C94_unique.
(** C94: a FilePath has no empty elements, no "." and no ".." after a name, and
    making a FilePath of it again changes nothing. *)
Theorem C94_canonical : forall s, canonical (file_path s) /\ file_path (file_path s) = file_path s.
Proof. exact (fun s => conj (clean_canonical s) (clean_idem s)). Qed.
Print Assumptions C94_canonical.
Example C94_ex : file_path (bytes_of "a//b/./../c/") = bytes_of "a/c" /\ file_path (bytes_of "../../x/../..") = bytes_of "../../.." /\
  leads [bytes_of "u"; bytes_of "home"] (bytes_of "a//b/./../c/") = [bytes_of "c"; bytes_of "a"; bytes_of "u"; bytes_of "home"].
Proof. vm_compute. auto. Qed.

(** C95: Joins leads where its elements lead one after the other (a slash at the
    start of a later element does not go back to the root); empty elements at the
    start are ignored. *)
Theorem C95_joins : forall a l from,
  (a <> [] -> leads from (joins (a :: l)) = fold_left (fun at_ b => follow at_ [] b) l (leads from a)) /\
  joins ([] :: l) = joins l.
Proof. exact (fun a l from => conj (joins_leads a l from) (joins_skip l)). Qed.
Print Assumptions C95_joins.
Example C95_ex : joins [bytes_of "/a"; bytes_of "b/c"; bytes_of ".."; bytes_of "/d"] = bytes_of "/a/b/d" /\ joins [[]; bytes_of "x"; []; bytes_of "y"] = bytes_of "x/y" /\
  joins [] = bytes_of ".".
Proof. vm_compute. auto. Qed.

(** C96: Rename, Link, Symlink and Move take a new name relative to the directory
    of the file, unless it is absolute. True of every relative new name; missing:
    absolute ones (refuted below). *)
Theorem C96_new_name_partial : forall me dest from, (forall t, dest <> 47 :: t) ->
  leads from (relate_this me dest) = leads (leads from (dir_of me)) dest.
Proof. exact relate_this_rel'. Qed.
Print Assumptions C96_new_name_partial.
Theorem C96_dir : forall cs x, Forall name cs -> name x -> dir_of (abs_path (cs ++ [x])) = abs_path cs.
Proof. exact dir_abs. Qed.
Print Assumptions C96_dir.
Example C96_ex : relate_this (bytes_of "/home/u/f.txt") (bytes_of "../g.txt") = bytes_of "/home/g.txt" /\ dir_of (bytes_of "/home/u/f.txt") = bytes_of "/home/u".
Proof. vm_compute. auto. Qed.
(** C96 as stated is false: an absolute new name is always taken inside the
    directory of the file. *)
Theorem C96_absolute_name : forall cs x ds, Forall name cs -> name x -> Forall name ds ->
  relate_this (abs_path (cs ++ [x])) (abs_path ds) = abs_path (cs ++ ds).
Proof. exact relate_this_abs. Qed.
Print Assumptions C96_absolute_name.
Theorem C96_new_name_refuted : exists me dest from, me = file_path me /\ leads from (relate_this me dest) <> leads (leads from (dir_of me)) dest.
Proof. exact new_name_false. Qed.
Print Assumptions C96_new_name_refuted.
Example C96_absolute_ex : relate_this (bytes_of "/home/u/f.txt") (bytes_of "/tmp/g.txt") = bytes_of "/home/u/tmp/g.txt".
Proof. vm_compute. reflexivity. Qed.

(** C97: the result of Relate leads from the root argument to the path. True if
    both are absolute, or both are relative and the root argument does not go up
    further than the path; missing: the other cases, where the error of filepath.Rel is dropped
    (refuted below). *)
Theorem C97_relate_abs_partial : forall me root from, (exists t, me = 47 :: t) -> (exists t, root = 47 :: t) ->
  leads (leads from root) (relate me root) = leads from me.
Proof. exact relate_abs'. Qed.
Print Assumptions C97_relate_abs_partial.
Theorem C97_relate_rel_partial : forall me cs from, (forall t, me <> 47 :: t) -> Forall name cs ->
  leads (leads from (rel_path cs)) (relate me (rel_path cs)) = leads from me.
Proof. exact relate_rel'. Qed.
Print Assumptions C97_relate_rel_partial.
Theorem C97_relate_ups_partial : forall k j cs ds root me from, Forall name cs -> Forall name ds -> (k <= j)%nat ->
  file_path root = rel_path (repeat [46; 46] k ++ cs) -> file_path me = rel_path (repeat [46; 46] j ++ ds) ->
  leads (leads from root) (relate me root) = leads from me.
Proof. exact relate_ups. Qed.
Print Assumptions C97_relate_ups_partial.
Example C97_ups_ex : relate (bytes_of "../../a") (bytes_of "../b/") = bytes_of "../../a" /\ file_path (bytes_of "../b/") = rel_path (repeat [46; 46] 1 ++ [bytes_of "b"]) /\
  file_path (bytes_of "../../a") = rel_path (repeat [46; 46] 2 ++ [bytes_of "a"]).
Proof. vm_compute. auto. Qed.
(** C97: in all other cases the answer is ".". *)
Theorem C97_relate_lost : forall k j cs ds root me, Forall name cs -> Forall name ds -> (j < k)%nat ->
  file_path root = rel_path (repeat [46; 46] k ++ cs) -> file_path me = rel_path (repeat [46; 46] j ++ ds) -> relate me root = [46].
Proof. exact relate_lost. Qed.
Print Assumptions C97_relate_lost.
Theorem C97_relate_mixed : forall me root t, (me = 47 :: t /\ forall u, root <> 47 :: u) \/ (root = 47 :: t /\ forall u, me <> 47 :: u) -> relate me root = [46].
Proof. exact relate_mixed'. Qed.
Print Assumptions C97_relate_mixed.
Example C97_lost_ex : relate (bytes_of "a/b") (bytes_of "../c") = bytes_of "." /\ relate (bytes_of "/a/b") (bytes_of "a") = bytes_of ".".
Proof. vm_compute. auto. Qed.
Example C97_ex : relate (bytes_of "/home/u/src/x.go") (bytes_of "/home/v/") = bytes_of "../u/src/x.go" /\
  relate (bytes_of "../a") (bytes_of "b/c") = bytes_of "../../../a" /\ relate (bytes_of "/a/b") (bytes_of "/a/b") = bytes_of ".".
Proof. vm_compute. auto. Qed.
(** C97 as stated is false: for an absolute and a relative path the answer is ".",
    as if they were the same. *)
Theorem C97_relate_refuted : exists me root, me = file_path me /\ relate me root = [46] /\ forall from, leads (leads from root) (relate me root) <> leads from me.
Proof. exact relate_false. Qed.
Print Assumptions C97_relate_refuted.

(** C98: Move takes a relative new name from the directory of the file. True of a
    file given by its name alone; missing: all others, since Move goes down from
    the directory twice (refuted below). *)
Theorem C98_move_partial : forall x ds from, name x -> Forall name ds ->
  leads from (move_dest x (rel_path ds)) = leads from (rel_path ds).
Proof. exact move_here. Qed.
Print Assumptions C98_move_partial.
(** C98: for absolute paths the directory is always doubled. *)
Theorem C98_move_doubles : forall cs x ds, Forall name cs -> name x -> Forall name ds ->
  move_dest (abs_path (cs ++ [x])) (rel_path ds) = abs_path (cs ++ cs ++ ds).
Proof. exact move_abs. Qed.
Print Assumptions C98_move_doubles.
Theorem C98_move_refuted : exists me dest from, me = file_path me /\ (forall t, dest <> 47 :: t) /\
  leads from (move_dest me dest) <> leads (leads from (dir_of me)) dest.
Proof. exact move_false. Qed.
Print Assumptions C98_move_refuted.
Example C98_ex : move_dest (bytes_of "f") (bytes_of "d/g") = bytes_of "d/g" /\ move_dest (bytes_of "/home/u/f") (bytes_of "g") = bytes_of "/home/u/home/u/g".
Proof. vm_compute. auto. Qed.

(** C109: HasPrefix holds of everything below a directory; missing: only of that
    (refuted below). *)
Theorem C109_below_partial : forall cs ds p, Forall name cs -> Forall name ds -> file_path p = abs_path cs ->
  has_prefix (file_path (abs_path (cs ++ ds))) p = true.
Proof. exact prefix_below'. Qed.
Print Assumptions C109_below_partial.
(** C109: it compares the bytes of the clean paths. *)
Theorem C109_has_prefix_exact : forall me p, has_prefix me p = true <-> exists r, me = file_path p ++ r.
Proof. exact prefix_spec. Qed.
Print Assumptions C109_has_prefix_exact.
Theorem C109_has_prefix_refuted : exists me p, file_path me = me /\ file_path p = p /\ has_prefix me p = true /\ forall r, leads [] me <> r ++ leads [] p.
Proof. exact prefix_false. Qed.
Print Assumptions C109_has_prefix_refuted.
Example C109_ex : has_prefix (bytes_of "/usr/lib/go") (bytes_of "/usr//lib/") = true /\ has_prefix (bytes_of "/usr/lib64") (bytes_of "/usr/lib") = true /\
  has_prefix (bytes_of "/usr") (bytes_of "/usr/lib") = false.
Proof. vm_compute. auto. Qed.
