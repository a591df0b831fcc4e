(** Properties C52, C54 and C99 to C101: directory listings and hashes. *)
From Coq Require Import String ZArith List Bool Lia Permutation.
From Verif Require Import GoBase GoStrings PathModel PathSpec FsModel FsSpec FsProofs HashProofs.
Import ListNotations.
Open Scope Z_scope.

(** A directory tree for the examples: [/d] with [e/g], [e/h], [f], [k] (empty
    directory). *)
Definition ex_tree : fnode :=
  Dir (bytes_of "d") (Some [Dir (bytes_of "e") (Some [File (bytes_of "g") [1]; File (bytes_of "h") [2; 3]]);
                            File (bytes_of "f") [4]; Dir (bytes_of "k") (Some [])]).

(** C52: CollectSubs returns exactly what the options ask for, in traversal
    order, for every tree and every option set; directories that cannot be read
    contribute nothing. Missing: the error for a directory that cannot be read
    (refuted below). *)
Theorem C52_collect_partial : forall n full opt,
  collect_subs full opt n = (listed opt (entries (is_deep opt) full n), false).
Proof. exact (fun n full opt => collect_spec opt n full). Qed.
Print Assumptions C52_collect_partial.
Example C52_collect_ex : collect_subs (bytes_of "/d") 11 ex_tree = (map bytes_of ["e"; "g"; "h"; "f"; "k"]%string, false) /\
  collect_subs (bytes_of "/d") 7 ex_tree = (map bytes_of ["/d/e"; "/d/f"; "/d/k"]%string, false).
Proof. vm_compute. auto. Qed.
(** C52: GetDeepFiles returns the names of exactly the files below the
    directory. *)
Theorem C52_deep_files_partial : forall n full x, In x (fst (get_deep_files full n)) <->
  exists p m, reach n p m /\ p <> [] /\ is_dir m = false /\ x = node_name m.
Proof. exact deep_files. Qed.
Print Assumptions C52_deep_files_partial.
Example C52_deep_files_ex : get_deep_files (bytes_of "/d") ex_tree = (map bytes_of ["g"; "h"; "f"]%string, false).
Proof. vm_compute. reflexivity. Qed.
(** C52: GetLeafDirs returns the paths of exactly the directories without
    subdirectory, the given one included; the paths lead there. *)
Theorem C52_leaf_dirs_partial : forall n full x, In x (fst (get_leaf_dirs full n)) <->
  exists p m, reach n p m /\ leaf_dir m /\ x = path_of full p.
Proof. exact leaf_dirs. Qed.
Print Assumptions C52_leaf_dirs_partial.
Theorem C52_paths_lead : forall full p from, full <> [] -> Forall name p ->
  leads from (path_of full p) = rev p ++ leads from full.
Proof. exact path_of_leads. Qed.
Print Assumptions C52_paths_lead.
Example C52_leaf_dirs_ex : get_leaf_dirs (bytes_of "/d") ex_tree = (map bytes_of ["/d/e"; "/d/k"]%string, false) /\
  get_leaf_dirs (bytes_of "e") (Dir (bytes_of "e") (Some [File (bytes_of "g") [1]])) = ([bytes_of "e"], false).
Proof. vm_compute. auto. Qed.
(** C52: GetSubDirs, GetSubFiles and GetSubs return the names in the directory
    itself, in listing order. *)
Theorem C52_sub_lists_partial : forall n full nm kids, n = Dir nm (Some kids) ->
  get_sub_dirs full n = (map node_name (filter is_dir kids), false) /\
  get_sub_files full n = (map node_name (filter (fun k => negb (is_dir k)) kids), false) /\
  get_subs full n = (map node_name kids, false).
Proof. exact sub_lists. Qed.
Print Assumptions C52_sub_lists_partial.
Example C52_sub_lists_ex : get_sub_dirs (bytes_of "/d") ex_tree = (map bytes_of ["e"; "k"]%string, false) /\ get_sub_files (bytes_of "/d") ex_tree = ([bytes_of "f"], false).
Proof. vm_compute. auto. Qed.
(** C52 as stated is false: no error is reported for a directory that cannot be
    read. *)
Theorem C52_error_refuted : exists n full opt, (forall nm kids, n <> Dir nm (Some kids)) /\ is_dir n = true /\
  collect_subs full opt n = ([], false).
Proof. exact error_lost. Qed.
Print Assumptions C52_error_refuted.

(** C54: the hash and the size of a tree do not depend on the order of the
    listings, on the names, or on how the sort treats equal children; nor does it
    matter for there being an error. For Fingerprint: *)
Theorem C54_fingerprint_order : forall h1 h2 h3 s1 s2 n1 n2 p1 p2, sorts s1 -> sorts s2 -> same_content n1 n2 ->
  match fingerprint h1 h2 h3 s1 p1 n1, fingerprint h1 h2 h3 s2 p2 n2 with
  | Some a, Some b => fh_hash (hval a) = fh_hash (hval b) /\ fh_size (hval a) = fh_size (hval b) /\ fh_isdir (hval a) = fh_isdir (hval b)
  | None, None => True
  | _, _ => False
  end.
Proof. exact (fun h1 h2 h3 s1 s2 n1 n2 p1 p2 H1 H2 => hash_same' (fp_text h1 h2 h3) s1 s2 n1 n2 p1 p2 H1 H2). Qed.
Print Assumptions C54_fingerprint_order.
(** For Hash with every method (but NONE) and salt: *)
Theorem C54_hash_order : forall h salt s1 s2 n1 n2 p1 p2, sorts s1 -> sorts s2 -> same_content n1 n2 ->
  match hash_with h salt s1 p1 n1, hash_with h salt s2 p2 n2 with
  | Some a, Some b => fh_hash (hval a) = fh_hash (hval b) /\ fh_size (hval a) = fh_size (hval b) /\ fh_isdir (hval a) = fh_isdir (hval b)
  | None, None => True
  | _, _ => False
  end.
Proof. exact (fun h salt s1 s2 n1 n2 p1 p2 H1 H2 => hash_same' (fun _ d => hex_bytes (h (salt ++ d))) s1 s2 n1 n2 p1 p2 H1 H2). Qed.
Print Assumptions C54_hash_order.
(** C54: there is an error exactly if something in the tree cannot be read. *)
Theorem C54_unreadable : forall h1 h2 h3 h salt srt n p,
  (fingerprint h1 h2 h3 srt p n = None <-> ~ readable n) /\ (hash_with h salt srt p n = None <-> ~ readable n).
Proof. exact hash_errors. Qed.
Print Assumptions C54_unreadable.
Example C54_unreadable_ex : ~ readable (Dir [100] (Some [File [102] [4]; Dir [101] (Some [Locked [103] false])])) /\ readable ex_tree.
Proof.
  split.
  - intros R. inversion R as [|? ? F]; subst. inversion F as [|? ? _ F']; subst. inversion F' as [|? ? R' _]; subst.
    inversion R' as [|? ? G]; subst. inversion G as [|? ? L _]; subst. inversion L.
  - repeat constructor.
Qed.
(** The hypotheses on the sort can be met, and everything readable has a hash. *)
Theorem C54_sort_exists : sorts isort.
Proof. exact isort_sorts. Qed.
Print Assumptions C54_sort_exists.
Theorem C54_readable_has_hash : forall text srt n p, readable n -> exists r, hash_tree text srt p n = Some r.
Proof. exact (fun text srt n p H => readable_hash text srt n H p). Qed.
Print Assumptions C54_readable_has_hash.
Example C54_ex :
  let t1 := Dir (bytes_of "d") (Some [File (bytes_of "a") [3]; File (bytes_of "b") [2]; Dir (bytes_of "c") (Some [])]) in
  let t2 := Dir (bytes_of "x") (Some [Dir (bytes_of "y") (Some []); File (bytes_of "z") [2]; File (bytes_of "w") [3]]) in
  let h := fun d => [zlen d; fold_right Z.add 0 d mod 256] in
  option_map (fun r => fh_hash (hval r)) (hash_with h [] isort [47] t1) = Some (bytes_of "0c47") /\
  option_map (fun r => fh_hash (hval r)) (hash_with h [] isort [47] t2) = Some (bytes_of "0c47").
Proof. vm_compute. auto. Qed.

(** C99: Statistic counts every directory and every file once, and its size is
    the sum of the file sizes and the size that Fingerprint and Hash report. *)
Theorem C99_statistic : forall n, readable n ->
  statistic (0, 0, 0) n = (dirs n, zlen (contents n), total_size n mod 2 ^ 64).
Proof. exact statistic_all. Qed.
Print Assumptions C99_statistic.
Theorem C99_same_size : forall text srt n p r, sorts srt -> readable n -> is_dir n = true -> hash_tree text srt p n = Some r ->
  statistic (0, 0, 0) n = (dirs n, zlen (contents n), fh_size (hval r)).
Proof. exact statistic_hash. Qed.
Print Assumptions C99_same_size.
Example C99_ex : statistic (0, 0, 0) ex_tree = (3, 3, 4).
Proof. vm_compute. reflexivity. Qed.

(** C100: trees with the same fingerprint have the same content, unless the hash
    functions collide on what is hashed for them. True of trees in which all files
    are equally deep; missing: other trees (refuted below). *)
Theorem C100_distinguish_partial : forall h1 h2 h3 s1 s2 k n1 n2 p1 p2 r1 r2,
  good_hashes h1 h2 h3 -> sorts s1 -> sorts s2 -> level k n1 -> level k n2 ->
  fingerprint h1 h2 h3 s1 p1 n1 = Some r1 -> fingerprint h1 h2 h3 s2 p2 n2 = Some r2 ->
  fh_hash (hval r1) = fh_hash (hval r2) ->
  same_content n1 n2 \/ collision h1 h2 h3 (hashed (fp_text h1 h2 h3) s1 p1 n1) (hashed (fp_text h1 h2 h3) s2 p2 n2).
Proof. exact (fun h1 h2 h3 s1 s2 k n1 n2 p1 p2 r1 r2 G H1 H2 => distinguish h1 h2 h3 s1 s2 G H1 H2 k n1 n2 p1 p2 r1 r2). Qed.
Print Assumptions C100_distinguish_partial.
(** C100 as stated is false whatever the hash functions: a directory with one
    file of 51 bytes has the fingerprint and size of some file of 51 bytes. *)
Theorem C100_distinguish_refuted : forall h1 h2 h3 srt c nm nm1 nm2 p p', good_hashes h1 h2 h3 -> sorts srt -> length c = 51%nat ->
  exists c' r r', fingerprint h1 h2 h3 srt p (Dir nm (Some [File nm1 c])) = Some r /\
    fingerprint h1 h2 h3 srt p' (File nm2 c') = Some r' /\ fh_hash (hval r) = fh_hash (hval r') /\ fh_size (hval r) = fh_size (hval r').
Proof. exact file_dir_collide. Qed.
Print Assumptions C100_distinguish_refuted.
(** The same for Hash, with a directory with any single file. *)
Theorem C100_hash_refuted : forall h salt srt c nm nm1 nm2 p p', sorts srt ->
  exists c' r r', hash_with h salt srt p (Dir nm (Some [File nm1 c])) = Some r /\
    hash_with h salt srt p' (File nm2 c') = Some r' /\ fh_hash (hval r) = fh_hash (hval r').
Proof. exact hash_collide. Qed.
Print Assumptions C100_hash_refuted.
Example C100_ex :
  let h1 := fun d => repeat (fold_right Z.add 0 d mod 256) 16 in
  let h2 := fun d => repeat (zlen d mod 256) 20 in
  let h3 := fun d => repeat 7 8 in
  option_map (fun r => fh_hash (hval r)) (fingerprint h1 h2 h3 isort [47] (File [97] [1; 2; 3])) =
    Some (bytes_of "000000000003-060606060606-030303030303-070707070707").
Proof. vm_compute. reflexivity. Qed.
Example C100_hashes_ex :
  good_hashes (fun d => repeat (fold_right Z.add 0 d mod 256) 16) (fun d => repeat (zlen d mod 256) 20) (fun d => repeat 7 8).
Proof. intros d. rewrite !repeat_length. auto. Qed.

(** C101: FileHash.Less is a strict order by size, then by the bytes of the hash,
    and two values are equivalent only if they agree in both. *)
Theorem C101_less : forall a b,
  (fh_less a b = true <-> fh_size a < fh_size b \/ (fh_size a = fh_size b /\ bytes_lt (fh_hash a) (fh_hash b))) /\
  (fh_less a b = false -> fh_less b a = false -> fh_size a = fh_size b /\ fh_hash a = fh_hash b).
Proof. exact less_facts. Qed.
Print Assumptions C101_less.
Theorem C101_strict : (forall a, fh_less a a = false) /\ (forall a b c, fh_less a b = true -> fh_less b c = true -> fh_less a c = true).
Proof. exact (conj less_irrefl less_trans). Qed.
Print Assumptions C101_strict.
(** C101: SortChildren puts the smaller child first, for every sort. (The comment
    at fs/file_path.go:380 says the larger one.) *)
Theorem C101_smaller_first : forall srt l i j a b, sorts srt -> nth_error (srt l) i = Some a -> nth_error (srt l) j = Some b ->
  fh_size (hval a) < fh_size (hval b) -> (i < j)%nat.
Proof. exact ascending. Qed.
Print Assumptions C101_smaller_first.
Example C101_ex :
  let v s h := {| fh_path := []; fh_hash := h; fh_size := s; fh_isdir := false |} in
  fh_less (v 1 (bytes_of "b")) (v 2 (bytes_of "a")) = true /\ fh_less (v 2 (bytes_of "a")) (v 2 (bytes_of "ab")) = true /\ fh_less (v 2 (bytes_of "b")) (v 2 (bytes_of "ab")) = false /\
  map (fun n => fh_size (hval n)) (isort [HNode (v 3 (bytes_of "x")) []; HNode (v 1 (bytes_of "x")) []; HNode (v 2 (bytes_of "x")) []]) = [1; 2; 3].
Proof. vm_compute. auto. Qed.
