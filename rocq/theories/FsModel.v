(** Model of fs/fs.go (CollectSubs), and of Statistic, Fingerprint, Hash and
    FileHash of fs/file_path.go, over a directory tree that does not change while
    they run. *)
From Coq Require Import String ZArith List Bool.
From Verif Require Import GoBase GoStrings PathModel.
Import ListNotations.
Open Scope Z_scope.

(** A directory tree as the operating system shows it (os.Open, File.Stat and
    File.Readdir, called at fs/fs.go:58-60 and fs/file_path.go:395-403): a
    regular file with its bytes, a directory with its entries in listing order
    ([None]: Readdir fails), or an entry that cannot be opened. Other kinds of
    entries (links, devices) are not modelled. *)
Inductive fnode : Type :=
| File (nm : list Z) (content : list Z)
| Dir (nm : list Z) (kids : option (list fnode))
| Locked (nm : list Z) (isdir : bool).
(** os.FileInfo.Name (called at fs/fs.go:63, fs/file_path.go:405). *)
Definition node_name (n : fnode) : list Z :=
  match n with File nm _ | Dir nm _ | Locked nm _ => nm end.

(** fs/fs.go:10-18, the options. *)
Definition FsDir : Z := 1.
(** fs/fs.go:11. *)
Definition FsFile : Z := 2.
(** fs/fs.go:13. *)
Definition FsFullPath : Z := 4.
(** fs/fs.go:14. *)
Definition FsDeep : Z := 8.
(** fs/fs.go:15. *)
Definition FsLeaf : Z := 16.
(** fs/fs.go:23-25 has. *)
Definition has (me opt : Z) : bool := negb (opt =? 0) && (Z.land me opt =? opt).
(** fs/fs.go:26-28 has_any. *)
Definition has_any (me opt : Z) : bool := negb (opt =? 0) && negb (Z.land me opt =? 0).
(** fs/fs.go:29-35 choose_name. *)
Definition choose_name (me : Z) (full nm : list Z) : list Z := if has me FsFullPath then full else nm.

(** fs/fs.go:57-94 CollectSubs of the directory [n] whose path is [dir]: the
    names and whether there is an error. The errors of Open and Readdir are kept
    in inner variables, so that the outer one stays nil. Simplified: Readdir never
    returns "." and "..", so the test for them is left out. *)
Fixpoint collect_subs (dir : list Z) (opt : Z) (n : fnode) : list (list Z) * bool :=
  match n with
  | Locked _ _ => ([], false)
  | File _ _ => ([], false)
  | Dir _ None => ([], false)
  | Dir _ (Some kids) =>
      let loop := fix loop (l : list fnode) (has_sub_dir : bool) : list (list Z) * bool :=
        match l with
        | [] => (if negb has_sub_dir && has opt (Z.lor FsLeaf FsDir)
                 then [choose_name opt dir (file_name dir)] else [], false)
        | v :: l =>
            let full := joins [dir; node_name v] in
            match v with
            | Dir nm _ | Locked nm true =>
                let own := if has opt FsDir && negb (has opt FsLeaf) then [choose_name opt full nm] else [] in
                let '(r, err) := if has_any opt (Z.lor FsDeep FsLeaf) then collect_subs full opt v else ([], false) in
                if err then ([], true)
                else let '(rest, err) := loop l true in (own ++ r ++ rest, err)
            | File nm _ | Locked nm false =>
                let own := if has opt FsFile then [choose_name opt full nm] else [] in
                let '(rest, err) := loop l has_sub_dir in (own ++ rest, err)
            end
        end in
      loop kids false
  end.
(** fs/fs.go:37-39 GetLeafDirs. *)
Definition get_leaf_dirs dir n := collect_subs dir (Z.lor (Z.lor FsDir FsLeaf) FsFullPath) n.
(** fs/fs.go:41-43 GetSubDirs. *)
Definition get_sub_dirs dir n := collect_subs dir FsDir n.
(** fs/fs.go:45-47 GetSubFiles. *)
Definition get_sub_files dir n := collect_subs dir FsFile n.
(** fs/fs.go:49-51 GetSubs. *)
Definition get_subs dir n := collect_subs dir (Z.lor FsDir FsFile) n.
(** fs/fs.go:53-55 GetDeepFiles. *)
Definition get_deep_files dir n := collect_subs dir (Z.lor FsFile FsDeep) n.

(** fs/file_path.go:349-371 Statistic: numbers of directories and files, and the
    total size, a uint64. filepath.Walk visits the root and then the entries of
    every directory; simplified: in listing order, not sorted by name (the order is
    shown not to matter). Only for trees that can be read: what Walk reports for
    other entries depends on the version of Go. *)
Fixpoint statistic (acc : Z * Z * Z) (n : fnode) : Z * Z * Z :=
  let '(nd, nf, sz) := acc in
  match n with
  | Dir _ (Some kids) =>
      (fix walk (l : list fnode) (acc : Z * Z * Z) : Z * Z * Z :=
         match l with [] => acc | k :: l => walk l (statistic acc k) end) kids (nd + 1, nf, sz)
  | File _ c => (nd, nf + 1, (sz + zlen c) mod 2 ^ 64)
  | _ => acc
  end.

(** fs/file_path.go:374-378 FileHash. *)
Record fhash := { fh_path : list Z; fh_hash : list Z; fh_size : Z; fh_isdir : bool }.
(** fs/tree.gp_filehash38b3.go:39-42 FileHashTreeNode: a value and the children;
    fs/file_path.go reads the fields of the value as fields of the node. *)
Inductive hnode := HNode (val : fhash) (kids : list hnode).
(** See above. *)
Definition hval (n : hnode) : fhash := match n with HNode v _ => v end.
(** See above. *)
Definition hkids (n : hnode) : list hnode := match n with HNode _ k => k end.

(** Comparison of strings by their bytes (Go language; no /repo lines). *)
Fixpoint str_less (a b : list Z) : bool :=
  match a, b with
  | _, [] => false
  | [], _ :: _ => true
  | x :: a, y :: b => (x <? y) || ((x =? y) && str_less a b)
  end.
(** fs/file_path.go:381-390 Less. *)
Definition fh_less (a b : fhash) : bool :=
  if fh_size a <? fh_size b then true
  else if (fh_size a =? fh_size b) && str_less (fh_hash a) (fh_hash b) then true
  else false.
(** fs/tree.gp_filehash38b3.go:44-49 Less, called by SortChildren (51-53) through
    fs/functorcmp.gp_#filehashtreenodef199.go:101-106 and
    fs/sort_slice.gp_#filehashtreenodef199.go:123-126. *)
Definition node_less (a b : hnode) : bool := fh_less (hval a) (hval b).

Section Hashing.
  (** The text made of the total size and the bytes written to the hash. *)
  Variable text : Z -> list Z -> list Z.
  (** sort.Sort with [node_less], called by SortChildren. *)
  Variable srt : list hnode -> list hnode.
  (** Sequencing of results (Go language; no /repo lines). *)
  Fixpoint all_some (l : list (option hnode)) : option (list hnode) :=
    match l with
    | [] => Some []
    | None :: _ => None
    | Some x :: l => match all_some l with Some r => Some (x :: r) | None => None end
    end.
  (** fs/file_path.go:393-436 Fingerprint and 439-484 Hash, of the node [n] whose
      path is [path]: [None] is an error. The total size is a uint64. io.Copy
      writes the whole file, or the hash texts of the children in their sorted
      order. Simplified: Readdir never returns "." and "..". *)
  Fixpoint hash_tree (path : list Z) (n : fnode) : option hnode :=
    match n with
    | File _ c => Some (HNode {| fh_path := path; fh_hash := text (zlen c) c; fh_size := zlen c; fh_isdir := false |} [])
    | Dir _ (Some kids) =>
        match all_some (map (fun k => hash_tree (path_joins path [node_name k]) k) kids) with
        | None => None
        | Some subs =>
            let subs := srt subs in
            let data := concat (map (fun v => fh_hash (hval v)) subs) in
            let size := fold_left (fun a v => (a + fh_size (hval v)) mod 2 ^ 64) subs 0 in
            Some (HNode {| fh_path := path; fh_hash := text size data; fh_size := size; fh_isdir := true |} subs)
        end
    | Dir _ None => None
    | Locked _ _ => None
    end.
End Hashing.

(** A hexadecimal digit of the verbs %x (standard library, no /repo lines). *)
Definition hex_digit (v : Z) : Z := if v <? 10 then 48 + v else 87 + v.
(** %x of bytes (called at hash/finger_print.go:32). *)
Definition hex_bytes (l : list Z) : list Z := concat (map (fun b => [hex_digit (b / 16); hex_digit (b mod 16)]) l).
(** %0[n]x of a number below 16^n (called at hash/finger_print.go:32). *)
Fixpoint hex_num (n : nat) (v : Z) : list Z :=
  match n with
  | O => []
  | S n => hex_num n (v / 16) ++ [hex_digit (v mod 16)]
  end.
(** [l[a:b]] (Go language; no /repo lines). *)
Definition sub_slice {A} (l : list A) (a b : nat) : list A := firstn (b - a) (skipn a l).
(** hash/finger_print.go:31-34 String, with the size set by Resetsize (27-29) and
    the bytes [d] written to the three hash functions. *)
Definition fp_text (h1 h2 h3 : list Z -> list Z) (size : Z) (d : list Z) : list Z :=
  hex_num 12 (Z.land size (2 ^ 48 - 1)) ++ 45 :: hex_bytes (sub_slice (h1 d) 4 10) ++
  45 :: hex_bytes (sub_slice (h2 d) 7 13) ++ 45 :: hex_bytes (sub_slice (h3 d) 1 7).
(** fs/file_path.go:393 Fingerprint. *)
Definition fingerprint h1 h2 h3 srt := hash_tree (fp_text h1 h2 h3) srt.
(** fs/file_path.go:439 Hash with a method whose checksum is the function [h] of
    the bytes written (every method but NONE), and a salt. *)
Definition hash_with (h : list Z -> list Z) (salt : list Z) srt := hash_tree (fun _ d => hex_bytes (h (salt ++ d))) srt.
