(** What directory functions should compute, independently of the model's loops. *)
From Coq Require Import ZArith List Bool Permutation Sorting.Sorted.
From Verif Require Import GoBase PathModel FsModel.
Import ListNotations.
Open Scope Z_scope.

(** [reach n p m]: following the names [p] from [n] leads to [m]. *)
Inductive reach : fnode -> list (list Z) -> fnode -> Prop :=
| reach_here n : reach n [] n
| reach_in nm kids k p m : In k kids -> reach k p m -> reach (Dir nm (Some kids)) (node_name k :: p) m.
Definition is_dir (n : fnode) : bool := match n with Dir _ _ => true | Locked _ b => b | File _ _ => false end.
(** A directory that can be listed and has no directory in it. *)
Definition leaf_dir (n : fnode) : Prop := exists nm kids, n = Dir nm (Some kids) /\ Forall (fun k => is_dir k = false) kids.
(** Everything in the tree can be read. *)
Inductive readable : fnode -> Prop :=
| readable_file nm c : readable (File nm c)
| readable_dir nm kids : Forall readable kids -> readable (Dir nm (Some kids)).

(** ** What CollectSubs lists *)
(** What there is to report in a directory: subdirectories, files, and at the end
    the directory itself if it has no subdirectory. *)
Inductive entry := EDir (full nm : list Z) | EFile (full nm : list Z) | ELeaf (full : list Z).
(** All the entries below a directory, subdirectories right before their
    contents; only its own if [deep] is false. *)
Fixpoint entries (deep : bool) (full : list Z) (n : fnode) : list entry :=
  match n with
  | Dir _ (Some kids) =>
      flat_map (fun k =>
        let f := joins [full; node_name k] in
        if is_dir k then EDir f (node_name k) :: (if deep then entries deep f k else [])
        else [EFile f (node_name k)]) kids
      ++ (if existsb is_dir kids then [] else [ELeaf full])
  | _ => []
  end.
(** The entries asked for: bit 0 directories, bit 1 files, bit 4 only directories
    without subdirectory. *)
Definition asked (opt : Z) (e : entry) : bool :=
  match e with
  | EDir _ _ => Z.testbit opt 0 && negb (Z.testbit opt 4)
  | EFile _ _ => Z.testbit opt 1
  | ELeaf _ => Z.testbit opt 0 && Z.testbit opt 4
  end.
(** How they are shown: bit 2 with their path. *)
Definition shown (opt : Z) (e : entry) : list Z :=
  match e with
  | EDir f nm | EFile f nm => if Z.testbit opt 2 then f else nm
  | ELeaf f => if Z.testbit opt 2 then f else file_name f
  end.
(** Bits 3 and 4: subdirectories are searched too. *)
Definition is_deep (opt : Z) : bool := Z.testbit opt 3 || Z.testbit opt 4.
(** The list that is asked for. *)
Definition listed (opt : Z) (l : list entry) : list (list Z) := map (shown opt) (filter (asked opt) l).
(** The path of an entry reached by some names. *)
Definition path_of (full : list Z) (p : list (list Z)) : list Z := fold_left (fun f x => joins [f; x]) p full.

(** ** Hashes *)
(** Two trees that differ only in names and in the order of their listings. *)
Inductive same_content : fnode -> fnode -> Prop :=
| same_file nm nm' c : same_content (File nm c) (File nm' c)
| same_dir nm nm' ks ks' ks'' : Forall2 same_content ks ks' -> Permutation ks' ks'' ->
    same_content (Dir nm (Some ks)) (Dir nm' (Some ks''))
| same_unlistable nm nm' : same_content (Dir nm None) (Dir nm' None)
| same_locked nm nm' b b' : same_content (Locked nm b) (Locked nm' b').
(** The byte-wise order of strings. *)
Inductive bytes_lt : list Z -> list Z -> Prop :=
| lt_nil y b : bytes_lt [] (y :: b)
| lt_head x y a b : x < y -> bytes_lt (x :: a) (y :: b)
| lt_tail x a b : bytes_lt a b -> bytes_lt (x :: a) (x :: b).
(** What sort.Sort promises: a permutation in which no later element is less than
    an earlier one. *)
Definition sorts (srt : list hnode -> list hnode) : Prop :=
  forall l, Permutation (srt l) l /\ StronglySorted (fun a b => node_less b a = false) (srt l).
(** The contents of all the files of a tree. *)
Fixpoint contents (n : fnode) : list (list Z) :=
  match n with
  | File _ c => [c]
  | Dir _ (Some kids) => flat_map contents kids
  | _ => []
  end.
(** The number of directories of a tree. *)
Fixpoint dirs (n : fnode) : Z :=
  match n with
  | Dir _ (Some kids) => 1 + fold_right Z.add 0 (map dirs kids)
  | _ => 0
  end.
(** The total size of the files of a tree. *)
Definition total_size (n : fnode) : Z := fold_right Z.add 0 (map zlen (contents n)).

(** ** Fingerprints *)
(** The lengths of the checksums of MD5, SHA1 and CRC64. *)
Definition good_hashes (h1 h2 h3 : list Z -> list Z) : Prop := forall d, length (h1 d) = 16%nat /\ length (h2 d) = 20%nat /\ length (h3 d) = 8%nat.
(** The part of a fingerprint that comes from the bytes. *)
Definition digest (h1 h2 h3 : list Z -> list Z) (d : list Z) : list Z :=
  hex_bytes (sub_slice (h1 d) 4 10) ++ 45 :: hex_bytes (sub_slice (h2 d) 7 13) ++ 45 :: hex_bytes (sub_slice (h3 d) 1 7).
(** All the files of a tree are equally deep. *)
Fixpoint level (k : nat) (n : fnode) : Prop :=
  match k, n with
  | O, File _ _ => True
  | S k, Dir _ (Some kids) => Forall (level k) kids
  | _, _ => False
  end.
Section Hashed.
  Variables (text : Z -> list Z -> list Z) (srt : list hnode -> list hnode).
  (** All that is written to a hash. *)
  Fixpoint hashed (p : list Z) (n : fnode) : list (list Z) :=
    match n with
    | File _ c => [c]
    | Dir _ (Some kids) =>
        match all_some (map (fun k => hash_tree text srt (path_joins p [node_name k]) k) kids) with
        | Some subs => [concat (map (fun v => fh_hash (hval v)) (srt subs))]
        | None => []
        end ++ flat_map (fun k => hashed (path_joins p [node_name k]) k) kids
    | _ => []
    end.
End Hashed.
(** Two different texts, one hashed for each of two trees, with the same digest. *)
Definition collision h1 h2 h3 (a b : list (list Z)) : Prop :=
  exists x y, In x a /\ In y b /\ x <> y /\ digest h1 h2 h3 x = digest h1 h2 h3 y.
