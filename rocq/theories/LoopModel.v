(** Model of Fingerprint and Hash of fs/file_path.go over a file system with links (LinkSpec). *)
From Coq Require Import ZArith List Bool.
From Verif Require Import GoBase PathModel FsModel LinkSpec.
Import ListNotations.
Open Scope Z_scope.

Section Hashing.
  (** The text made of the total size and the bytes written to the hash, and sort.Sort, as in FsModel. *)
  Variable text : Z -> list Z -> list Z.
  Variable srt : list hnode -> list hnode.
  (** The loop of fs/file_path.go:404-414 and 452-464: the first error ends it. *)
  Fixpoint hash_kids (hash : list Z -> outcome (option hnode)) (path : list Z) (names : list (list Z)) : outcome (option (list hnode)) :=
    match names with
    | [] => Ok (Some [])
    | x :: r =>
        bind (hash (path_joins path [x])) (fun h =>
          match h with
          | None => Ok None
          | Some h => bind (hash_kids hash path r) (fun t => match t with None => Ok None | Some t => Ok (Some (h :: t)) end)
          end)
    end.
  (** fs/file_path.go:393-436 Fingerprint and 439-484 Hash: Open looks through links; [None] is an error. Simplified:
      every file and directory can be read, and the listing has the order of the entries. *)
  Fixpoint hash_links (fuel lim : nat) (fs : fsys) (cwd : nat) (path : list Z) : outcome (option hnode) :=
    match fuel with
    | O => Diverge
    | S fuel =>
        match stat lim fs cwd path with
        | Found i =>
            match fs i with
            | Some (NFile c) => Ok (Some (HNode {| fh_path := path; fh_hash := text (zlen c) c; fh_size := zlen c; fh_isdir := false |} []))
            | Some (NDir _ es) =>
                bind (hash_kids (hash_links fuel lim fs cwd) path (map fst es)) (fun t =>
                  match t with
                  | None => Ok None
                  | Some subs =>
                      let subs := srt subs in
                      let data := concat (map (fun v => fh_hash (hval v)) subs) in
                      let size := fold_left (fun a v => (a + fh_size (hval v)) mod 2 ^ 64) subs 0 in
                      Ok (Some (HNode {| fh_path := path; fh_hash := text size data; fh_size := size; fh_isdir := true |} subs))
                  end)
            | _ => Ok None
            end
        | _ => Ok None
        end
    end.
End Hashing.
