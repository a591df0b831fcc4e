(** Model of the method EvalSymlinks of FilePathObject (fs/file_path.go) over the file system with links, with
    filepath.EvalSymlinks of Go 1.8 on Unix. *)
From Coq Require Import ZArith List Bool Arith.
From Verif Require Import GoBase GoStrings PathModel LinkSpec.
Import ListNotations.
Open Scope Z_scope.

(** walkLink (path/filepath/symlink.go, reached from fs/file_path.go:120): the path, or the text of the link it names, and
    the number of links met so far. [None]: an error. *)
Definition walk_link (lim : nat) (fs : fsys) (cwd : nat) (path : list Z) (n : nat) : option (list Z * bool * nat) :=
  if (255 <? n)%nat then None
  else match lstat lim fs cwd path with
       | Found i => match fs i with
                    | Some (NLink t) => Some (t, true, S n)
                    | Some _ => Some (path, false, n)
                    | None => None
                    end
       | _ => None
       end.
(** walkLinks (path/filepath/symlink.go, reached from fs/file_path.go:120): one link at most is replaced in each place;
    [fuel] bounds the depth of the recursion. An empty text of a link makes newpath[0] panic. *)
Fixpoint walk_links (fuel lim : nat) (fs : fsys) (cwd : nat) (path : list Z) (n : nat) : outcome (option (list Z * nat)) :=
  match fuel with
  | O => Diverge
  | S fuel =>
      let (dir, file) := split_path path in
      match dir, file with
      | [], _ => Ok (match walk_link lim fs cwd file n with Some (p, _, m) => Some (p, m) | None => None end)
      | _ :: _, [] => if str_eqb dir [47] then Ok (Some (dir, n)) else walk_links fuel lim fs cwd (removelast dir) n
      | _ :: _, _ :: _ =>
          bind (walk_links fuel lim fs cwd dir n) (fun r =>
            match r with
            | None => Ok None
            | Some (newdir, m) =>
                match walk_link lim fs cwd (fp_join [newdir; file]) m with
                | None => Ok None
                | Some (p, islink, m) =>
                    if islink then
                      match p with
                      | [] => Panic
                      | c :: _ => Ok (Some (if c =? 47 then p else fp_join [newdir; p], m))
                      end
                    else Ok (Some (p, m))
                end
            end)
      end
  end.
(** The loop of walkSymlinks (path/filepath/symlink.go, reached from fs/file_path.go:120): again until no link is met. *)
Fixpoint walk_symlinks (fuel lim : nat) (fs : fsys) (cwd : nat) (path : list Z) (n : nat) : outcome (option (list Z)) :=
  match fuel with
  | O => Diverge
  | S fuel =>
      bind (walk_links (S (length path)) lim fs cwd path n) (fun r =>
        match r with
        | None => Ok None
        | Some (p, m) => if Nat.eqb n m then Ok (Some (clean p)) else walk_symlinks fuel lim fs cwd p m
        end)
  end.
(** fs/file_path.go:119-121 EvalSymlinks; [None]: an error. *)
Definition eval_symlinks (fuel lim : nat) (fs : fsys) (cwd : nat) (me : list Z) : outcome (option (list Z)) :=
  match me with
  | [] => Ok (Some [])
  | _ => walk_symlinks fuel lim fs cwd me 0
  end.
