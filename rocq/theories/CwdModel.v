(** Model of Chdir, WorkPath and RelateWorkPath (fs/file_line.go) over the file system with links, with os.Getwd of Go 1.8
    on Unix. The file system does not change meanwhile. *)
From Coq Require Import ZArith List Bool Arith.
From Verif Require Import GoBase GoStrings PathModel LinkSpec WorkModel.
Import ListNotations.
Open Scope Z_scope.

(** What surrounds the process: the bound of the system for links, the file system, the variable PWD of the environment,
    and getcwd(2), where [None] is an error (all reached from fs/file_line.go:60). *)
Record outer := Outer { o_lim : nat; o_fs : fsys; o_pwd : list Z; o_getcwd : nat -> option (list Z) }.
(** os.Getwd (called at fs/file_line.go:60): PWD if it begins with a slash and leads to the working directory, otherwise
    what getcwd(2) gives. *)
Definition getwd_links (o : outer) (cwd : nat) : option (list Z) :=
  if is_rooted (o_pwd o) && match stat (o_lim o) (o_fs o) cwd (o_pwd o) with Found i => Nat.eqb i cwd | _ => false end
  then Some (o_pwd o) else o_getcwd o cwd.
(** os.Chdir (called at fs/file_line.go:94): the new working directory, [None] is an error. Simplified: no permissions. *)
Definition chdir_links (o : outer) (cwd : nat) (p : list Z) : option nat :=
  match stat (o_lim o) (o_fs o) cwd p with
  | Found i => match o_fs o i with Some (NDir _ _) => Some i | _ => None end
  | _ => None
  end.

(** The working directory of the process and the variable gWorkPath (fs/file_line.go:17). *)
Record lwork := LWork { lk_cwd : nat; lk_cached : list Z }.
(** fs/file_line.go:59-66 workPath: panics if os.Getwd fails. *)
Definition work_path_links (o : outer) (cwd : nat) : outcome (list Z) :=
  match getwd_links o cwd with Some p => Ok p | None => Panic end.
(** fs/file_line.go:69-71 WorkPath, 79-81 RelateWorkPath (with fs/file_path.go:141-144), 93-98 Chdir; os.Chdir called
    directly leaves gWorkPath alone. *)
Definition lwork_step (o : outer) (w : lwork) (op : wop) : outcome (lwork * wobs) :=
  match op with
  | WChdir p =>
      match chdir_links o (lk_cwd w) (file_path p) with
      | Some c => q <- work_path_links o c ;; Ok (LWork c q, WErr false)
      | None => Ok (w, WErr true)
      end
  | WOsChdir p =>
      match chdir_links o (lk_cwd w) p with
      | Some c => Ok (LWork c (lk_cached w), WErr false)
      | None => Ok (w, WErr true)
      end
  | WWork => Ok (w, WPath (lk_cached w))
  | WRelate p => Ok (w, WPath (rel_or_dot (lk_cached w) (file_path p)))
  | WGetwd => q <- work_path_links o (lk_cwd w) ;; Ok (w, WPath q)
  end.
(** fs/file_line.go:17: gWorkPath is set when the program starts. *)
Definition lwork_init (o : outer) (c : nat) : outcome lwork := q <- work_path_links o c ;; Ok (LWork c q).
