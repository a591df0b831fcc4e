(** Model of the methods Symlink, Link, Remove, Stat and Lstat of FilePathObject (fs/file_path.go) over the file system of
    LinkSpec; the path of an object is what FilePath of PathModel gives. *)
From Coq Require Import ZArith List Bool.
From Verif Require Import GoBase PathModel LinkSpec.
Import ListNotations.
Open Scope Z_scope.

(** fs/file_path.go:295-299 Symlink: the path returned, and the file system afterwards ([None]: an error); [i] is the inode
    that the system takes for the link. *)
Definition symlink_path (lim : nat) (fs : fsys) (cwd i : nat) (me newname : list Z) : list Z * option fsys :=
  let n := relate_this me newname in
  (n, sys_symlink lim fs cwd i me n).
(** fs/file_path.go:255-259 Link. *)
Definition link_path (lim : nat) (fs : fsys) (cwd : nat) (me linkname : list Z) : list Z * option fsys :=
  let n := relate_this me linkname in
  (n, sys_link lim fs cwd me n).
(** fs/file_path.go:277-279 Remove. Simplified: of files and links only (os.Remove tries rmdir behind unlink). *)
Definition remove_path (lim : nat) (fs : fsys) (cwd : nat) (me : list Z) : option fsys := sys_unlink lim fs cwd me.
(** fs/file_path.go:332-334 Stat: the inode described. *)
Definition stat_path (lim : nat) (fs : fsys) (cwd : nat) (me : list Z) : res := stat lim fs cwd me.
(** fs/file_path.go:327-329 Lstat. *)
Definition lstat_path (lim : nat) (fs : fsys) (cwd : nat) (me : list Z) : res := lstat lim fs cwd me.
