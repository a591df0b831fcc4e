(** Model of the method Rename of FilePathObject (fs/file_path.go) over the file system of LinkSpec. *)
From Coq Require Import ZArith List Bool.
From Verif Require Import GoBase PathModel LinkSpec RenSpec.
Import ListNotations.
Open Scope Z_scope.

(** fs/file_path.go:289-292 Rename: the path returned, and the file system afterwards ([None]: an error). Simplified: of files
    and links only. *)
Definition rename_path (lim : nat) (fs : fsys) (cwd : nat) (me newname : list Z) : list Z * option fsys :=
  let n := relate_this me newname in
  (n, sys_rename lim fs cwd me n).
