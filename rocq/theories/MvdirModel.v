(** Model of the method Rename of FilePathObject (fs/file_path.go) for everything, directories too. *)
From Coq Require Import ZArith List Bool.
From Verif Require Import GoBase PathModel LinkSpec RenSpec MvdirSpec.
Import ListNotations.
Open Scope Z_scope.

(** fs/file_path.go:289-292 Rename: the path returned, and the file system afterwards ([None]: an error). *)
Definition rename_any (h lim : nat) (fs : fsys) (cwd : nat) (me newname : list Z) : list Z * option fsys :=
  let n := relate_this me newname in
  (n, sys_rename_any h lim fs cwd me n).
