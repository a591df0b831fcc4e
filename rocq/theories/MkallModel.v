(** Model of the methods Mkdir and MkdirAll of FilePathObject (fs/file_path.go), with MkdirAll of package os of Go 1.8, over the file
    system of LinkSpec. *)
From Coq Require Import ZArith List Bool.
From Verif Require Import GoBase LinkSpec MkallSpec.
Import ListNotations.
Open Scope Z_scope.

(** fs/file_path.go:262-264 Mkdir: the file system afterwards ([None]: an error); [i] is the inode that the system takes. *)
Definition mkdir_path (lim : nat) (fs : fsys) (cwd i : nat) (me : list Z) : option fsys := sys_mkdir lim fs cwd i me.
(** The text, reversed, without the slashes in front: the first loop of MkdirAll of package os (called through fs/file_path.go:268). *)
Fixpoint skip_seps (r : list Z) : list Z := match r with c :: t => if Z.eqb c 47 then skip_seps t else r | [] => [] end.
(** The text, reversed, from the first slash: the second loop (called through fs/file_path.go:268). *)
Fixpoint skip_elem (r : list Z) : list Z := match r with c :: t => if Z.eqb c 47 then r else skip_elem t | [] => [] end.
(** path[0:j-1] if j > 1, of the same function (called through fs/file_path.go:268). *)
Definition parent_part (path : list Z) : option (list Z) :=
  match skip_elem (skip_seps (rev path)) with
  | _ :: c :: t => Some (rev (c :: t))
  | _ => None
  end.
(** Stat or Lstat answered with a directory (called through fs/file_path.go:268). *)
Definition found_dir (fs : fsys) (r : res) : bool :=
  match r with Found d => match fs d with Some (NDir _ _) => true | _ => false end | _ => false end.
(** fs/file_path.go:267-269 MkdirAll, and MkdirAll of package os: whether there was no error, how many inodes are used, and the file
    system afterwards; [new] gives the inodes that the system takes, [n] of which are used. *)
Fixpoint mkdir_all (fuel : nat) (new : nat -> nat) (lim : nat) (cwd : nat) (n : nat) (fs : fsys) (path : list Z) : outcome (bool * nat * fsys) :=
  match fuel with
  | O => Diverge
  | S fuel =>
      match stat lim fs cwd path with
      | Found d => Ok (found_dir fs (Found d), n, fs)
      | _ =>
          bind (match parent_part path with
                | Some q => mkdir_all fuel new lim cwd n fs q
                | None => Ok (true, n, fs)
                end) (fun '(ok, n', fs') =>
            if ok then match mkdir_path lim fs' cwd (new n') path with
                       | Some fs2 => Ok (true, S n', fs2)
                       | None => Ok (found_dir fs' (lstat lim fs' cwd path), n', fs')
                       end
            else Ok (false, n', fs'))
      end
  end.
