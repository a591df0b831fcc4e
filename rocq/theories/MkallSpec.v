(** mkdir(2) on the file system of LinkSpec, and the leading parts of a path. *)
From Coq Require Import ZArith List Bool.
From Verif Require Import LinkSpec.
Import ListNotations.
Open Scope Z_scope.

(** mkdir(2): a new inode [i] for an empty directory; nothing may have the name, not even a link that leads nowhere. Texts that end
    in a slash are refused here; the paths of FilePathObject but "/" do not. *)
Definition sys_mkdir (lim : nat) (fs : fsys) (cwd i : nat) (s : list Z) : option fsys :=
  match place_of lim fs cwd s with
  | Some (d, up, es, x) =>
      match find x es with
      | Some _ => None
      | None => Some (put (put fs i (NDir d [])) d (NDir up ((x, i) :: es)))
      end
  | None => None
  end.
(** What is in front of a slash of the text, or the whole text. *)
Definition leading (q p : list Z) : Prop := q <> [] /\ exists r, p = q ++ r /\ (r = [] \/ exists t, r = 47 :: t).
(** A directory. *)
Definition is_dir (fs : fsys) (d : nat) : Prop := exists up es, fs d = Some (NDir up es).
