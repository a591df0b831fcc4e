(** rename(2) on the file system of LinkSpec. *)
From Coq Require Import ZArith List Bool.
From Verif Require Import LinkSpec.
Import ListNotations.
Open Scope Z_scope.

(** rename(2) of a file or a symbolic link: the old name is taken away and the new one leads to the inode; a file or link that
    had the new name loses it. Two names of one inode: nothing happens. [None]: an error. *)
Definition sys_rename (lim : nat) (fs : fsys) (cwd : nat) (old new : list Z) : option fsys :=
  match place_of lim fs cwd old, place_of lim fs cwd new with
  | Some (d1, up1, es1, x1), Some (d2, up2, es2, x2) =>
      match find x1 es1 with
      | None => None
      | Some i =>
          let go :=
            let fs1 := put fs d2 (NDir up2 (without x2 es2)) in
            let fs2 := put fs1 d2 (NDir up2 ((x2, i) :: without x2 es2)) in
            match fs2 d1 with Some (NDir up es) => Some (put fs2 d1 (NDir up (without x1 es))) | _ => None end in
          match fs i with
          | Some (NDir _ _) | None => None
          | _ => match find x2 es2 with
                 | None => go
                 | Some j => if Nat.eqb j i then Some fs
                             else match fs j with Some (NDir _ _) | None => None | _ => go end
                 end
          end
      end
  | _, _ => None
  end.
(** The name has nothing but possibly a file. *)
Definition free_or_file (lim : nat) (fs : fsys) (cwd : nat) (s : list Z) : Prop :=
  lstat lim fs cwd s = Missing \/ exists j b, lstat lim fs cwd s = Found j /\ fs j = Some (NFile b).
