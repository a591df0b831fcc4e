(** rename(2) of directories on the file system of LinkSpec. *)
From Coq Require Import ZArith List Bool.
From Verif Require Import LinkSpec RenSpec.
Import ListNotations.
Open Scope Z_scope.

(** At most [h] steps upwards from [e] meet [i]. *)
Fixpoint climbs (h : nat) (fs : fsys) (e i : nat) : bool :=
  Nat.eqb e i || match h with
                 | O => false
                 | S h => match fs e with Some (NDir up _) => climbs h fs up i | _ => false end
                 end.
(** rename(2) of a directory, as os.Rename calls it (which refuses a new name that a directory has): the new name must be free
    and not lie below the directory. The directory loses its old name, gets the new one, and the new directory above it. [h]: a
    number of steps upwards that is enough for every directory. [None]: an error. *)
Definition sys_rename_dir (h lim : nat) (fs : fsys) (cwd : nat) (old new : list Z) : option fsys :=
  match place_of lim fs cwd old, place_of lim fs cwd new with
  | Some (d1, up1, es1, x1), Some (d2, _, es2, x2) =>
      match find x1 es1, find x2 es2 with
      | Some i, None =>
          match fs i with
          | Some (NDir _ es) =>
              if climbs h fs d2 i then None
              else let fs1 := put (put fs d1 (NDir up1 (without x1 es1))) i (NDir d2 es) in
                   match fs1 d2 with Some (NDir up e) => Some (put fs1 d2 (NDir up ((x2, i) :: e))) | _ => None end
          | _ => None
          end
      | _, _ => None
      end
  | _, _ => None
  end.
(** rename(2) of anything. *)
Definition sys_rename_any (h lim : nat) (fs : fsys) (cwd : nat) (old new : list Z) : option fsys :=
  match lstat lim fs cwd old with
  | Found i => match fs i with
               | Some (NDir _ _) => sys_rename_dir h lim fs cwd old new
               | _ => sys_rename lim fs cwd old new
               end
  | _ => None
  end.
(** The file system without an inode: a way is found in it if it does not pass through the inode. *)
Definition gone (fs : fsys) (i : nat) : fsys := fun j => if Nat.eqb j i then None else fs j.
(** The directory [i] is the inode or above it. *)
Inductive under (fs : fsys) (i : nat) : nat -> Prop :=
| under_self : under fs i i
| under_up e up es : fs e = Some (NDir up es) -> under fs i up -> under fs i e.
(** "/a" with the link "l" to "/", the directory "b" in it and in that the file "f"; "/c" is a directory. *)
Definition ex_mv : fsys := fun i =>
  match i with
  | 0%nat => Some (NDir 0 [([97], 1%nat); ([99], 4%nat)])
  | 1%nat => Some (NDir 0 [([108], 5%nat); ([98], 2%nat)])
  | 2%nat => Some (NDir 1 [([102], 3%nat)])
  | 3%nat => Some (NFile [7])
  | 4%nat => Some (NDir 0 [])
  | 5%nat => Some (NLink [47])
  | _ => None
  end.
