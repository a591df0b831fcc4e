(** The trees of a file system with links in which the links themselves are leaves. *)
From Coq Require Import ZArith List Bool.
From Verif Require Import LinkSpec FsModel.
Import ListNotations.
Open Scope Z_scope.

(** The tree of an inode; a symbolic link is a file with its text. *)
Inductive bare (fs : fsys) : nat -> fnode -> Prop :=
| bare_file i nm b : fs i = Some (NFile b) -> bare fs i (File nm b)
| bare_link i nm t : fs i = Some (NLink t) -> bare fs i (File nm t)
| bare_dir i nm up es kids : fs i = Some (NDir up es) ->
    Forall2 (fun e k => node_name k = fst e /\ bare fs (snd e) k) es kids -> bare fs i (Dir nm (Some kids)).
(** No name occurs twice in a directory. *)
Definition distinct (fs : fsys) : Prop := forall d up es, fs d = Some (NDir up es) -> NoDup (map fst es).
(** The inode of an entry, found from an inode along names of entries, never through a link. *)
Inductive inside (fs : fsys) : nat -> list (list Z) -> nat -> Prop :=
| inside_here i : inside fs i [] i
| inside_in i up es x c xs j : fs i = Some (NDir up es) -> find x es = Some c -> inside fs c xs j -> inside fs i (x :: xs) j.

(** "/a" with the directory "b" and in it the file "f"; "/l" is a link to "a/b", "/a/c" one to "..". *)
Definition ex_subs : fsys := fun i =>
  match i with
  | 0%nat => Some (NDir 0 [([97], 1%nat); ([108], 4%nat)])
  | 1%nat => Some (NDir 0 [([98], 2%nat); ([99], 5%nat)])
  | 2%nat => Some (NDir 1 [([102], 3%nat)])
  | 3%nat => Some (NFile [7])
  | 4%nat => Some (NLink [97; 47; 98])
  | 5%nat => Some (NLink [46; 46])
  | _ => None
  end.
