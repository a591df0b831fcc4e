(** Working directories in a file system with links. *)
From Coq Require Import ZArith List Bool.
From Verif Require Import GoBase PathSpec LinkSpec.
From Verif Require Import WorkModel CwdModel.
Import ListNotations.
Open Scope Z_scope.

(** [d] is a directory, and [cs] are the names on the way from the root to it; none of them is a link. *)
Definition lies (fs : fsys) (cs : list (list Z)) (d : nat) : Prop :=
  Forall name cs /\ stat 0 fs 0 (abs_path cs) = Found d /\ exists up es, fs d = Some (NDir up es).
(** getcwd(2) gives the names on the way to a directory below the root; it may fail for one that has been removed. *)
Definition proper (o : outer) : Prop :=
  (forall d p, o_getcwd o d = Some p -> exists cs, p = abs_path cs /\ lies (o_fs o) cs d) /\
  (forall d cs, lies (o_fs o) cs d -> o_getcwd o d <> None).
(** "/l" leads to "a/b"; "/a/x" and "/l/../x" are the file 5, "/x" is the file 6; "/a/b/c" is a directory. *)
Definition ex_cwd_fs : fsys := fun i =>
  match i with
  | 0%nat => Some (NDir 0 [([97], 1%nat); ([108], 4%nat); ([120], 6%nat)])
  | 1%nat => Some (NDir 0 [([98], 2%nat); ([120], 5%nat)])
  | 2%nat => Some (NDir 1 [([99], 3%nat)])
  | 3%nat => Some (NDir 2 [])
  | 4%nat => Some (NLink [97; 47; 98])
  | 5%nat => Some (NFile [1])
  | 6%nat => Some (NFile [2])
  | _ => None
  end.
(** Its getcwd(2). *)
Definition ex_getcwd (d : nat) : option (list Z) :=
  match d with
  | 0%nat => Some [47]
  | 1%nat => Some [47; 97]
  | 2%nat => Some [47; 97; 47; 98]
  | 3%nat => Some [47; 97; 47; 98; 47; 99]
  | _ => None
  end.
(** A process started in it with PWD. *)
Definition ex_outer (pwd : list Z) : outer := Outer 40 ex_cwd_fs pwd ex_getcwd.
