(** Directories that hold no symbolic links. *)
From Coq Require Import ZArith List Bool.
From Verif Require Import LinkSpec SubsSpec.
Import ListNotations.
Open Scope Z_scope.

(** No symbolic link lies in the directory [i], however deep. *)
Definition linkless (fs : fsys) (i : nat) : Prop := forall cs j t, inside fs i cs j -> fs j <> Some (NLink t).
(** "/a" with the link "l" to "../c"; the files "/c" and "/d/c". *)
Definition ex_rel : fsys := fun i =>
  match i with
  | 0%nat => Some (NDir 0 [([97], 1%nat); ([99], 2%nat); ([100], 3%nat)])
  | 1%nat => Some (NDir 0 [([108], 4%nat)])
  | 2%nat => Some (NFile [7])
  | 3%nat => Some (NDir 0 [([99], 5%nat)])
  | 4%nat => Some (NLink [46; 46; 47; 99])
  | 5%nat => Some (NFile [8; 9])
  | _ => None
  end.
