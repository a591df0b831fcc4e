(** The trees that show through the links of a file system. *)
From Coq Require Import ZArith List Bool Relations.
From Verif Require Import LinkSpec FsModel.
Import ListNotations.
Open Scope Z_scope.

(** The tree seen from an inode when every symbolic link is looked through. *)
Inductive shows (fs : fsys) : nat -> fnode -> Prop :=
| shows_file i nm b : fs i = Some (NFile b) -> shows fs i (File nm b)
| shows_dir i nm up es kids : fs i = Some (NDir up es) ->
    Forall2 (fun e k => node_name k = fst e /\ exists lim j, walk lim true fs [fst e] i = Found j /\ shows fs j k) es kids ->
    shows fs i (Dir nm (Some kids)).
(** An entry of directory [i] leads to [j]. *)
Definition entry_leads (fs : fsys) (i j : nat) : Prop :=
  exists up es x c lim, fs i = Some (NDir up es) /\ find x es = Some c /\ walk lim true fs [x] i = Found j.
(** The depth of the directories is bounded (which is so if there are finitely many). *)
Definition bounded (fs : fsys) (H : nat) : Prop :=
  exists depth : nat -> nat, forall d up es, fs d = Some (NDir up es) -> (depth d <= H)%nat /\
    forall x c up' es', find x es = Some c -> fs c = Some (NDir up' es') -> (depth d < depth c)%nat.
(** The path of what is found along names below a path. *)
Definition below (p : list Z) (xs : list (list Z)) : list Z := p ++ concat (map (fun x => 47 :: x) xs).

(** "/a" with the file "f" and the link "l" to "..", that is, to the root. *)
Definition ex_loop : fsys := fun i =>
  match i with
  | 0%nat => Some (NDir 0 [([97], 1%nat)])
  | 1%nat => Some (NDir 0 [([102], 2%nat); ([108], 3%nat)])
  | 2%nat => Some (NFile [7])
  | 3%nat => Some (NLink [46; 46])
  | _ => None
  end.
