(** The trees that Walk sees in a file system with links. *)
From Coq Require Import ZArith List Bool.
From Verif Require Import LinkSpec WalkSpec.
Import ListNotations.
Open Scope Z_scope.

(** The tree of an inode as lstat shows it: a symbolic link is a file of the size of its text. *)
Inductive seen (fs : fsys) : nat -> wnode -> Prop :=
| seen_file i nm b : fs i = Some (NFile b) -> seen fs i (WFile nm (Z.of_nat (length b)))
| seen_link i nm t : fs i = Some (NLink t) -> seen fs i (WFile nm (Z.of_nat (length t)))
| seen_dir i nm up es kids : fs i = Some (NDir up es) ->
    Forall2 (fun e k => wname_of k = fst e /\ seen fs (snd e) k) es kids -> seen fs i (WDir nm kids).
(** What a visitor is told of an inode found under a name. *)
Definition seen_as (fs : fsys) (j : nat) (nm : list Z) : visit :=
  match fs j with
  | Some (NFile b) => VEntry {| fi_name := nm; fi_dir := false; fi_size := Z.of_nat (length b) |}
  | Some (NLink t) => VEntry {| fi_name := nm; fi_dir := false; fi_size := Z.of_nat (length t) |}
  | _ => VEntry {| fi_name := nm; fi_dir := true; fi_size := 0 |}
  end.
(** A function that notes the paths and the sizes and goes on. *)
Definition note (s : list (list Z * Z)) (path : list Z) (i : option finfo) (e : option (list Z)) : list (list Z * Z) * answer Z :=
  (s ++ [(path, match i with Some i => fi_size i | None => -1 end)], Go).
