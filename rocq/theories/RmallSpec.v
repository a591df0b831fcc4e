(** rmdir(2) on the file system of LinkSpec. *)
From Coq Require Import ZArith List Bool.
From Verif Require Import LinkSpec.
Import ListNotations.
Open Scope Z_scope.

(** rmdir(2): only for empty directories. *)
Definition sys_rmdir (lim : nat) (fs : fsys) (cwd : nat) (s : list Z) : option fsys :=
  match place_of lim fs cwd s with
  | Some (d, up, es, x) =>
      match find x es with
      | Some i => match fs i with
                  | Some (NDir _ []) => Some (put fs d (NDir up (without x es)))
                  | _ => None
                  end
      | None => None
      end
  | None => None
  end.

(** From [g] to [g'] only names were taken away: files, links and the way up are the same, the entries of a directory are some of those
    it had, and a directory whose name was taken away has become empty. *)
Definition pruned (g g' : fsys) : Prop :=
  forall e, match g e with
            | Some (NDir up es) => exists p, g' e = Some (NDir up (filter (fun x => p (fst x)) es)) /\
                forall y c u ee, find y es = Some c -> p y = false -> g c = Some (NDir u ee) -> g' c = Some (NDir u [])
            | o => g' e = o
            end.
