(** The texts of symbolic links. *)
From Coq Require Import ZArith List Bool.
From Verif Require Import LinkSpec.
Import ListNotations.
Open Scope Z_scope.

(** No link has an empty text (symlink(2) does not make one). *)
Definition worded (fs : fsys) : Prop := forall i, fs i <> Some (NLink []).
(** No link has "." or ".." as an element of its text. *)
Definition forward (fs : fsys) : Prop := forall i t, fs i = Some (NLink t) -> ~ In [46] (cut [] t) /\ ~ In [46; 46] (cut [] t).
(** What is found at the text of a link, from the directory of the link, is found there without another link. *)
Definition shallow (fs : fsys) : Prop := forall d up es x c t, fs d = Some (NDir up es) -> find x es = Some c -> fs c = Some (NLink t) ->
  forall lim j, stat lim fs d t = Found j -> stat 0 fs d t = Found j.
(** "/l" leads to "m", "/m" to "a/b", "/a/b/f" to "../x"; the files "/a/x" and "/x"; "/a/b/e" leads to "/l". *)
Definition ex_eval : fsys := fun i =>
  match i with
  | 0%nat => Some (NDir 0 [([108], 1%nat); ([109], 2%nat); ([97], 3%nat); ([120], 7%nat)])
  | 1%nat => Some (NLink [109])
  | 2%nat => Some (NLink [97; 47; 98])
  | 3%nat => Some (NDir 0 [([98], 4%nat); ([120], 6%nat)])
  | 4%nat => Some (NDir 3 [([102], 5%nat); ([101], 8%nat)])
  | 5%nat => Some (NLink [46; 46; 47; 120])
  | 6%nat => Some (NFile [1])
  | 7%nat => Some (NFile [2])
  | 8%nat => Some (NLink [47; 108])
  | _ => None
  end.
(** "/l" leads to "m", "/m" to "/x/", "/o" to itself; the directory "/x" with the file "a". *)
Definition ex_eval_forward : fsys := fun i =>
  match i with
  | 0%nat => Some (NDir 0 [([108], 1%nat); ([109], 2%nat); ([111], 3%nat); ([120], 4%nat)])
  | 1%nat => Some (NLink [109])
  | 2%nat => Some (NLink [47; 120; 47])
  | 3%nat => Some (NLink [111])
  | 4%nat => Some (NDir 0 [([97], 5%nat)])
  | 5%nat => Some (NFile [1])
  | _ => None
  end.
(** "/d/l" leads to "../e/", "/e/k" to "./../d/f", a file. *)
Definition ex_eval_shallow : fsys := fun i =>
  match i with
  | 0%nat => Some (NDir 0 [([100], 1%nat); ([101], 2%nat)])
  | 1%nat => Some (NDir 0 [([108], 3%nat); ([102], 4%nat)])
  | 2%nat => Some (NDir 0 [([107], 5%nat)])
  | 3%nat => Some (NLink [46; 46; 47; 101; 47])
  | 4%nat => Some (NFile [1])
  | 5%nat => Some (NLink [46; 47; 46; 46; 47; 100; 47; 102])
  | _ => None
  end.
