(** What paths mean, independently of the model. *)
From Coq Require Import ZArith List Bool.
Import ListNotations.
Open Scope Z_scope.

(** An ordinary element of a path. *)
Definition name (x : list Z) : Prop := x <> [] /\ x <> [46] /\ x <> [46; 46] /\ ~ In 47 x.

(** A place in the directory tree: the names from the place up to the root. Going
    from a place along the elements of a path, byte by byte: [cur] is the element
    read so far. Symbolic links are not considered. *)
Definition go (at_ : list (list Z)) (elem : list Z) : list (list Z) :=
  if list_eq_dec Z.eq_dec elem [] then at_
  else if list_eq_dec Z.eq_dec elem [46] then at_
  else if list_eq_dec Z.eq_dec elem [46; 46] then tl at_
  else elem :: at_.
(** See above. *)
Fixpoint follow (at_ : list (list Z)) (cur : list Z) (s : list Z) : list (list Z) :=
  match s with
  | [] => go at_ cur
  | c :: t => if Z.eq_dec c 47 then follow (go at_ cur) [] t else follow at_ (cur ++ [c]) t
  end.
(** Where a path leads from a place: a path that begins with a slash starts at the
    root. *)
Definition leads (from : list (list Z)) (s : list Z) : list (list Z) :=
  match s with
  | c :: _ => if Z.eq_dec c 47 then follow [] [] s else follow from [] s
  | [] => from
  end.

(** The absolute path made of some names. *)
Definition abs_path (cs : list (list Z)) : list Z :=
  match cs with [] => [47] | _ => concat (map (fun x => 47 :: x) cs) end.
(** The relative path made of some elements. *)
Fixpoint rel_path (cs : list (list Z)) : list Z :=
  match cs with
  | [] => [46]
  | [x] => x
  | x :: r => x ++ 47 :: rel_path r
  end.
(** The shape of a cleaned path: absolute with ordinary names only, or relative
    with some steps upwards followed by ordinary names. *)
Definition canonical (s : list Z) : Prop :=
  (exists cs, Forall name cs /\ s = abs_path cs) \/
  (exists k cs, Forall name cs /\ s = rel_path (repeat [46; 46] k ++ cs)).
