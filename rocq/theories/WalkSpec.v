(** What walking a directory tree means, independently of the code. *)
From Coq Require Import ZArith List Bool Sorted.
From Verif Require Import PathSpec.
Import ListNotations.
Open Scope Z_scope.

(** A directory tree as the operating system shows it: files with their sizes, directories that can be listed, directories
    that cannot (with the text of the error), entries that are listed but cannot be examined. *)
Inductive wnode : Type :=
| WFile (nm : list Z) (size : Z)
| WDir (nm : list Z) (kids : list wnode)
| WShut (nm : list Z) (err : list Z)
| WLost (nm : list Z) (err : list Z).
Definition wname_of (n : wnode) : list Z := match n with WFile nm _ | WDir nm _ | WShut nm _ | WLost nm _ => nm end.
Definition wisdir (n : wnode) : bool := match n with WDir _ _ | WShut _ _ => true | _ => false end.
(** The entries of a directory have ordinary, different names. *)
Inductive proper : wnode -> Prop :=
| pr_file nm sz : proper (WFile nm sz)
| pr_shut nm e : proper (WShut nm e)
| pr_lost nm e : proper (WLost nm e)
| pr_dir nm kids : NoDup (map wname_of kids) -> Forall (fun k => name (wname_of k)) kids -> Forall proper kids -> proper (WDir nm kids).

(** The entry [m] found by going down from [n] along some names. *)
Inductive down : wnode -> list (list Z) -> wnode -> Prop :=
| dn_here n : down n [] n
| dn_into nm kids k cs m : In k kids -> down k cs m -> down (WDir nm kids) (wname_of k :: cs) m.

(** What the caller's function is told: name, kind and size of an entry (size 0 for directories). *)
Record finfo := { fi_name : list Z; fi_dir : bool; fi_size : Z }.
(** A visit: of an entry, of a directory that could not be listed, of an entry that could not be examined. *)
Inductive visit := VEntry (i : finfo) | VShut (i : finfo) (err : list Z) | VLost (err : list Z).
(** The visits that belong to an entry. *)
Definition visits_of (m : wnode) (v : visit) : Prop :=
  match m with
  | WFile nm sz => v = VEntry {| fi_name := nm; fi_dir := false; fi_size := sz |}
  | WDir nm _ => v = VEntry {| fi_name := nm; fi_dir := true; fi_size := 0 |}
  | WShut nm e => v = VEntry {| fi_name := nm; fi_dir := true; fi_size := 0 |} \/ v = VShut {| fi_name := nm; fi_dir := true; fi_size := 0 |} e
  | WLost _ e => v = VLost e
  end.
(** All visits of a tree: the names leading to the entry, and the visit. *)
Definition belongs (n : wnode) (e : list (list Z) * visit) : Prop := exists m, down n (fst e) m /\ visits_of m (snd e).

(** Lexical order of names and of lists of names. *)
Fixpoint bytes_lt (a b : list Z) : Prop :=
  match a, b with
  | [], _ :: _ => True
  | x :: a, y :: b => x < y \/ (x = y /\ bytes_lt a b)
  | _, [] => False
  end.
Fixpoint names_lt (a b : list (list Z)) : Prop :=
  match a, b with
  | [], _ :: _ => True
  | x :: a, y :: b => bytes_lt x y \/ (x = y /\ names_lt a b)
  | _, [] => False
  end.
(** The order of visits: lexical, so that a directory comes before what is in it; the failure to list a directory comes
    behind the visit of the directory. *)
Definition earlier (a b : list (list Z) * visit) : Prop :=
  names_lt (fst a) (fst b) \/ (fst a = fst b /\ match snd a, snd b with VEntry _, VShut _ _ => True | _, _ => False end).

(** What the caller's function answers: go on, skip, or an error. *)
Inductive answer (E : Type) := Go | Skip | Fail (e : E).
Arguments Go {E}. Arguments Skip {E}. Arguments Fail {E} e.

(** Is [b] inside the directory [a]? *)
Fixpoint inside (a b : list (list Z)) : bool :=
  match a, b with
  | [], _ :: _ => true
  | x :: a, y :: b => if list_eq_dec Z.eq_dec x y then inside a b else false
  | _, [] => false
  end.
(** What is skipped: the inside of a visited directory; behind a visited file the rest of the directory it is in. *)
Definition skipped (e : list (list Z) * visit) : list (list (list Z)) :=
  match snd e with
  | VEntry i => if fi_dir i then [fst e] else match fst e with [] => [] | _ => [removelast (fst e)] end
  | _ => []
  end.
(** Is a visit left out if [d] is skipped? A skipped directory is not listed. *)
Definition hidden_by (d : list (list Z)) (e : list (list Z) * visit) : bool :=
  inside d (fst e) || match snd e with VShut _ _ => if list_eq_dec (list_eq_dec Z.eq_dec) d (fst e) then true else false | _ => false end.
(** Calling a function for the visits of a list in turn. *)
Section Run.
  Variables (S E : Type).
  Variable fn : S -> list (list Z) -> visit -> S * answer E.
  Fixpoint run (s : S) (skips : list (list (list Z))) (l : list (list (list Z) * visit)) : S * option E :=
    match l with
    | [] => (s, None)
    | e :: l =>
        if existsb (fun d => hidden_by d e) skips then run s skips l
        else match fn s (fst e) (snd e) with
             | (s', Go) => run s' skips l
             | (s', Skip) => run s' (skipped e ++ skips) l
             | (s', Fail x) => (s', Some x)
             end
    end.
End Run.
(** The text [t] is the path of the place reached from [root] along some names. *)
Definition text_of (root : list Z) (cs : list (list Z)) (t : list Z) : Prop :=
  match cs with
  | [] => t = root
  | _ => canonical t /\ forall p, leads p t = rev cs ++ leads p root
  end.
(** Info and error as the caller's function is given them ([None]: nil). *)
Definition told (v : visit) : option finfo * option (list Z) :=
  match v with VEntry i => (Some i, None) | VShut i e => (Some i, Some e) | VLost e => (None, Some e) end.
(** Numbers of visited directories and files, the sizes of the files, the lines of the errors. *)
Definition dirs_in (l : list (list (list Z) * visit)) : Z :=
  Z.of_nat (length (filter (fun e => match snd e with VEntry i => fi_dir i | _ => false end) l)).
Definition files_in (l : list (list (list Z) * visit)) : Z :=
  Z.of_nat (length (filter (fun e => match snd e with VEntry i => negb (fi_dir i) | _ => false end) l)).
Definition bytes_in (l : list (list (list Z) * visit)) : Z :=
  fold_right (fun e a => match snd e with VEntry i => if fi_dir i then a else fi_size i + a | _ => a end) 0 l.
Definition errors_in (l : list (list (list Z) * visit)) : list Z :=
  concat (map (fun e => match snd e with VEntry _ => [] | VShut _ t | VLost t => t ++ [10] end) l).
(** An example: r with the file b, the directory a of the files y and x, the directory c that cannot be listed and the entry d
    that cannot be examined; and a function that notes the paths and skips at the path ending with a given letter. *)
Definition ex_tree : wnode :=
  WDir [114] [WFile [98] 5; WDir [97] [WFile [121] 2; WFile [120] 1]; WShut [99] [69]; WLost [100] [76]].
Definition ex_fn (at_ : Z) (s : list (list Z)) (path : list Z) (i : option finfo) (e : option (list Z)) : list (list Z) * answer Z :=
  (s ++ [path], if Z.eq_dec (last path 0) at_ then Skip else Go).
