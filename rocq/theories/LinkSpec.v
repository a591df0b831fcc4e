(** A Unix file system with hard and symbolic links, and what a text names in it: the rules of path_resolution(7). This is
    the environment of the code, not the code. *)
From Coq Require Import ZArith List Bool.
From Verif Require Import PathSpec.
Import ListNotations.
Open Scope Z_scope.

(** An inode: a file, a directory with its parent and its entries, or a symbolic link with its text. *)
Inductive node := NFile (bytes : list Z) | NDir (up : nat) (names : list (list Z * nat)) | NLink (text : list Z).
(** The table of inodes; 0 is the root. *)
Definition fsys := nat -> option node.

(** The entry of a name. *)
Fixpoint find (x : list Z) (es : list (list Z * nat)) : option nat :=
  match es with
  | [] => None
  | (y, i) :: r => if list_eq_dec Z.eq_dec x y then Some i else find x r
  end.

(** The entries are ordinary names, they lead to inodes, directories have one entry each, and the one who has it is their
    parent; the root is a directory without an entry, and its own parent. *)
Definition sound (fs : fsys) : Prop :=
  (exists es, fs 0%nat = Some (NDir 0 es)) /\
  (forall d up es, fs d = Some (NDir up es) -> exists up' es', fs up = Some (NDir up' es')) /\
  (forall d up es x c, fs d = Some (NDir up es) -> find x es = Some c -> name x /\ c <> 0%nat /\
     exists n, fs c = Some n /\ forall up' es', n = NDir up' es' -> up' = d /\ forall y, find y es = Some c -> y = x).

(** The elements between the slashes, byte by byte. *)
Fixpoint cut (cur s : list Z) : list (list Z) :=
  match s with
  | [] => [cur]
  | c :: t => if Z.eq_dec c 47 then cur :: cut [] t else cut (cur ++ [c]) t
  end.
(** A text that begins with a slash starts at the root. *)
Definition begins (d : nat) (s : list Z) : nat :=
  match s with c :: _ => if Z.eq_dec c 47 then 0%nat else d | [] => d end.

(** What a walk along elements gives: an inode, or one of the errors ENOENT, ENOTDIR, ELOOP. *)
Inductive res := Found (i : nat) | Missing | NotDir | Loop.

(** Whether an element is empty or a full stop. *)
Definition idle (x : list Z) : bool := match x with [] => true | [c] => if Z.eq_dec c 46 then true else false | _ => false end.
(** Whether an element is two full stops. *)
Definition upward (x : list Z) : bool := if list_eq_dec Z.eq_dec x [46; 46] then true else false.

(** The walk from directory [d] along the elements [l], with at most [lim] symbolic links; the last element is looked
    through only if [follow]. *)
Fixpoint walk (lim : nat) (follow : bool) (fs : fsys) : list (list Z) -> nat -> res :=
  fix along (l : list (list Z)) (d : nat) : res :=
    match l with
    | [] => Found d
    | x :: r =>
        match fs d with
        | Some (NDir up es) =>
            if idle x then along r d
            else if upward x then along r up
            else match find x es with
                 | None => Missing
                 | Some c =>
                     match fs c with
                     | None => Missing
                     | Some (NLink t) =>
                         match r, follow with
                         | [], false => Found c
                         | _, _ =>
                             match t with
                             | [] => Missing
                             | _ => match lim with O => Loop | S k => walk k follow fs (cut [] t ++ r) (begins d t) end
                             end
                         end
                     | Some _ => along r c
                     end
                 end
        | Some _ => NotDir
        | None => Missing
        end
    end.
(** stat(2) of a text for a process with working directory [cwd], and lstat(2), which does not look through a link at the
    end. *)
Definition stat (lim : nat) (fs : fsys) (cwd : nat) (s : list Z) : res :=
  match s with [] => Missing | _ => walk lim true fs (cut [] s) (begins cwd s) end.
(** See above. *)
Definition lstat (lim : nat) (fs : fsys) (cwd : nat) (s : list Z) : res :=
  match s with [] => Missing | _ => walk lim false fs (cut [] s) (begins cwd s) end.

(** One step without looking through links. *)
Definition move (fs : fsys) (d : nat) (x : list Z) : option nat :=
  match fs d with
  | Some (NDir up es) => if idle x then Some d else if upward x then Some up else find x es
  | _ => None
  end.
(** No symbolic link is met before the last step upwards. *)
Inductive straight (fs : fsys) : nat -> list (list Z) -> Prop :=
| straight_down d l : ~ In [46; 46] l -> straight fs d l
| straight_step d x l c : move fs d x = Some c -> (forall t, fs c <> Some (NLink t)) -> straight fs c l -> straight fs d (x :: l).

(** Inode [d] is put in place of what it was. *)
Definition put (fs : fsys) (d : nat) (n : node) : fsys := fun j => if Nat.eqb j d then Some n else fs j.
(** The entries without a name. *)
Definition without (x : list Z) (es : list (list Z * nat)) : list (list Z * nat) :=
  filter (fun e => if list_eq_dec Z.eq_dec x (fst e) then false else true) es.
(** The directory and the name of a text for a call that makes or removes an entry: the last element must be an ordinary
    name. *)
Definition place_of (lim : nat) (fs : fsys) (cwd : nat) (s : list Z) : option (nat * nat * list (list Z * nat) * list Z) :=
  let l := cut [] s in
  let x := last l [] in
  if idle x || upward x then None
  else match walk lim true fs (removelast l) (begins cwd s) with
       | Found d => match fs d with Some (NDir up es) => Some (d, up, es, x) | _ => None end
       | _ => None
       end.

(** symlink(2): a new inode [i] with the text; [None]: an error. *)
Definition sys_symlink (lim : nat) (fs : fsys) (cwd i : nat) (old new : list Z) : option fsys :=
  match old, place_of lim fs cwd new with
  | _ :: _, Some (d, up, es, x) =>
      match find x es with
      | Some _ => None
      | None => Some (put (put fs i (NLink old)) d (NDir up ((x, i) :: es)))
      end
  | _, _ => None
  end.
(** link(2): not for directories; a symbolic link is not looked through. *)
Definition sys_link (lim : nat) (fs : fsys) (cwd : nat) (old new : list Z) : option fsys :=
  match lstat lim fs cwd old, place_of lim fs cwd new with
  | Found i, Some (d, up, es, x) =>
      match fs i, find x es with
      | Some (NDir _ _), _ => None
      | None, _ => None
      | _, Some _ => None
      | _, None => Some (put fs d (NDir up ((x, i) :: es)))
      end
  | _, _ => None
  end.
(** unlink(2): not for directories. *)
Definition sys_unlink (lim : nat) (fs : fsys) (cwd : nat) (s : list Z) : option fsys :=
  match place_of lim fs cwd s with
  | Some (d, up, es, x) =>
      match find x es with
      | Some i => match fs i with
                  | Some (NDir _ _) => None
                  | None => None
                  | _ => Some (put fs d (NDir up (without x es)))
                  end
      | None => None
      end
  | None => None
  end.

(** Directories 0 = "/", 1 = "/a", 2 = "/a/b" with the file 3 = "f" of bytes 7; 4 = "/l", a link to "a/b". *)
Definition ex_fs : fsys := fun i =>
  match i with
  | 0%nat => Some (NDir 0 [([97], 1%nat); ([108], 4%nat)])
  | 1%nat => Some (NDir 0 [([98], 2%nat)])
  | 2%nat => Some (NDir 1 [([102], 3%nat)])
  | 3%nat => Some (NFile [7])
  | 4%nat => Some (NLink [97; 47; 98])
  | _ => None
  end.
