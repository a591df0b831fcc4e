(** Models of the methods of fs/file_path.go that take a path apart, and of the functions of package path/filepath that they call, on a Unix
    system.  Strings are lists of bytes; 47 is the slash, 46 the full stop, 58 the colon. *)
From Coq Require Import ZArith List Bool.
From Verif Require Import PathModel.
Import ListNotations.
Open Scope Z_scope.

(** Slashes at the beginning are dropped (of the reversed text: the loop of filepath.Base, called at fs/file_path.go:162). *)
Fixpoint drop_slashes (r : list Z) : list Z :=
  match r with
  | c :: t => if c =? 47 then drop_slashes t else r
  | [] => []
  end.
(** fs/file_path.go:161-163 Base, which calls filepath.Base: "." for the empty path, "/" for slashes only, otherwise the last element without the slashes after
    it. *)
Definition base_of (s : list Z) : list Z :=
  match s with
  | [] => [46]
  | _ => match rev (drop_slashes (rev s)) with
         | [] => [47]
         | u => snd (split_path u)
         end
  end.
(** The loop of filepath.Ext, called at fs/file_path.go:115, from the end of the text on; [acc] is what it has passed. *)
Fixpoint ext_loop (r acc : list Z) : list Z :=
  match r with
  | [] => []
  | c :: t => if c =? 47 then [] else if c =? 46 then c :: acc else ext_loop t (c :: acc)
  end.
(** fs/file_path.go:114-116 Ext. *)
Definition ext_of (s : list Z) : list Z := ext_loop (rev s) [].
(** strings.Split(s, ":"), called by filepath.SplitList at fs/file_path.go:105. *)
Fixpoint split_colon (s : list Z) : list (list Z) :=
  match s with
  | [] => [[]]
  | c :: t =>
      if c =? 58 then [] :: split_colon t
      else match split_colon t with
           | h :: r => (c :: h) :: r
           | [] => [[c]]
           end
  end.
(** fs/file_path.go:104-106 SplitList, which calls filepath.SplitList: no element for the empty text. *)
Definition split_list (s : list Z) : list (list Z) := match s with [] => [] | _ => split_colon s end.
(** fs/file_path.go:124-126 Abs, which calls filepath.Abs; [wd] is the working directory (os.Getwd), which is assumed to be readable. *)
Definition abs_of (wd s : list Z) : list Z := if is_rooted s then clean s else fp_join [wd; s].
