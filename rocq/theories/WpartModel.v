(** Model of Ext, SplitList, HasPrefix, WorkPath and RelateWorkPath of fs/file_path.go and fs/file_line.go on Windows, and of the
    functions of package path/filepath of Go 1.8 that they call there. 34 is the quotation mark, 59 the semicolon. *)
From Coq Require Import ZArith List Bool.
From Verif Require Import GoBase GoStrings PathModel WinModel WrelModel.
Import ListNotations.
Open Scope Z_scope.

(** The loop of filepath.Ext, called at fs/file_path.go:115, from the end of the text on; [acc] is what it has passed. *)
Fixpoint win_ext_loop (r acc : list Z) : list Z :=
  match r with
  | [] => []
  | c :: t => if is_sep c then [] else if c =? 46 then c :: acc else win_ext_loop t (c :: acc)
  end.
(** fs/file_path.go:114-116 Ext. *)
Definition win_ext (s : list Z) : list Z := win_ext_loop (rev s) [].

(** The first loop of splitList of path/filepath, called at fs/file_path.go:105: cuts at the semicolons outside of quotation marks;
    [quo] says whether it is inside. *)
Fixpoint cut_list (s : list Z) (quo : bool) : list (list Z) :=
  match s with
  | [] => [[]]
  | c :: t =>
      if (c =? 59) && negb quo then [] :: cut_list t quo
      else match cut_list t (if c =? 34 then negb quo else quo) with
           | h :: r => (c :: h) :: r
           | [] => [[c]]
           end
  end.
(** The second loop of splitList (called at fs/file_path.go:105): the quotation marks are removed. *)
Definition unquote (s : list Z) : list Z := filter (fun c => negb (c =? 34)) s.
(** fs/file_path.go:104-106 SplitList. *)
Definition win_split_list (s : list Z) : list (list Z) := match s with [] => [] | _ => map unquote (cut_list s false) end.

(** fs/file_path.go:181-183 HasPrefix, which calls filepath.HasPrefix; [lower] is strings.ToLower. *)
Definition win_has_prefix (lower : list Z -> list Z) (me prefix : list Z) : bool :=
  let p := win_path prefix in
  match strip_prefix p me with
  | Some _ => true
  | None => match strip_prefix (lower p) (lower me) with Some _ => true | None => false end
  end.

(** fs/file_line.go:79-81 and fs/file_path.go:141-144 RelateWorkPath; [wd] is gWorkPath, what os.Getwd gave (fs/file_line.go:59-66). *)
Definition win_relate_work (same : list Z -> list Z -> bool) (wd p : list Z) : list Z :=
  match win_rel same wd (win_path p) with
  | Some s => win_path s
  | None => win_path []
  end.
