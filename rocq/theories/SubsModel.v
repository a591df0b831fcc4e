(** Model of CollectSubs of fs/fs.go over a file system with links (LinkSpec). *)
From Coq Require Import ZArith List Bool.
From Verif Require Import GoBase PathModel FsModel LinkSpec.
Import ListNotations.
Open Scope Z_scope.

(** os.FileInfo.IsDir of an entry (called at fs/fs.go:66): Readdir does not look through links. *)
Definition entry_is_dir (fs : fsys) (c : nat) : bool := match fs c with Some (NDir _ _) => true | _ => false end.
(** The loop of fs/fs.go:62-86 and the test behind it (87-89); [again] is the call of CollectSubs (75). *)
Fixpoint subs_loop (again : list Z -> outcome (list (list Z) * bool)) (fs : fsys) (dir : list Z) (opt : Z) (es : list (list Z * nat)) (has_sub_dir : bool) :
  outcome (list (list Z) * bool) :=
  match es with
  | [] => Ok (if negb has_sub_dir && has opt (Z.lor FsLeaf FsDir) then [choose_name opt dir (file_name dir)] else [], false)
  | (x, c) :: r =>
      let full := joins [dir; x] in
      if entry_is_dir fs c then
        let own := if has opt FsDir && negb (has opt FsLeaf) then [choose_name opt full x] else [] in
        bind (if has_any opt (Z.lor FsDeep FsLeaf) then again full else Ok ([], false)) (fun '(sub, err) =>
          if err then Ok ([], true)
          else bind (subs_loop again fs dir opt r true) (fun '(rest, err) => Ok (own ++ sub ++ rest, err)))
      else
        let own := if has opt FsFile then [choose_name opt full x] else [] in
        bind (subs_loop again fs dir opt r has_sub_dir) (fun '(rest, err) => Ok (own ++ rest, err))
  end.
(** fs/fs.go:57-94 CollectSubs: os.Open looks through links; what cannot be opened or is no directory gives nothing. *)
Fixpoint collect_links (fuel lim : nat) (fs : fsys) (cwd : nat) (dir : list Z) (opt : Z) : outcome (list (list Z) * bool) :=
  match fuel with
  | O => Diverge
  | S fuel =>
      match stat lim fs cwd dir with
      | Found i => match fs i with
                   | Some (NDir _ es) => subs_loop (fun full => collect_links fuel lim fs cwd full opt) fs dir opt es false
                   | _ => Ok ([], false)
                   end
      | _ => Ok ([], false)
      end
  end.
