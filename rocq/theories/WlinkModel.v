(** Model of Walk and Statistic of fs/file_path.go, with filepath.Walk of Go 1.8, over a file system with links (LinkSpec).
    Simplified: the file system stays as it is while Walk runs. *)
From Coq Require Import ZArith List Bool.
From Verif Require Import GoBase PathModel PathPartModel LinkSpec WalkSpec WalkModel.
Import ListNotations.
Open Scope Z_scope.

(** os.FileInfo as Lstat gives it for an inode (used through fs/file_path.go:154). Simplified: the size of a directory is 0. *)
Definition link_info (fs : fsys) (c : nat) (nm : list Z) : finfo :=
  match fs c with
  | Some (NFile b) => {| fi_name := nm; fi_dir := false; fi_size := zlen b |}
  | Some (NLink t) => {| fi_name := nm; fi_dir := false; fi_size := zlen t |}
  | _ => {| fi_name := nm; fi_dir := true; fi_size := 0 |}
  end.
Section Walk.
  Variables (S E : Type).
  (** The caller's function, as in WalkModel. *)
  Variable fn : S -> list Z -> option finfo -> option (list Z) -> S * answer E.
  (** The text of the error of a call that fails (fs/file_path.go:154, errors of package os). *)
  Variable err : list Z -> res -> list Z.
  Variables (lim : nat) (fs : fsys) (cwd : nat).
  (** The loop of walk of path/filepath over the names of a directory (called through fs/file_path.go:154); [again] is walk. *)
  Fixpoint wlink_loop (again : list Z -> list Z -> nat -> S -> outcome (S * answer E)) (path : list Z) (l : list (list Z)) (s : S) : outcome (S * answer E) :=
    match l with
    | [] => Ok (s, Go)
    | x :: r =>
        let f := fp_join [path; x] in
        match lstat lim fs cwd f with
        | Found c =>
            bind (again f x c s) (fun '(s', a) =>
              match a with
              | Go => wlink_loop again path r s'
              | Skip => if fi_dir (link_info fs c x) then wlink_loop again path r s' else Ok (s', Skip)
              | Fail e => Ok (s', Fail e)
              end)
        | e => match fn s f None (Some (err f e)) with
               | (s', Fail x) => Ok (s', Fail x)
               | (s', _) => wlink_loop again path r s'
               end
        end
    end.
  (** walk of path/filepath (called through fs/file_path.go:154) of the inode [c] that Lstat found at the path; the directory
      is opened by its path. *)
  Fixpoint wlink (fuel : nat) (path nm : list Z) (c : nat) (s : S) : outcome (S * answer E) :=
    match fuel with
    | O => Diverge
    | Datatypes.S fuel =>
        let i := link_info fs c nm in
        if fi_dir i then
          match fn s path (Some i) None with
          | (s', Go) =>
              match stat lim fs cwd path with
              | Found d => match fs d with
                           | Some (NDir _ es) => wlink_loop (wlink fuel) path (map fst (sort_names es)) s'
                           | _ => Ok (fn s' path (Some i) (Some (err path NotDir)))
                           end
              | e => Ok (fn s' path (Some i) (Some (err path e)))
              end
          | (s', Skip) => Ok (s', Go)
          | (s', Fail x) => Ok (s', Fail x)
          end
        else Ok (fn s path (Some i) None)
    end.
  (** fs/file_path.go:153-158 Walk, and Walk of path/filepath. *)
  Definition walk_links (fuel : nat) (path : list Z) (s : S) : outcome (S * option E) :=
    bind (match lstat lim fs cwd path with
          | Found c => wlink fuel path (base_of path) c s
          | e => Ok (fn s path None (Some (err path e)))
          end)
         (fun '(s', a) => Ok (s', match a with Fail x => Some x | _ => None end)).
End Walk.
Arguments walk_links {S E} fn err lim fs cwd fuel path s.
Arguments wlink {S E} fn err lim fs cwd fuel path nm c s.
Arguments wlink_loop {S E} fn err lim fs cwd again path l s.
(** fs/file_path.go:349-371 Statistic. *)
Definition statistic_links (err : list Z -> res -> list Z) (lim : nat) (fs : fsys) (cwd fuel : nat) (path : list Z) : outcome (Z * Z * Z * list Z) :=
  bind (walk_links stat_fn err lim fs cwd fuel path (Ok (0, 0, 0, []))) fst.
