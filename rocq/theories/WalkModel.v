(** Model of Walk of fs/file_path.go and of filepath.Walk of Go 1.8, and of Statistic over it. The caller's function is a
    parameter with a state of any type. *)
From Coq Require Import ZArith List Bool.
From Verif Require Import GoBase PathModel FsModel WalkSpec.
Import ListNotations.
Open Scope Z_scope.

(** sort.Strings in readDirNames of path/filepath (called through fs/file_path.go:154): the names are sorted; simplified:
    the names keep what is found under them, and the sorting is by insertion (names in a directory are different, so that
    there is one result). *)
Fixpoint insert_name {A} (x : list Z * A) (l : list (list Z * A)) : list (list Z * A) :=
  match l with
  | [] => [x]
  | y :: r => if str_less (fst y) (fst x) then y :: insert_name x r else x :: y :: r
  end.
(** See above. *)
Fixpoint sort_names {A} (l : list (list Z * A)) : list (list Z * A) :=
  match l with
  | [] => []
  | x :: r => insert_name x (sort_names r)
  end.

Section Walk.
  Variables (S E : Type).
  (** The caller's function: path, info (nil is [None]), error (nil is [None]). *)
  Variable fn : S -> list Z -> option finfo -> option (list Z) -> S * answer E.
  (** The loop of walk of path/filepath over the names of a directory; every name comes with IsDir and the walk of what is
      found under it (called through fs/file_path.go:154). *)
  Fixpoint walk_loop (path : list Z) (l : list (list Z * (bool * (list Z -> S -> S * answer E)))) (s : S) : S * answer E :=
    match l with
    | [] => (s, Go)
    | (nm, (isdir, w)) :: r =>
        match w (fp_join [path; nm]) s with
        | (s', Go) => walk_loop path r s'
        | (s', Skip) => if isdir then walk_loop path r s' else (s', Skip)
        | (s', Fail x) => (s', Fail x)
        end
    end.
  (** walk of path/filepath, and the call of walkFn for an entry that lstat cannot examine (called through
      fs/file_path.go:154). Simplified: the size of a directory is 0. *)
  Fixpoint walk (n : wnode) (path : list Z) (s : S) : S * answer E :=
    match n with
    | WFile nm sz => fn s path (Some {| fi_name := nm; fi_dir := false; fi_size := sz |}) None
    | WLost _ err =>
        match fn s path None (Some err) with
        | (s', Skip) => (s', Go)
        | r => r
        end
    | WShut nm err =>
        let i := {| fi_name := nm; fi_dir := true; fi_size := 0 |} in
        match fn s path (Some i) None with
        | (s', Go) => fn s' path (Some i) (Some err)
        | (s', Skip) => (s', Go)
        | (s', Fail x) => (s', Fail x)
        end
    | WDir nm kids =>
        match fn s path (Some {| fi_name := nm; fi_dir := true; fi_size := 0 |}) None with
        | (s', Go) => walk_loop path (sort_names (map (fun k => (wname_of k, (wisdir k, walk k))) kids)) s'
        | (s', Skip) => (s', Go)
        | (s', Fail x) => (s', Fail x)
        end
    end.
  (** fs/file_path.go:153-158 Walk, and Walk of path/filepath: the state behind it, and the error ([None]: nil). *)
  Definition walk_path (n : wnode) (path : list Z) (s : S) : S * option E :=
    match walk n path s with
    | (s', Fail x) => (s', Some x)
    | (s', _) => (s', None)
    end.
End Walk.
Arguments walk {S E} fn n path s.
Arguments walk_path {S E} fn n path s.
Arguments walk_loop {S E} path l s.

(** fs/file_path.go:351-367, the function given to Walk by Statistic: directories, files, size and the text of the errors. If
    there is neither info nor error, info.IsDir() panics. Simplified: the numbers are not bounded by those of int. *)
Definition stat_fn (s : outcome (Z * Z * Z * list Z)) (path : list Z) (info : option finfo) (err : option (list Z)) :
  outcome (Z * Z * Z * list Z) * answer Z :=
  (bind s (fun '(nd, nf, sz, buf) =>
     match err with
     | None =>
         match info with
         | Some i => if fi_dir i then Ok (nd + 1, nf, sz, buf) else Ok (nd, nf + 1, (sz + fi_size i mod 2 ^ 64) mod 2 ^ 64, buf)
         | None => Panic
         end
     | Some e => Ok (nd, nf, sz, buf ++ e ++ [10])
     end), Go).
(** fs/file_path.go:349-371 Statistic. *)
Definition statistic_walk (n : wnode) (path : list Z) : outcome (Z * Z * Z * list Z) :=
  fst (walk_path stat_fn n path (Ok (0, 0, 0, []))).
