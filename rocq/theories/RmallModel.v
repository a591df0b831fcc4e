(** Model of the methods Remove and RemoveAll of FilePathObject (fs/file_path.go), with Remove and RemoveAll of package os of
    Go 1.8, over the file system of LinkSpec. *)
From Coq Require Import ZArith List Bool.
From Verif Require Import GoBase LinkSpec RmallSpec.
Import ListNotations.
Open Scope Z_scope.

(** The error of os.Remove (called through fs/file_path.go:278): none, one that IsNotExist knows, another. *)
Inductive removed := RmDone (fs : fsys) | RmGone | RmFail.
(** fs/file_path.go:277-279 Remove, and Remove of package os: unlink(2), then rmdir(2). *)
Definition remove_any (lim : nat) (fs : fsys) (cwd : nat) (path : list Z) : removed :=
  match sys_unlink lim fs cwd path with
  | Some fs' => RmDone fs'
  | None => match sys_rmdir lim fs cwd path with
            | Some fs' => RmDone fs'
            | None => match lstat lim fs cwd path with Missing => RmGone | _ => RmFail end
            end
  end.
(** The loop of RemoveAll of package os over the names of a directory (called through fs/file_path.go:284); [again] is RemoveAll, [ok]: no
    error so far. *)
Fixpoint remove_names (again : fsys -> list Z -> outcome (bool * fsys)) (path : list Z) (l : list (list Z)) (ok : bool) (fs : fsys) : outcome (bool * fsys) :=
  match l with
  | [] => Ok (ok, fs)
  | x :: r => bind (again fs (path ++ 47 :: x)) (fun '(b, fs') => remove_names again path r (ok && b) fs')
  end.
(** fs/file_path.go:283-285 RemoveAll, and RemoveAll of package os: whether there was no error, and the file system afterwards.
    Simplified: the names of a directory are read at once, not by the hundred. *)
Fixpoint remove_all (fuel : nat) (lim : nat) (cwd : nat) (fs : fsys) (path : list Z) : outcome (bool * fsys) :=
  match fuel with
  | O => Diverge
  | Datatypes.S fuel =>
      match remove_any lim fs cwd path with
      | RmDone fs' => Ok (true, fs')
      | RmGone => Ok (true, fs)
      | RmFail =>
          match lstat lim fs cwd path with
          | Found i =>
              match fs i with
              | Some (NDir _ _) =>
                  match stat lim fs cwd path with
                  | Found d =>
                      match fs d with
                      | Some (NDir _ es) =>
                          bind (remove_names (remove_all fuel lim cwd) path (map fst es) true fs) (fun '(ok, fs') =>
                            match remove_any lim fs' cwd path with
                            | RmDone fs2 => Ok (true, fs2)
                            | RmGone => Ok (true, fs')
                            | RmFail => Ok (false, fs')
                            end)
                      | _ => Ok (false, fs)
                      end
                  | Missing => Ok (true, fs)
                  | _ => Ok (false, fs)
                  end
              | _ => Ok (false, fs)
              end
          | Missing | NotDir => Ok (true, fs)
          | Loop => Ok (false, fs)
          end
      end
  end.
