(** Model of fs/file_line.go: GoPath, WorkPath, Chdir and the paths relative to them,
    on a Unix system.  The directories do not change and there are no symbolic
    links. *)
From Coq Require Import ZArith List Bool.
From Verif Require Import GoBase GoStrings ConcBase PathModel.
Import ListNotations.
Open Scope Z_scope.

(** strings.Split(s, ";")[0] (called at fs/file_line.go:48-49): up to the first
    semicolon. *)
Fixpoint first_entry (s : list Z) : list Z :=
  match s with
  | [] => []
  | c :: t => if c =? 59 then [] else c :: first_entry t
  end.
(** fs/file_line.go:45-52 goPath; [env] is the value of GOPATH. *)
Definition go_path (env : list Z) : list Z :=
  file_path (first_entry env ++ [47; 115; 114; 99; 47]).
(** filepath.Rel with the error dropped, and the result cleaned
    (fs/file_path.go:136-137 and 142-143). *)
Definition rel_or_dot (base me : list Z) : list Z :=
  match fp_rel base me with
  | Some s => file_path s
  | None => file_path []
  end.
(** fs/file_line.go:74-76 and fs/file_path.go:135-138 RelateGoPath. *)
Definition relate_go (env p : list Z) : list Z := rel_or_dot (go_path env) (file_path p).

(** A place in the directory tree: the names from the place up to the root
    (operating system; no /repo lines). *)
Definition place := list (list Z).

(** One element of a path on the way (operating system; no /repo lines). *)
Definition enter (dirs : place -> bool) (at_ : option place) (seg : list Z) : option place :=
  match at_ with
  | None => None
  | Some p =>
      if str_eqb seg [] || str_eqb seg [46] then Some p
      else if str_eqb seg [46; 46] then Some (tl p)
      else if dirs (seg :: p) then Some (seg :: p) else None
  end.
(** os.Chdir (called at fs/file_line.go:94): the new working directory, [None] is an
    error.  Every directory on the way has to exist; the empty path is an error.
    Simplified: no permissions. *)
Definition os_chdir (dirs : place -> bool) (cwd : place) (p : list Z) : option place :=
  match p with
  | [] => None
  | _ => fold_left (enter dirs) (segments p) (Some (if is_rooted p then [] else cwd))
  end.
(** os.Getwd (called at fs/file_line.go:60).  Simplified: the clean absolute path,
    no error. *)
Definition getwd (cwd : place) : list Z := 47 :: join_slash (rev cwd).

(** The working directory of the process and the variable gWorkPath
    (fs/file_line.go:17). *)
Record work := Work { k_cwd : place; k_cached : list Z }.
(** What the program does: fs.Chdir (fs/file_line.go:93), os.Chdir called directly
    (operating system), WorkPath (fs/file_line.go:69), RelateWorkPath
    (fs/file_line.go:79), os.Getwd (operating system). *)
Inductive wop := WChdir (p : list Z) | WOsChdir (p : list Z) | WWork | WRelate (p : list Z) | WGetwd.
(** Whether an error came back, or a path (fs/file_line.go:69-98). *)
Inductive wobs := WErr (failed : bool) | WPath (p : list Z).

(** fs/file_line.go:59-66 workPath, 69-71 WorkPath, 79-81 RelateWorkPath (with
    fs/file_path.go:141-144), 93-98 Chdir; os.Chdir leaves gWorkPath alone. *)
Definition work_step (dirs : place -> bool) (w : work) (op : wop) : outcome (work * wobs) :=
  match op with
  | WChdir p =>
      match os_chdir dirs (k_cwd w) (file_path p) with
      | Some c => Ok (Work c (getwd c), WErr false)
      | None => Ok (w, WErr true)
      end
  | WOsChdir p =>
      match os_chdir dirs (k_cwd w) p with
      | Some c => Ok (Work c (k_cached w), WErr false)
      | None => Ok (w, WErr true)
      end
  | WWork => Ok (w, WPath (k_cached w))
  | WRelate p => Ok (w, WPath (rel_or_dot (k_cached w) (file_path p)))
  | WGetwd => Ok (w, WPath (getwd (k_cwd w)))
  end.
(** fs/file_line.go:17: gWorkPath is set when the program starts. *)
Definition work_init (c : place) : work := Work c (getwd c).

(** Concurrent calls of Chdir.  A goroutine is outside, about to call os.Chdir
    (line 94), about to call os.Getwd (lines 95, 60), about to write gWorkPath
    (line 95).  Simplified: gWorkPath is written in one step.
    fs/file_line.go:93-98. *)
Inductive ch_pc := CIdle | CCd (p : list Z) | CGet (p : list Z) | CSet (p v : list Z).
(** The process and the goroutines (fs/file_line.go:93-98). *)
Record ch_state := ChState { ch_work : work; ch_pcs : nat -> ch_pc }.
(** One step of goroutine [t], which calls Chdir([p]) if it is outside
    (fs/file_line.go:93-98).  The result of a call: whether it failed. *)
Definition ch_step (dirs : place -> bool) (s : ch_state) (t : nat) (p : list Z) : ch_state * list (ext (list Z) bool) :=
  let w := ch_work s in
  match ch_pcs s t with
  | CIdle => (ChState w (fupd (ch_pcs s) t (CCd p)), [Inv t p])
  | CCd q =>
      match os_chdir dirs (k_cwd w) (file_path q) with
      | Some c => (ChState (Work c (k_cached w)) (fupd (ch_pcs s) t (CGet q)), [])
      | None => (ChState w (fupd (ch_pcs s) t CIdle), [Ret t q true])
      end
  | CGet q => (ChState w (fupd (ch_pcs s) t (CSet q (getwd (k_cwd w)))), [])
  | CSet q v => (ChState (Work (k_cwd w) v) (fupd (ch_pcs s) t CIdle), [Ret t q false])
  end.
(** No call running (fs/file_line.go:17). *)
Definition ch_init (c : place) : ch_state := ChState (work_init c) (fun _ => CIdle).
