(** Model of fs.Create (fs/fs.go:96-109) for one path that no one else uses. *)
From Coq Require Import ZArith List Bool Arith.
From Verif Require Import GoBase.
Import ListNotations.
Local Open Scope nat_scope.

(** What is at the path: a file with its bytes, or a directory (operating system; no
    /repo lines). *)
Inductive entry := EFile (bytes : list Z) | EDir.
(** Errors of os.Open and os.Create: no descriptor left, directory, not permitted
    (operating system; no /repo lines). *)
Inductive cerr := EMfile | EIsDir | EAcces.
(** The entry at the path; the descriptors that are open in the process; how many of these no
    variable refers to any more (fs/fs.go:98, 100: the files are never closed); how many system
    calls were made. *)
Record cst := CSt { cs_entry : option entry; cs_used : nat; cs_leaked : nat; cs_time : nat }.

(** Before a system call the garbage collector may have closed files that nothing refers to;
    [gc] says how many it would close (Go runtime; no /repo lines). *)
Definition collect (gc : nat -> nat) (st : cst) : cst :=
  let n := Nat.min (gc (cs_time st)) (cs_leaked st) in
  CSt (cs_entry st) (cs_used st - n) (cs_leaked st - n) (S (cs_time st)).

(** os.Open (called at fs/fs.go:98): whether it succeeds.  The file is not referred to afterwards. *)
Definition os_open (limit : nat) (readable : bool) (gc : nat -> nat) (st : cst) : cst * bool :=
  let st := collect gc st in
  if cs_used st <? limit then
    match cs_entry st with
    | Some _ => if readable then (CSt (cs_entry st) (S (cs_used st)) (S (cs_leaked st)) (cs_time st), true) else (st, false)
    | None => (st, false)
    end
  else (st, false).

(** os.Create (called at fs/fs.go:100): an existing file is emptied.  The file is not referred to afterwards. *)
Definition os_create (limit : nat) (writable : bool) (gc : nat -> nat) (st : cst) : cst * option cerr :=
  let st := collect gc st in
  if cs_used st <? limit then
    match cs_entry st with
    | Some EDir => (st, Some EIsDir)
    | _ => if writable then (CSt (Some (EFile [])) (S (cs_used st)) (S (cs_leaked st)) (cs_time st), None) else (st, Some EAcces)
    end
  else (st, Some EMfile).

(** fs/fs.go:96-109 Create.  The parent is the path itself (line 97).  Line 106 closes a nil file, which does
    nothing.  [fuel] bounds the depth of the recursion; running out of it stands for a stack overflow. *)
Fixpoint fs_create (fuel limit : nat) (readable writable : bool) (gc : nat -> nat) (st : cst) : outcome (cst * option cerr) :=
  match fuel with
  | O => Diverge
  | S fuel =>
      let '(st, opened) := os_open limit readable gc st in
      if opened then
        ' (st, e2) <- fs_create fuel limit readable writable gc st ;;
        match e2 with
        | None => Ok (os_create limit writable gc st)
        | Some e => Ok (st, Some e)
        end
      else Ok (st, None)
  end.
