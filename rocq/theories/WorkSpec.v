(** Directories and working directories, independently of the model's helpers. *)
From Coq Require Import ZArith List Bool.
From Verif Require Import GoBase ConcBase PathSpec WorkModel.
Import ListNotations.
Open Scope Z_scope.

(** A directory tree: the root exists, every directory has a name and lies in a
    directory. *)
Definition tree (dirs : list (list Z) -> bool) : Prop :=
  dirs [] = true /\ forall x p, dirs (x :: p) = true -> name x /\ dirs p = true.
(** The absolute path of a place. *)
Definition path_of (p : list (list Z)) : list Z := abs_path (rev p).
(** The system can follow the path [s] from [from]: it is not empty, and all the directories on
    the way exist. *)
Definition can_follow (dirs : list (list Z) -> bool) (from : list (list Z)) (s : list Z) : Prop :=
  s <> [] /\ forall q r, s = q ++ r -> r = [] \/ (exists r', r = 47 :: r') -> dirs (leads from q) = true.

(** What the program sees. *)
Definition work_path (dirs : list (list Z) -> bool) (w : work) (p : list Z) : Prop :=
  work_step dirs w WWork = Ok (w, WPath p).
Definition working_directory (dirs : list (list Z) -> bool) (w : work) (p : list Z) : Prop :=
  work_step dirs w WGetwd = Ok (w, WPath p).
(** The working directory is changed by fs.Chdir only. *)
Definition own_chdir (op : wop) : Prop := match op with WOsChdir _ => False | _ => True end.
(** No successful fs.Chdir. *)
Definition no_chdir (e : wop * wobs) : Prop :=
  match e with (WChdir _, WErr false) => False | _ => True end.

(** Goroutines between calls of Chdir. *)
Definition outside (s : ch_state) (t : nat) : Prop := ch_pcs s t = CIdle.
(** At no time are two calls running. *)
Definition one_at_a_time (dirs : list (list Z) -> bool) (c : list (list Z)) (sched : list (nat * list Z)) : Prop :=
  forall l1 l2, sched = l1 ++ l2 -> forall t u, t <> u ->
    outside (fst (crun (ch_step dirs) (ch_init c) l1)) t \/ outside (fst (crun (ch_step dirs) (ch_init c) l1)) u.
