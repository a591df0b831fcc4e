(** Working directory and GOPATH (fs/file_line.go). *)
From Coq Require Import ZArith List Bool Arith.
From Verif Require Import GoBase ConcBase PathModel PathSpec WorkModel WorkSpec WorkProofs WorkMore.
Import ListNotations.
Open Scope Z_scope.

(** C146: fs.Chdir(p) succeeds exactly if the place that p leads to is a directory; then this is the working directory
    and its absolute path is WorkPath().  If it fails nothing changes.  It succeeds with the same directory
    whenever os.Chdir(p) does, and also for some paths with which os.Chdir(p) fails. *)
Theorem C146_chdir_goes_where_the_path_leads :
  (forall dirs c ops w obs p, tree dirs -> dirs c = true ->
    run_ops (work_step dirs) (work_init c) ops = Ok (w, obs) ->
    (dirs (leads (k_cwd w) p) = true /\
     work_step dirs w (WChdir p) = Ok (Work (leads (k_cwd w) p) (path_of (leads (k_cwd w) p)), WErr false)) \/
    (dirs (leads (k_cwd w) p) = false /\ work_step dirs w (WChdir p) = Ok (w, WErr true))) /\
  (forall dirs c ops w obs p, tree dirs -> dirs c = true ->
    run_ops (work_step dirs) (work_init c) ops = Ok (w, obs) ->
    (can_follow dirs (k_cwd w) p /\
     work_step dirs w (WOsChdir p) = Ok (Work (leads (k_cwd w) p) (k_cached w), WErr false) /\
     work_step dirs w (WChdir p) = Ok (Work (leads (k_cwd w) p) (path_of (leads (k_cwd w) p)), WErr false)) \/
    (~ can_follow dirs (k_cwd w) p /\ work_step dirs w (WOsChdir p) = Ok (w, WErr true))) /\
  (exists dirs c p, tree dirs /\ dirs c = true /\ ~ can_follow dirs c p /\
    work_step dirs (work_init c) (WOsChdir p) = Ok (work_init c, WErr true) /\
    work_step dirs (work_init c) (WChdir p) = Ok (work_init c, WErr false) /\ p <> []).
Proof. exact chdir_exact. Qed.
Print Assumptions C146_chdir_goes_where_the_path_leads.

(** In the tree /, /a, /b: Chdir("../b/./"), Chdir("x"), Chdir(""), os.Chdir(""), os.Chdir("../a/"). *)
Example C146_ex :
  tree dirs2 /\
  run_ops (work_step dirs2) (work_init [[97]])
    [WChdir [46; 46; 47; 98; 47; 46; 47]; WWork; WChdir [120]; WChdir []; WOsChdir []; WGetwd; WOsChdir [46; 46; 47; 97; 47]; WGetwd; WWork] =
  Ok (Work [[97]] [47; 98],
      [WErr false; WPath [47; 98]; WErr true; WErr false; WErr true; WPath [47; 98]; WErr false; WPath [47; 97]; WPath [47; 98]]).
Proof. split; [exact dirs2_tree|vm_compute; reflexivity]. Qed.

(** C147 (partial): WorkPath() is the working directory, if the working directory is changed by fs.Chdir only and
    by one goroutine (see C150).
    Missing: os.Chdir called directly; see the counterexample.  Exactly: WorkPath() is the directory to
    which the last successful fs.Chdir went. *)
Theorem C147_work_path_partial :
  forall dirs c ops w obs, Forall own_chdir ops ->
    run_ops (work_step dirs) (work_init c) ops = Ok (w, obs) ->
    exists p, work_path dirs w p /\ working_directory dirs w p.
Proof. exact work_path_cwd. Qed.
Print Assumptions C147_work_path_partial.
Theorem C147_work_path_last :
  forall dirs c ops1 w1 obs1 p ops2 w2 obs2, tree dirs -> dirs c = true ->
    run_ops (work_step dirs) (work_init c) ops1 = Ok (w1, obs1) ->
    run_ops (work_step dirs) w1 (WChdir p :: ops2) = Ok (w2, WErr false :: obs2) ->
    Forall no_chdir (combine ops2 obs2) ->
    work_path dirs w2 (path_of (leads (k_cwd w1) p)).
Proof. exact work_path_last. Qed.
Print Assumptions C147_work_path_last.
Theorem C147_work_path_refuted :
  exists dirs c ops w obs p q, tree dirs /\ dirs c = true /\
    run_ops (work_step dirs) (work_init c) ops = Ok (w, obs) /\
    work_path dirs w p /\ working_directory dirs w q /\ p <> q.
Proof. exact work_path_false. Qed.
Print Assumptions C147_work_path_refuted.

Example C147_ex :
  exists w, run_ops (work_step dirs2) (work_init []) [WChdir [97]; WChdir [120]; WChdir [46; 46; 47; 98]] =
    Ok (w, [WErr false; WErr true; WErr false]) /\ work_path dirs2 w [47; 98] /\ working_directory dirs2 w [47; 98].
Proof. eexists. split; [vm_compute; reflexivity|]. split; reflexivity. Qed.

(** C148 (partial): RelateWorkPath(p) leads from the working directory to the same place as p, if p is absolute and the
    working directory is changed by fs.Chdir only.
    Missing: relative paths, for which the result is always "."; see the counterexample. *)
Theorem C148_relate_work_path_partial :
  forall dirs c ops w obs p t, tree dirs -> dirs c = true -> Forall own_chdir ops ->
    run_ops (work_step dirs) (work_init c) ops = Ok (w, obs) -> p = 47 :: t ->
    exists r, work_step dirs w (WRelate p) = Ok (w, WPath r) /\ leads (k_cwd w) r = leads (k_cwd w) p.
Proof. exact relate_work_leads. Qed.
Print Assumptions C148_relate_work_path_partial.
Theorem C148_relative_is_lost :
  forall dirs c ops w obs p, tree dirs -> dirs c = true ->
    run_ops (work_step dirs) (work_init c) ops = Ok (w, obs) -> (forall t, p <> 47 :: t) ->
    work_step dirs w (WRelate p) = Ok (w, WPath [46]).
Proof. exact relate_work_rel. Qed.
Print Assumptions C148_relative_is_lost.
Theorem C148_relate_work_path_refuted :
  exists dirs c ops w obs p r, tree dirs /\ dirs c = true /\ Forall own_chdir ops /\
    run_ops (work_step dirs) (work_init c) ops = Ok (w, obs) /\
    work_step dirs w (WRelate p) = Ok (w, WPath r) /\ leads (k_cwd w) r <> leads (k_cwd w) p.
Proof. exact relate_work_false. Qed.
Print Assumptions C148_relate_work_path_refuted.

(** In /a: "/b/x" is "../b/x", "/a/x" is "x", "x" is ".". *)
Example C148_ex :
  run_ops (work_step dirs2) (work_init []) [WChdir [97]; WRelate [47; 98; 47; 120]; WRelate [47; 97; 47; 47; 120]; WRelate [120]] =
  Ok (Work [[97]] [47; 97], [WErr false; WPath [46; 46; 47; 98; 47; 120]; WPath [120]; WPath [46]]).
Proof. vm_compute. reflexivity. Qed.

(** C149 (partial): GoPath() is the directory src in the first directory of GOPATH, if GOPATH has one entry and
    that contains no semicolon.
    Missing: several entries, which a Unix system separates by colons; see the counterexample. *)
Theorem C149_go_path_partial :
  forall e from, ~ In 58 e -> ~ In 59 e -> e <> [] -> leads from (go_path e) = [115; 114; 99] :: leads from e.
Proof. exact go_path_one. Qed.
Print Assumptions C149_go_path_partial.
(** Exactly: entries are separated by semicolons. *)
Theorem C149_go_path_semicolon :
  forall e r from, ~ In 59 e -> e <> [] -> (r = [] \/ exists r', r = 59 :: r') ->
    leads from (go_path (e ++ r)) = [115; 114; 99] :: leads from e.
Proof. exact go_path_first. Qed.
Print Assumptions C149_go_path_semicolon.
Theorem C149_go_path_refuted :
  exists e r from, ~ In 58 e /\ e <> [] /\ leads from (go_path (e ++ 58 :: r)) <> [115; 114; 99] :: leads from e.
Proof. exact go_path_false. Qed.
Print Assumptions C149_go_path_refuted.
(** RelateGoPath of an absolute path leads from GoPath() to the same place; below GoPath() it is the rest of the path. *)
Theorem C149_relate_go_path :
  (forall e r p t u from, ~ In 59 e -> e = 47 :: u -> (r = [] \/ exists r', r = 59 :: r') -> p = 47 :: t ->
    leads (leads from (go_path (e ++ r))) (relate_go (e ++ r) p) = leads from p) /\
  (forall cs r ds, Forall name cs -> cs <> [] -> (forall x, In x cs -> ~ In 59 x) ->
    (r = [] \/ exists r', r = 59 :: r') -> Forall name ds ->
    relate_go (abs_path cs ++ r) (abs_path (cs ++ [115; 114; 99] :: ds)) = rel_path ds).
Proof. exact relate_go_all. Qed.
Print Assumptions C149_relate_go_path.

(** GOPATH is /g/;/h: GoPath() is /g/src; the file /g/src/p/f is p/f, the file /h/f is ../../h/f. With GOPATH=/g:/h
    GoPath() is /g:/h/src. *)
Example C149_ex :
  go_path [47; 103; 47; 59; 47; 104] = [47; 103; 47; 115; 114; 99] /\
  relate_go [47; 103; 47; 59; 47; 104] [47; 103; 47; 115; 114; 99; 47; 112; 47; 102] = [112; 47; 102] /\
  relate_go [47; 103; 47; 59; 47; 104] [47; 104; 47; 102] = [46; 46; 47; 46; 46; 47; 104; 47; 102] /\
  go_path [47; 103; 58; 47; 104] = [47; 103; 58; 47; 104; 47; 115; 114; 99].
Proof. vm_compute. auto. Qed.

(** C150 (partial): when no goroutine is in fs.Chdir, WorkPath() is the working directory, if no two calls overlapped.
    Missing: calls that overlap; see the counterexample.  In every case WorkPath() is a directory that was the working
    directory at some time. *)
Theorem C150_concurrent_chdir_partial :
  forall dirs c sched, one_at_a_time dirs c sched ->
    (forall t, outside (fst (crun (ch_step dirs) (ch_init c) sched)) t) ->
    let w := ch_work (fst (crun (ch_step dirs) (ch_init c) sched)) in
    exists p, work_path dirs w p /\ working_directory dirs w p.
Proof. exact one_quiet. Qed.
Print Assumptions C150_concurrent_chdir_partial.
Theorem C150_was_working_directory :
  forall dirs c sched, exists l1 l2, sched = l1 ++ l2 /\
    k_cached (ch_work (fst (crun (ch_step dirs) (ch_init c) sched))) =
    path_of (k_cwd (ch_work (fst (crun (ch_step dirs) (ch_init c) l1)))).
Proof. exact conc_was_cwd. Qed.
Print Assumptions C150_was_working_directory.
Theorem C150_concurrent_chdir_refuted :
  exists dirs c sched p q, tree dirs /\ dirs c = true /\
    let s := fst (crun (ch_step dirs) (ch_init c) sched) in
    (forall t, outside s t) /\ work_path dirs (ch_work s) p /\ working_directory dirs (ch_work s) q /\ p <> q.
Proof. exact conc_false. Qed.
Print Assumptions C150_concurrent_chdir_refuted.

(** Two goroutines, one after the other. *)
Example C150_ex :
  let sched := [(0%nat, [97]); (0%nat, []); (0%nat, []); (0%nat, []); (1%nat, [46; 46; 47; 98]); (1%nat, []); (1%nat, []); (1%nat, [])] in
  one_at_a_time dirs2 [] sched /\
  snd (crun (ch_step dirs2) (ch_init []) sched) = [Inv 0%nat [97]; Ret 0%nat [97] false; Inv 1%nat [46; 46; 47; 98]; Ret 1%nat [46; 46; 47; 98] false] /\
  ch_work (fst (crun (ch_step dirs2) (ch_init []) sched)) = Work [[98]] [47; 98].
Proof. cbv zeta. split; [exact one_ex|vm_compute; auto]. Qed.
