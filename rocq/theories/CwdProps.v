(** Properties of Chdir, WorkPath and RelateWorkPath in a file system with links. *)
From Coq Require Import ZArith List Bool.
From Verif Require Import GoBase PathSpec LinkSpec WorkSpec CwdSpec CwdProofs.
From Verif Require Import PathModel WorkModel CwdModel.
Import ListNotations.
Open Scope Z_scope.

(** ** C238: WorkPath leads to the working directory, also through links *)
(** A program that is started in a directory below the root never panics by these calls. *)
Theorem C238_never_panics o c cs ops : sound (o_fs o) -> proper o -> lies (o_fs o) cs c ->
  exists w0 w obs, lwork_init o c = Ok w0 /\ run_ops (lwork_step o) w0 ops = Ok (w, obs).
Proof. exact (never_panics o c cs ops). Qed.
Print Assumptions C238_never_panics.

(** WorkPath() is absolute and leads to the working directory, if only fs.Chdir has changed that. *)
Theorem C238_work_path_leads o c cs ops w0 w obs : sound (o_fs o) -> proper o -> lies (o_fs o) cs c -> lwork_init o c = Ok w0 -> Forall own_chdir ops ->
  run_ops (lwork_step o) w0 ops = Ok (w, obs) ->
  exists t, lwork_step o w WWork = Ok (w, WPath (47 :: t)) /\ forall d, stat (o_lim o) (o_fs o) d (47 :: t) = Found (lk_cwd w).
Proof. exact (work_leads o c cs ops w0 w obs). Qed.
Print Assumptions C238_work_path_leads.

(** So it is again after a successful fs.Chdir, whatever os.Chdir has done before. *)
Theorem C238_work_path_leads_again o c cs ops1 w0 w1 obs1 p ops2 w2 obs2 : sound (o_fs o) -> proper o -> lies (o_fs o) cs c -> lwork_init o c = Ok w0 ->
  run_ops (lwork_step o) w0 ops1 = Ok (w1, obs1) -> run_ops (lwork_step o) w1 (WChdir p :: ops2) = Ok (w2, WErr false :: obs2) -> Forall own_chdir ops2 ->
  exists t, lwork_step o w2 WWork = Ok (w2, WPath (47 :: t)) /\ forall d, stat (o_lim o) (o_fs o) d (47 :: t) = Found (lk_cwd w2).
Proof. exact (work_leads_again o c cs ops1 w0 w1 obs1 p ops2 w2 obs2). Qed.
Print Assumptions C238_work_path_leads_again.

(** Started in "/a/b" with PWD "/l", a link to it. *)
Example C238_ex : sound (o_fs (ex_outer [47; 108])) /\ proper (ex_outer [47; 108]) /\ lies (o_fs (ex_outer [47; 108])) [[97]; [98]] 2 /\
  lwork_init (ex_outer [47; 108]) 2 = Ok (LWork 2 [47; 108]) /\
  run_ops (lwork_step (ex_outer [47; 108])) (LWork 2 [47; 108]) [WChdir [99; 47]; WWork; WOsChdir [46; 46; 47; 46; 46]; WWork; WGetwd; WChdir [47; 108; 47; 46]; WWork; WChdir [120]] =
  Ok (LWork 2 [47; 108], [WErr false; WPath [47; 97; 47; 98; 47; 99]; WErr false; WPath [47; 97; 47; 98; 47; 99]; WPath [47; 97]; WErr false; WPath [47; 108]; WErr true]).
Proof. exact cwd_ex. Qed.

(** ** C239: RelateWorkPath leads to the same file, also through links *)
(** The full statement, for every WorkPath(), is false: see [C239_relate_work_path_links_refuted]. Here WorkPath() has no link. What the result leads
    to, or the error, is what the cleaned path leads to. *)
Theorem C239_relate_work_path_links_partial o c cs ops w0 w obs p q t : sound (o_fs o) -> proper o -> lies (o_fs o) cs c -> lwork_init o c = Ok w0 -> Forall own_chdir ops ->
  run_ops (lwork_step o) w0 ops = Ok (w, obs) -> lwork_step o w WWork = Ok (w, WPath p) -> stat 0 (o_fs o) 0 p = Found (lk_cwd w) -> q = 47 :: t ->
  exists r, lwork_step o w (WRelate q) = Ok (w, WPath r) /\ forall lim, stat lim (o_fs o) (lk_cwd w) r = stat lim (o_fs o) (lk_cwd w) (file_path q).
Proof. exact (relate_links o c cs ops w0 w obs p q t). Qed.
Print Assumptions C239_relate_work_path_links_partial.

(** The result leads to the file that the text names, if no link is met before the last step upwards in it. *)
Theorem C239_relate_work_path_file_partial o c cs ops w0 w obs p q t j : sound (o_fs o) -> proper o -> lies (o_fs o) cs c -> lwork_init o c = Ok w0 -> Forall own_chdir ops ->
  run_ops (lwork_step o) w0 ops = Ok (w, obs) -> lwork_step o w WWork = Ok (w, WPath p) -> stat 0 (o_fs o) 0 p = Found (lk_cwd w) -> q = 47 :: t ->
  straight (o_fs o) 0 (cut [] q) -> stat (o_lim o) (o_fs o) (lk_cwd w) q = Found j ->
  exists r, lwork_step o w (WRelate q) = Ok (w, WPath r) /\ stat (o_lim o) (o_fs o) (lk_cwd w) r = Found j.
Proof. exact (relate_links_same o c cs ops w0 w obs p q t j). Qed.
Print Assumptions C239_relate_work_path_file_partial.

(** WorkPath() has no link where PWD does not lead to the working directory. *)
Theorem C239_relate_elsewhere_partial o c cs ops w0 w obs q t : sound (o_fs o) -> proper o -> lies (o_fs o) cs c -> lwork_init o c = Ok w0 -> Forall own_chdir ops ->
  run_ops (lwork_step o) w0 ops = Ok (w, obs) -> stat (o_lim o) (o_fs o) 0 (o_pwd o) <> Found (lk_cwd w) -> q = 47 :: t ->
  exists r, lwork_step o w (WRelate q) = Ok (w, WPath r) /\ forall lim, stat lim (o_fs o) (lk_cwd w) r = stat lim (o_fs o) (lk_cwd w) (file_path q).
Proof. exact (relate_elsewhere o c cs ops w0 w obs q t). Qed.
Print Assumptions C239_relate_elsewhere_partial.

(** Started in "/a/b" with PWD "/l", a link to it: for "/x" it gives "../x", which is "/a/x". *)
Theorem C239_relate_work_path_links_refuted : exists o c cs w q r i j, sound (o_fs o) /\ proper o /\ lies (o_fs o) cs c /\ lwork_init o c = Ok w /\
  lwork_step o w (WRelate (47 :: q)) = Ok (w, WPath r) /\ stat (o_lim o) (o_fs o) c (47 :: q) = Found i /\ stat (o_lim o) (o_fs o) c r = Found j /\ i <> j.
Proof. exact relate_wrong. Qed.
Print Assumptions C239_relate_work_path_links_refuted.

(** From "/a/b/c" to "/x", and through the link "/l". *)
Example C239_ex : run_ops (lwork_step (ex_outer [])) (LWork 2 [47; 97; 47; 98]) [WChdir [99]; WRelate [47; 120]; WRelate [47; 108; 47; 99]] =
  Ok (LWork 3 [47; 97; 47; 98; 47; 99], [WErr false; WPath [46; 46; 47; 46; 46; 47; 46; 46; 47; 120]; WPath [46; 46; 47; 46; 46; 47; 46; 46; 47; 108; 47; 99]]) /\
  stat 40 ex_cwd_fs 3 [46; 46; 47; 46; 46; 47; 46; 46; 47; 120] = Found 6 /\ stat 40 ex_cwd_fs 3 [46; 46; 47; 46; 46; 47; 46; 46; 47; 108; 47; 99] = Found 3.
Proof. exact relate_ex. Qed.

(** ** C240: Chdir goes where os.Chdir goes, also through links *)
(** The full statement, without [straight], is false: see [C240_chdir_links_refuted]. *)
Theorem C240_chdir_links_partial o cs w p d : sound (o_fs o) -> proper o -> lies (o_fs o) cs (lk_cwd w) -> straight (o_fs o) (begins (lk_cwd w) p) (cut [] p) ->
  lwork_step o w (WOsChdir p) = Ok (d, WErr false) -> exists q, lwork_step o w (WChdir p) = Ok (LWork (lk_cwd d) q, WErr false).
Proof. exact (chdir_same o cs w p d). Qed.
Print Assumptions C240_chdir_links_partial.

(** "/l/..", where "/l" leads to "a/b": os.Chdir goes to "/a", fs.Chdir to the root. *)
Theorem C240_chdir_links_refuted : exists o cs w p d e q, sound (o_fs o) /\ proper o /\ lies (o_fs o) cs (lk_cwd w) /\
  lwork_step o w (WOsChdir p) = Ok (d, WErr false) /\ lwork_step o w (WChdir p) = Ok (LWork e q, WErr false) /\ e <> lk_cwd d.
Proof. exact chdir_wrong. Qed.
Print Assumptions C240_chdir_links_refuted.

(** "/a/b/..//b" *)
Example C240_ex : straight ex_cwd_fs 0 (cut [] [47; 97; 47; 98; 47; 46; 46; 47; 47; 98]) /\
  lwork_step (ex_outer []) (LWork 3 [47]) (WOsChdir [47; 97; 47; 98; 47; 46; 46; 47; 47; 98]) = Ok (LWork 2 [47], WErr false) /\
  lwork_step (ex_outer []) (LWork 3 [47]) (WChdir [47; 97; 47; 98; 47; 46; 46; 47; 47; 98]) = Ok (LWork 2 [47; 97; 47; 98], WErr false).
Proof. exact chdir_ex. Qed.
