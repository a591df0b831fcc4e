(** C234: RemoveAll in a file system with links. *)
From Coq Require Import ZArith List Bool.
From Verif Require Import GoBase PathSpec LinkSpec LoopSpec SubsSpec MvdirSpec RmallSpec RmallProofs RmallMore.
From Verif Require Import PathModel LinkModel RmallModel.
Import ListNotations.
Open Scope Z_scope.

(** C234: RemoveAll of a directory returns without error; afterwards the path names nothing, every directory that was inside is
    empty, no file and no link has changed (in particular what links inside the directory point to), and every path that does not pass
    through the directory leads where it led. Missing: the path passes through the directory itself (refuted below). *)
Theorem C234_remove_all_partial : forall lim fs cwd p H i up es fuel, sound fs -> distinct fs -> bounded fs H ->
  lstat lim fs cwd p = Found i -> fs i = Some (NDir up es) -> place_of lim (gone fs i) cwd p <> None -> ~ under fs i (begins cwd p) -> (H + 2 <= fuel)%nat ->
  exists fs', remove_all fuel lim cwd fs p = Ok (true, fs') /\ sound fs' /\ lstat lim fs' cwd p = Missing /\
  (forall cs a u e, inside fs i cs a -> fs a = Some (NDir u e) -> fs' a = Some (NDir u [])) /\
  (forall a, (forall u e, fs a <> Some (NDir u e)) -> fs' a = fs a) /\
  (forall k s j, ~ under fs i (begins cwd s) -> stat k (gone fs i) cwd s = Found j -> stat k fs' cwd s = Found j) /\
  (forall k s j, ~ under fs i (begins cwd s) -> lstat k (gone fs i) cwd s = Found j -> lstat k fs' cwd s = Found j).
Proof. exact remove_dir. Qed.
(** RemoveAll of a file or of a link is Remove, of which C222 speaks: a link is removed, not what it leads to. *)
Theorem C234_file : forall lim fs cwd p i k fuel, sound fs -> lstat lim fs cwd p = Found i -> fs i = Some k -> (forall u e, k <> NDir u e) ->
  place_of lim fs cwd p <> None -> (0 < fuel)%nat ->
  exists fs', remove_path lim fs cwd p = Some fs' /\ remove_all fuel lim cwd fs p = Ok (true, fs').
Proof. exact remove_file. Qed.
(** RemoveAll of a path that names nothing does nothing, and that is no error. *)
Theorem C234_missing : forall lim fs cwd p fuel, sound fs -> lstat lim fs cwd p = Missing \/ lstat lim fs cwd p = NotDir -> (0 < fuel)%nat ->
  remove_all fuel lim cwd fs p = Ok (true, fs).
Proof. exact remove_missing. Qed.
(** A path that meets too many links is an error, and nothing is removed. *)
Theorem C234_loop : forall lim cwd fuel fs p, lstat lim fs cwd p = Loop -> sound fs -> (0 < fuel)%nat -> remove_all fuel lim cwd fs p = Ok (false, fs).
Proof. exact all_loop. Qed.
(** RemoveAll returns for every path, also for one that passes through the directory. *)
Theorem C234_returns : forall lim cwd H fuel fs p, sound fs -> bounded fs H -> (H + 2 <= fuel)%nat -> exists b fs', remove_all fuel lim cwd fs p = Ok (b, fs').
Proof. exact all_returns. Qed.
(** For every path: if RemoveAll returns no error, the path names nothing afterwards. *)
Theorem C234_success_gone : forall lim cwd fuel fs p fs', remove_all fuel lim cwd fs p = Ok (true, fs') ->
  lstat lim fs' cwd p = Missing \/ lstat lim fs' cwd p = NotDir.
Proof. exact all_gone. Qed.
(** For every path, with or without an error: no file and no link has changed, no directory has got new entries, and no directory is lost with
    something in it. *)
Theorem C234_only_removes : forall lim cwd fuel fs p b fs', sound fs -> remove_all fuel lim cwd fs p = Ok (b, fs') -> pruned fs fs' /\ sound fs'.
Proof. exact (fun lim cwd fuel fs p b fs' Sn E => conj (all_pruned lim cwd fuel fs p b fs' Sn E) (pruned_sound fs fs' (all_pruned lim cwd fuel fs p b fs' Sn E) Sn)). Qed.
(** "/a/l/a", where "/a/l" is a link to "/": RemoveAll returns without error, and the directory keeps what it has in "b". *)
Theorem C234_remove_all_refuted : exists fs cwd p i up es cs j fs', sound fs /\ distinct fs /\ bounded fs 2 /\ p = file_path p /\
  lstat 40 fs cwd p = Found i /\ fs i = Some (NDir up es) /\ inside fs i cs j /\
  remove_all 9 40 cwd fs p = Ok (true, fs') /\ fs' i <> Some (NDir up []) /\ inside fs' i cs j.
Proof. exact remove_dir_false. Qed.
Print Assumptions C234_remove_all_partial.
Print Assumptions C234_file.
Print Assumptions C234_missing.
Print Assumptions C234_loop.
Print Assumptions C234_returns.
Print Assumptions C234_success_gone.
Print Assumptions C234_only_removes.
Print Assumptions C234_remove_all_refuted.
(** RemoveAll of "/a", which has a directory, a file in it and a link to "/": the link goes, "/" stays, and so does "/c". *)
Example C234_ex : exists fs', remove_all 4 40 0 ex_mv [47; 97] = Ok (true, fs') /\ lstat 40 ex_mv 0 [47; 97; 47; 98; 47; 102] = Found 3%nat /\
  lstat 40 fs' 0 [47; 97] = Missing /\ fs' 1%nat = Some (NDir 0 []) /\ stat 40 fs' 0 [47; 99] = Found 4%nat /\ place_of 40 (gone ex_mv 1) 0 [47; 97] <> None /\
  remove_all 1 40 0 ex_mv [47; 122] = Ok (true, ex_mv) /\
  (exists f2, remove_all 1 40 0 ex_mv [47; 97; 47; 108] = Ok (true, f2) /\ lstat 40 f2 0 [47; 97; 47; 108] = Missing /\ lstat 40 f2 0 [47; 97; 47; 98] = Found 2%nat).
Proof. eexists. split; [reflexivity|]. repeat (split; [first [vm_compute; reflexivity|vm_compute; discriminate]|]). eexists. split; [reflexivity|]. split; vm_compute; reflexivity. Qed.
(** "/c" as a link to itself. *)
Example C234_loop_ex : let fs := put ex_mv 4 (NLink [47; 99]) in
  lstat 40 fs 0 [47; 99; 47; 120] = Loop /\ remove_all 9 40 0 fs [47; 99; 47; 120] = Ok (false, fs) /\ exists fs', remove_all 9 40 0 fs [47; 99] = Ok (true, fs') /\ lstat 40 fs' 0 [47; 99] = Missing.
Proof. repeat (split; [vm_compute; reflexivity|]). eexists. split; [reflexivity|vm_compute; reflexivity]. Qed.
