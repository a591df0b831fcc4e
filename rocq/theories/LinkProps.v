(** C220-C222: paths in a file system with links. *)
From Coq Require Import ZArith List Bool.
From Verif Require Import PathSpec LinkSpec LinkMore.
From Verif Require LinkProofs.
From Verif Require Import PathModel LinkModel.
Import ListNotations.
Open Scope Z_scope.

(** C220: in every file system, the object that FilePath makes of a text names the file that the text names (for a process
    with any working directory), if no symbolic link is met before the last step upwards. *)
Theorem C220_same_file_partial : forall lim fs cwd s i, sound fs ->
  stat lim fs cwd s = Found i -> straight fs (begins cwd s) (cut [] s) -> stat_path lim fs cwd (file_path s) = Found i.
Proof. exact LinkProofs.same_file. Qed.
(** Otherwise it can name another file, or a file where the text names none. *)
Theorem C220_same_file_refuted : exists fs s t, sound fs /\
  stat 40 fs 0 s = Found 1 /\ stat_path 40 fs 0 (file_path s) = Found 0 /\
  stat 40 fs 0 t = Missing /\ stat_path 40 fs 0 (file_path t) = Found 1.
Proof. exact (ex_intro _ ex_fs (ex_intro _ [47; 108; 47; 46; 46] (ex_intro _ [120; 47; 46; 46; 47; 97] same_file_false))). Qed.
Print Assumptions C220_same_file_partial.
Print Assumptions C220_same_file_refuted.
(** "a//b/./../b/f" names file 3, without links. *)
Example C220_ex : sound ex_fs /\ stat 40 ex_fs 0 [97; 47; 47; 98; 47; 46; 47; 46; 46; 47; 98; 47; 102] = Found 3 /\
  straight ex_fs 0 (cut [] [97; 47; 47; 98; 47; 46; 47; 46; 46; 47; 98; 47; 102]) /\
  file_path [97; 47; 47; 98; 47; 46; 47; 46; 46; 47; 98; 47; 102] = [97; 47; 98; 47; 102] /\
  stat_path 40 ex_fs 0 [97; 47; 98; 47; 102] = Found 3.
Proof.
  split; [exact ex_sound|]. split; [vm_compute; reflexivity|]. split; [|split; vm_compute; reflexivity].
  do 5 (eapply straight_step; [reflexivity|cbn; congruence|]). apply straight_down. cbn. intros H. repeat destruct H as [H|H]; try discriminate; contradiction.
Qed.

(** C221: a successful Symlink makes a link with the text of the path, and nothing that existed changes its place; the
    returned path leads where the text leads from the directory of the link, unless there are too many links on the way. *)
Theorem C221_symlink_exact : forall lim fs cwd i me newname n fs', sound fs -> fs i = None ->
  symlink_path lim fs cwd i me newname = (n, Some fs') ->
  sound fs' /\ lstat lim fs' cwd n = Found i /\ fs' i = Some (NLink me) /\
  (forall k s j, stat k fs cwd s = Found j -> stat k fs' cwd s = Found j) /\
  (exists d up es x, place_of lim fs cwd n = Some (d, up, es, x) /\
     forall j, stat lim fs d me = Found j ->
       stat (lim + S lim) fs' cwd n = Found j /\ (stat lim fs' cwd n = Found j \/ stat lim fs' cwd n = Loop)).
Proof. exact symlink_all. Qed.
(** So the returned path leads to the object if the path is absolute, or if both are names in the working directory. *)
Theorem C221_symlink_partial : forall lim fs cwd i me newname n fs' j, sound fs -> fs i = None ->
  symlink_path lim fs cwd i me newname = (n, Some fs') -> stat lim fs cwd me = Found j ->
  (exists t, me = 47 :: t) \/ (name me /\ name newname) ->
  stat (lim + S lim) fs' cwd n = Found j /\ (stat lim fs' cwd n = Found j \/ stat lim fs' cwd n = Loop).
Proof. exact symlink_good. Qed.
(** But not for a relative path with a directory. *)
Theorem C221_symlink_refuted : exists fs cwd i me newname n fs', sound fs /\ fs i = None /\ me = file_path me /\
  symlink_path 40 fs cwd i me newname = (n, Some fs') /\ stat 40 fs cwd me = Found 2 /\ stat 40 fs' cwd n = Missing.
Proof. exact symlink_false. Qed.
Print Assumptions C221_symlink_exact.
Print Assumptions C221_symlink_partial.
Print Assumptions C221_symlink_refuted.
(** Symlink("m") of "/a/b": "/a/m" leads to directory 2, and "/a/m/f" to file 3. *)
Example C221_ex : exists fs', symlink_path 40 ex_fs 2 5 [47; 97; 47; 98] [109] = ([47; 97; 47; 109], Some fs') /\
  stat 40 fs' 2 [47; 97; 47; 109] = Found 2 /\ stat 40 fs' 2 [47; 97; 47; 109; 47; 102] = Found 3 /\ lstat 40 fs' 2 [47; 97; 47; 109] = Found 5.
Proof. eexists. split; [reflexivity|]. repeat split; vm_compute; reflexivity. Qed.

(** C222: after a successful Link, both paths name the same inode, nothing that existed changes its place; if it is a file,
    Remove of the old path succeeds and leaves the file with its bytes under the new path. *)
Theorem C222_link : forall lim fs cwd me linkname n fs', sound fs ->
  link_path lim fs cwd me linkname = (n, Some fs') ->
  sound fs' /\
  (forall k s j, stat k fs cwd s = Found j -> stat k fs' cwd s = Found j) /\
  exists i, lstat lim fs cwd me = Found i /\ lstat_path lim fs' cwd me = Found i /\ lstat_path lim fs' cwd n = Found i /\ fs' i = fs i /\
    forall b, fs i = Some (NFile b) -> exists fs'', remove_path lim fs' cwd me = Some fs'' /\
      lstat_path lim fs'' cwd n = Found i /\ fs'' i = Some (NFile b) /\ lstat_path lim fs'' cwd me = Missing.
Proof. exact link_all. Qed.
Print Assumptions C222_link.
(** Link("g") of "/a/b/f", then Remove of "/a/b/f". *)
Example C222_ex : exists fs' fs'', link_path 40 ex_fs 0 [47; 97; 47; 98; 47; 102] [103] = ([47; 97; 47; 98; 47; 103], Some fs') /\
  lstat_path 40 fs' 0 [47; 97; 47; 98; 47; 103] = Found 3 /\ remove_path 40 fs' 0 [47; 97; 47; 98; 47; 102] = Some fs'' /\
  lstat_path 40 fs'' 0 [108; 47; 103] = Found 3 /\ lstat_path 40 fs'' 0 [108; 47; 102] = Missing /\ fs'' 3%nat = Some (NFile [7]).
Proof. do 2 eexists. split; [reflexivity|]. split; [vm_compute; reflexivity|]. split; [reflexivity|]. repeat split; vm_compute; reflexivity. Qed.
