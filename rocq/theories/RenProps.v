(** C230: Rename in a file system with links. *)
From Coq Require Import ZArith List Bool.
From Verif Require Import GoBase PathSpec LinkSpec RenSpec RenProofs.
From Verif Require Import PathModel LinkModel RenModel.
Import ListNotations.
Open Scope Z_scope.

(** C230: Rename of a file to a name, in a directory that there is, that nothing or a file has, succeeds: the path returned
    then names the file, with its bytes, and the old path nothing, unless they were two names of it before; every path to
    anything else leads where it led, those to a file that had the new name being an exception. Missing: links (refuted
    below), and directories. *)
Theorem C230_rename_partial : forall lim fs cwd me newname n r i b, sound fs -> rename_path lim fs cwd me newname = (n, r) ->
  lstat lim fs cwd me = Found i -> fs i = Some (NFile b) -> free_or_file lim fs cwd n -> place_of lim fs cwd n <> None ->
  exists fs', r = Some fs' /\ sound fs' /\ lstat lim fs' cwd n = Found i /\ fs' i = Some (NFile b) /\
  ((lstat lim fs cwd n = Found i /\ fs' = fs) \/ (lstat lim fs cwd n <> Found i /\ lstat lim fs' cwd me = Missing)) /\
  (forall k s j, (forall b', fs j <> Some (NFile b')) -> stat k fs cwd s = Found j -> stat k fs' cwd s = Found j) /\
  (forall k s j, lstat k fs cwd s = Found j -> j <> i -> lstat lim fs cwd n <> Found j -> lstat k fs' cwd s = Found j).
Proof. exact rename_all. Qed.
(** C230: a link renamed into the directory it leads to: Rename succeeds and returns a path that names nothing. *)
Theorem C230_rename_refuted : exists fs cwd me newname n fs' i, sound fs /\ me = file_path me /\ lstat 40 fs cwd me = Found i /\
  rename_path 40 fs cwd me newname = (n, Some fs') /\ lstat 40 fs cwd n = Missing /\ place_of 40 fs cwd n <> None /\ lstat 40 fs' cwd n = Missing /\ lstat 40 fs' cwd me = Missing.
Proof. exact rename_false. Qed.
Print Assumptions C230_rename_partial.
Print Assumptions C230_rename_refuted.
(** Rename("../g") of "/l/f", that is "/a/b/f", gives "/g". *)
Example C230_ex : exists fs', rename_path 40 ex_fs 0 [47; 108; 47; 102] [46; 46; 47; 103] = ([47; 103], Some fs') /\
  lstat 40 fs' 0 [47; 103] = Found 3%nat /\ lstat 40 fs' 0 [47; 97; 47; 98; 47; 102] = Missing /\ fs' 3%nat = Some (NFile [7]) /\
  free_or_file 40 ex_fs 0 [47; 103] /\ place_of 40 ex_fs 0 [47; 103] <> None.
Proof. eexists. split; [vm_compute; reflexivity|]. split; [vm_compute; reflexivity|]. split; [vm_compute; reflexivity|]. split; [reflexivity|]. split; [left; vm_compute; reflexivity|vm_compute; discriminate]. Qed.

(** C96: the paths that Rename, Link and Symlink return lead, by their text, from the directory of the file along the new name,
    if that is relative. Missing: absolute new names (see C96_new_name_refuted). *)
Theorem C96_methods_partial : forall lim fs cwd i me dest from, (forall t, dest <> 47 :: t) ->
  leads from (fst (rename_path lim fs cwd me dest)) = leads (leads from (dir_of me)) dest /\
  leads from (fst (link_path lim fs cwd me dest)) = leads (leads from (dir_of me)) dest /\
  leads from (fst (symlink_path lim fs cwd i me dest)) = leads (leads from (dir_of me)) dest.
Proof. exact new_names. Qed.
Print Assumptions C96_methods_partial.
Example C96_methods_ex : leads [] (fst (link_path 40 ex_fs 0 [47; 97; 47; 98; 47; 102] [46; 46; 47; 103])) = [[103]; [97]].
Proof. reflexivity. Qed.
