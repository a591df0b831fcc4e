(** C233: Rename of a directory in a file system with links. *)
From Coq Require Import ZArith List Bool.
From Verif Require Import GoBase PathSpec LinkSpec LoopSpec SubsSpec RenSpec MvdirSpec MvdirProofs.
From Verif Require Import PathModel RenModel MvdirModel.
Import ListNotations.
Open Scope Z_scope.

(** C233: Rename of a directory to a name that nothing has succeeds: the returned path followed by any names leads to what the
    directory has there, nothing inside has changed, the old path names nothing, and every path that does not pass through the
    directory leads where it led. Missing: the old or the new path passes through the directory itself (refuted below). *)
Theorem C233_rename_dir_partial : forall h lim fs cwd me newname n r i up es H, sound fs -> bounded fs H -> (H <= h)%nat ->
  rename_any h lim fs cwd me newname = (n, r) ->
  lstat lim fs cwd me = Found i -> fs i = Some (NDir up es) -> lstat lim fs cwd n = Missing ->
  place_of lim (gone fs i) cwd me <> None -> place_of lim (gone fs i) cwd n <> None -> ~ under fs i (begins cwd n) ->
  exists fs', r = Some fs' /\ sound fs' /\ lstat lim fs' cwd me = Missing /\
  (forall cs j, inside fs i cs j <-> inside fs' i cs j) /\
  (forall cs j, inside fs i cs j -> lstat lim fs' cwd (below n cs) = Found j) /\
  (forall j, (forall u e, fs j <> Some (NDir u e)) -> fs' j = fs j) /\
  (forall k s j, stat k (gone fs i) cwd s = Found j -> stat k fs' cwd s = Found j) /\
  (forall k s j, lstat k (gone fs i) cwd s = Found j -> lstat k fs' cwd s = Found j) /\
  (forall cs j u e, inside fs i cs j -> fs j = Some (NDir u e) -> exists u', fs' j = Some (NDir u' e)) /\
  (exists H', bounded fs' H').
Proof. exact rename_dir_all. Qed.
(** A directory is not renamed into itself, nor to a name that something has; Rename changes nothing then. *)
Theorem C233_refused : forall h lim fs cwd me newname n r i up es H, sound fs -> bounded fs H -> (H <= h)%nat -> rename_any h lim fs cwd me newname = (n, r) ->
  lstat lim fs cwd me = Found i -> fs i = Some (NDir up es) ->
  (exists cs d u e x, inside fs i cs d /\ place_of lim fs cwd n = Some (d, u, e, x)) \/ lstat lim fs cwd n <> Missing -> r = None.
Proof. exact rename_dir_none. Qed.
(** What C230 says of files and links holds here. *)
Theorem C233_files : forall h lim fs cwd me newname i, lstat lim fs cwd me = Found i -> (forall u e, fs i <> Some (NDir u e)) ->
  rename_any h lim fs cwd me newname = rename_path lim fs cwd me newname.
Proof. exact rename_any_file. Qed.
(** "/a/l/a", where "/a/l" is a link to "/": Rename to "z" succeeds, and the path it returns, "/a/l/z", names nothing. *)
Theorem C233_rename_dir_refuted : exists fs cwd me newname n fs' i up es, sound fs /\ bounded fs 2 /\ me = file_path me /\ lstat 40 fs cwd me = Found i /\ fs i = Some (NDir up es) /\
  rename_any 2 40 fs cwd me newname = (n, Some fs') /\ lstat 40 fs' cwd n = Missing.
Proof. exact rename_dir_false. Qed.
Print Assumptions C233_rename_dir_partial.
Print Assumptions C233_refused.
Print Assumptions C233_files.
Print Assumptions C233_rename_dir_refuted.
(** Rename("c/z") of "/a" gives "/c/z"; Rename("a/b/z") and Rename("c") fail. *)
Example C233_ex : exists fs', rename_any 2 40 ex_mv 0 [47; 97] [99; 47; 122] = ([47; 99; 47; 122], Some fs') /\
  lstat 40 fs' 0 [47; 99; 47; 122; 47; 98; 47; 102] = Found 3%nat /\ lstat 40 fs' 0 [47; 97] = Missing /\ stat 40 fs' 0 [47; 99; 47; 122; 47; 46; 46] = Found 4%nat /\
  place_of 40 (gone ex_mv 1) 0 [47; 97] <> None /\ place_of 40 (gone ex_mv 1) 0 [47; 99; 47; 122] <> None /\
  snd (rename_any 2 40 ex_mv 0 [47; 97] [97; 47; 98; 47; 122]) = None /\ snd (rename_any 2 40 ex_mv 0 [47; 97] [99]) = None.
Proof. eexists. split; [vm_compute; reflexivity|]. repeat (split; [first [vm_compute; reflexivity|vm_compute; discriminate]|]). vm_compute; reflexivity. Qed.
