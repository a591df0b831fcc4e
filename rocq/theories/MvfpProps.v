(** C236: a directory that Rename has moved keeps its Fingerprint. *)
From Coq Require Import ZArith List Bool.
From Verif Require Import GoBase PathSpec FsSpec HashProofs LinkSpec LoopSpec SubsSpec RenSpec MvdirSpec MvfpSpec MvfpProofs.
From Verif Require Import PathModel FsModel LoopModel RenModel MvdirModel.
Import ListNotations.
Open Scope Z_scope.

(** C236: Fingerprint and Hash (for every hash function) of a directory without links are, after Rename, those of the returned path: no error, the same
    text and the same size. Missing: directories with symbolic links (refuted below), and the paths that C233 excludes. *)
Theorem C236_fingerprint_moved_partial : forall text srt h lim fs cwd s newname n r i up es H, sorts srt -> sound fs -> bounded fs H -> (H <= h)%nat ->
  rename_any h lim fs cwd (file_path s) newname = (n, r) ->
  lstat lim fs cwd (file_path s) = Found i -> fs i = Some (NDir up es) -> lstat lim fs cwd n = Missing ->
  place_of lim (gone fs i) cwd (file_path s) <> None -> place_of lim (gone fs i) cwd n <> None -> ~ under fs i (begins cwd n) ->
  linkless fs i ->
  exists fs', r = Some fs' /\ exists fuel0, forall fuel, (fuel0 <= fuel)%nat -> exists a b,
    hash_links text srt fuel lim fs cwd (file_path s) = Ok (Some a) /\ hash_links text srt fuel lim fs' cwd n = Ok (Some b) /\
    fh_hash (hval a) = fh_hash (hval b) /\ fh_size (hval a) = fh_size (hval b) /\ fh_isdir (hval a) = fh_isdir (hval b).
Proof. exact fingerprint_moved. Qed.
(** "/a" holds the link "l" to "../c". Rename("d/z") succeeds, and the size in the fingerprint changes from that of "/c" to that
    of "/d/c". *)
Theorem C236_fingerprint_moved_refuted : forall text, exists srt fs cwd me newname n fs' a b, sorts srt /\ sound fs /\ bounded fs 1 /\ me = file_path me /\
  lstat 40 fs cwd n = Missing /\ rename_any 1 40 fs cwd me newname = (n, Some fs') /\
  hash_links text srt 10 40 fs cwd me = Ok (Some a) /\ hash_links text srt 10 40 fs' cwd n = Ok (Some b) /\ fh_size (hval a) <> fh_size (hval b).
Proof. exact fingerprint_moved_false. Qed.
Print Assumptions C236_fingerprint_moved_partial.
Print Assumptions C236_fingerprint_moved_refuted.
(** Rename("../c/z") of "/a/b" in [ex_mv]: the fingerprint before and after. *)
Example C236_ex : linkless ex_mv 2 /\ exists fs', rename_any 2 40 ex_mv 0 (file_path [47; 97; 47; 98]) [46; 46; 47; 99; 47; 122] = ([47; 99; 47; 122], Some fs') /\
  lstat 40 ex_mv 0 [47; 99; 47; 122] = Missing /\ place_of 40 (gone ex_mv 2) 0 [47; 97; 47; 98] <> None /\ place_of 40 (gone ex_mv 2) 0 [47; 99; 47; 122] <> None /\
  exists a b, hash_links (fun n d => n :: d) isort 10 40 ex_mv 0 (file_path [47; 97; 47; 98]) = Ok (Some a) /\
    hash_links (fun n d => n :: d) isort 10 40 fs' 0 [47; 99; 47; 122] = Ok (Some b) /\ fh_hash (hval a) = [1; 1; 7] /\ fh_hash (hval b) = [1; 1; 7].
Proof.
  split; [exact ex_mv_linkless|]. eexists. split; [vm_compute; reflexivity|]. split; [vm_compute; reflexivity|]. split; [vm_compute; discriminate|]. split; [vm_compute; discriminate|].
  do 2 eexists. split; [vm_compute; reflexivity|]. split; [vm_compute; reflexivity|]. split; vm_compute; reflexivity.
Qed.
