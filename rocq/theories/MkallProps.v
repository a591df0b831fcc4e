(** C235: Mkdir and MkdirAll in a file system with links. *)
From Coq Require Import ZArith List Bool.
From Verif Require Import GoBase PathSpec LinkSpec MkallSpec MkallProofs.
From Verif Require Import PathModel MkallModel.
Import ListNotations.
Open Scope Z_scope.

(** C235: MkdirAll returns. It succeeds exactly if every leading part of the path leads to a directory or names nothing (so it fails for
    a file and for a link that leads nowhere); if it fails, nothing has changed. If it succeeds, the path leads to a directory, whatever
    was found before is found now, no file and no link has changed, what was added to existing directories is new, and all that is new
    are directories that leading parts of the path lead to. [new] is any way to number new inodes. *)
Theorem C235_mkdir_all : forall new lim cwd fs s n fuel, sound fs -> is_dir fs cwd -> (forall a b, new a = new b -> a = b) -> (forall k, fs (new k) = None) ->
  (length (file_path s) < fuel)%nat ->
  exists ok n' fs', mkdir_all fuel new lim cwd n fs (file_path s) = Ok (ok, n', fs') /\
  (ok = true <-> forall q, leading q (file_path s) -> (exists d, stat lim fs cwd q = Found d /\ is_dir fs d) \/ lstat lim fs cwd q = Missing) /\
  (ok = false -> fs' = fs) /\
  (ok = true -> sound fs' /\ (exists d, stat lim fs' cwd (file_path s) = Found d /\ is_dir fs' d) /\
     (forall k t j, stat k fs cwd t = Found j -> stat k fs' cwd t = Found j) /\ (forall k t j, lstat k fs cwd t = Found j -> lstat k fs' cwd t = Found j) /\
     (forall a k, fs a = Some k -> (forall u e, k <> NDir u e) -> fs' a = Some k) /\
     (forall d up es, fs d = Some (NDir up es) -> exists es', fs' d = Some (NDir up es') /\ forall x c, find x es' = Some c -> find x es = Some c \/ fs c = None) /\
     (forall a k, fs a = None -> fs' a = Some k -> exists q, leading q (file_path s) /\ stat lim fs' cwd q = Found a /\ is_dir fs' a)).
Proof. exact mkdir_all_works. Qed.
(** Mkdir in an existing directory fails exactly if something has the name, and then changes nothing; otherwise the path leads to a
    new empty directory, and the rest is as it was. *)
Theorem C235_mkdir : forall lim fs cwd i p, sound fs -> fs i = None -> place_of lim fs cwd p <> None ->
  (mkdir_path lim fs cwd i p = None <-> lstat lim fs cwd p <> Missing) /\
  forall fs', mkdir_path lim fs cwd i p = Some fs' -> sound fs' /\ stat lim fs' cwd p = Found i /\ lstat lim fs' cwd p = Found i /\ (exists up, fs' i = Some (NDir up [])) /\
    (forall k t j, stat k fs cwd t = Found j -> stat k fs' cwd t = Found j) /\ (forall k t j, lstat k fs cwd t = Found j -> lstat k fs' cwd t = Found j) /\
    (forall a, a <> i -> (forall u e, fs a <> Some (NDir u e)) -> fs' a = fs a).
Proof. exact mkdir_one. Qed.
Print Assumptions C235_mkdir_all.
Print Assumptions C235_mkdir.
(** "/l/x/y", where "/l" is a link to "a/b": the directories 5 and 6 are made in "/a/b". "/a/b/f/x" fails, because "f" is a file. *)
Example C235_ex : exists fs', mkdir_all 9 (fun k => (k + 5)%nat) 40 0 0 ex_fs (file_path [47; 108; 47; 120; 47; 121]) = Ok (true, 2%nat, fs') /\
  stat 40 fs' 0 [47; 97; 47; 98; 47; 120; 47; 121] = Found 6%nat /\ fs' 5%nat = Some (NDir 2 [([121], 6%nat)]) /\ stat 40 fs' 0 [47; 108; 47; 102] = Found 3%nat /\
  mkdir_all 9 (fun k => (k + 5)%nat) 40 0 0 ex_fs (file_path [97; 47; 98; 47; 102; 47; 120]) = Ok (false, 0%nat, ex_fs) /\
  mkdir_path 40 ex_fs 0 5 [47; 97] = None /\ mkdir_path 40 ex_fs 0 5 [47; 97; 47; 120] <> None.
Proof. eexists. split; [reflexivity|]. repeat (split; [first [vm_compute; reflexivity|vm_compute; discriminate]|]). vm_compute. discriminate. Qed.
