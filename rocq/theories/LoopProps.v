(** C223: Fingerprint and Hash in a file system with links. *)
From Coq Require Import ZArith List Bool Relations.
From Verif Require Import GoBase PathSpec LinkSpec LoopSpec LoopProofs.
From Verif Require Import PathModel FsModel LoopModel.
Import ListNotations.
Open Scope Z_scope.

(** C223: in every file system whose directories have a bounded depth, with links in any way, and for every path: Hash
    (and Fingerprint) returns; a result is that of the tree in which every link is replaced by what it leads to; there is an
    error exactly if the path or that of some entry found below it cannot be opened. *)
Theorem C223_hash_returns : forall text srt lim fs cwd s H, sound fs -> bounded fs H ->
  exists fuel0, forall fuel, (fuel0 <= fuel)%nat ->
  exists R, hash_links text srt fuel lim fs cwd (file_path s) = Ok R /\
  (forall h, R = Some h -> exists i n, stat lim fs cwd (file_path s) = Found i /\ shows fs i n /\ hash_tree text srt (file_path s) n = Some h) /\
  (R = None <-> (forall i, stat lim fs cwd (file_path s) <> Found i) \/
     exists xs x d up es c, Forall name xs /\ name x /\ stat lim fs cwd (below (file_path s) xs) = Found d /\
       fs d = Some (NDir up es) /\ find x es = Some c /\ forall j, stat lim fs cwd (below (file_path s) (xs ++ [x])) <> Found j).
Proof. exact hash_all. Qed.
(** It is an error if links lead around in a circle below the path. *)
Theorem C223_hash_cycle : forall text srt lim fs cwd s H fuel R i j, sound fs -> bounded fs H ->
  stat lim fs cwd (file_path s) = Found i -> clos_refl_trans _ (entry_leads fs) i j -> clos_trans _ (entry_leads fs) j j ->
  hash_links text srt fuel lim fs cwd (file_path s) = Ok R -> R = None.
Proof. exact hash_cycle. Qed.
Print Assumptions C223_hash_returns.
Print Assumptions C223_hash_cycle.
(** The circle of [ex_loop] is an error; in [ex_fs] the link "/l" is hashed like the directory "/a/b" it leads to: the size
    of the root is twice that of the one file. *)
Example C223_ex : sound ex_loop /\ bounded ex_loop 1 /\ clos_trans _ (entry_leads ex_loop) 0%nat 0%nat /\
  hash_links (fun _ d => d) (fun l => l) 100 40 ex_loop 0 (file_path [47; 97]) = Ok None /\
  match hash_links (fun _ d => d) (fun l => l) 100 40 ex_fs 0 (file_path [47]) with
  | Ok (Some h) => fh_size (hval h) = 2 /\ length (hkids h) = 2%nat
  | _ => False
  end.
Proof.
  destruct ex_loop_sound as (A & B & C & D). split; [exact A|]. split; [exact B|]. split; [exact (t_trans _ _ _ _ _ (t_step _ _ _ _ D) (t_step _ _ _ _ C))|].
  split; vm_compute; auto.
Qed.
