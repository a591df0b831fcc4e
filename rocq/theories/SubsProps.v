(** C224 and C225: CollectSubs in a file system with links. *)
From Coq Require Import ZArith List Bool.
From Verif Require Import GoBase PathSpec FsSpec LinkSpec LoopSpec SubsSpec SubsProofs.
From Verif Require Import PathModel FsModel SubsModel.
Import ListNotations.
Open Scope Z_scope.

(** C224: CollectSubs returns, without an error, for every text as path and all options, however the links lead. *)
Theorem C224_returns : forall lim fs cwd dir opt H, sound fs -> distinct fs -> bounded fs H ->
  exists fuel0, forall fuel, (fuel0 <= fuel)%nat -> exists l, collect_links fuel lim fs cwd dir opt = Ok (l, false).
Proof. exact collect_returns. Qed.
(** C224: for a path made by FilePath, which may itself be or contain links, it lists what the options ask for of the tree in
    which every link is a file; there is such a tree. *)
Theorem C224_links_are_files : forall lim fs cwd s opt H i, sound fs -> distinct fs -> bounded fs H -> stat lim fs cwd (file_path s) = Found i ->
  exists fuel0, forall fuel n, (fuel0 <= fuel)%nat -> bare fs i n ->
    collect_links fuel lim fs cwd (file_path s) opt = Ok (listed opt (entries (is_deep opt) (file_path s) n), false).
Proof. exact collect_bare. Qed.
Theorem C224_tree_exists : forall fs H i x, sound fs -> distinct fs -> bounded fs H -> fs i = Some x -> exists n, bare fs i n.
Proof. exact bare_exists. Qed.
Print Assumptions C224_returns.
Print Assumptions C224_links_are_files.
Print Assumptions C224_tree_exists.
(** All the files below "/" of [ex_subs] are "f" and the two links, also when the search begins at "/a/c", a link to "/"; below
    "/l", a link to "/a/b", there is "f" only. *)
Example C224_ex : sound ex_subs /\ distinct ex_subs /\ bounded ex_subs 2 /\
  collect_links 10 40 ex_subs 0 (file_path [47]) 14 = Ok ([[47; 97; 47; 98; 47; 102]; [47; 97; 47; 99]; [47; 108]], false) /\
  collect_links 10 40 ex_subs 0 (file_path [47; 97; 47; 99]) 10 = Ok ([[102]; [99]; [108]], false) /\
  collect_links 10 40 ex_subs 0 (file_path [47; 108]) 15 = Ok ([[47; 108; 47; 102]], false).
Proof. destruct ex_subs_sound as (A & B & C). split; [exact A|]. split; [exact B|]. split; [exact C|]. vm_compute. auto. Qed.

(** C225: the paths given with the option for full paths lead to the entries found, if the path is made by FilePath. Missing:
    other texts (refuted below). *)
Theorem C225_paths_partial : forall lim fs cwd s opt H i, sound fs -> distinct fs -> bounded fs H -> Z.testbit opt 2 = true ->
  stat lim fs cwd (file_path s) = Found i ->
  exists fuel0, forall fuel, (fuel0 <= fuel)%nat -> exists l, collect_links fuel lim fs cwd (file_path s) opt = Ok (l, false) /\
  forall q, In q l -> exists xs j, inside fs i xs j /\ q = path_of (file_path s) xs /\ (xs <> [] -> lstat lim fs cwd q = Found j).
Proof. exact collect_leads. Qed.
(** C225: steps upwards behind a link are dropped in the paths of the entries, which then do not exist. *)
Theorem C225_paths_refuted : exists lim fs cwd dir opt fuel l q, sound fs /\ distinct fs /\ bounded fs 2 /\ Z.testbit opt 2 = true /\
  collect_links fuel lim fs cwd dir opt = Ok (l, false) /\ In q l /\ lstat lim fs cwd q = Missing.
Proof. exact collect_false. Qed.
Print Assumptions C225_paths_partial.
Print Assumptions C225_paths_refuted.
(** "/a/c" is a link to "/": the paths go through it. *)
Example C225_ex : collect_links 10 40 ex_subs 0 (file_path [47; 97; 47; 99]) 7 = Ok ([[47; 97; 47; 99; 47; 97]; [47; 97; 47; 99; 47; 108]], false) /\
  lstat 40 ex_subs 0 [47; 97; 47; 99; 47; 97] = Found 1%nat /\ lstat 40 ex_subs 0 [47; 97; 47; 99; 47; 108] = Found 4%nat.
Proof. vm_compute. auto. Qed.
