(** Properties of Walk and Statistic over a file system with links. *)
From Coq Require Import ZArith List Bool Sorted.
From Verif Require Import GoBase FsModel PathModel PathPartModel PathSpec LinkSpec LinkMore LoopSpec SubsSpec SubsProofs WalkSpec WlinkSpec WlinkProofs WlinkModel.
Import ListNotations.
Open Scope Z_scope.

(** C231: Walk returns, whatever links there are. It visits exactly the entries that lie inside what is at the path, in lexical
    order, a link as a link, never what it leads to; each under a path that leads to the entry; and it obeys the function. *)
Theorem C231_walk_links lim fs cwd s H i : sound fs -> distinct fs -> bounded fs H -> lstat lim fs cwd (file_path s) = Found i ->
  exists l path fuel0, StronglySorted earlier l /\
  (forall cs v, In (cs, v) l <-> exists j, SubsSpec.inside fs i cs j /\ v = seen_as fs j (last cs (base_of (file_path s)))) /\
  (forall cs j, SubsSpec.inside fs i cs j -> text_of (file_path s) cs (path cs) /\ lstat lim fs cwd (path cs) = Found j) /\
  forall fuel S E (fn : S -> list Z -> option finfo -> option (list Z) -> S * answer E) err st, (fuel0 <= fuel)%nat ->
    walk_links fn err lim fs cwd fuel (file_path s) st = Ok (run S E (fun s cs v => fn s (path cs) (fst (told v)) (snd (told v))) st [] l).
Proof. exact (walk_links_all lim fs cwd s H i). Qed.
Print Assumptions C231_walk_links.
(** The function hears of a path at which there is nothing, once, with the error. *)
Theorem C231_missing_root S E (fn : S -> list Z -> option finfo -> option (list Z) -> S * answer E) err lim fs cwd fuel path st e :
  lstat lim fs cwd path = e -> (forall i, e <> Found i) ->
  walk_links fn err lim fs cwd fuel path st = Ok (run S E (fun s cs v => fn s path (fst (told v)) (snd (told v))) st [] [([], VLost (err path e))]).
Proof. exact (walk_links_missing fn err lim fs cwd fuel path st e). Qed.
Print Assumptions C231_missing_root.
Example C231_ex : sound ex_subs /\ distinct ex_subs /\ bounded ex_subs 2 /\ lstat 40 ex_subs 0 (file_path [46]) = Found 0%nat /\
  walk_links note (fun _ _ => []) 40 ex_subs 0 9 (file_path [46]) [] =
    Ok ([([46], 0); ([97], 0); ([97; 47; 98], 0); ([97; 47; 98; 47; 102], 1); ([97; 47; 99], 2); ([108], 3)], None) /\
  walk_links note (fun _ _ => []) 40 ex_subs 0 9 [47; 108] [] = Ok ([([47; 108], 3)], None) /\
  walk_links note (fun _ _ => []) 40 ex_subs 0 9 [47; 122] [] = Ok ([([47; 122], -1)], None).
Proof. destruct ex_subs_sound as (A & B & C). split; [exact A|]. split; [exact B|]. split; [exact C|]. split; [reflexivity|]. split; [reflexivity|]. split; reflexivity. Qed.

(** C232: Statistic counts the directories, the files and the bytes inside what Stat finds at the path. Here, for a path that does
    not end at a link; without that it is refuted below. *)
Theorem C232_statistic_partial err lim fs cwd s H i : sound fs -> distinct fs -> bounded fs H -> stat lim fs cwd (file_path s) = Found i ->
  (forall j t, lstat lim fs cwd (file_path s) = Found j -> fs j <> Some (NLink t)) ->
  exists l fuel0, StronglySorted earlier l /\
  (forall cs v, In (cs, v) l <-> exists j, SubsSpec.inside fs i cs j /\ v = seen_as fs j (last cs (base_of (file_path s)))) /\
  forall fuel, (fuel0 <= fuel)%nat -> statistic_links err lim fs cwd fuel (file_path s) = Ok (dirs_in l, files_in l, bytes_in l mod 2 ^ 64, []).
Proof. exact (statistic_stat err lim fs cwd s H i). Qed.
Print Assumptions C232_statistic_partial.
(** The path l of the example leads to a directory with one file of one byte; Statistic says one file of three bytes. *)
Theorem C232_statistic_refuted : exists fs s H i, sound fs /\ distinct fs /\ bounded fs H /\ stat 40 fs 0 (file_path s) = Found i /\
  forall err l fuel, NoDup l -> (forall cs v, In (cs, v) l <-> exists j, SubsSpec.inside fs i cs j /\ v = seen_as fs j (last cs (base_of (file_path s)))) ->
  statistic_links err 40 fs 0 fuel (file_path s) <> Ok (dirs_in l, files_in l, bytes_in l mod 2 ^ 64, []).
Proof. exact statistic_not. Qed.
Print Assumptions C232_statistic_refuted.
Example C232_ex : statistic_links (fun _ _ => []) 40 ex_subs 0 9 (file_path [97]) = Ok (2, 2, 3, []) /\
  statistic_links (fun _ _ => []) 40 ex_subs 0 9 (file_path [108]) = Ok (0, 1, 3, []).
Proof. split; reflexivity. Qed.
