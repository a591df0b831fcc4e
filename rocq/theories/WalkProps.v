(** Properties of Walk and Statistic. *)
From Coq Require Import ZArith List Bool Sorted.
From Verif Require Import GoBase PathSpec WalkSpec WalkProofs WalkModel.
Import ListNotations.
Open Scope Z_scope.

(** C218: Walk calls the function for exactly the visits of the tree, in lexical order, and obeys its answers. *)
Theorem C218_walk n root : proper n -> root <> [] -> exists l path,
  StronglySorted earlier l /\ (forall e, In e l <-> belongs n e) /\ (forall cs m, down n cs m -> text_of root cs (path cs)) /\
  forall S E (fn : S -> list Z -> option finfo -> option (list Z) -> S * answer E) s,
    walk_path fn n root s = run S E (fun s cs v => fn s (path cs) (fst (told v)) (snd (told v))) s [] l.
Proof. exact (walk_visits n root). Qed.
Print Assumptions C218_walk.
Example C218_ex :
  walk_path (ex_fn 0) ex_tree [114] [] = ([[114]; [114; 47; 97]; [114; 47; 97; 47; 120]; [114; 47; 97; 47; 121]; [114; 47; 98]; [114; 47; 99]; [114; 47; 99]; [114; 47; 100]], None) /\
  walk_path (ex_fn 120) ex_tree [114] [] = ([[114]; [114; 47; 97]; [114; 47; 97; 47; 120]; [114; 47; 98]; [114; 47; 99]; [114; 47; 99]; [114; 47; 100]], None) /\
  walk_path (ex_fn 97) ex_tree [114] [] = ([[114]; [114; 47; 97]; [114; 47; 98]; [114; 47; 99]; [114; 47; 99]; [114; 47; 100]], None) /\
  walk_path (ex_fn 98) ex_tree [114] [] = ([[114]; [114; 47; 97]; [114; 47; 97; 47; 120]; [114; 47; 97; 47; 121]; [114; 47; 98]], None) /\
  walk_path (ex_fn 99) ex_tree [114] [] = ([[114]; [114; 47; 97]; [114; 47; 97; 47; 120]; [114; 47; 97; 47; 121]; [114; 47; 98]; [114; 47; 99]; [114; 47; 100]], None).
Proof. repeat split. Qed.

(** C219: what Statistic returns for every tree, readable or not. *)
Theorem C219_statistic n root : proper n -> root <> [] -> exists l,
  StronglySorted earlier l /\ (forall e, In e l <-> belongs n e) /\
  statistic_walk n root = Ok (dirs_in l, files_in l, bytes_in l mod 2 ^ 64, errors_in l).
Proof. exact (statistic_exact n root). Qed.
Print Assumptions C219_statistic.
Example C219_ex : statistic_walk ex_tree [114] = Ok (3, 3, 8, [69; 10; 76; 10]).
Proof. reflexivity. Qed.
