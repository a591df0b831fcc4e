(** Properties of EvalSymlinks. *)
From Coq Require Import ZArith List Bool.
From Verif Require Import GoBase PathSpec LinkSpec EvalSpec EvalProofs.
From Verif Require Import PathModel EvalModel.
Import ListNotations.
Open Scope Z_scope.

(** ** C237: EvalSymlinks gives a path without links *)
(** It returns after at most 257 rounds, whatever the links are, if no link has an empty text. *)
Theorem C237_eval_symlinks_returns fuel lim fs cwd me : worded fs -> (257 <= fuel)%nat -> exists R, eval_symlinks fuel lim fs cwd me = Ok R.
Proof. exact (eval_returns fuel lim fs cwd me). Qed.
Print Assumptions C237_eval_symlinks_returns.

(** A path given without an error is clean, and it is found although not one link may be followed. *)
Theorem C237_eval_symlinks_no_links fuel lim fs cwd me q : sound fs -> me <> [] -> eval_symlinks fuel lim fs cwd me = Ok (Some q) ->
  file_path q = q /\ exists j, stat 0 fs cwd q = Found j.
Proof. exact (eval_clean fuel lim fs cwd me q). Qed.
Print Assumptions C237_eval_symlinks_no_links.

(** The full statement, without [forward fs] and without [shallow fs] below, is false: see [C237_eval_symlinks_refuted]. *)
Theorem C237_eval_symlinks_partial fuel lim fs cwd s i : sound fs -> worded fs -> forward fs -> (lim <= 255)%nat -> (lim < fuel)%nat ->
  stat lim fs cwd (file_path s) = Found i -> exists q, eval_symlinks fuel lim fs cwd (file_path s) = Ok (Some q) /\ stat 0 fs cwd q = Found i.
Proof. exact (eval_same fuel lim fs cwd s i). Qed.
Print Assumptions C237_eval_symlinks_partial.

(** It is also right, for every text, if no link leads to another; then two rounds are enough. *)
Theorem C237_eval_symlinks_shallow_partial fuel lim fs cwd s i : sound fs -> worded fs -> shallow fs -> (lim <= 255)%nat -> (2 <= fuel)%nat ->
  stat lim fs cwd s = Found i -> exists q, eval_symlinks fuel lim fs cwd s = Ok (Some q) /\ stat 0 fs cwd q = Found i.
Proof. exact (eval_same_shallow fuel lim fs cwd s i). Qed.
Print Assumptions C237_eval_symlinks_shallow_partial.

(** "/l/f" is the file "/a/x", and EvalSymlinks gives "/x", another file. *)
Theorem C237_eval_symlinks_refuted : exists fs s i q j, sound fs /\ worded fs /\ stat 40 fs 0 (file_path s) = Found i /\
  (forall fuel, (4 <= fuel)%nat -> eval_symlinks fuel 40 fs 0 (file_path s) = Ok (Some q)) /\ stat 40 fs 0 q = Found j /\ fs i <> fs j.
Proof. exact eval_wrong. Qed.
Print Assumptions C237_eval_symlinks_refuted.

(** "/a/b/e" leads to "/l", that to "m", that to "a/b". *)
Example C237_ex : sound ex_eval /\ worded ex_eval /\ stat 40 ex_eval 0 (file_path [47; 97; 47; 98; 47; 101]) = Found 4 /\
  eval_symlinks 257 40 ex_eval 0 (file_path [47; 97; 47; 98; 47; 101]) = Ok (Some [47; 97; 47; 98]) /\ stat 0 ex_eval 0 [47; 97; 47; 98] = Found 4 /\
  forward ex_eval_forward /\ eval_symlinks 257 40 ex_eval_forward 0 (file_path [108; 47; 97]) = Ok (Some [47; 120; 47; 97]) /\
  eval_symlinks 257 40 ex_eval_forward 0 [111] = Ok None /\
  shallow ex_eval_shallow /\ eval_symlinks 257 40 ex_eval_shallow 0 [100; 47; 108; 47; 107] = Ok (Some [100; 47; 102]).
Proof. exact eval_ex. Qed.
