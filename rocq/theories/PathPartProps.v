(** Property theorems about the parts of paths (C195-C198). *)
From Coq Require Import ZArith List.
From Verif Require Import PathSpec PathPartSpec PathPartProofs PathModel PathPartModel.
Import ListNotations.
Open Scope Z_scope.

(** C195: a path is put together again from its parts: Split cuts the text after its last slash; joining Dir and Base of a file path gives that
    path; and a name joined to a file path is its Base, the path itself its Dir.  Base of any text is its last element without the slashes after it. *)
Theorem C195_path_parts :
  (forall s d f, split_path s = (d, f) -> d ++ f = s /\ ~ In 47 f /\ (d = [] \/ exists d', d = d' ++ [47])) /\
  (forall s, joins [dir_of (file_path s); base_of (file_path s)] = file_path s) /\
  (forall s x, name x -> base_of (path_joins (file_path s) [x]) = x /\ dir_of (path_joins (file_path s) [x]) = file_path s) /\
  base_of [] = [46] /\ (forall n, base_of (repeat 47 (S n)) = [47]) /\
  (forall s f n, f <> [] -> last_elem s f -> base_of (s ++ repeat 47 n) = f).
Proof.
  split; [| split; [| split]].
  - intros s d f E. pose proof (split_parts s) as H. rewrite E in H. exact H.
  - exact dir_base_join.
  - exact join_child.
  - exact base_exact.
Qed.
Print Assumptions C195_path_parts.
(** "../a/b.c" is "../a" and "b.c"; "/" is "/" and "/". *)
Example C195_ex : dir_of [46; 46; 47; 97; 47; 98; 46; 99] = [46; 46; 47; 97] /\ base_of [46; 46; 47; 97; 47; 98; 46; 99] = [98; 46; 99] /\
  dir_of [47] = [47] /\ base_of [47] = [47] /\ path_joins (file_path [46; 46]) [[98]] = [46; 46; 47; 98].
Proof. repeat split; reflexivity. Qed.

(** C196: Ext returns the text from the last full stop of the last element on, and nothing if that element has none. *)
Theorem C196_ext : forall s f e, last_elem s f -> (ext_of s = e <-> ext_spec_of f e).
Proof. exact ext_exact. Qed.
Print Assumptions C196_ext.
(** "a.b/c.d.e" has the extension ".e", "a.b/c" none, "a/.x" the extension ".x". *)
Example C196_ex : ext_of [97; 46; 98; 47; 99; 46; 100; 46; 101] = [46; 101] /\ ext_of [97; 46; 98; 47; 99] = [] /\
  ext_of [97; 47; 46; 120] = [46; 120] /\ last_elem [97; 47; 46; 120] [46; 120].
Proof.
  repeat split; try reflexivity.
  - intros [E | [E | []]]; discriminate.
  - right. now exists [97].
Qed.

(** C197: SplitList returns the elements of a list of paths written with colons: they contain no colon, written with colons they give the
    text, and no other list does, apart from the one empty element that stands for the empty text. *)
Theorem C197_split_list : forall s l, split_list s = l <-> with_colons l = s /\ Forall no_colon l /\ l <> [[]].
Proof. exact split_list_exact. Qed.
Print Assumptions C197_split_list.
(** "a:/b:" has the elements "a", "/b" and "". *)
Example C197_ex : split_list [97; 58; 47; 98; 58] = [[97]; [47; 98]; []] /\ split_list [] = [].
Proof. split; reflexivity. Qed.

(** C198: Abs, from a rooted working directory: the result begins with a slash, is a clean path, and leads from everywhere to where the path
    leads from the working directory. *)
Theorem C198_abs : forall wd s from, is_rooted wd = true ->
  is_rooted (abs_of wd s) = true /\ file_path (abs_of wd s) = abs_of wd s /\ leads from (abs_of wd s) = leads (leads from wd) s.
Proof. exact abs_exact. Qed.
Print Assumptions C198_abs.
(** From "/a/b", "../c" is "/a/c", and "/d/" is "/d". *)
Example C198_ex : abs_of [47; 97; 47; 98] [46; 46; 47; 99] = [47; 97; 47; 99] /\ abs_of [47; 97; 47; 98] [47; 100; 47] = [47; 100].
Proof. split; reflexivity. Qed.
