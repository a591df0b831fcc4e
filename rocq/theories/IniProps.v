(** Properties of the INI reader. *)
From Coq Require Import String.
From Coq Require Import ZArith List Bool Permutation.
From Verif Require Import GoBase GoMap GoStrings IniModel IniSpec IniProofs.
Import ListNotations.
Open Scope Z_scope.

(** C48: loading never fails, and GetString gives the value of the last line that
    assigns to the key in a block of the section, the default iff there is none. *)
Theorem C48_ini_get : forall text ls, splits text ls ->
  exists m, load text = Ok m /\ forall sec key, exists r, last_assignment ls sec key r /\
    forall def, get_string m sec key def = match r with Some v => v | None => def end.
Proof. exact ini_get. Qed.
Print Assumptions C48_ini_get.
(** Blank lines and comments may be put in or taken out anywhere. *)
Theorem C48_ini_ignored : forall before noise after text1 text2,
  (forall x, In x noise -> kind x = KNone) ->
  splits text1 (before ++ after) -> splits text2 (before ++ noise ++ after) -> load text1 = load text2.
Proof. exact ini_ignored. Qed.
Print Assumptions C48_ini_ignored.
(** Every text has lines, and trimming is what it says. *)
Theorem C48_lines : forall text, exists ls, splits text ls.
Proof. exact splits_exists. Qed.
Print Assumptions C48_lines.
Theorem C48_trim : forall s,
  exists a b, s = a ++ trim_space s ++ b /\ made_of spaces a /\ made_of spaces b /\
    (forall w r, In w spaces -> trim_space s <> w ++ r) /\ (forall w r, In w spaces -> trim_space s <> r ++ w).
Proof. exact trim_space_spec. Qed.
Print Assumptions C48_trim.
Definition C48_text : list Z :=
  bytes_of "x=0" ++ [10] ++ bytes_of "[a]" ++ [13; 10] ++ bytes_of " k = 1 = 2 " ++ [10] ++ bytes_of "; k=9" ++ [10; 10] ++
  bytes_of "[b]" ++ [10] ++ bytes_of "k=3" ++ [10] ++ bytes_of "[a]" ++ [10] ++ bytes_of "k=4" ++ [10] ++ bytes_of "flag" ++ [10] ++ bytes_of "=5".
Example C48_ex : exists m, load C48_text = Ok m /\
  get_string m (bytes_of "a") (bytes_of "k") [] = bytes_of "4" /\
  get_string m (bytes_of "b") (bytes_of "k") [] = bytes_of "3" /\
  get_string m (bytes_of "a") (bytes_of "flag") (bytes_of "d") = [] /\
  get_string m (bytes_of "a") (bytes_of "x") (bytes_of "d") = bytes_of "d" /\
  kind (bytes_of " k = 1 = 2 ") = KEntry (bytes_of "k") (bytes_of "1 = 2").
Proof. eexists. split; [vm_compute; reflexivity|]. vm_compute. repeat split. Qed.

(** C88: Sections lists the names of all headers, Keys the keys assigned to in a
    section, each once, in some order; a section without a header has no list. *)
Theorem C88_ini_lists : forall text ls, splits text ls ->
  exists m, load text = Ok m /\
    (forall r, sections m r -> NoDup r /\ forall s, In s r <-> has_header ls s) /\
    (forall sec r, keys m sec r -> match r with
       | None => ~ has_header ls sec
       | Some r => has_header ls sec /\ NoDup r /\ forall k, In k r <-> assigned ls sec k
       end).
Proof. exact ini_lists. Qed.
Print Assumptions C88_ini_lists.
Example C88_ex : exists m, load C48_text = Ok m /\ sections m [bytes_of "b"; bytes_of "a"] /\
  keys m (bytes_of "a") (Some [bytes_of "k"; bytes_of "flag"]) /\ keys m (bytes_of "zz") None.
Proof.
  eexists. split; [vm_compute; reflexivity|]. split; [|split].
  - apply perm_swap.
  - apply Permutation_refl.
  - exact I.
Qed.
