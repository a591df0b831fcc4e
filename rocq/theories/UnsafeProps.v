(** Strings and byte slices that share memory: StringBytes, BytesString, Writeable. *)
From Coq Require Import ZArith List Bool Arith.
From Verif Require Import GoBase UnsafeModel UnsafeSpec UnsafeProofs UnsafeMore.
Import ListNotations.
Open Scope Z_scope.

(** C140: every program over strings and slices sees exactly what it would see if strings and
    slices were lists of cells, StringBytes(s) had the cells of s and no spare ones, and
    BytesString(b) the cells of b; it is killed exactly when it writes to a cell of a literal. *)
Theorem C140_strings_and_slices_as_cells :
  forall ops,
    match run_ops u_step u_init ops, run_ops c_step c_init ops with
    | Ok (_, seen), Ok (_, seen') => seen = seen'
    | Panic, Panic => True
    | _, _ => False
    end.
Proof. exact cells_exact. Qed.
Print Assumptions C140_strings_and_slices_as_cells.

(** "abc" in a slice with a spare byte, its string, the slice of that string; a byte is
    changed, one is appended in the spare byte, and to the slice of the string. *)
Example C140_ex :
  let ops := [UMake 100 [97; 98; 99] 1; UBytesString 0; UStringBytes 0; USet 1 0 65; UGetS 0;
              UAppend 200 0 [100] 3; UGetB 2; UAppend 300 1 [101] 3; UGetB 3; USet 3 1 66; UGetS 0;
              USubB 0 0 4; UGetB 4; USubB 1 0 4; USubS 0 1 3; UGetS 1; USet 0 3 1] in
  run_ops u_step u_init ops =
    Ok (UST [Block 100 true [65; 98; 99; 100]; Block 300 true [65; 66; 99; 101; 0; 0; 0]]
            [BH 0 0 3 4; BH 0 0 3 3; BH 0 0 4 4; BH 1 0 4 7; BH 0 0 4 4]
            [SH 0 0 3; SH 0 1 2],
        [UNone; UNone; UNone; UNone; UVal [65; 98; 99]; UNone; UVal [65; 98; 99; 100]; UNone;
         UVal [65; 98; 99; 101]; UNone; UVal [65; 98; 99]; UNone; UVal [65; 98; 99; 100]; UPan; UNone;
         UVal [98; 99]; UPan]).
Proof. vm_compute. reflexivity. Qed.

(** C141: StringBytes(s) and BytesString(b) share with s and b: whatever the program does later,
    both have the same bytes; and a write through StringBytes(s) that does not kill the program
    changes that byte of s. *)
Theorem C141_string_and_slice_share :
  (forall ops s obs x l ops2 s2 obs2,
     run_ops u_step u_init ops = Ok (s, obs) -> text s x l ->
     run_ops u_step s (UStringBytes x :: ops2) = Ok (s2, obs2) ->
     exists l', text s2 x l' /\ contents s2 (slices s) l') /\
  (forall ops s obs b l ops2 s2 obs2,
     run_ops u_step u_init ops = Ok (s, obs) -> contents s b l ->
     run_ops u_step s (UBytesString b :: ops2) = Ok (s2, obs2) ->
     exists l', contents s2 b l' /\ text s2 (strings s) l') /\
  (forall ops s obs x l i v,
     run_ops u_step u_init ops = Ok (s, obs) -> text s x l -> (i < length l)%nat ->
     (exists s2, run_ops u_step s [UStringBytes x; USet (slices s) i v] = Ok (s2, [UNone; UNone]) /\
                 text s2 x (upd l i v)) \/
     run_ops u_step s [UStringBytes x; USet (slices s) i v] = Panic).
Proof. exact share_all. Qed.
Print Assumptions C141_string_and_slice_share.

Example C141_ex :
  exists s, run_ops u_step u_init [UMake 100 [97; 98; 99] 0; UCopyS 200 0] = Ok (s, [UNone; UNone]) /\
    text s 0 [97; 98; 99] /\
    exists s2, run_ops u_step s [UStringBytes 0; USubS 0 1 3; USet 1 1 0] = Ok (s2, [UNone; UNone; UNone]) /\
      text s2 0 [97; 0; 99] /\ contents s2 1 [97; 0; 99] /\ text s2 1 [0; 99] /\ contents s2 0 [97; 98; 99].
Proof.
  eexists. split; [vm_compute; reflexivity|]. split; [vm_compute; reflexivity|].
  eexists. split; [vm_compute; reflexivity|]. repeat split; vm_compute; reflexivity.
Qed.

(** C142 (partial): the text of a string never changes, as long as no slice belongs to its family, that
    is, StringBytes is never applied to it, to the string it was cut from or to another cut of that, and
    it does not come from BytesString.
    Missing: strings of which StringBytes or BytesString made a slice; see the counterexample. *)
Theorem C142_strings_do_not_change_partial :
  forall ops1 ops2 s1 s2 obs1 obs2 x l,
    run_ops u_step u_init ops1 = Ok (s1, obs1) -> run_ops u_step s1 ops2 = Ok (s2, obs2) ->
    text s1 x l -> unshared (families (ops1 ++ ops2) (obs1 ++ obs2)) x ->
    text s2 x l.
Proof. exact unshared_kept. Qed.
Print Assumptions C142_strings_do_not_change_partial.

Theorem C142_strings_do_not_change_refuted :
  exists ops1 ops2 s1 s2 obs1 obs2 x l,
    run_ops u_step u_init ops1 = Ok (s1, obs1) /\ run_ops u_step s1 ops2 = Ok (s2, obs2) /\
    text s1 x l /\ ~ text s2 x l.
Proof. exact string_changes. Qed.
Print Assumptions C142_strings_do_not_change_refuted.

(** Two copies of the same bytes and a cut of the first; StringBytes is applied to the second
    only, and the bytes are changed there and in the slice that was copied. *)
Example C142_ex :
  exists s1 s2,
    let ops1 := [UMake 100 [97; 98; 99] 0; UCopyS 200 0; UCopyS 300 0; USubS 0 1 3] in
    let ops2 := [UStringBytes 1; USet 1 1 0; USet 0 1 1; UAppend 400 1 [5] 2; UStringBytes 7] in
    run_ops u_step u_init ops1 = Ok (s1, [UNone; UNone; UNone; UNone]) /\
    run_ops u_step s1 ops2 = Ok (s2, [UNone; UNone; UNone; UNone; UNone]) /\
    unshared (families (ops1 ++ ops2) (repeat UNone 9)) 0 /\
    unshared (families (ops1 ++ ops2) (repeat UNone 9)) 2 /\
    text s2 0 [97; 98; 99] /\ text s2 2 [98; 99] /\ text s2 1 [97; 0; 99].
Proof.
  eexists. eexists. cbv zeta. split; [vm_compute; reflexivity|]. split; [vm_compute; reflexivity|].
  split; [exists 1%nat; split; [reflexivity|vm_compute; intuition discriminate]|].
  split; [exists 1%nat; split; [reflexivity|vm_compute; intuition discriminate]|].
  repeat split; vm_compute; reflexivity.
Qed.

(** C143: append to StringBytes(s) copies: it changes no string and no slice and cannot kill the
    program, even if s is a literal.  Append to b leaves BytesString(b) and b alone.  Append to
    a slice cut from StringBytes(s), however, can change s. *)
Theorem C143_append_leaves_the_string :
  (forall ops s obs x l a vs extra,
     run_ops u_step u_init ops = Ok (s, obs) -> text s x l -> vs <> [] ->
     exists s2, run_ops u_step s [UStringBytes x; UAppend a (slices s) vs extra] = Ok (s2, [UNone; UNone]) /\
       contents s2 (slices s + 1) (l ++ vs) /\
       (forall y m, text s y m -> text s2 y m) /\ (forall b m, contents s b m -> contents s2 b m)) /\
  (forall ops s obs b l a vs extra s2 obs2,
     run_ops u_step u_init ops = Ok (s, obs) -> contents s b l ->
     run_ops u_step s [UBytesString b; UAppend a b vs extra] = Ok (s2, obs2) ->
     text s2 (strings s) l /\ contents s2 b l /\ contents s2 (slices s) (l ++ vs)) /\
  (exists ops s obs x l i j s2 obs2 a v l',
     run_ops u_step u_init ops = Ok (s, obs) /\ text s x l /\
     run_ops u_step s [UStringBytes x; USubB (slices s) i j; UAppend a (slices s + 1) [v] 0] = Ok (s2, obs2) /\
     text s2 x l' /\ l' <> l).
Proof. exact append_all. Qed.
Print Assumptions C143_append_leaves_the_string.

Example C143_ex :
  exists s s2, run_ops u_step u_init [ULit 7 [97; 98]; UMake 100 [1; 2] 2] = Ok (s, [UNone; UNone]) /\
    run_ops u_step s [UStringBytes 0; UAppend 500 1 [99] 1; UBytesString 0; UAppend 600 0 [3] 5] =
      Ok (s2, [UNone; UNone; UNone; UNone]) /\
    contents s2 2 [97; 98; 99] /\ text s2 0 [97; 98] /\ text s2 1 [1; 2] /\ contents s2 3 [1; 2; 3].
Proof.
  eexists. eexists. split; [vm_compute; reflexivity|]. split; [vm_compute; reflexivity|].
  repeat split; vm_compute; reflexivity.
Qed.

(** C144 (partial): Writeable tells whether a write succeeds or kills the program, if all literals lie
    below firstPointer and everything else at or above it.
    Missing: other layouts of memory, which nothing rules out; see the counterexamples. *)
Theorem C144_writeable_tells_partial :
  forall first ops s obs b l i v,
    Forall (laid_out first) ops -> run_ops u_step u_init ops = Ok (s, obs) ->
    contents s b l -> (i < length l)%nat ->
    (says_writeable first s b = Some true /\
     exists s2, u_step s (USet b i v) = Ok (s2, UNone) /\ contents s2 b (upd l i v)) \/
    (says_writeable first s b = Some false /\ u_step s (USet b i v) = Panic).
Proof. exact writeable_exact. Qed.
Print Assumptions C144_writeable_tells_partial.

(** The same for String.Writeable and a write through StringBytes. *)
Theorem C144_string_writeable_tells_partial :
  forall first ops s obs x l i v,
    Forall (laid_out first) ops -> run_ops u_step u_init ops = Ok (s, obs) ->
    text s x l -> (i < length l)%nat ->
    (says_str_writeable first s x = Some true /\
     exists s2, run_ops u_step s [UStringBytes x; USet (slices s) i v] = Ok (s2, [UNone; UNone]) /\
                text s2 x (upd l i v)) \/
    (says_str_writeable first s x = Some false /\
     run_ops u_step s [UStringBytes x; USet (slices s) i v] = Panic).
Proof. exact str_writeable_exact. Qed.
Print Assumptions C144_string_writeable_tells_partial.

Theorem C144_writeable_tells_refuted :
  (exists first ops s obs b l i v s2,
     run_ops u_step u_init ops = Ok (s, obs) /\ contents s b l /\ (i < length l)%nat /\
     says_writeable first s b = Some false /\ u_step s (USet b i v) = Ok (s2, UNone)) /\
  (exists first ops s obs b l i v,
     run_ops u_step u_init ops = Ok (s, obs) /\ contents s b l /\ (i < length l)%nat /\
     says_writeable first s b = Some true /\ u_step s (USet b i v) = Panic).
Proof. exact writeable_wrong. Qed.
Print Assumptions C144_writeable_tells_refuted.

Example C144_ex :
  let ops := [ULit 10 [97; 98]; UStringBytes 0; UMake 1000 [1; 2] 0; UCopyS 2000 1; UStringBytes 1; USubB 2 1 2] in
  exists s, Forall (laid_out 500) ops /\ run_ops u_step u_init ops = Ok (s, repeat UNone 6) /\
    map (says_writeable 500 s) [0; 1; 2; 3; 4]%nat = [Some false; Some true; Some true; Some true; None] /\
    map (says_str_writeable 500 s) [0; 1; 2]%nat = [Some false; Some true; None] /\
    u_step s (USet 0 1 0) = Panic /\ contents s 3 [2].
Proof.
  eexists. split; [repeat constructor; vm_compute; discriminate|].
  repeat split; vm_compute; reflexivity.
Qed.

(** C145: a program is killed only when it writes to a slice of the family of a literal; and
    writing to any byte of StringBytes of a literal kills it. *)
Theorem C145_only_literals_kill :
  (forall ops s obs op,
     run_ops u_step u_init ops = Ok (s, obs) -> u_step s op = Panic ->
     exists b, of_literal (families ops obs) b /\
       ((exists i v, op = USet b i v) \/ (exists a vs extra, op = UAppend a b vs extra))) /\
  (forall ops s obs a l i v,
     run_ops u_step u_init ops = Ok (s, obs) -> (i < length l)%nat ->
     run_ops u_step s [ULit a l; UStringBytes (strings s); USet (slices s) i v] = Panic).
Proof. exact literals_kill. Qed.
Print Assumptions C145_only_literals_kill.

(** Append to a slice cut from a literal kills, too. *)
Example C145_ex :
  let ops := [UMake 100 [1] 0; ULit 10 [97; 98]; UStringBytes 0; USubB 1 0 1] in
  exists s, run_ops u_step u_init ops = Ok (s, repeat UNone 4) /\
    u_step s (UAppend 200 2 [99] 0) = Panic /\ u_step s (USet 1 1 99) = Panic /\ u_step s (USet 0 0 9) <> Panic /\
    of_literal (families ops (repeat UNone 4)) 2 /\ ~ of_literal (families ops (repeat UNone 4)) 0.
Proof.
  eexists. split; [vm_compute; reflexivity|]. split; [vm_compute; reflexivity|]. split; [vm_compute; reflexivity|].
  split; [vm_compute; discriminate|]. split.
  - exists 1%nat. split; vm_compute; auto.
  - intros (f & F & I). vm_compute in F, I. injection F as <-. intuition discriminate.
Qed.
