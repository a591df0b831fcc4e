(** What the descriptions of package debug mean. *)
From Coq Require Import String.
From Coq Require Import ZArith List Bool.
From Verif Require Import GoBase GoStrings MathSpec BtModel.
Import ListNotations.
Local Open Scope Z_scope.

(** The upper case hexadecimal numeral of a number. *)
Definition is_hex_digit (c : Z) : Prop := 48 <= c <= 57 \/ 65 <= c <= 70.
Definition hex_digit_value (c : Z) : Z := if c <=? 57 then c - 48 else c - 55.
Definition hex_value (s : list Z) : Z := fold_left (fun a c => 16 * a + hex_digit_value c) s 0.
Definition is_hex (v : Z) (s : list Z) : Prop :=
  s <> [] /\ Forall is_hex_digit s /\ hex_value s = v /\ (hd 48 s = 48 -> s = [48]).

(** Texts that give a place: file and line; function; all, with an address.  [sep] is written before the file. *)
Definition tells_line (head text : list Z) (l : loc) : Prop :=
  exists d, is_decimal (l_line l) d /\ text = head ++ bytes_of " FileLine{" ++ l_file l ++ bytes_of " : " ++ d ++ bytes_of "}".
Definition tells_func (head text : list Z) (l : loc) : Prop :=
  text = head ++ bytes_of " Func{" ++ l_func l ++ bytes_of "}".
Definition tells_all (head sep text : list Z) (l : loc) (pc : Z) : Prop :=
  exists d x, is_decimal (l_line l) d /\ is_hex pc x /\
    text = head ++ bytes_of "Func{" ++ l_func l ++ bytes_of "} " ++ sep ++ bytes_of "{" ++ l_file l ++ bytes_of " : " ++ d ++
           bytes_of "} pc{" ++ x ++ bytes_of "}".

(** Real places: lines and addresses are not negative, names of functions contain no closing brace (code 125). *)
Definition loc_ok (l : loc) : Prop := 0 <= l_line l /\ ~ In 125 (l_func l).
Definition frame_ok (f : frame) : Prop := loc_ok (f_call f) /\ loc_ok (f_ret f) /\ 0 < f_pc f.

(** The lines of a text, each ended by a newline. *)
Definition lines_of (ls : list (list Z)) : list Z := concat (map (fun l => l ++ [10]) ls).

(** Frames for the examples: function name, line of the call, line of the instruction after it. *)
Definition ex_frame (name : string) (line next pc : Z) : frame :=
  Frame (Loc (bytes_of name) (bytes_of "/a/b.go") line) (Loc (bytes_of name) (bytes_of "/a/b.go") next) pc.
Definition ex_own : own := Own (ex_frame "debug.CallStackInfo" 76 76 1) (ex_frame "debug.Bt" 30 30 2)
  (ex_frame "runtime.Callers" 1 1 3) (ex_frame "debug.Bts" 62 62 4) (ex_frame "debug.Assert" 5 5 5).
Definition ex_stack : list frame := [ex_frame "main.f" 10 11 4464; ex_frame "main.main" 20 20 5000; ex_frame "runtime.main" 200 201 6000].
