(** Model of fs/file_size.go. *)
From Coq Require Import String ZArith List Bool.
From Verif Require Import GoBase GoStrings MathModel.
Import ListNotations.
Open Scope Z_scope.

(** Division of a nonnegative number by a positive one, rounded to the nearest
    integer, to the even one of two (Go language and fmt; no /repo lines). *)
Definition rne (a b : Z) : Z :=
  let q := a / b in
  let r := a mod b in
  if 2 * r <? b then q else if b <? 2 * r then q + 1 else if Z.even q then q else q + 1.
(** float64(x) of a uint64 (fs/file_size.go:25): a float64 has 53 significant
    bits; the nearest one is taken, on a tie the one with an even mantissa. *)
Definition f64_of (m : Z) : Z :=
  if m <? 2 ^ 53 then m
  else let s := Z.log2 m - 52 in rne m (2 ^ s) * 2 ^ s.

(** fs/file_size.go:5-8 kBits, kb. *)
Definition k_bits : Z := 10.
(** See above. *)
Definition kb : Z := 1024.
(** fs/file_size.go:10 bytesNames. *)
Definition bytes_names : list (list Z) :=
  [bytes_of "B"; bytes_of "KB"; bytes_of "MB"; bytes_of "GB"; bytes_of "TB"; bytes_of "PB"; bytes_of "EB"].

(** fs/file_size.go:18-23: the loop; [names] is how many names are left. *)
Fixpoint unit_loop (m : Z) (names i : nat) (b : Z) : nat * Z :=
  match names with
  | O => (i, b)
  | S names => if Z.shiftr m b <? kb then (i, b) else unit_loop m names (S i) (b + k_bits)
  end.

(** fs/file_size.go:15-27 String. The quotient at line 25 divides by a power of
    two and is exact; %.3f rounds the exact value to three decimals, to the even
    digit on a tie. *)
Definition size_string (m : Z) : outcome (list Z) :=
  let '(i, b) := unit_loop m (length bytes_names) 0 0 in
  match nth_error bytes_names i with
  | None => Panic
  | Some name =>
      let n := rne (1000 * f64_of m) (Z.shiftl 1 b) in
      Ok (fmt_d (n / 1000) ++ [46] ++ fmt_0d 3 (n mod 1000) ++ name)
  end.
