(** Properties of FileSize.String (fs/file_size.go). *)
From Coq Require Import String ZArith List Bool.
From Verif Require Import GoBase GoStrings MathModel MathSpec FileSizeModel FileSizeSpec FileSizeProofs.
Import ListNotations.
Open Scope Z_scope.

(** C51, part: for every size a number of thousandths [n] and a unit [u] are
    printed; the unit is at most the size (or the byte) and more than a 1024th of
    it; below 2^53 the number is off by at most half a thousandth, and always by
    less than half a thousandth and 2^-43. Missing: exactly half a thousandth
    above 2^53, where the conversion to float64 comes first; it is false
    (below). *)
Theorem C51_size_string_partial : forall m, 0 <= m < 2 ^ 64 -> exists text n u, size_string m = Ok text /\ shows text n u /\
  (u = 1 \/ u <= m) /\ m < 1024 * u /\
  (m < 2 ^ 53 -> 2 * Z.abs (n * u - 1000 * m) <= u) /\
  2 ^ 45 * Z.abs (n * u - 1000 * m) <= (2 ^ 44 + 2000) * u.
Proof. exact size_spec. Qed.
Print Assumptions C51_size_string_partial.
Theorem C51_size_string_refuted : exists m text n u, 0 <= m < 2 ^ 64 /\ size_string m = Ok text /\ shows text n u /\
  u < 2 * Z.abs (n * u - 1000 * m).
Proof. exact size_half_wrong. Qed.
Print Assumptions C51_size_string_refuted.
Example C51_ex : size_string 0 = Ok (bytes_of "0.000B") /\ size_string 1023 = Ok (bytes_of "1023.000B") /\
  size_string 1536 = Ok (bytes_of "1.500KB") /\ size_string (2 ^ 64 - 1) = Ok (bytes_of "16.000EB").
Proof. repeat split; vm_compute; reflexivity. Qed.

(** C91: a printed size can be read in one way only, larger sizes never print as
    smaller quantities, and the number lies between 1 and 1024, which is reached. *)
Theorem C91_size_text_unique : forall text n u n' u', shows text n u -> shows text n' u' -> n = n' /\ u = u'.
Proof. exact shows_unique. Qed.
Print Assumptions C91_size_text_unique.
Theorem C91_size_monotone : forall m m' t t' n u n' u', 0 <= m <= m' -> m' < 2 ^ 64 ->
  size_string m = Ok t -> size_string m' = Ok t' -> shows t n u -> shows t' n' u' -> n * u <= n' * u'.
Proof. exact size_mono. Qed.
Print Assumptions C91_size_monotone.
Theorem C91_size_number_range : forall m text n u, 0 <= m < 2 ^ 64 -> size_string m = Ok text -> shows text n u ->
  n <= 1024000 /\ (u <> 1 -> 1000 <= n).
Proof. exact size_1024. Qed.
Print Assumptions C91_size_number_range.
Example C91_ex : size_string 1048575 = Ok (bytes_of "1023.999KB") /\ size_string 1048576 = Ok (bytes_of "1.000MB") /\
  size_string (2 ^ 30 - 1) = Ok (bytes_of "1024.000MB") /\ size_string (2 ^ 30) = Ok (bytes_of "1.000GB").
Proof. repeat split; vm_compute; reflexivity. Qed.
