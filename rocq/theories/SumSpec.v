(** What a fingerprint is, said without the code. *)
From Coq Require Import String ZArith List Bool.
From Verif Require Import GoBase GoStrings SumModel.
Import ListNotations.
Open Scope Z_scope.

(** Six bytes of a number, the highest first. *)
Definition six_bytes (n : Z) : list Z := map (fun k => n / 256 ^ k mod 256) [5; 4; 3; 2; 1; 0].
(** Elements [a] to [b - 1]. *)
Definition part (a b : nat) (l : list Z) : list Z := map (fun i => nth i l 0) (seq a (b - a)).
(** The 18 bytes that come from the data. *)
Definition mixed (H1 H2 H3 : list Z -> list Z) (d : list Z) : list Z := part 4 10 (H1 d) ++ part 7 13 (H2 d) ++ part 1 7 (H3 d).
(** The fingerprint of data [d] with the size shown as [n]. *)
Definition print_of H1 H2 H3 (n : Z) (d : list Z) : list Z := six_bytes n ++ mixed H1 H2 H3 d.

(** Lower-case hexadecimal text. *)
Definition hexs (l : list Z) : list Z :=
  flat_map (fun b => map (fun v => nth (Z.to_nat v) (bytes_of "0123456789abcdef") 0) [b / 16; b mod 16]) l.
(** The fingerprint as text. *)
Definition text_of H1 H2 H3 (n : Z) (d : list Z) : list Z :=
  hexs (six_bytes n) ++ [45] ++ hexs (part 4 10 (H1 d)) ++ [45] ++ hexs (part 7 13 (H2 d)) ++ [45] ++ hexs (part 1 7 (H3 d)).

(** The hash functions of the standard library: lengths and bytes. *)
Definition byte_list (l : list Z) : Prop := Forall (fun b => 0 <= b < 256) l.
Definition real_hashes (H1 H2 H3 : list Z -> list Z) : Prop :=
  forall d, (length (H1 d) = 16%nat /\ byte_list (H1 d)) /\ (length (H2 d) = 20%nat /\ byte_list (H2 d)) /\ (length (H3 d) = 8%nat /\ byte_list (H3 d)).

(** What package hash asks of a hash (documentation of hash.Hash), for checksums
    [F] of [sz] bytes; the state is the bytes written since the last Reset. *)
Definition hash_step (F : list Z -> list Z) (sz : Z) (d : list Z) (op : fp_op) : list Z * fp_obs :=
  match op with
  | FWrite p => (d ++ p, ONum (zlen p))
  | FReset => ([], ONone)
  | FSum b => (d, OBytes (b ++ F d))
  | FSize => (d, ONum sz)
  | _ => (d, ONone)
  end.

(** What a Fingerprint does: the state is the bytes written since the last Reset,
    and the number of bytes written since it was made or since the last Resetsize,
    which Reset keeps. *)
Definition print_step (H1 H2 H3 : list Z -> list Z) (s : list Z * Z) (op : fp_op) : (list Z * Z) * fp_obs :=
  let (d, n) := s in
  match op with
  | FWrite p => ((d ++ p, (n + zlen p + 9223372036854775808) mod 18446744073709551616 - 9223372036854775808), ONum (zlen p))
  | FReset => (([], n), ONone)
  | FResetsize m => ((d, m), ONone)
  | FSum _ => (s, OBytes (print_of H1 H2 H3 n d))
  | FString => (s, OBytes (text_of H1 H2 H3 n d))
  | FSize => (s, ONum n)
  | FBlockSize => (s, ONum 24)
  end.
(** A text without its dashes. *)
Definition no_dash (s : list Z) : list Z := filter (fun c => negb (c =? 45)) s.

(** The checksum of [s] with method [m]; the length of [s] is below 2^63. *)
Definition checksum (H : Z -> list Z -> list Z) (m : Z) (s : list Z) : list Z :=
  if m =? 7 then print_of (H 1) (H 2) (H 6) (zlen s) s else H m s.
(** Proper checksum functions. *)
Definition std_hashes (H : Z -> list Z -> list Z) : Prop :=
  real_hashes (H 1) (H 2) (H 6) /\ forall m s, byte_list (H m s).
(** Four bytes of a number, the highest first. *)
Definition four_bytes (n : Z) : list Z := map (fun k => n / 256 ^ k mod 256) [3; 2; 1; 0].
