(** Properties C103 to C107: package hash. *)
From Coq Require Import String ZArith List Bool.
From Verif Require Import GoBase GoStrings ConcBase MathSpec SumModel SumSpec SumProofs.
Import ListNotations.
Open Scope Z_scope.

(** C103: Fingerprint as a hash.Hash, part: for data written in any pieces, with no
    Reset, Sum(nil) is the 24-byte fingerprint of the data, and Sum does not change
    the state. Missing, and false (below): Sum(b) appends to b, Size is the length
    of the sum, Reset goes back to the initial state. *)
Theorem C103_chunks_partial : forall H1 H2 H3, real_hashes H1 H2 H3 -> forall ps : list (list Z), zlen (concat ps) < 2 ^ 63 ->
  exists s, run_ops (fp_step H1 H2 H3) fp_new (map FWrite ps) = Ok (s, map (fun p => ONum (zlen p)) ps) /\
    fp_step H1 H2 H3 s (FSum []) = Ok (s, OBytes (print_of H1 H2 H3 (zlen (concat ps)) (concat ps))) /\
    length (print_of H1 H2 H3 (zlen (concat ps)) (concat ps)) = 24%nat.
Proof. exact fp_chunks. Qed.
Print Assumptions C103_chunks_partial.
Example C103_ex : print_of ex_h1 ex_h2 ex_h3 3 [7; 8; 9] = [0; 0; 0; 0; 0; 3; 28; 29; 30; 31; 32; 33; 10; 11; 12; 13; 14; 15; 2; 3; 4; 5; 6; 7].
Proof. vm_compute. reflexivity. Qed.
Theorem C103_append_refuted : forall H1 H2 H3, real_hashes H1 H2 H3 -> forall s b, b <> [] -> forall d n, s = FPrint d d d n ->
  exists r, fp_step H1 H2 H3 s (FSum []) = Ok (s, OBytes r) /\ fp_step H1 H2 H3 s (FSum b) = Ok (s, OBytes r) /\ r <> b ++ r.
Proof. exact sum_ignores. Qed.
Print Assumptions C103_append_refuted.
Theorem C103_size_refuted : exists ops s r, run_ops (fp_step ex_h1 ex_h2 ex_h3) fp_new ops = Ok (s, [ONum 1; ONum 1; OBytes r]) /\
  ops = [FWrite [7]; FSize; FSum []] /\ zlen r <> 1.
Proof. exact size_wrong. Qed.
Print Assumptions C103_size_refuted.
(** Whatever the hash functions, after Reset the same data has another sum. *)
Theorem C103_reset_refuted : forall H1 H2 H3, real_hashes H1 H2 H3 -> forall p, 0 < zlen p < 2 ^ 48 ->
  exists s a b, run_ops (fp_step H1 H2 H3) fp_new [FWrite p; FSum []; FReset; FWrite p; FSum []] =
    Ok (s, [ONum (zlen p); OBytes a; ONone; ONum (zlen p); OBytes b]) /\ a <> b.
Proof. exact reset_keeps. Qed.
Print Assumptions C103_reset_refuted.

(** C104: what a Fingerprint does in every history: the data counts since the last
    Reset, the size since the last Resetsize. *)
Theorem C104_fingerprint_exact : forall H1 H2 H3, real_hashes H1 H2 H3 -> forall ops,
  exists s, run_ops (fp_step H1 H2 H3) fp_new ops = Ok (s, snd (spec_ops (print_step H1 H2 H3) ([], 0) ops)).
Proof. exact fp_exact. Qed.
Print Assumptions C104_fingerprint_exact.
Example C104_ex :
  run_ops (fp_step ex_h1 ex_h2 ex_h3) fp_new [FWrite [7]; FReset; FWrite [8; 9]; FSize; FString; FResetsize (-1); FSum [5]] =
  Ok (FPrint [8; 9] [8; 9] [8; 9] (-1), [ONum 1; ONone; ONum 2; ONum 3; OBytes (bytes_of "000000000003-15161718191a-090a0b0c0d0e-020304050607"); ONone;
      OBytes [255; 255; 255; 255; 255; 255; 21; 22; 23; 24; 25; 26; 9; 10; 11; 12; 13; 14; 2; 3; 4; 5; 6; 7]]).
Proof. vm_compute. reflexivity. Qed.
Example C104_hashes_ex : real_hashes ex_h1 ex_h2 ex_h3.
Proof. exact ex_hashes. Qed.

(** C105: String without the dashes is the hexadecimal text of Sum. *)
Theorem C105_text_is_sum : forall H1 H2 H3, real_hashes H1 H2 H3 -> forall d n, exists a b,
  fp_step H1 H2 H3 (FPrint d d d n) FString = Ok (FPrint d d d n, OBytes a) /\
  fp_step H1 H2 H3 (FPrint d d d n) (FSum []) = Ok (FPrint d d d n, OBytes b) /\ no_dash a = hexs b.
Proof. exact string_sum. Qed.
Print Assumptions C105_text_is_sum.
Example C105_ex : fp_step ex_h1 ex_h2 ex_h3 (FPrint [1] [1] [1] 258) FString =
    Ok (FPrint [1] [1] [1] 258, OBytes (bytes_of "000000000102-05060708090a-08090a0b0c0d-020304050607")) /\
  hexs [0; 0; 0; 0; 1; 2] = bytes_of "000000000102".
Proof. vm_compute. auto. Qed.

(** C106: StringHash is the hexadecimal checksum of the string and StringHashL puts
    the length and a dash before it, for every method but NONE; equal texts come
    from equal checksums, and with StringHashL from equal lengths. Unknown methods
    panic. *)
Theorem C106_string_hash : forall H, std_hashes H -> forall gid m s, 1 <= m <= 7 -> zlen s < 2 ^ 63 ->
  string_hash H gid m s = Ok (gid, hexs (checksum H m s)) /\
  exists len, Forall is_digit len /\ digits_value len = zlen s /\ (10 <= length len)%nat /\
    string_hash_l H gid m s = Ok (gid, len ++ 45 :: hexs (checksum H m s)).
Proof. exact string_hash_eq. Qed.
Print Assumptions C106_string_hash.
Theorem C106_injective : forall H, std_hashes H -> forall gid gid' m s s' t g g', 1 <= m <= 7 -> zlen s < 2 ^ 63 -> zlen s' < 2 ^ 63 ->
  (string_hash H gid m s = Ok (g, t) -> string_hash H gid' m s' = Ok (g', t) -> checksum H m s = checksum H m s') /\
  (string_hash_l H gid m s = Ok (g, t) -> string_hash_l H gid' m s' = Ok (g', t) -> zlen s = zlen s' /\ checksum H m s = checksum H m s').
Proof. exact string_hash_inj. Qed.
Print Assumptions C106_injective.
Theorem C106_unknown : forall H gid m s, m < 0 \/ 7 < m -> string_hash H gid m s = Panic /\ string_hash_l H gid m s = Panic.
Proof. exact string_hash_unknown. Qed.
Print Assumptions C106_unknown.
Example C106_ex : string_hash_l ex_H 0 5 (bytes_of "abc") = Ok (0, bytes_of "0000000003-03") /\
  string_hash ex_H 0 7 (bytes_of "a") = Ok (0, bytes_of "00000000000165666768696a08090a0b0c0d020304050607").
Proof. vm_compute. auto. Qed.
Example C106_hashes_ex : std_hashes ex_H.
Proof. exact ex_std_hashes. Qed.

(** C107: method NONE gives every call another text, part: 2^32 calls one after the
    other. Missing: calls from several goroutines (refuted below). *)
Theorem C107_none_unique_partial : forall H gid ss, Z.of_nat (length ss) <= 2 ^ 32 ->
  exists g l, run_ops (fun g s => string_hash H g 0 s) gid ss = Ok (g, l) /\ NoDup l.
Proof. exact none_unique. Qed.
Print Assumptions C107_none_unique_partial.
Example C107_ex : run_ops (fun g s => string_hash ex_H g 0 s) 0 [[1]; [1]; []] =
  Ok (3, [bytes_of "00000001"; bytes_of "00000002"; bytes_of "00000003"]).
Proof. vm_compute. reflexivity. Qed.
Theorem C107_none_race_refuted : exists sched id, let h := snd (crun nh_step nh_init sched) in In (Ret 1%nat tt id) h /\ In (Ret 2%nat tt id) h.
Proof. exact none_race. Qed.
Print Assumptions C107_none_race_refuted.
