(** Properties of crypto/rsa/rsa.go. *)
From Coq Require Import ZArith List Bool Znumtheory.
From Verif Require Import GoBase RsaModel RsaSpec RsaProofs RsaMore RsaSign RsaApi RsaKeys RsaWitness RsaStd CryptoSpec.
Import ListNotations.
Local Open Scope Z_scope.

(** C162: GenRsaKeys returns a pair of texts from which a client and a server can be made, and the
    server decrypts every message the client encrypted, whatever the random bytes. *)
Theorem C162_round_trip : forall S bits private public, std_ok S -> generated S bits private public ->
  exists c s, new_client S public = Ok (Val c) /\ new_server S private = Ok (Val s) /\
    must_new_client S public = Ok c /\ must_new_server S private = Ok s /\
    forall rs msg ct, bytes rs -> bytes msg -> encrypt c rs msg = Ok (Val ct) -> decrypt S s ct = Ok (Val msg).
Proof. exact generated_works. Qed.
Print Assumptions C162_round_trip.
Theorem C162_gen_returns : forall S k, std_ok S -> rsa_key k ->
  exists private public, gen_rsa_keys S (Some k) = Val (private, public).
Proof. exact gen_returns. Qed.
Print Assumptions C162_gen_returns.
Example C162_ex :
  pair_of (toy_std true) 101 (Some (sk_pub key101)) (Some key101) /\
  (let rs := [7; 0; 1; 0; 200; 5; 6; 7; 66; 0; 9] in
   match encrypt (Some (sk_pub key101)) rs [72; 0] with
   | Ok (Val ct) => length ct = 13%nat /\ ct <> [0; 2] ++ [7; 75] /\ decrypt (toy_std true) (Some key101) ct = Ok (Val [72; 0])
   | _ => False
   end).
Proof. split; [apply pair101|]. vm_compute. repeat split; congruence. Qed.

(** C163: exactly the messages that are at least 11 bytes shorter than the modulus can be
    encrypted, and the ciphertext is as long as the modulus. *)
Theorem C163_length_limit : forall S bits c s rs msg, std_ok S -> pair_of S bits c s -> bytes rs -> bytes msg ->
  (byte_len bits - 11 < zlen msg -> encrypt c rs msg = Ok (Err ETooLong)) /\
  (zlen msg <= byte_len bits - 11 ->
     encrypt c rs msg = Ok (Err ERandom) \/ exists ct, encrypt c rs msg = Ok (Val ct) /\ bytes ct /\ zlen ct = byte_len bits) /\
  (zlen msg <= byte_len bits - 11 -> Forall (fun x => x <> 0) rs -> byte_len bits - 3 <= zlen rs + zlen msg ->
     exists ct, encrypt c rs msg = Ok (Val ct)).
Proof. exact encrypt_limit. Qed.
Print Assumptions C163_length_limit.
Example C163_ex :
  byte_len 101 = 13 /\
  encrypt (Some (sk_pub key101)) [1; 2; 3; 4; 5; 6; 7; 8] [1; 2; 3] = Ok (Err ETooLong) /\
  encrypt (Some (sk_pub key101)) [1; 2; 3; 4; 5; 6; 7] [1; 2] = Ok (Err ERandom) /\
  encrypt (Some (sk_pub key101)) [1; 2; 3; 4; 5; 6; 7; 66] [1; 2] <> Ok (Err ERandom).
Proof. vm_compute. repeat split; congruence. Qed.

(** C164: among the byte strings as long as the modulus, Decrypt accepts exactly those that Encrypt can
    return, and gives the message they were made from; on any input it returns a message or ErrDecryption. *)
Theorem C164_decrypt_exact : forall S bits c s ct msg, std_ok S -> pair_of S bits c s -> bytes ct -> zlen ct = byte_len bits ->
  (decrypt S s ct = Ok (Val msg) <-> bytes msg /\ exists rs, bytes rs /\ encrypt c rs msg = Ok (Val ct)).
Proof. exact decrypt_exact. Qed.
Print Assumptions C164_decrypt_exact.
Theorem C164_decrypt_returns : forall S bits c s ct, std_ok S -> pair_of S bits c s ->
  (exists msg, decrypt S s ct = Ok (Val msg)) \/ decrypt S s ct = Ok (Err EDecryption).
Proof. exact decrypt_never_panics. Qed.
Print Assumptions C164_decrypt_returns.
Example C164_ex :
  decrypt (toy_std true) (Some key101) [1; 2; 3; 4; 5; 6; 7; 8; 9; 10; 11; 12; 13] = Ok (Err EDecryption) /\
  decrypt (toy_std false) (Some key101) (repeat 255 13) = Ok (Err EDecryption) /\
  decrypt (toy_std false) (Some key101) [] = Ok (Err EDecryption).
Proof. vm_compute. repeat split. Qed.

(** C165: Verify accepts what Sign returned.  SignDefault succeeds exactly for keys of at
    least 745 bits; with a smaller key VerifyDefault rejects everything. *)
Theorem C165_sign_verify : forall S bits c s src h sig, std_ok S -> pair_of S bits c s ->
  sign S s src h = Ok (Val sig) -> bytes sig /\ zlen sig = byte_len bits /\ verify S c src sig h = Ok None.
Proof. exact sign_verify. Qed.
Print Assumptions C165_sign_verify.
Theorem C165_sign_default : forall S bits c s src, std_ok S -> pair_of S bits c s ->
  (745 <= bits -> exists sig, sign_default S s src = Ok (Val sig) /\ verify_default S c src sig = Ok None) /\
  (bits < 745 -> sign_default S s src = Ok (Err ETooLong) /\ forall sig, verify_default S c src sig = Ok (Some EVerification)).
Proof. exact sign_default_exact. Qed.
Print Assumptions C165_sign_default.
Example C165_ex :
  (exists sig, sign_default (toy_std true) (Some key751) [104; 105] = Ok (Val sig) /\ zlen sig = 94 /\
     verify_default (toy_std true) (Some (sk_pub key751)) [104; 105] sig = Ok None) /\
  sign_default (toy_std true) (Some key101) [104; 105] = Ok (Err ETooLong) /\
  sign (toy_std true) (Some key751) [104; 105] 14 = Ok (Err EHash).
Proof. exact sign_witness. Qed.

(** C166: a signature belongs to one digest.  What Verify accepts is what Sign returns (up to a multiple of the modulus
    in releases of package crypto/rsa that do not check its range), and a signature accepted for two texts means that
    the same hash function was used and gives both the same digest. *)
Theorem C166_verify_sign : forall S bits c s src h sig, std_ok S -> pair_of S bits c s -> bytes sig ->
  verify S c src sig h = Ok None ->
  exists sig', sign S s src h = Ok (Val sig') /\ (strict S = true -> sig = sig') /\
    (forall k, s = Some k -> (pk_n (sk_pub k) | num sig - num sig')).
Proof. exact verify_sign. Qed.
Print Assumptions C166_verify_sign.
Theorem C166_no_transfer : forall S bits c s src h H src' h' H' sig, std_ok S -> pair_of S bits c s ->
  hash_of S h = Some H -> hash_of S h' = Some H' ->
  verify S c src sig h = Ok None -> verify S c src' sig h' = Ok None -> h = h' /\ H src = H' src'.
Proof. exact no_transfer. Qed.
Print Assumptions C166_no_transfer.
Example C166_ex :
  exists sig, sign_default (toy_std true) (Some key751) [104; 105] = Ok (Val sig) /\
    verify_default (toy_std true) (Some (sk_pub key751)) [1; 2] sig = Ok None /\
    verify_default (toy_std true) (Some (sk_pub key751)) [1; 2; 3] sig <> Ok None.
Proof. exact transfer_witness. Qed.

(** C167: a ciphertext determines the message and the random bytes used; so encrypting a message again with other
    random bytes gives another ciphertext. *)
Theorem C167_ciphertexts_differ : forall S bits c s rs msg rs' msg' ct, std_ok S -> pair_of S bits c s ->
  bytes rs -> bytes rs' -> bytes msg -> bytes msg' ->
  Forall (fun x => x <> 0) rs -> Forall (fun x => x <> 0) rs' ->
  encrypt c rs msg = Ok (Val ct) -> encrypt c rs' msg' = Ok (Val ct) ->
  msg = msg' /\ firstn (Z.to_nat (byte_len bits - zlen msg - 3)) rs = firstn (Z.to_nat (byte_len bits - zlen msg - 3)) rs'.
Proof. exact encrypt_distinct. Qed.
Print Assumptions C167_ciphertexts_differ.
Example C167_ex :
  encrypt (Some (sk_pub key101)) [1; 2; 3; 4; 5; 6; 7; 8] [1; 2] <> encrypt (Some (sk_pub key101)) [1; 2; 3; 4; 5; 6; 7; 9] [1; 2] /\
  encrypt (Some (sk_pub key101)) [1; 2; 3; 4; 5; 6; 7; 8; 1] [1; 2] = encrypt (Some (sk_pub key101)) [1; 2; 3; 4; 5; 6; 7; 8; 2] [1; 2].
Proof. vm_compute. split; [congruence|reflexivity]. Qed.

(** C168: bad input is reported by an error.  Full statement: NewClient, NewServer, Sign and Verify never panic.
    NewServer never does; NewClient panics exactly for a public key that is not an RSA key; Sign and
    Verify panic for a hash function that is not linked into the program.  MustNewClient and MustNewServer panic exactly when
    the other function does not return a key. *)
Theorem C168_new_client_partial : forall S pem,
  (new_client S pem = Panic <-> exists der, pem_decode S pem = Some der /\ parse_pub S der = Some KOther) /\
  (forall c, new_client S pem = Ok (Val c) <-> exists der p, pem_decode S pem = Some der /\ parse_pub S der = Some (KRsa p) /\ c = Some p) /\
  (must_new_client S pem = Panic <-> forall c, new_client S pem <> Ok (Val c)).
Proof. exact new_client_exact. Qed.
Print Assumptions C168_new_client_partial.
Theorem C168_new_server : forall S pem,
  new_server S pem <> Panic /\
  (forall s, new_server S pem = Ok (Val s) <-> exists der k, pem_decode S pem = Some der /\ parse_priv S der = Some k /\ s = Some k) /\
  (must_new_server S pem = Panic <-> forall c, new_server S pem <> Ok (Val c)).
Proof. exact new_server_exact. Qed.
Print Assumptions C168_new_server.
Theorem C168_hash : forall S bits c s src sig h, std_ok S -> pair_of S bits c s ->
  (sign S s src h = Panic <-> hash_of S h = None) /\ (verify S c src sig h = Panic <-> hash_of S h = None).
Proof. exact hash_panics. Qed.
Print Assumptions C168_hash.
Theorem C168_errors_refuted : exists S pem bits c s src sig, std_ok S /\ new_client S pem = Panic /\
  pair_of S bits c s /\ sign S s src 1 = Panic /\ verify S c src sig 1 = Panic.
Proof. exact errors_witness. Qed.
Print Assumptions C168_errors_refuted.
Example C168_ex :
  new_client (toy_std true) [5] = Ok (Err EPublicKey) /\ new_client (toy_std true) [1; 3; 5; 6; 7] = Ok (Err EParse) /\
  new_client (toy_std true) [1; 3; 5] = Panic /\ new_client (toy_std true) [1; 2; 15; 3] = Ok (Val (Some (Pub 15 3))) /\
  new_server (toy_std true) [1; 2; 15; 3] = Ok (Err EParse) /\ must_new_server (toy_std true) [1; 2; 15; 3] = Panic.
Proof. vm_compute. repeat split. Qed.

(** C177: other programs can read what this package writes and the other way round: ciphertexts and signatures are
    those of RFC 8017, RSAES-PKCS1-v1_5 and RSASSA-PKCS1-v1_5. *)
Theorem C177_encrypt_standard : forall S bits c k rs msg ct, std_ok S -> pair_of S bits c (Some k) -> bytes rs -> bytes msg ->
  encrypt c rs msg = Ok (Val ct) ->
  exists em, eme (byte_len bits) msg em /\ num ct = num em ^ pk_e (sk_pub k) mod pk_n (sk_pub k).
Proof. exact encrypt_standard. Qed.
Print Assumptions C177_encrypt_standard.
Theorem C177_decrypt_standard : forall S bits c k msg em ct, std_ok S -> pair_of S bits c (Some k) -> bytes ct -> zlen ct = byte_len bits ->
  bytes msg -> eme (byte_len bits) msg em -> num ct = num em ^ pk_e (sk_pub k) mod pk_n (sk_pub k) ->
  decrypt S (Some k) ct = Ok (Val msg).
Proof. exact decrypt_standard. Qed.
Print Assumptions C177_decrypt_standard.
Theorem C177_sign_standard : forall S bits c k src h H arcs sig, std_ok S -> pair_of S bits c (Some k) ->
  hash_of S h = Some H -> hash_oid h arcs -> sign S (Some k) src h = Ok (Val sig) ->
  exists em, emsa (byte_len bits) arcs (H src) em /\ num sig ^ pk_e (sk_pub k) mod pk_n (sk_pub k) = num em.
Proof. exact sign_standard. Qed.
Print Assumptions C177_sign_standard.
Theorem C177_verify_standard : forall S bits c k src h H arcs sig em, std_ok S -> pair_of S bits c (Some k) ->
  hash_of S h = Some H -> hash_oid h arcs -> bytes sig -> zlen sig = byte_len bits -> num sig < pk_n (sk_pub k) ->
  emsa (byte_len bits) arcs (H src) em -> num sig ^ pk_e (sk_pub k) mod pk_n (sk_pub k) = num em ->
  verify S c src sig h = Ok None.
Proof. exact verify_standard. Qed.
Print Assumptions C177_verify_standard.
Example C177_ex :
  encrypt (Some (sk_pub key101)) [1; 2; 3; 4; 5; 6; 7; 8] [1; 2] =
    Ok (Val (i2osp 13 (num [0; 2; 1; 2; 3; 4; 5; 6; 7; 8; 0; 1; 2] ^ pk_e (sk_pub key101) mod pk_n (sk_pub key101)))) /\
  firstn 20 (der 48 (der 48 (oid [2; 16; 840; 1; 101; 3; 4; 2; 1] ++ der 5 []) ++ der 4 (repeat 7 32))) =
    [48; 49; 48; 13; 6; 9; 96; 134; 72; 1; 101; 3; 4; 2; 1; 5; 0; 4; 32; 7] /\
  (exists em, emsa 94 [2; 16; 840; 1; 101; 3; 4; 2; 3] (toy_hash 64 [104; 105]) em /\ length em = 94%nat).
Proof. exact standard_witness. Qed.
