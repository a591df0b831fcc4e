(** C205: the AES helper with AES itself. *)
From Coq Require Import ZArith List Bool.
From Verif Require Import GoBase CryptoSpec AesSpec AesProofs AesChain AesStd CryptoModel AesModel.
Import ListNotations.
Open Scope Z_scope.

(** C205: AES (FIPS 197) is a block cipher for every key of 16, 24 or 32 bytes: decryption of a block undoes encryption, and
    the other way round. *)
Theorem C205_aes_cipher : block_cipher 16 (fun k => bytes k /\ (zlen k = 16 \/ zlen k = 24 \/ zlen k = 32)) aes_E aes_D.
Proof. exact aes_cipher. Qed.
Print Assumptions C205_aes_cipher.

(** C205: the helper with AES, without assumptions on the cipher: messages encrypted in order and decrypted in order come
    back; the texts together are one CBC chain over the padded messages, which starts with the first 16 bytes of the key. *)
Theorem C205_aes_helper : forall key ms, bytes key -> zlen key = 16 \/ zlen key = 24 \/ zlen key = 32 -> Forall bytes ms ->
  exists m m' cs ps qs, aes_new key = Some m /\ encrypt_all aes_E m ms = Ok (m', cs) /\ decrypt_all aes_D m cs = Ok (m', ms) /\
    concat ps = concat (map padded ms) /\ concat qs = concat cs /\ cbc (aes_E key) (firstn 16 key) ps qs (am_iv m') /\
    Forall (fun q => length q = 16%nat) qs.
Proof. exact aes_helper. Qed.
Print Assumptions C205_aes_helper.

(** C205: the tables of the cipher are those of the field with 256 elements. *)
Theorem C205_aes_tables :
  (forall x, byte x -> exists y, byte y /\ (x = 0 /\ y = 0 \/ field_mul x y = 1) /\
     byte (sub_byte x) /\ forall i, 0 <= i < 8 -> Z.testbit (sub_byte x) i = affine_bit y i) /\
  (forall c x, In c [1; 2; 3; 9; 11; 13; 14] -> byte x -> gmul c x = field_mul c x).
Proof. exact aes_tables. Qed.
Print Assumptions C205_aes_tables.

(** C205: the cipher is that of the formulas of the standard, by place and number. *)
Theorem C205_aes_standard : forall nk key, nk = 4%nat \/ nk = 6%nat \/ nk = 8%nat -> bytes key -> length key = (4 * nk)%nat ->
  exists w, std_schedule nk key w /\ forall b, bytes b -> length b = 16%nat -> aes_E key b = std_cipher (nk + 6) w b.
Proof. exact aes_std. Qed.
Print Assumptions C205_aes_standard.

(** The example vectors of FIPS 197, appendix C. *)
Example C205_ex :
  aes_E (fips_key 16) fips_block = [105; 196; 224; 216; 106; 123; 4; 48; 216; 205; 183; 128; 112; 180; 197; 90] /\
  aes_E (fips_key 24) fips_block = [221; 169; 124; 164; 134; 76; 223; 224; 110; 175; 112; 160; 236; 13; 113; 145] /\
  aes_E (fips_key 32) fips_block = [142; 162; 183; 202; 81; 103; 69; 191; 234; 252; 73; 144; 75; 73; 96; 137] /\
  aes_D (fips_key 16) (aes_E (fips_key 16) fips_block) = fips_block.
Proof. vm_compute. repeat split. Qed.
