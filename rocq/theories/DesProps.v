(** C206-C209: the triple DES helper with DES itself, and what texts show of the messages. *)
From Coq Require Import ZArith List Bool.
From Verif Require Import GoBase CryptoSpec AesSpec DesSpec DesProofs DesMain CryptoModel AesModel DesModel.
Import ListNotations.
Open Scope Z_scope.

(** C206: DES (FIPS 46-3) is a block cipher for every key of 8 bytes. *)
Theorem C206_des_cipher : block_cipher 8 (fun k => bytes k /\ length k = 8%nat) des_E des_D.
Proof. exact des_cipher. Qed.
Print Assumptions C206_des_cipher.

(** C206: TripleDesEncrypt with DES, without assumptions on the cipher: every block of the message filled up with zeros is
    encrypted, decrypted and encrypted with the three keys; decryption gives the message without its trailing zeros. *)
Theorem C206_tdes : forall key m, bytes key -> bytes m ->
  exists bs r, blocks_of 8 (zpadded m) bs /\
    let c := concat (map (fun b => des_E (key_part 2 key) (des_D (key_part 1 key) (des_E (key_part 0 key) b))) bs) in
    tdes_encrypt des_E des_D m key = Ok (Some c) /\ tdes_decrypt des_E des_D c key = Some r /\ without_trailing_zeros m r.
Proof. exact tdes_concrete. Qed.
Print Assumptions C206_tdes.

(** C206: Encode and Decode with DES. *)
Theorem C206_encode : forall src, bytes src ->
  exists t r, code_encode des_E des_D src = Ok t /\ Forall is_b64 t /\ t <> [] /\ (4 | zlen t) /\
    code_decode des_E des_D t = r /\ without_trailing_zeros src r.
Proof. exact encode_concrete. Qed.
Print Assumptions C206_encode.

(** A published vector, and one message with a key of 24 bytes. *)
Example C206_ex :
  des_E [19; 52; 87; 121; 155; 188; 223; 241] [1; 35; 69; 103; 137; 171; 205; 239] = [133; 232; 19; 84; 15; 10; 180; 5] /\
  des_E [124; 161; 16; 69; 74; 26; 110; 87] [1; 161; 214; 208; 57; 119; 103; 66] = [105; 15; 91; 13; 154; 38; 147; 155] /\
  match tdes_encrypt des_E des_D [72; 105; 0; 33] code_key with
  | Ok (Some c) => tdes_decrypt des_E des_D c code_key = Some [72; 105; 0; 33]
  | _ => False
  end.
Proof. vm_compute. repeat split. Qed.

Example C206_vectors : Forall (fun v => let '(k, b, c) := v in des_E k b = c /\ des_D k c = b) des_vectors.
Proof. repeat (apply Forall_cons; [vm_compute; split; reflexivity|]). constructor. Qed.

(** C207: the lowest bit of every key byte does not count: keys that differ only there encrypt and decrypt alike. *)
Theorem C207_parity : forall data k1 k2, same_but_parity k1 k2 ->
  tdes_encrypt des_E des_D data k1 = tdes_encrypt des_E des_D data k2 /\
  tdes_decrypt des_E des_D data k1 = tdes_decrypt des_E des_D data k2.
Proof. exact tdes_parity. Qed.
Print Assumptions C207_parity.

(** C207: with a key of at most 8 bytes the text is that of DES alone, whatever the cipher. *)
Theorem C207_short_key : forall E D key m, block_cipher 8 (fun k => bytes k /\ length k = 8%nat) E D -> bytes key -> bytes m -> (length key <= 8)%nat ->
  exists bs, blocks_of 8 (zpadded m) bs /\ tdes_encrypt E D m key = Ok (Some (concat (map (E (key_part 0 key)) bs))).
Proof. exact tdes_short. Qed.
Print Assumptions C207_short_key.

(** "password" and "qassword" are the same key; a key of 3 bytes is DES with zeros behind it. *)
Example C207_ex :
  tdes_encrypt des_E des_D [1; 2; 3] [112; 97; 115; 115] = tdes_encrypt des_E des_D [1; 2; 3] [113; 97; 115; 115] /\
  tdes_encrypt des_E des_D [1; 2; 3] [112; 97; 115; 115] <> tdes_encrypt des_E des_D [1; 2; 3] [114; 97; 115; 115] /\
  tdes_encrypt des_E des_D [1; 2; 3] [9; 9; 9] = Ok (Some (des_E [9; 9; 9; 0; 0; 0; 0; 0] [1; 2; 3; 0; 0; 0; 0; 0])).
Proof. vm_compute. repeat split. discriminate. Qed.

(** C208: blocks of texts are equal exactly where the blocks of the filled-up messages are, within one text and between
    texts with the same key. *)
Theorem C208_tdes_pattern : forall E D key m1 m2 c1 c2 i j, block_cipher 8 (fun k => bytes k /\ length k = 8%nat) E D ->
  bytes key -> bytes m1 -> bytes m2 ->
  tdes_encrypt E D m1 key = Ok (Some c1) -> tdes_encrypt E D m2 key = Ok (Some c2) ->
  (8 * i < length c1)%nat -> (8 * j < length c2)%nat ->
  (block 8 i c1 = block 8 j c2 <-> block 8 i (zpadded m1) = block 8 j (zpadded m2)).
Proof. exact tdes_pattern. Qed.
Print Assumptions C208_tdes_pattern.

Example C208_ex : match tdes_encrypt des_E des_D (repeat 7 16 ++ repeat 8 8) [1; 2; 3] with
  | Ok (Some c) => block 8 0 c = block 8 1 c /\ block 8 1 c <> block 8 2 c /\ length c = 32%nat
  | _ => False
  end.
Proof. vm_compute. repeat split. discriminate. Qed.

(** C209: two new AES encrypters with the same key: the texts of two messages begin alike for exactly as many blocks as the
    padded messages. *)
Theorem C209_aes_prefix : forall E D key m m1 m2 s1 s2 c1 c2 n,
  block_cipher 16 (fun k => bytes k /\ (zlen k = 16 \/ zlen k = 24 \/ zlen k = 32)) E D ->
  bytes key -> aes_new key = Some m -> bytes m1 -> bytes m2 ->
  aes_encrypt E m m1 = Ok (s1, c1) -> aes_encrypt E m m2 = Ok (s2, c2) ->
  (firstn (16 * n) c1 = firstn (16 * n) c2 <-> firstn (16 * n) (padded m1) = firstn (16 * n) (padded m2)).
Proof. exact aes_prefix. Qed.
Print Assumptions C209_aes_prefix.

Example C209_ex : match aes_new (repeat 9 16) with
  | None => False
  | Some m => exists s1 c1 s2 c2, aes_encrypt aes_E m (repeat 5 16 ++ [1]) = Ok (s1, c1) /\ aes_encrypt aes_E m (repeat 5 16 ++ [2]) = Ok (s2, c2) /\
      firstn 16 c1 = firstn 16 c2 /\ c1 <> c2
  end.
Proof. vm_compute. eexists _, _, _, _. split; [reflexivity|]. split; [reflexivity|]. split; [reflexivity|]. discriminate. Qed.
