(** Properties of padding, AES, triple DES, hexadecimal text and hashing. *)
From Coq Require Import ZArith List Bool Lia.
From Verif Require Import GoBase SortSliceModel CryptoModel CryptoSpec CryptoProofs CryptoCipher CryptoMain.
Import ListNotations.
Open Scope Z_scope.

(** C41, the part that holds: padding fills whole blocks; PKCS5 and PKCS7
    unpadding restores the data exactly when fewer than 256 bytes were added,
    hence for all block sizes up to 255; zero unpadding restores the data without
    its trailing zeros, hence exactly the data that does not end in zero; a block
    size that is not positive panics. Missing: the other cases, false below. *)
Theorem C41_padding_partial : forall d bs, bytes d ->
  (1 <= bs -> exists z p,
     zero_padding d bs = Ok z /\ pkcs5_padding d bs = Ok p /\ pkcs7_padding d bs = Ok p /\
     pads bs d z /\ pads bs d p /\ bytes z /\ bytes p /\
     without_trailing_zeros d (zero_unpadding z) /\ (zero_unpadding z = d <-> d = [] \/ last d 0 <> 0) /\
     pkcs7_unpadding p = pkcs5_unpadding p /\
     (pkcs5_unpadding p = Ok d <-> zlen p - zlen d < 256)) /\
  (bs <= 0 -> zero_padding d bs = Panic /\ pkcs5_padding d bs = Panic /\ pkcs7_padding d bs = Panic).
Proof. exact padding_partial. Qed.
Print Assumptions C41_padding_partial.

(** C41 is false: data that ends in zero; block size 256; block size 0. *)
Theorem C41_padding_refuted :
  (exists d bs z, 1 <= bs /\ bytes d /\ zero_padding d bs = Ok z /\ zero_unpadding z <> d) /\
  (exists d bs p, 1 <= bs /\ bytes d /\ pkcs5_padding d bs = Ok p /\ pkcs7_padding d bs = Ok p /\ pkcs5_unpadding p <> Ok d /\ pkcs7_unpadding p <> Ok d) /\
  (exists d bs, bytes d /\ zero_padding d bs = Panic).
Proof. exact padding_refuted. Qed.
Print Assumptions C41_padding_refuted.

(** C41: unpadding of arbitrary data. *)
Theorem C41_unpadding_exact : forall b, bytes b ->
  pkcs7_unpadding b = pkcs5_unpadding b /\
  pkcs5_unpadding b =
    match b with
    | [] => Panic
    | _ => if last b 0 <=? zlen b then Ok (firstn (Z.to_nat (zlen b - last b 0)) b) else Panic
    end.
Proof. exact unpadding_exact. Qed.
Print Assumptions C41_unpadding_exact.

Example C41_ex : pkcs7_padding [1; 2; 3; 0; 255] 4 = Ok [1; 2; 3; 0; 255; 3; 3; 3] /\
  pkcs5_padding [7; 7; 7; 7] 4 = Ok [7; 7; 7; 7; 4; 4; 4; 4] /\
  pkcs5_unpadding [7; 7; 7; 7; 4; 4; 4; 4] = Ok [7; 7; 7; 7] /\
  zero_padding [5; 0; 6] 4 = Ok [5; 0; 6; 0] /\ zero_unpadding [5; 0; 6; 0] = [5; 0; 6] /\
  pkcs7_unpadding [1; 2; 9] = Panic.
Proof. vm_compute. auto 10. Qed.

(** C75: ZeroPadding and PKCS5Padding leave the visible data of the caller's
    slice alone, but write the padding bytes into its spare capacity when that is
    large enough for all of them, and nowhere else. *)
Theorem C75_padding_memory : forall grow (s : gslice Z) fill padding, (glen s <= length (garr s))%nat -> 0 <= padding ->
  let (r, s') := pad_append grow s fill padding in
  visible r = visible s ++ repeat fill (Z.to_nat padding) /\
  visible s' = visible s /\ glen s' = glen s /\
  (forall i, nth i (garr s') 0 =
     if (glen s <=? i)%nat && (i <? glen s + Z.to_nat padding)%nat && (glen s + Z.to_nat padding <=? length (garr s))%nat
     then fill else nth i (garr s) 0).
Proof. exact pad_append_spec. Qed.
Print Assumptions C75_padding_memory.

(** Padding the first three bytes of a buffer of eight to a block of four
    overwrites its fourth byte. *)
Example C75_ex : garr (snd (pad_append (fun n => n) (GSlice [1; 2; 3; 4; 5; 6; 7; 8] 3) 1 1)) = [1; 2; 3; 1; 5; 6; 7; 8] /\
  garr (snd (pad_append (fun n => n) (GSlice [1; 2; 3] 3) 1 1)) = [1; 2; 3].
Proof. vm_compute. auto. Qed.

(** C42: an AES encrypter and decrypter with the same key reproduce every
    sequence of messages, whatever the block cipher; keys of other lengths are
    refused. *)
Theorem C42_aes_roundtrip : forall E D key ms,
  block_cipher 16 (fun k => bytes k /\ (zlen k = 16 \/ zlen k = 24 \/ zlen k = 32)) E D -> bytes key -> Forall bytes ms ->
  (zlen key = 16 \/ zlen key = 24 \/ zlen key = 32 ->
   exists m m' cs, aes_new key = Some m /\ encrypt_all E m ms = Ok (m', cs) /\ decrypt_all D m cs = Ok (m', ms) /\
     Forall2 (fun b c => bytes c /\ (16 | zlen c) /\ zlen b < zlen c <= zlen b + 16) ms cs) /\
  (aes_new key = None <-> ~ (zlen key = 16 \/ zlen key = 24 \/ zlen key = 32)).
Proof. exact aes_main. Qed.
Print Assumptions C42_aes_roundtrip.

Example C42_ex : match aes_new (repeat 9 16) with
  | None => False
  | Some m => exists c1 c2 m', encrypt_all toy_E m [[1; 2; 3]; [1; 2; 3]] = Ok (m', [c1; c2]) /\ c1 <> c2 /\
      length c1 = 16%nat /\ decrypt_all toy_D m [c1; c2] = Ok (m', [[1; 2; 3]; [1; 2; 3]])
  end.
Proof. vm_compute. eexists _, _, _. split; [reflexivity|]. repeat split; discriminate. Qed.

(** The toy cipher of the examples is a block cipher, for every block size. *)
Example C42_toy : forall n ok, block_cipher n ok toy_E toy_D.
Proof. exact toy_cipher. Qed.

(** C76: decrypting out of order. A message of at least one block, encrypted in
    one state and decrypted in any other state with the same key, loses exactly
    its first block; afterwards both sides are in step again. *)
Theorem C76_aes_out_of_order : forall E D m iv2 b,
  block_cipher 16 (fun k => bytes k /\ (zlen k = 16 \/ zlen k = 24 \/ zlen k = 32)) E D ->
  bytes (am_key m) -> (zlen (am_key m) = 16 \/ zlen (am_key m) = 24 \/ zlen (am_key m) = 32) ->
  bytes (am_iv m) -> length (am_iv m) = 16%nat -> bytes iv2 -> length iv2 = 16%nat -> bytes b -> 16 <= zlen b ->
  exists m' c r, aes_encrypt E m b = Ok (m', c) /\ aes_decrypt D (AesMode (am_key m) iv2) c = Ok (m', r) /\
    length r = length b /\ skipn 16 r = skipn 16 b /\
    firstn 16 r = xor_bytes (xor_bytes (firstn 16 b) (am_iv m)) iv2 /\
    (r = b <-> am_iv m = iv2).
Proof. exact aes_order. Qed.
Print Assumptions C76_aes_out_of_order.

Example C76_ex :
  let b := repeat 5 20 in let m := AesMode (repeat 9 16) (repeat 1 16) in
  exists m' c, aes_encrypt toy_E m b = Ok (m', c) /\
    aes_decrypt toy_D (AesMode (repeat 9 16) (repeat 3 16)) c = Ok (m', repeat 7 16 ++ repeat 5 4).
Proof. vm_compute. eexists _, _. split; reflexivity. Qed.

(** C43, the part that holds: decryption gives the message without its trailing
    zeros, for keys of every length; texts of a wrong length are refused, and no
    others. Missing: messages that end in zero. *)
Theorem C43_tdes_partial : forall E D key m,
  block_cipher 8 (fun k => bytes k /\ length k = 8%nat) E D -> bytes key -> bytes m ->
  (exists c r, tdes_encrypt E D m key = Ok (Some c) /\ (8 | zlen c) /\ zlen m < zlen c <= zlen m + 8 /\
     tdes_decrypt E D c key = Some r /\ without_trailing_zeros m r /\ (r = m <-> m = [] \/ last m 0 <> 0)) /\
  (tdes_decrypt E D m key = None <-> m = [] \/ zlen m mod 8 <> 0).
Proof. exact tdes_partial. Qed.
Print Assumptions C43_tdes_partial.

(** C43 is false for messages that end in zero, whatever the cipher. *)
Theorem C43_tdes_refuted : exists m, bytes m /\ forall E D key,
  block_cipher 8 (fun k => bytes k /\ length k = 8%nat) E D -> bytes key ->
  exists c r, tdes_encrypt E D m key = Ok (Some c) /\ tdes_decrypt E D c key = Some r /\ r <> m.
Proof. exact tdes_refuted. Qed.
Print Assumptions C43_tdes_refuted.

Example C43_ex : exists c, tdes_encrypt toy_E toy_D [7; 0; 8] [1; 2; 3] = Ok (Some c) /\ tdes_decrypt toy_E toy_D c [1; 2; 3] = Some [7; 0; 8] /\
  tdes_decrypt toy_E toy_D [1; 2; 3] [1] = None.
Proof. vm_compute. eexists. repeat split. Qed.

(** C77: only the first 24 bytes of a triple DES key count, and a shorter key is
    the same as the key filled up with zeros. *)
Theorem C77_tdes_keys : forall E D data k1 k2, firstn 24 (k1 ++ repeat 0 24) = firstn 24 (k2 ++ repeat 0 24) ->
  tdes_encrypt E D data k1 = tdes_encrypt E D data k2 /\ tdes_decrypt E D data k1 = tdes_decrypt E D data k2.
Proof. exact tdes_key_prefix. Qed.
Print Assumptions C77_tdes_keys.

Example C77_ex : tdes_encrypt toy_E toy_D [7; 0; 8] [1; 2; 3] = tdes_encrypt toy_E toy_D [7; 0; 8] [1; 2; 3; 0; 0; 0] /\
  tdes_encrypt toy_E toy_D [7; 0; 8] [1; 2; 3] <> tdes_encrypt toy_E toy_D [7; 0; 8] [2; 2; 3].
Proof. vm_compute. split; [reflexivity|discriminate]. Qed.

(** C78: Encode gives base64 text, and Decode gives the source back without its
    trailing zeros. *)
Theorem C78_encode_decode : forall E D src,
  block_cipher 8 (fun k => bytes k /\ length k = 8%nat) E D -> bytes src ->
  exists t r, code_encode E D src = Ok t /\ Forall is_b64 t /\ t <> [] /\ (4 | zlen t) /\
    code_decode E D t = r /\ without_trailing_zeros src r.
Proof. exact encode_decode. Qed.
Print Assumptions C78_encode_decode.

Example C78_ex : exists t, code_encode toy_E toy_D [72; 105] = Ok t /\ length t = 12%nat /\ code_decode toy_E toy_D t = [72; 105].
Proof. vm_compute. eexists. repeat split. Qed.

(** C79: hexadecimal text. *)
Theorem C79_hex : 
  (forall b, bytes b -> hex_to_bytes (bytes_to_hex b) = Some b /\ Forall is_lower_hex (bytes_to_hex b) /\
     length (bytes_to_hex b) = (2 * length b)%nat) /\
  (forall s, (exists b, hex_to_bytes s = Some b) <-> Nat.even (length s) = true /\ Forall is_hex s) /\
  (forall s b, hex_to_bytes s = Some b -> bytes b /\ 
     bytes_to_hex b = map (fun c => if (65 <=? c) && (c <=? 70) then c + 32 else c) s).
Proof. exact hex_main. Qed.
Print Assumptions C79_hex.

Example C79_ex : hex_to_bytes [70; 102; 48; 57] = Some [255; 9] /\ bytes_to_hex [255; 9] = [102; 102; 48; 57] /\ hex_to_bytes [70; 103] = None.
Proof. vm_compute. auto. Qed.

(** C80: Hash and HashString agree on two sources only if SHA-512 collides on
    two different inputs: the salted repetition loses nothing. *)
Theorem C80_hash_salt : forall H s1 s2,
  (code_hash H s1 = code_hash H s2 -> s1 = s2 \/ exists x y, x <> y /\ H x = H y) /\
  ((forall x, bytes (H x)) -> code_hash_string H s1 = code_hash_string H s2 -> s1 = s2 \/ exists x y, x <> y /\ H x = H y) /\
  code_hash_string H s1 = bytes_to_hex (code_hash H s1) /\
  (exists x, code_hash H s1 = H x /\ zlen x = 5 * (zlen s1 + 48)).
Proof. exact hash_salt. Qed.
Print Assumptions C80_hash_salt.

Example C80_ex : code_hash (fun x => x) [1] <> code_hash (fun x => x) [2] /\ zlen (code_hash (fun x => x) [1; 2]) = 250.
Proof. vm_compute. split; [discriminate|reflexivity]. Qed.
