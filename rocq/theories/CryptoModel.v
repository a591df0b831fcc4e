(** Models of crypto/padding.go, crypto/aes/aes.go, crypto/ecb/ecb.go and
    crypto/rsa/code.go.  Bytes are integers 0..255.  The block ciphers of the
    standard library are parameters [E] and [D]: key, block -> block. *)
From Coq Require Import ZArith List Bool.
From Verif Require Import GoBase SortSliceModel.
Import ListNotations.
Open Scope Z_scope.

(** Conversion to a byte (Go language; no /repo lines). *)
Definition to_byte (x : Z) : Z := wrap 8 x.

(** crypto/padding.go:5-9 ZeroPadding: a zero block size divides by zero, a
    negative repeat count panics. *)
Definition zero_padding (b : list Z) (bs : Z) : outcome (list Z) :=
  if bs =? 0 then Panic else
  let padding := bs - Z.rem (zlen b) bs in
  if padding <? 0 then Panic else Ok (b ++ repeat 0 (Z.to_nat padding)).
(** Dropping leading zeros (helper for the next definition; no /repo lines). *)
Fixpoint drop_zeros (b : list Z) : list Z :=
  match b with
  | x :: t => if x =? 0 then drop_zeros t else b
  | [] => []
  end.
(** crypto/padding.go:11-15 ZeroUnPadding.  bytes.TrimRightFunc looks at UTF-8
    characters, but only the byte 0 decodes to the character 0, so it removes
    the trailing zero bytes. *)
Definition zero_unpadding (b : list Z) : list Z := rev (drop_zeros (rev b)).
(** crypto/padding.go:17-21 PKCS5Padding. *)
Definition pkcs5_padding (b : list Z) (bs : Z) : outcome (list Z) :=
  if bs =? 0 then Panic else
  let padding := bs - Z.rem (zlen b) bs in
  if padding <? 0 then Panic else Ok (b ++ repeat (to_byte padding) (Z.to_nat padding)).
(** crypto/padding.go:23-28 PKCS5UnPadding. *)
Definition pkcs5_unpadding (b : list Z) : outcome (list Z) :=
  let length := zlen b in
  unpadding <- zget b (length - 1) ;;
  zslice b 0 (length - unpadding).

(** What ZeroPadding and PKCS5Padding do to the memory of the caller: the
    padded slice and the caller's slice afterwards ([fill] is the padding byte;
    crypto/padding.go:8, 20: append). *)
Definition pad_append (grow : nat -> nat) (s : gslice Z) (fill padding : Z) : gslice Z * gslice Z :=
  let r := gappend 0 grow s (repeat fill (Z.to_nat padding)) in
  (r, if (glen s + Z.to_nat padding <=? length (garr s))%nat then GSlice (garr r) (glen s) else s).

(** crypto/aes/aes.go:12-14: the loop of PKCS7Padding. *)
Fixpoint pad_loop (n : nat) (buf : list Z) (i v : Z) : outcome (list Z) :=
  match n with
  | O => Ok buf
  | S n => buf <- zset buf i v ;; pad_loop n buf (i + 1) v
  end.
(** crypto/aes/aes.go:8-16 PKCS7Padding (and 18-26 PKCS7PaddingString on the
    bytes of a string). *)
Definition pkcs7_padding (b : list Z) (bs : Z) : outcome (list Z) :=
  if bs =? 0 then Panic else
  let size := bs - Z.rem (zlen b) bs in
  if zlen b + size <? 0 then Panic else
  let buf := repeat 0 (Z.to_nat (zlen b + size)) in
  dst <- zslice buf 0 (zlen b) ;;
  let buf := fst (gocopy dst b) ++ skipn (length b) buf in
  pad_loop (Z.to_nat (zlen buf - zlen b)) buf (zlen b) (to_byte size).
(** crypto/aes/aes.go:28-31 PKCS7Unpadding. *)
Definition pkcs7_unpadding (b : list Z) : outcome (list Z) :=
  size <- zget b (zlen b - 1) ;;
  zslice b 0 (zlen b - size).

(** Bytewise exclusive or (standard library crypto/cipher; no /repo lines). *)
Definition xor_bytes (a b : list Z) : list Z := map (fun p => Z.lxor (fst p) (snd p)) (combine a b).

(** crypto/cipher CBC encrypter (standard library; no /repo lines), on whole
    blocks; the state is the last ciphertext block. Output and new state. *)
Fixpoint cbc_encrypt (E : list Z -> list Z) (n : nat) (iv src : list Z) : list Z * list Z :=
  match n with
  | O => ([], iv)
  | S n =>
      let c := E (xor_bytes (firstn 16 src) iv) in
      let (out, iv') := cbc_encrypt E n c (skipn 16 src) in (c ++ out, iv')
  end.
(** crypto/cipher CBC decrypter (standard library; no /repo lines). *)
Fixpoint cbc_decrypt (D : list Z -> list Z) (n : nat) (iv src : list Z) : list Z * list Z :=
  match n with
  | O => ([], iv)
  | S n =>
      let c := firstn 16 src in
      let (out, iv') := cbc_decrypt D n c (skipn 16 src) in (xor_bytes (D c) iv ++ out, iv')
  end.
(** CryptBlocks (standard library; no /repo lines): panics unless the input is a
    number of full blocks. *)
Definition crypt_blocks (f : nat -> list Z -> list Z -> list Z * list Z) (iv src : list Z) : outcome (list Z * list Z) :=
  if zlen src mod 16 =? 0 then Ok (f (Z.to_nat (zlen src / 16)) iv src) else Panic.

(** aes.NewCipher accepts keys of 16, 24 or 32 bytes (standard library; no
    /repo lines). *)
Definition aes_key_ok (key : list Z) : bool := (zlen key =? 16) || (zlen key =? 24) || (zlen key =? 32).
(** crypto/aes/aes.go:33-36, 66-69: AESEncrypter and AESDecrypter; the block
    size of AES is 16. *)
Record aes_mode := AesMode { am_key : list Z; am_iv : list Z }.
(** crypto/aes/aes.go:39-50 NewAESEncrypter and 72-83 NewAESDecrypter; [None]
    stands for an error. *)
Definition aes_new (key : list Z) : option aes_mode :=
  if aes_key_ok key then Some (AesMode key (firstn 16 key)) else None.
(** crypto/aes/aes.go:52-57 Encrypt (and 59-64 EncryptString). *)
Definition aes_encrypt (E : list Z -> list Z -> list Z) (m : aes_mode) (b : list Z) : outcome (aes_mode * list Z) :=
  padded <- pkcs7_padding b 16 ;;
  ' (out, iv) <- crypt_blocks (cbc_encrypt (E (am_key m))) (am_iv m) padded ;;
  Ok (AesMode (am_key m) iv, out).
(** crypto/aes/aes.go:85-89 Decrypt (and 91-93 DecryptToString). A panic of
    PKCS7Unpadding leaves the state changed, which is not modelled. *)
Definition aes_decrypt (D : list Z -> list Z -> list Z) (m : aes_mode) (b : list Z) : outcome (aes_mode * list Z) :=
  ' (out, iv) <- crypt_blocks (cbc_decrypt (D (am_key m))) (am_iv m) b ;;
  r <- pkcs7_unpadding out ;;
  Ok (AesMode (am_key m) iv, r).

(** crypto/ecb/ecb.go:75-82, 101-107: the loops over blocks of 8 bytes. *)
Fixpoint ecb_loop (f : list Z -> list Z) (n : nat) (src : list Z) : list Z :=
  match n with
  | O => []
  | S n => f (firstn 8 src) ++ ecb_loop f n (skipn 8 src)
  end.
(** crypto/ecb/ecb.go:63-83 encrypt and 86-108 decrypt; [None] stands for an
    error; des.NewCipher rejects keys that are not 8 bytes long. *)
Definition des_ecb (f : list Z -> list Z -> list Z) (data key : list Z) : option (list Z) :=
  if (zlen data <? 1) || (zlen key <? 1) then None
  else if negb (zlen key =? 8) then None
  else if negb (zlen data mod 8 =? 0) then None
  else Some (ecb_loop (f key) (Z.to_nat (zlen data / 8)) data).
(** crypto/ecb/ecb.go:12-13, 41-42: the key truncated or extended to 24 bytes. *)
Definition tkey (key : list Z) : list Z := fst (gocopy (repeat 0 24) key).
(** crypto/ecb/ecb.go:11-37 TripleDesEncrypt; [None] stands for an error. *)
Definition tdes_encrypt (E D : list Z -> list Z -> list Z) (data key : list Z) : outcome (option (list Z)) :=
  let t := tkey key in
  let k1 := firstn 8 t in let k2 := firstn 8 (skipn 8 t) in let k3 := skipn 16 t in
  padded <- zero_padding data 8 ;;
  Ok (match des_ecb E padded k1 with
      | None => None
      | Some b1 => match des_ecb D b1 k2 with
                   | None => None
                   | Some b2 => des_ecb E b2 k3
                   end
      end).
(** crypto/ecb/ecb.go:40-60 TripleDesDecrypt. *)
Definition tdes_decrypt (E D : list Z -> list Z -> list Z) (data key : list Z) : option (list Z) :=
  let t := tkey key in
  let k1 := firstn 8 t in let k2 := firstn 8 (skipn 8 t) in let k3 := skipn 16 t in
  match des_ecb D data k3 with
  | None => None
  | Some b1 => match des_ecb E b1 k2 with
               | None => None
               | Some b2 => match des_ecb D b2 k1 with
                            | None => None
                            | Some b3 => Some (zero_unpadding b3)
                            end
               end
  end.

(** The alphabet of base64.StdEncoding (standard library; no /repo lines). *)
Definition b64_char (x : Z) : Z :=
  if x <? 26 then 65 + x else if x <? 52 then 97 + (x - 26) else if x <? 62 then 48 + (x - 52)
  else if x =? 62 then 43 else 47.
(** Its inverse (standard library; no /repo lines). *)
Definition b64_value (c : Z) : option Z :=
  if (65 <=? c) && (c <=? 90) then Some (c - 65)
  else if (97 <=? c) && (c <=? 122) then Some (c - 97 + 26)
  else if (48 <=? c) && (c <=? 57) then Some (c - 48 + 52)
  else if c =? 43 then Some 62 else if c =? 47 then Some 63 else None.
(** base64.StdEncoding.EncodeToString (standard library; no /repo lines). *)
Fixpoint b64_encode (b : list Z) : list Z :=
  match b with
  | [] => []
  | [x] => [b64_char (x / 4); b64_char (x mod 4 * 16); 61; 61]
  | [x; y] => [b64_char (x / 4); b64_char (x mod 4 * 16 + y / 16); b64_char (y mod 16 * 4); 61]
  | x :: y :: z :: t =>
      b64_char (x / 4) :: b64_char (x mod 4 * 16 + y / 16) :: b64_char (y mod 16 * 4 + z / 64) :: b64_char (z mod 64)
      :: b64_encode t
  end.
(** base64.StdEncoding.DecodeString on text without line ends (standard
    library; no /repo lines): groups of four, the last one may be padded; bits
    that do not belong to a byte are ignored. *)
Fixpoint b64_groups (s : list Z) : option (list Z) :=
  match s with
  | [] => Some []
  | a :: b :: c :: d :: t =>
      match b64_value a, b64_value b with
      | Some va, Some vb =>
          if (c =? 61) && (d =? 61) then
            match t with [] => Some [va * 4 + vb / 16] | _ => None end
          else match b64_value c with
               | None => None
               | Some vc =>
                   if d =? 61 then
                     match t with [] => Some [va * 4 + vb / 16; vb mod 16 * 16 + vc / 4] | _ => None end
                   else match b64_value d, b64_groups t with
                        | Some vd, Some r => Some (va * 4 + vb / 16 :: vb mod 16 * 16 + vc / 4 :: vc mod 4 * 64 + vd :: r)
                        | _, _ => None
                        end
               end
      | _, _ => None
      end
  | _ => None
  end.
(** base64.StdEncoding.DecodeString (standard library; no /repo lines): CR and
    LF are skipped everywhere. *)
Definition b64_decode (s : list Z) : option (list Z) :=
  b64_groups (filter (fun c => negb ((c =? 10) || (c =? 13))) s).

(** crypto/rsa/code.go:11 key: "ac643718-9730-e711-59210". *)
Definition code_key : list Z :=
  [97; 99; 54; 52; 51; 55; 49; 56; 45; 57; 55; 51; 48; 45; 101; 55; 49; 49; 45; 53; 57; 50; 49; 48].
(** crypto/rsa/code.go:13-19 Encode and 43-49 EncodeString. *)
Definition code_encode (E D : list Z -> list Z -> list Z) (src : list Z) : outcome (list Z) :=
  r <- tdes_encrypt E D src code_key ;;
  Ok (match r with None => [] | Some bin => b64_encode bin end).
(** crypto/rsa/code.go:21-31 Decode and 51-61 DecodeString (nil is the empty
    list). *)
Definition code_decode (E D : list Z -> list Z -> list Z) (src : list Z) : list Z :=
  match b64_decode src with
  | None => []
  | Some c => match tdes_decrypt E D c code_key with None => [] | Some content => content end
  end.

(** crypto/rsa/code.go:35-39, 65-69: what Hash and HashString feed to SHA-512
    before taking the sum. *)
Fixpoint hash_input (n : nat) (src : list Z) : list Z :=
  match n with
  | O => []
  | S n => code_key ++ src ++ code_key ++ hash_input n src
  end.
(** crypto/rsa/code.go:33-41 Hash; [H] is SHA-512. *)
Definition code_hash (H : list Z -> list Z) (src : list Z) : list Z := H (hash_input 5 src).

(** A hexadecimal digit (standard library encoding/hex; no /repo lines). *)
Definition hex_char (x : Z) : Z := if x <? 10 then 48 + x else 97 + (x - 10).
(** Its value; capitals are accepted (encoding/hex; no /repo lines). *)
Definition hex_value (c : Z) : option Z :=
  if (48 <=? c) && (c <=? 57) then Some (c - 48)
  else if (97 <=? c) && (c <=? 102) then Some (c - 97 + 10)
  else if (65 <=? c) && (c <=? 70) then Some (c - 65 + 10)
  else None.
(** crypto/rsa/code.go:79-81 BytesToHexString. *)
Fixpoint bytes_to_hex (b : list Z) : list Z :=
  match b with
  | [] => []
  | x :: t => hex_char (x / 16) :: hex_char (x mod 16) :: bytes_to_hex t
  end.
(** crypto/rsa/code.go:73-78 HexStringToBytes; [None] stands for nil. *)
Fixpoint hex_to_bytes (s : list Z) : option (list Z) :=
  match s with
  | [] => Some []
  | [_] => None
  | a :: b :: t =>
      match hex_value a, hex_value b, hex_to_bytes t with
      | Some x, Some y, Some r => Some (x * 16 + y :: r)
      | _, _, _ => None
      end
  end.
(** crypto/rsa/code.go:63-71 HashString. *)
Definition code_hash_string (H : list Z -> list Z) (src : list Z) : list Z := bytes_to_hex (H (hash_input 5 src)).
