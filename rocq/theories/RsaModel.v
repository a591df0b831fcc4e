(** Model of crypto/rsa/rsa.go.  The RSA functions of the standard library that it calls
    (PKCS #1 v1.5 padding over modular exponentiation) are written out; the encodings of
    keys (encoding/pem, crypto/x509), the generation of keys and the hash functions are
    parameters.  Line 107, 118, 126 and 135 return [""] for a []byte, which does not type-check;
    they are read as returning nil. *)
From Coq Require Import ZArith List Bool Zpow_facts.
From Verif Require Import GoBase.
Import ListNotations.
Local Open Scope Z_scope.

(** The number a big-endian byte string stands for (big.Int.SetBytes; used by package
    crypto/rsa, called at crypto/rsa/rsa.go:49, 60, 89, 100). *)
Definition os2ip (b : list Z) : Z := fold_left (fun a x => a * 256 + x) b 0.

(** [k] bytes of a number, big-endian (big.Int.FillBytes; used by package crypto/rsa, called
    at crypto/rsa/rsa.go:49, 60, 89, 100). *)
Fixpoint i2osp (k : nat) (x : Z) : list Z :=
  match k with
  | O => []
  | S k => i2osp k (x / 256) ++ [x mod 256]
  end.

(** rsa.PublicKey: modulus and exponent (crypto/rsa/rsa.go:45). *)
Record pubkey := Pub { pk_n : Z; pk_e : Z }.
(** rsa.PrivateKey: the public part and the exponent (crypto/rsa/rsa.go:85).  The primes, which
    only speed up the exponentiation, are left out. *)
Record privkey := Priv { sk_pub : pubkey; sk_d : Z }.

(** Errors (crypto/rsa/rsa.go:18-19 and package crypto/rsa). *)
Inductive rerr :=
| EPublicKey (** crypto/rsa/rsa.go:18 *)
| EPrivateKey (** crypto/rsa/rsa.go:19 *)
| EParse (** x509 *)
| EMarshal (** x509 *)
| EGenerate (** rsa.GenerateKey *)
| EExponent (** exponent too small or too large *)
| ETooLong (** rsa.ErrMessageTooLong *)
| EDecryption (** rsa.ErrDecryption *)
| EVerification (** rsa.ErrVerification *)
| EHash (** unsupported hash function, or input must be hashed message *)
| EInternal (** rsa: internal error *)
| ERandom (** reading random bytes *).

(** The two results of a Go function (value, error), one of which is nil
    (Go language; no /repo lines). *)
Inductive res (A : Type) := Val (a : A) | Err (e : rerr).
Arguments Val {A} a.
Arguments Err {A} e.

(** What x509.ParsePKIXPublicKey returns: an RSA key, or a key of another algorithm (DSA,
    ECDSA, Ed25519) (called at crypto/rsa/rsa.go:35). *)
Inductive anykey := KRsa (p : pubkey) | KOther.

(** The [Type] of the PEM blocks written by GenRsaKeys (crypto/rsa/rsa.go:111, 129). *)
Inductive ptype := TPrivate | TPublic.

(** What the model takes from the standard library: PEM, X.509, the hash functions linked into
    the program, and whether the release of package crypto/rsa checks that its inputs are as
    long as the modulus and smaller than it (releases differ). *)
Record std := Std {
  pem_encode : ptype -> list Z -> list Z; (** pem.Encode, crypto/rsa/rsa.go:116, 133 *)
  pem_decode : list Z -> option (list Z); (** pem.Decode, the bytes of the block, crypto/rsa/rsa.go:31, 72 *)
  marshal_priv : privkey -> list Z; (** x509.MarshalPKCS1PrivateKey, crypto/rsa/rsa.go:109 *)
  parse_priv : list Z -> option privkey; (** x509.ParsePKCS1PrivateKey, crypto/rsa/rsa.go:76 *)
  marshal_pub : pubkey -> option (list Z); (** x509.MarshalPKIXPublicKey, crypto/rsa/rsa.go:124 *)
  parse_pub : list Z -> option anykey; (** x509.ParsePKIXPublicKey, crypto/rsa/rsa.go:35 *)
  hash_of : Z -> option (list Z -> list Z); (** crypto.Hash.New, crypto/rsa/rsa.go:57, 97 *)
  strict : bool
}.

(** PublicKey.Size: the length of the modulus in bytes (package crypto/rsa, called at
    crypto/rsa/rsa.go:49, 60, 89, 100). *)
Definition key_size (p : pubkey) : Z := (Z.log2 (pk_n p) + 8) / 8.

(** checkPub of package crypto/rsa (called at crypto/rsa/rsa.go:49, 89). *)
Definition check_pub (p : pubkey) : bool := (2 <=? pk_e p) && (pk_e p <=? 2147483647).

(** nonZeroRandomBytes of package crypto/rsa, the loop: every zero among the bytes is
    replaced by further random bytes XOR 0x42 until it is not zero
    (called at crypto/rsa/rsa.go:49).  [fuel] is at least the number of random bytes. *)
Fixpoint refill (fuel : nat) (rs : list Z) : option (Z * list Z) :=
  match fuel with
  | O => None
  | S fuel =>
      match rs with
      | [] => None
      | r :: rs => if Z.lxor r 66 =? 0 then refill fuel rs else Some (Z.lxor r 66, rs)
      end
  end.
(** The same, for all bytes in turn (called at crypto/rsa/rsa.go:49). *)
Fixpoint nonzero_loop (s rs : list Z) : option (list Z) :=
  match s with
  | [] => Some []
  | x :: s =>
      if x =? 0 then
        match refill (length rs) rs with
        | None => None
        | Some (y, rs) => match nonzero_loop s rs with None => None | Some t => Some (y :: t) end
        end
      else match nonzero_loop s rs with None => None | Some t => Some (x :: t) end
  end.
(** nonZeroRandomBytes of package crypto/rsa (called at crypto/rsa/rsa.go:49): [n] bytes made from the random bytes
    [rs]; None when reading fails, that is when these do not suffice. *)
Definition nonzero_random (n : Z) (rs : list Z) : option (list Z) :=
  if n <=? zlen rs then nonzero_loop (firstn (Z.to_nat n) rs) (skipn (Z.to_nat n) rs) else None.

(** rsa.EncryptPKCS1v15 (called at crypto/rsa/rsa.go:49); [rs] are the bytes that rand.Reader
    delivers. *)
Definition encrypt_pkcs1 (p : pubkey) (rs msg : list Z) : res (list Z) :=
  if negb (check_pub p) then Err EExponent
  else
    let k := key_size p in
    if k - 11 <? zlen msg then Err ETooLong
    else
      match nonzero_random (k - zlen msg - 3) rs with
      | None => Err ERandom
      | Some ps =>
          let em := 0 :: 2 :: ps ++ 0 :: msg in
          Val (i2osp (Z.to_nat k) (Zpow_mod (os2ip em) (pk_e p) (pk_n p)))
      end.

(** The position of the first zero byte (rsa.decryptPKCS1v15, called at
    crypto/rsa/rsa.go:89). *)
Fixpoint index_zero (b : list Z) : option nat :=
  match b with
  | [] => None
  | x :: b => if x =? 0 then Some O else match index_zero b with None => None | Some i => Some (S i) end
  end.

(** rsa.DecryptPKCS1v15 (called at crypto/rsa/rsa.go:89).  The random bytes only hide how long
    the exponentiation takes. *)
Definition decrypt_pkcs1 (st : bool) (s : privkey) (ct : list Z) : res (list Z) :=
  let p := sk_pub s in
  if negb (check_pub p) then Err EExponent
  else
    let k := key_size p in
    if k <? 11 then Err EDecryption
    else if st && ((k <? zlen ct) || (pk_n p <=? os2ip ct)) then Err EDecryption
    else if pk_n p <? os2ip ct then Err EDecryption
    else
      match i2osp (Z.to_nat k) (Zpow_mod (os2ip ct) (sk_d s) (pk_n p)) with
      | 0 :: 2 :: rest =>
          match index_zero rest with
          | Some i => if (i <? 8)%nat then Err EDecryption else Val (skipn (S i) rest)
          | None => Err EDecryption
          end
      | _ => Err EDecryption
      end.

(** crypto.Hash.Size (package crypto, called at crypto/rsa/rsa.go:60, 100): digest lengths by number
    of the hash function. *)
Definition digest_size (h : Z) : Z :=
  nth (Z.to_nat h) [0; 16; 16; 20; 28; 32; 48; 64; 36; 20; 28; 32; 48; 64; 28; 32; 32; 32; 48; 64] 0.

(** hashPrefixes of package crypto/rsa (used at crypto/rsa/rsa.go:60, 100): MD5, SHA1, SHA224,
    SHA256, SHA384, SHA512, MD5SHA1, RIPEMD160. *)
Definition hash_prefix (h : Z) : option (list Z) :=
  if h =? 2 then Some [48; 32; 48; 12; 6; 8; 42; 134; 72; 134; 247; 13; 2; 5; 5; 0; 4; 16]
  else if h =? 3 then Some [48; 33; 48; 9; 6; 5; 43; 14; 3; 2; 26; 5; 0; 4; 20]
  else if h =? 4 then Some [48; 45; 48; 13; 6; 9; 96; 134; 72; 1; 101; 3; 4; 2; 4; 5; 0; 4; 28]
  else if h =? 5 then Some [48; 49; 48; 13; 6; 9; 96; 134; 72; 1; 101; 3; 4; 2; 1; 5; 0; 4; 32]
  else if h =? 6 then Some [48; 65; 48; 13; 6; 9; 96; 134; 72; 1; 101; 3; 4; 2; 2; 5; 0; 4; 48]
  else if h =? 7 then Some [48; 81; 48; 13; 6; 9; 96; 134; 72; 1; 101; 3; 4; 2; 3; 5; 0; 4; 64]
  else if h =? 8 then Some []
  else if h =? 9 then Some [48; 32; 48; 8; 6; 6; 40; 207; 6; 3; 0; 49; 4; 20]
  else None.

(** pkcs1v15HashInfo of package crypto/rsa (used at crypto/rsa/rsa.go:60, 100). *)
Definition hash_info (h len : Z) : option (list Z) :=
  if len =? digest_size h then hash_prefix h else None.

(** The padded digest, [k] bytes (package crypto/rsa, used at crypto/rsa/rsa.go:60, 100). *)
Definition sign_em (k : Z) (t : list Z) : list Z :=
  0 :: 1 :: repeat 255 (Z.to_nat (k - zlen t - 3)) ++ 0 :: t.

(** rsa.SignPKCS1v15 (called at crypto/rsa/rsa.go:100). *)
Definition sign_pkcs1 (s : privkey) (h : Z) (hashed : list Z) : res (list Z) :=
  match hash_info h (zlen hashed) with
  | None => Err EHash
  | Some prefix =>
      let t := prefix ++ hashed in
      let k := key_size (sk_pub s) in
      if k <? zlen t + 11 then Err ETooLong
      else
        let m := os2ip (sign_em k t) in
        let c := Zpow_mod m (sk_d s) (pk_n (sk_pub s)) in
        if Zpow_mod c (pk_e (sk_pub s)) (pk_n (sk_pub s)) =? m then Val (i2osp (Z.to_nat k) c) else Err EInternal
  end.

(** rsa.VerifyPKCS1v15 (called at crypto/rsa/rsa.go:60): the error, or None for nil. *)
Definition verify_pkcs1 (st : bool) (p : pubkey) (h : Z) (hashed sig : list Z) : option rerr :=
  match hash_info h (zlen hashed) with
  | None => Some EHash
  | Some prefix =>
      let t := prefix ++ hashed in
      let k := key_size p in
      if k <? zlen t + 11 then Some EVerification
      else if st && (negb (zlen sig =? k) || (pk_n p <=? os2ip sig)) then Some EVerification
      else if list_eq_dec Z.eq_dec (i2osp (Z.to_nat k) (Zpow_mod (os2ip sig) (pk_e p) (pk_n p))) (sign_em k t)
      then None
      else Some EVerification
  end.

(** crypto/rsa/rsa.go:44-46 RsaClient; the pointer is nil in a zero value. *)
Definition client := option pubkey.
(** crypto/rsa/rsa.go:84-86 RsaServer; the pointer is nil in a zero value. *)
Definition server := option privkey.

(** crypto/rsa/rsa.go:30-42 NewClient.  The type assertion at line 39 panics for a key that is not an RSA key. *)
Definition new_client (S : std) (pem : list Z) : outcome (res client) :=
  match pem_decode S pem with
  | None => Ok (Err EPublicKey)
  | Some der =>
      match parse_pub S der with
      | None => Ok (Err EParse)
      | Some (KRsa p) => Ok (Val (Some p))
      | Some KOther => Panic
      end
  end.

(** crypto/rsa/rsa.go:22-28 MustNewClient. *)
Definition must_new_client (S : std) (pem : list Z) : outcome client :=
  r <- new_client S pem ;; match r with Val c => Ok c | Err _ => Panic end.

(** crypto/rsa/rsa.go:71-82 NewServer. *)
Definition new_server (S : std) (pem : list Z) : outcome (res server) :=
  match pem_decode S pem with
  | None => Ok (Err EPrivateKey)
  | Some der =>
      match parse_priv S der with
      | None => Ok (Err EParse)
      | Some k => Ok (Val (Some k))
      end
  end.

(** crypto/rsa/rsa.go:63-69 MustNewServer. *)
Definition must_new_server (S : std) (pem : list Z) : outcome server :=
  r <- new_server S pem ;; match r with Val c => Ok c | Err _ => Panic end.

(** crypto/rsa/rsa.go:48-50 RsaClient.Encrypt; [rs]: the bytes rand.Reader delivers. *)
Definition encrypt (c : client) (rs msg : list Z) : outcome (res (list Z)) :=
  match c with
  | None => Panic
  | Some p => Ok (encrypt_pkcs1 p rs msg)
  end.

(** crypto/rsa/rsa.go:88-90 RsaServer.Decrypt. *)
Definition decrypt (S : std) (s : server) (ct : list Z) : outcome (res (list Z)) :=
  match s with
  | None => Panic
  | Some k => Ok (decrypt_pkcs1 (strict S) k ct)
  end.

(** crypto/rsa/rsa.go:96-101 RsaServer.Sign.  hash.New at line 97 panics for a hash function that is
    not linked into the program. *)
Definition sign (S : std) (s : server) (src : list Z) (h : Z) : outcome (res (list Z)) :=
  match hash_of S h with
  | None => Panic
  | Some H =>
      match s with
      | None => match hash_info h (zlen (H src)) with None => Ok (Err EHash) | Some _ => Panic end
      | Some k => Ok (sign_pkcs1 k h (H src))
      end
  end.

(** crypto/rsa/rsa.go:56-61 RsaClient.Verify. *)
Definition verify (S : std) (c : client) (src sig : list Z) (h : Z) : outcome (option rerr) :=
  match hash_of S h with
  | None => Panic
  | Some H =>
      match c with
      | None => match hash_info h (zlen (H src)) with None => Ok (Some EHash) | Some _ => Panic end
      | Some p => Ok (verify_pkcs1 (strict S) p h (H src) sig)
      end
  end.

(** crypto/rsa/rsa.go:14 defaultHash: SHA512. *)
Definition default_hash : Z := 7.
(** crypto/rsa/rsa.go:92-94 RsaServer.SignDefault. *)
Definition sign_default (S : std) (s : server) (src : list Z) : outcome (res (list Z)) := sign S s src default_hash.
(** crypto/rsa/rsa.go:52-54 RsaClient.VerifyDefault. *)
Definition verify_default (S : std) (c : client) (src sig : list Z) : outcome (option rerr) := verify S c src sig default_hash.

(** crypto/rsa/rsa.go:103-139 GenRsaKeys; [g]: the key that rsa.GenerateKey (line 105) returns, None for
    an error.  pem.Encode (lines 116, 133) cannot fail as a block without headers is written to memory. *)
Definition gen_rsa_keys (S : std) (g : option privkey) : res (list Z * list Z) :=
  match g with
  | None => Err EGenerate
  | Some k =>
      let private := pem_encode S TPrivate (marshal_priv S k) in
      match marshal_pub S (sk_pub k) with
      | None => Err EMarshal
      | Some der => Val (private, pem_encode S TPublic der)
      end
  end.
