(** Vocabulary for the properties of crypto/rsa/rsa.go. *)
From Coq Require Import ZArith List Bool Znumtheory.
From Verif Require Import GoBase RsaModel CryptoSpec.
Import ListNotations.
Local Open Scope Z_scope.

(** The number written by big-endian bytes. *)
Fixpoint num (b : list Z) : Z :=
  match b with
  | [] => 0
  | x :: b => x * 256 ^ zlen b + num b
  end.

(** An RSA key: the modulus is the product of two primes, and the two exponents are inverse to
    each other modulo the predecessors of the primes. *)
Definition rsa_key (k : privkey) : Prop :=
  2 <= pk_e (sk_pub k) <= 2147483647 /\ 0 < sk_d k /\
  exists p q, prime p /\ prime q /\ p <> q /\ pk_n (sk_pub k) = p * q /\
    (p - 1 | pk_e (sk_pub k) * sk_d k - 1) /\ (q - 1 | pk_e (sk_pub k) * sk_d k - 1).

(** The modulus has this many bits. *)
Definition has_bits (k : privkey) (bits : Z) : Prop :=
  1 <= bits /\ 2 ^ (bits - 1) <= pk_n (sk_pub k) < 2 ^ bits.

(** What is assumed of the standard library: PEM and X.509 can read what they wrote, digests are bytes
    and have their fixed length, and SHA-512 is linked into the program. *)
Definition std_ok (S : std) : Prop :=
  (forall t b, pem_decode S (pem_encode S t b) = Some b) /\
  (forall k, rsa_key k -> parse_priv S (marshal_priv S k) = Some k) /\
  (forall k, rsa_key k -> exists der, marshal_pub S (sk_pub k) = Some der /\ parse_pub S der = Some (KRsa (sk_pub k))) /\
  (forall h H, hash_of S h = Some H -> forall b, bytes (H b) /\ zlen (H b) = digest_size h) /\
  hash_of S 7 <> None.

(** A pair of PEM texts that GenRsaKeys(bits) returned. *)
Definition generated (S : std) (bits : Z) (private public : list Z) : Prop :=
  exists k, rsa_key k /\ has_bits k bits /\ gen_rsa_keys S (Some k) = Val (private, public).

(** The client and the server made from such a pair. *)
Definition pair_of (S : std) (bits : Z) (c : client) (s : server) : Prop :=
  exists private public, generated S bits private public /\
    new_client S public = Ok (Val c) /\ new_server S private = Ok (Val s).

(** The number of bytes of a modulus of [bits] bits. *)
Definition byte_len (bits : Z) : Z := (bits + 7) / 8.

(** A toy standard library for the examples: keys are written as lists of numbers, PEM puts two
    numbers before them, and the only hash functions are SHA-512, which always gives the length of the text,
    and number 14, which has no prefix. *)
Definition toy_hash (n : nat) (b : list Z) : list Z := repeat (zlen b mod 256) n.
Definition toy_std (st : bool) : std := Std
  (fun t b => 1 :: match t with TPrivate => 2 | TPublic => 3 end :: b)
  (fun b => match b with 1 :: _ :: b => Some b | _ => None end)
  (fun k => [pk_n (sk_pub k); pk_e (sk_pub k); sk_d k])
  (fun b => match b with [n; e; d] => Some (Priv (Pub n e) d) | _ => None end)
  (fun p => Some [pk_n p; pk_e p])
  (fun b => match b with [n; e] => Some (KRsa (Pub n e)) | [_] => Some KOther | _ => None end)
  (fun h => if h =? 7 then Some (toy_hash 64) else if h =? 14 then Some (toy_hash 28) else None)
  st.

(** DER (ITU-T X.690) of a value with tag [t], as far as lengths below 128 go; object identifiers by base-128 digits. *)
Definition der (t : Z) (v : list Z) : list Z := t :: zlen v :: v.
Fixpoint base128 (fuel : nat) (x : Z) (last : bool) : list Z :=
  match fuel with
  | O => []
  | S f => (if x <? 128 then [] else base128 f (x / 128) false) ++ [x mod 128 + (if last then 0 else 128)]
  end.
Definition oid (arcs : list Z) : list Z :=
  match arcs with
  | a :: b :: rest => der 6 ((40 * a + b) :: flat_map (fun x => base128 5 x true) rest)
  | _ => []
  end.

(** The hash functions of package crypto that RFC 8017 names, by their numbers there and their identifiers. *)
Definition hash_oid (h : Z) (arcs : list Z) : Prop :=
  (h, arcs) = (2, [1; 2; 840; 113549; 2; 5]) \/ (* MD5 *)
  (h, arcs) = (3, [1; 3; 14; 3; 2; 26]) \/ (* SHA-1 *)
  (h, arcs) = (4, [2; 16; 840; 1; 101; 3; 4; 2; 4]) \/ (* SHA-224 *)
  (h, arcs) = (5, [2; 16; 840; 1; 101; 3; 4; 2; 1]) \/ (* SHA-256 *)
  (h, arcs) = (6, [2; 16; 840; 1; 101; 3; 4; 2; 2]) \/ (* SHA-384 *)
  (h, arcs) = (7, [2; 16; 840; 1; 101; 3; 4; 2; 3]). (* SHA-512 *)

(** EMSA-PKCS1-v1_5 (RFC 8017, section 9.2): the block of [k] bytes that is signed for a digest. *)
Definition emsa (k : Z) (arcs digest em : list Z) : Prop :=
  exists ps, em = 0 :: 1 :: ps ++ 0 :: der 48 (der 48 (oid arcs ++ der 5 []) ++ der 4 digest) /\
    Forall (fun x => x = 255) ps /\ 8 <= zlen ps /\ zlen em = k.

(** EME-PKCS1-v1_5 (RFC 8017, section 7.2.1): the block of [k] bytes that is encrypted. *)
Definition eme (k : Z) (msg em : list Z) : Prop :=
  exists ps, em = 0 :: 2 :: ps ++ 0 :: msg /\ Forall (fun x => 0 < x < 256) ps /\ 8 <= zlen ps /\ zlen em = k.
