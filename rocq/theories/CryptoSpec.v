(** What padding and encryption mean, independent of the code. *)
From Coq Require Import ZArith List Bool.
From Verif Require Import GoBase CryptoModel.
Import ListNotations.
Open Scope Z_scope.

Definition bytes (b : list Z) : Prop := Forall (fun x => 0 <= x < 256) b.

(** [p] is [d] followed by at least one and at most [bs] padding bytes, and
    fills whole blocks. *)
Definition pads (bs : Z) (d p : list Z) : Prop :=
  (exists tail, p = d ++ tail /\ 1 <= zlen tail <= bs) /\ (bs | zlen p).

(** [r] is [m] without its trailing zero bytes. *)
Definition without_trailing_zeros (m r : list Z) : Prop :=
  (exists k, m = r ++ repeat 0 k) /\ (r = [] \/ last r 0 <> 0).

(** [g] undoes [f] on blocks of [n] bytes, and [f] yields such blocks. *)
Definition undone_by (n : nat) (f g : list Z -> list Z) : Prop :=
  forall b, bytes b -> length b = n -> bytes (f b) /\ length (f b) = n /\ g (f b) = b.

(** A block cipher: for every admissible key, decryption undoes encryption and
    the other way round. *)
Definition block_cipher (n : nat) (ok : list Z -> Prop) (E D : list Z -> list Z -> list Z) : Prop :=
  forall k, ok k -> undone_by n (E k) (D k) /\ undone_by n (D k) (E k).

(** A toy cipher for the examples: add the first key byte to every byte. *)
Definition toy_E (k b : list Z) : list Z := map (fun x => (x + hd 0 k) mod 256) b.
Definition toy_D (k b : list Z) : list Z := map (fun x => (x - hd 0 k) mod 256) b.

(** Encrypting and decrypting a sequence of messages with one helper. *)
Fixpoint encrypt_all (E : list Z -> list Z -> list Z) (m : aes_mode) (ms : list (list Z)) : outcome (aes_mode * list (list Z)) :=
  match ms with
  | [] => Ok (m, [])
  | b :: rest => ' (m1, c) <- aes_encrypt E m b ;; ' (m2, cs) <- encrypt_all E m1 rest ;; Ok (m2, c :: cs)
  end.
Fixpoint decrypt_all (D : list Z -> list Z -> list Z) (m : aes_mode) (cs : list (list Z)) : outcome (aes_mode * list (list Z)) :=
  match cs with
  | [] => Ok (m, [])
  | c :: rest => ' (m1, b) <- aes_decrypt D m c ;; ' (m2, bs) <- decrypt_all D m1 rest ;; Ok (m2, b :: bs)
  end.

(** Characters of base64 and hexadecimal text. *)
Definition is_b64 (c : Z) : Prop :=
  65 <= c <= 90 \/ 97 <= c <= 122 \/ 48 <= c <= 57 \/ c = 43 \/ c = 47 \/ c = 61.
Definition is_lower_hex (c : Z) : Prop := 48 <= c <= 57 \/ 97 <= c <= 102.
Definition is_hex (c : Z) : Prop := is_lower_hex c \/ 65 <= c <= 70.
