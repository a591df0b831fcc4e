(** What the tables and matrices of AES mean, independent of the code: arithmetic in the field of 256 elements,
    polynomials over {0,1} modulo x^8+x^4+x^3+x+1 (FIPS 197, chapter 4). *)
From Coq Require Import ZArith List Bool.
Import ListNotations.
Open Scope Z_scope.

(** The product of polynomials: bit i of [a] adds [b] shifted by i. *)
Fixpoint poly_mul (n : nat) (a b : Z) : Z :=
  match n with
  | O => 0
  | S n => Z.lxor (if Z.testbit a (Z.of_nat n) then Z.shiftl b (Z.of_nat n) else 0) (poly_mul n a b)
  end.
(** The remainder: degree 8+n down to 8 is removed with the modulus 0x11b. *)
Fixpoint poly_mod (n : nat) (a : Z) : Z :=
  match n with
  | O => a
  | S n => poly_mod n (if Z.testbit a (Z.of_nat n + 8) then Z.lxor a (Z.shiftl 283 (Z.of_nat n)) else a)
  end.
Definition field_mul (a b : Z) : Z := poly_mod 8 (poly_mul 8 a b).
(** FIPS 197, equation 5.1: bit i is the sum of the bits i, i+4, i+5, i+6, i+7 (modulo 8) and bit i of 0x63. *)
Definition affine_bit (y : Z) (i : Z) : bool :=
  xorb (Z.testbit y i) (xorb (Z.testbit y ((i + 4) mod 8)) (xorb (Z.testbit y ((i + 5) mod 8))
  (xorb (Z.testbit y ((i + 6) mod 8)) (xorb (Z.testbit y ((i + 7) mod 8)) (Z.testbit 99 i))))).
Definition byte (x : Z) : Prop := 0 <= x < 256.

(** Chaining of blocks (NIST SP 800-38A, 6.2): text block i is the encryption of message block i plus text block i-1. *)
Inductive cbc (E : list Z -> list Z) : list Z -> list (list Z) -> list (list Z) -> list Z -> Prop :=
| cbc_nil : forall iv, cbc E iv [] [] iv
| cbc_cons : forall iv p ps c cs iv', length p = 16%nat ->
    c = E (map (fun xy => Z.lxor (fst xy) (snd xy)) (combine p iv)) -> cbc E c ps cs iv' -> cbc E iv (p :: ps) (c :: cs) iv'.
(** PKCS #7: a message filled up to whole blocks with bytes that tell how many of them there are. *)
Definition padded (b : list Z) : list Z := let n := 16 - Z.of_nat (length b) mod 16 in b ++ repeat n (Z.to_nat n).
(** The example key and block of FIPS 197, appendix C. *)
Definition fips_key (n : nat) : list Z := map Z.of_nat (seq 0 n).
Definition fips_block : list Z := map (fun i => 17 * Z.of_nat i) (seq 0 16).

(** AES by the formulas of FIPS 197, by place and number instead of by lists. *)
Definition field_inv (x : Z) : Z :=
  match find (fun y => field_mul x y =? 1) (map Z.of_nat (seq 0 256)) with Some y => y | None => 0 end.
Definition std_sub (x : Z) : Z :=
  fold_right (fun i acc => (if affine_bit (field_inv x) i then 2 ^ i else 0) + acc) 0 [0; 1; 2; 3; 4; 5; 6; 7].
(** Row k mod 4 and column k / 4 are at place k. *)
Definition std_shift (s : list Z) : list Z :=
  map (fun k => nth (k mod 4 + 4 * ((k / 4 + k mod 4) mod 4)) s 0) (seq 0 16).
Definition std_mix (s : list Z) : list Z :=
  map (fun k => fold_right (fun j acc => Z.lxor (field_mul (nth ((j + 4 - k mod 4) mod 4) [2; 3; 1; 1] 0) (nth (4 * (k / 4) + j) s 0)) acc)
                  0 (seq 0 4)) (seq 0 16).
Definition std_xor (a b : list Z) : list Z := map (fun xy => Z.lxor (fst xy) (snd xy)) (combine a b).
(** The round constant number i: x^(i-1). *)
Fixpoint std_rcon (i : nat) : Z := match i with O => 0 | S O => 1 | S i => field_mul 2 (std_rcon i) end.
(** [w] are the words of the key schedule (FIPS 197, 5.2). *)
Definition std_schedule (nk : nat) (key : list Z) (w : nat -> list Z) : Prop :=
  (forall i, (i < nk)%nat -> w i = firstn 4 (skipn (4 * i) key)) /\
  (forall i, (nk <= i < 4 * (nk + 7))%nat ->
     w i = std_xor (w (i - nk)%nat)
             (if (i mod nk =? 0)%nat then
                std_xor (map std_sub (skipn 1 (w (i - 1)%nat) ++ firstn 1 (w (i - 1)%nat))) [std_rcon (i / nk); 0; 0; 0]
              else if ((6 <? nk) && (i mod nk =? 4))%nat%bool then map std_sub (w (i - 1)%nat)
              else w (i - 1)%nat)).
Definition std_key (w : nat -> list Z) (r : nat) : list Z := w (4 * r)%nat ++ w (4 * r + 1)%nat ++ w (4 * r + 2)%nat ++ w (4 * r + 3)%nat.
(** The state after round r, and the result of nr rounds (FIPS 197, 5.1). *)
Fixpoint std_state (w : nat -> list Z) (b : list Z) (r : nat) : list Z :=
  match r with
  | O => std_xor b (std_key w 0)
  | S r => std_xor (std_mix (std_shift (map std_sub (std_state w b r)))) (std_key w (S r))
  end.
Definition std_cipher (nr : nat) (w : nat -> list Z) (b : list Z) : list Z :=
  std_xor (std_shift (map std_sub (std_state w b (nr - 1)))) (std_key w nr).
