(** The block cipher that crypto/ecb/ecb.go:67 and 90 obtain from the standard library (des.NewCipher): DES as published
    in FIPS 46-3.  Bytes are integers 0..255; inside, a block is the list of its bits, the most significant bit of the
    first byte first.  crypto/des of Go computes the same function with combined tables, which are not modelled.
    Tables are numbered from 1 as in the standard. *)
From Coq Require Import ZArith List Bool.
Import ListNotations.

(** Bits of a byte, the most significant first (FIPS 46-3; block.Encrypt, Decrypt at crypto/ecb/ecb.go:78, 102). *)
Definition bits_of_byte (x : Z) : list bool := map (Z.testbit x) [7; 6; 5; 4; 3; 2; 1; 0]%Z.
(** Bits of a block or key (FIPS 46-3; crypto/ecb/ecb.go:67, 78, 90, 102). *)
Definition bits_of (b : list Z) : list bool := flat_map bits_of_byte b.
(** The number with these bits (FIPS 46-3; crypto/ecb/ecb.go:78, 102). *)
Definition byte_of_bits (l : list bool) : Z := fold_left (fun (a : Z) (x : bool) => (2 * a + if x then 1 else 0)%Z) l 0%Z.
(** Bits to bytes (FIPS 46-3; crypto/ecb/ecb.go:78, 102). *)
Fixpoint bytes_of (l : list bool) : list Z :=
  match l with
  | a :: b :: c :: d :: e :: f :: g :: h :: rest => byte_of_bits [a; b; c; d; e; f; g; h] :: bytes_of rest
  | _ => []
  end.

(** Bits selected by a table (FIPS 46-3: all permutations and selections; crypto/ecb/ecb.go:67, 78, 90, 102). *)
Definition sel (t : list nat) (l : list bool) : list bool := map (fun i => nth (i - 1) l false) t.

(** FIPS 46-3: the initial permutation IP (crypto/ecb/ecb.go:78, 102). *)
Definition des_IP : list nat :=
  [58; 50; 42; 34; 26; 18; 10; 2; 60; 52; 44; 36; 28; 20; 12; 4; 62; 54; 46; 38; 30; 22; 14; 6; 64; 56; 48; 40; 32; 24; 16; 8;
   57; 49; 41; 33; 25; 17; 9; 1; 59; 51; 43; 35; 27; 19; 11; 3; 61; 53; 45; 37; 29; 21; 13; 5; 63; 55; 47; 39; 31; 23; 15; 7].
(** FIPS 46-3: its inverse (crypto/ecb/ecb.go:78, 102). *)
Definition des_FP : list nat :=
  [40; 8; 48; 16; 56; 24; 64; 32; 39; 7; 47; 15; 55; 23; 63; 31; 38; 6; 46; 14; 54; 22; 62; 30; 37; 5; 45; 13; 53; 21; 61; 29;
   36; 4; 44; 12; 52; 20; 60; 28; 35; 3; 43; 11; 51; 19; 59; 27; 34; 2; 42; 10; 50; 18; 58; 26; 33; 1; 41; 9; 49; 17; 57; 25].
(** FIPS 46-3: the bit selection E of the function f (crypto/ecb/ecb.go:78, 102). *)
Definition des_ES : list nat :=
  [32; 1; 2; 3; 4; 5; 4; 5; 6; 7; 8; 9; 8; 9; 10; 11; 12; 13; 12; 13; 14; 15; 16; 17;
   16; 17; 18; 19; 20; 21; 20; 21; 22; 23; 24; 25; 24; 25; 26; 27; 28; 29; 28; 29; 30; 31; 32; 1].
(** FIPS 46-3: the permutation P of the function f (crypto/ecb/ecb.go:78, 102). *)
Definition des_P : list nat :=
  [16; 7; 20; 21; 29; 12; 28; 17; 1; 15; 23; 26; 5; 18; 31; 10; 2; 8; 24; 14; 32; 27; 3; 9; 19; 13; 30; 6; 22; 11; 4; 25].
(** FIPS 46-3: permuted choice 1 of the key schedule (des.NewCipher, crypto/ecb/ecb.go:67, 90). *)
Definition des_PC1 : list nat :=
  [57; 49; 41; 33; 25; 17; 9; 1; 58; 50; 42; 34; 26; 18; 10; 2; 59; 51; 43; 35; 27; 19; 11; 3; 60; 52; 44; 36;
   63; 55; 47; 39; 31; 23; 15; 7; 62; 54; 46; 38; 30; 22; 14; 6; 61; 53; 45; 37; 29; 21; 13; 5; 28; 20; 12; 4].
(** FIPS 46-3: permuted choice 2 of the key schedule (des.NewCipher, crypto/ecb/ecb.go:67, 90). *)
Definition des_PC2 : list nat :=
  [14; 17; 11; 24; 1; 5; 3; 28; 15; 6; 21; 10; 23; 19; 12; 4; 26; 8; 16; 7; 27; 20; 13; 2;
   41; 52; 31; 37; 47; 55; 30; 40; 51; 45; 33; 48; 44; 49; 39; 56; 34; 53; 46; 42; 50; 36; 29; 32].
(** FIPS 46-3: the number of left shifts of each round (des.NewCipher, crypto/ecb/ecb.go:67, 90). *)
Definition des_shifts : list nat := [1; 1; 2; 2; 2; 2; 2; 2; 1; 2; 2; 2; 2; 2; 2; 1].
(** FIPS 46-3: the selection functions S1 to S8, row by row (crypto/ecb/ecb.go:78, 102). *)
Definition des_S : list (list Z) :=
  [[14; 4; 13; 1; 2; 15; 11; 8; 3; 10; 6; 12; 5; 9; 0; 7; 0; 15; 7; 4; 14; 2; 13; 1; 10; 6; 12; 11; 9; 5; 3; 8;
    4; 1; 14; 8; 13; 6; 2; 11; 15; 12; 9; 7; 3; 10; 5; 0; 15; 12; 8; 2; 4; 9; 1; 7; 5; 11; 3; 14; 10; 0; 6; 13];
   [15; 1; 8; 14; 6; 11; 3; 4; 9; 7; 2; 13; 12; 0; 5; 10; 3; 13; 4; 7; 15; 2; 8; 14; 12; 0; 1; 10; 6; 9; 11; 5;
    0; 14; 7; 11; 10; 4; 13; 1; 5; 8; 12; 6; 9; 3; 2; 15; 13; 8; 10; 1; 3; 15; 4; 2; 11; 6; 7; 12; 0; 5; 14; 9];
   [10; 0; 9; 14; 6; 3; 15; 5; 1; 13; 12; 7; 11; 4; 2; 8; 13; 7; 0; 9; 3; 4; 6; 10; 2; 8; 5; 14; 12; 11; 15; 1;
    13; 6; 4; 9; 8; 15; 3; 0; 11; 1; 2; 12; 5; 10; 14; 7; 1; 10; 13; 0; 6; 9; 8; 7; 4; 15; 14; 3; 11; 5; 2; 12];
   [7; 13; 14; 3; 0; 6; 9; 10; 1; 2; 8; 5; 11; 12; 4; 15; 13; 8; 11; 5; 6; 15; 0; 3; 4; 7; 2; 12; 1; 10; 14; 9;
    10; 6; 9; 0; 12; 11; 7; 13; 15; 1; 3; 14; 5; 2; 8; 4; 3; 15; 0; 6; 10; 1; 13; 8; 9; 4; 5; 11; 12; 7; 2; 14];
   [2; 12; 4; 1; 7; 10; 11; 6; 8; 5; 3; 15; 13; 0; 14; 9; 14; 11; 2; 12; 4; 7; 13; 1; 5; 0; 15; 10; 3; 9; 8; 6;
    4; 2; 1; 11; 10; 13; 7; 8; 15; 9; 12; 5; 6; 3; 0; 14; 11; 8; 12; 7; 1; 14; 2; 13; 6; 15; 0; 9; 10; 4; 5; 3];
   [12; 1; 10; 15; 9; 2; 6; 8; 0; 13; 3; 4; 14; 7; 5; 11; 10; 15; 4; 2; 7; 12; 9; 5; 6; 1; 13; 14; 0; 11; 3; 8;
    9; 14; 15; 5; 2; 8; 12; 3; 7; 0; 4; 10; 1; 13; 11; 6; 4; 3; 2; 12; 9; 5; 15; 10; 11; 14; 1; 7; 6; 0; 8; 13];
   [4; 11; 2; 14; 15; 0; 8; 13; 3; 12; 9; 7; 5; 10; 6; 1; 13; 0; 11; 7; 4; 9; 1; 10; 14; 3; 5; 12; 2; 15; 8; 6;
    1; 4; 11; 13; 12; 3; 7; 14; 10; 15; 6; 8; 0; 5; 9; 2; 6; 11; 13; 8; 1; 4; 10; 7; 9; 5; 0; 15; 14; 2; 3; 12];
   [13; 2; 8; 4; 6; 15; 11; 1; 10; 9; 3; 14; 5; 0; 12; 7; 1; 15; 13; 8; 10; 3; 7; 4; 12; 5; 6; 11; 0; 14; 9; 2;
    7; 11; 4; 1; 9; 12; 14; 2; 0; 6; 10; 13; 15; 3; 5; 8; 2; 1; 14; 7; 4; 10; 8; 13; 15; 12; 9; 0; 3; 5; 6; 11]]%Z.

(** Six bits to four: the outer two bits choose the row, the inner four the column (FIPS 46-3; crypto/ecb/ecb.go:78, 102). *)
Definition s_box (t : list Z) (l : list bool) : list bool :=
  match l with
  | [a; b; c; d; e; f] => map (Z.testbit (nth (Z.to_nat (byte_of_bits [a; f; b; c; d; e])) t 0%Z)) [3; 2; 1; 0]%Z
  | _ => []
  end.
(** The eight selection functions side by side (FIPS 46-3; crypto/ecb/ecb.go:78, 102). *)
Fixpoint s_boxes (ts : list (list Z)) (l : list bool) : list bool :=
  match ts with
  | [] => []
  | t :: ts => s_box t (firstn 6 l) ++ s_boxes ts (skipn 6 l)
  end.
(** Bitwise exclusive or (FIPS 46-3; crypto/ecb/ecb.go:78, 102). *)
Definition xor_bits (a b : list bool) : list bool := map (fun p => xorb (fst p) (snd p)) (combine a b).
(** FIPS 46-3: the cipher function f (crypto/ecb/ecb.go:78, 102). *)
Definition des_f (r k : list bool) : list bool := sel des_P (s_boxes des_S (xor_bits (sel des_ES r) k)).
(** Rotation to the left (FIPS 46-3, key schedule; crypto/ecb/ecb.go:67, 90). *)
Definition rotl (n : nat) (l : list bool) : list bool := skipn n l ++ firstn n l.
(** FIPS 46-3: the keys of the rounds, [c] and [d] being the halves (crypto/ecb/ecb.go:67, 90). *)
Fixpoint subkeys (sh : list nat) (c d : list bool) : list (list bool) :=
  match sh with
  | [] => []
  | n :: sh => let c := rotl n c in let d := rotl n d in sel des_PC2 (c ++ d) :: subkeys sh c d
  end.
(** des.NewCipher, called at crypto/ecb/ecb.go:67, 90: the keys of the 16 rounds (FIPS 46-3). *)
Definition des_keys (key : list Z) : list (list bool) :=
  let p := sel des_PC1 (bits_of key) in subkeys des_shifts (firstn 28 p) (skipn 28 p).
(** FIPS 46-3: the rounds; at the end the halves change places (crypto/ecb/ecb.go:78, 102). *)
Fixpoint feistel (ks : list (list bool)) (l r : list bool) : list bool :=
  match ks with
  | [] => r ++ l
  | k :: ks => feistel ks r (xor_bits l (des_f r k))
  end.
(** One block with the given keys (FIPS 46-3; crypto/ecb/ecb.go:78, 102). *)
Definition des_block (ks : list (list bool)) (b : list Z) : list Z :=
  let p := sel des_IP (bits_of b) in bytes_of (sel des_FP (feistel ks (firstn 32 p) (skipn 32 p))).
(** block.Encrypt, called at crypto/ecb/ecb.go:78. *)
Definition des_E (key b : list Z) : list Z := des_block (des_keys key) b.
(** block.Decrypt, called at crypto/ecb/ecb.go:102: the keys in reverse order. *)
Definition des_D (key b : list Z) : list Z := des_block (rev (des_keys key)) b.
