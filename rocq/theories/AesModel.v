(** The block cipher that crypto/aes/aes.go:40 and 73 obtain from the standard library (aes.NewCipher): AES as
    published in FIPS 197.  Bytes are integers 0..255; the state is the list of its 16 bytes, column by column.
    crypto/aes of Go computes the same function with tables or processor instructions, which are not modelled. *)
From Coq Require Import ZArith List Bool.
Import ListNotations.
Open Scope Z_scope.

(** FIPS 197, 5.1.1 the table of SubBytes (aes.NewCipher, called at crypto/aes/aes.go:40, 73). *)
Definition aes_sbox : list Z :=
  [
   99; 124; 119; 123; 242; 107; 111; 197; 48; 1; 103; 43; 254; 215; 171; 118;
   202; 130; 201; 125; 250; 89; 71; 240; 173; 212; 162; 175; 156; 164; 114; 192;
   183; 253; 147; 38; 54; 63; 247; 204; 52; 165; 229; 241; 113; 216; 49; 21;
   4; 199; 35; 195; 24; 150; 5; 154; 7; 18; 128; 226; 235; 39; 178; 117;
   9; 131; 44; 26; 27; 110; 90; 160; 82; 59; 214; 179; 41; 227; 47; 132;
   83; 209; 0; 237; 32; 252; 177; 91; 106; 203; 190; 57; 74; 76; 88; 207;
   208; 239; 170; 251; 67; 77; 51; 133; 69; 249; 2; 127; 80; 60; 159; 168;
   81; 163; 64; 143; 146; 157; 56; 245; 188; 182; 218; 33; 16; 255; 243; 210;
   205; 12; 19; 236; 95; 151; 68; 23; 196; 167; 126; 61; 100; 93; 25; 115;
   96; 129; 79; 220; 34; 42; 144; 136; 70; 238; 184; 20; 222; 94; 11; 219;
   224; 50; 58; 10; 73; 6; 36; 92; 194; 211; 172; 98; 145; 149; 228; 121;
   231; 200; 55; 109; 141; 213; 78; 169; 108; 86; 244; 234; 101; 122; 174; 8;
   186; 120; 37; 46; 28; 166; 180; 198; 232; 221; 116; 31; 75; 189; 139; 138;
   112; 62; 181; 102; 72; 3; 246; 14; 97; 53; 87; 185; 134; 193; 29; 158;
   225; 248; 152; 17; 105; 217; 142; 148; 155; 30; 135; 233; 206; 85; 40; 223;
   140; 161; 137; 13; 191; 230; 66; 104; 65; 153; 45; 15; 176; 84; 187; 22].
(** FIPS 197, 5.3.2 the table of InvSubBytes (aes.NewCipher, called at crypto/aes/aes.go:40, 73). *)
Definition aes_inv_sbox : list Z :=
  [
   82; 9; 106; 213; 48; 54; 165; 56; 191; 64; 163; 158; 129; 243; 215; 251;
   124; 227; 57; 130; 155; 47; 255; 135; 52; 142; 67; 68; 196; 222; 233; 203;
   84; 123; 148; 50; 166; 194; 35; 61; 238; 76; 149; 11; 66; 250; 195; 78;
   8; 46; 161; 102; 40; 217; 36; 178; 118; 91; 162; 73; 109; 139; 209; 37;
   114; 248; 246; 100; 134; 104; 152; 22; 212; 164; 92; 204; 93; 101; 182; 146;
   108; 112; 72; 80; 253; 237; 185; 218; 94; 21; 70; 87; 167; 141; 157; 132;
   144; 216; 171; 0; 140; 188; 211; 10; 247; 228; 88; 5; 184; 179; 69; 6;
   208; 44; 30; 143; 202; 63; 15; 2; 193; 175; 189; 3; 1; 19; 138; 107;
   58; 145; 17; 65; 79; 103; 220; 234; 151; 242; 207; 206; 240; 180; 230; 115;
   150; 172; 116; 34; 231; 173; 53; 133; 226; 249; 55; 232; 28; 117; 223; 110;
   71; 241; 26; 113; 29; 41; 197; 137; 111; 183; 98; 14; 170; 24; 190; 27;
   252; 86; 62; 75; 198; 210; 121; 32; 154; 219; 192; 254; 120; 205; 90; 244;
   31; 221; 168; 51; 136; 7; 199; 49; 177; 18; 16; 89; 39; 128; 236; 95;
   96; 81; 127; 169; 25; 181; 74; 13; 45; 229; 122; 159; 147; 201; 156; 239;
   160; 224; 59; 77; 174; 42; 245; 176; 200; 235; 187; 60; 131; 83; 153; 97;
   23; 43; 4; 126; 186; 119; 214; 38; 225; 105; 20; 99; 85; 33; 12; 125].
(** FIPS 197, 5.1.1 SubBytes of one byte (CryptBlocks, called at crypto/aes/aes.go:55, 62). *)
Definition sub_byte (x : Z) : Z := nth (Z.to_nat x) aes_sbox 0.
(** The inverse (FIPS 197, 5.3.2; crypto/aes/aes.go:87). *)
Definition inv_sub_byte (x : Z) : Z := nth (Z.to_nat x) aes_inv_sbox 0.

(** FIPS 197, 4.2.1 xtime: multiplication by {02} modulo x^8+x^4+x^3+x+1 (crypto/aes/aes.go:55, 62, 87). *)
Definition xtime (x : Z) : Z := if 2 * x <? 256 then 2 * x else Z.lxor (2 * x) 283.
(** FIPS 197, 4.2.1: multiplication by a constant below 16, from repeated xtime (crypto/aes/aes.go:55, 62, 87). *)
Definition gmul (c x : Z) : Z :=
  Z.lxor (if Z.testbit c 0 then x else 0)
 (Z.lxor (if Z.testbit c 1 then xtime x else 0)
 (Z.lxor (if Z.testbit c 2 then xtime (xtime x) else 0)
         (if Z.testbit c 3 then xtime (xtime (xtime x)) else 0))).

(** Moving bytes: place i receives the byte from place [nth i idx] (FIPS 197, 5.1.2 and 5.3.1) (crypto/aes/aes.go:55, 62, 87). *)
Definition permute (idx : list nat) (s : list Z) : list Z := map (fun i => nth i s 0) idx.
(** FIPS 197, 5.1.2 ShiftRows: row r moves r columns to the left (crypto/aes/aes.go:55, 62, 87). *)
Definition shift_rows (s : list Z) : list Z := permute [0; 5; 10; 15; 4; 9; 14; 3; 8; 13; 2; 7; 12; 1; 6; 11]%nat s.
(** FIPS 197, 5.3.1 InvShiftRows (crypto/aes/aes.go:55, 62, 87). *)
Definition inv_shift_rows (s : list Z) : list Z := permute [0; 13; 10; 7; 4; 1; 14; 11; 8; 5; 2; 15; 12; 9; 6; 3]%nat s.

(** FIPS 197, 5.1.3: one column times the matrix whose first row is a b c d, the other rows turned to the right (crypto/aes/aes.go:55, 62, 87). *)
Definition mix_column (a b c d : Z) (s0 s1 s2 s3 : Z) : list Z :=
  [Z.lxor (gmul a s0) (Z.lxor (gmul b s1) (Z.lxor (gmul c s2) (gmul d s3)));
   Z.lxor (gmul d s0) (Z.lxor (gmul a s1) (Z.lxor (gmul b s2) (gmul c s3)));
   Z.lxor (gmul c s0) (Z.lxor (gmul d s1) (Z.lxor (gmul a s2) (gmul b s3)));
   Z.lxor (gmul b s0) (Z.lxor (gmul c s1) (Z.lxor (gmul d s2) (gmul a s3)))].
(** All columns (FIPS 197, 5.1.3 and 5.3.3) (crypto/aes/aes.go:55, 62, 87). *)
Fixpoint mix_all (a b c d : Z) (s : list Z) : list Z :=
  match s with
  | s0 :: s1 :: s2 :: s3 :: rest => mix_column a b c d s0 s1 s2 s3 ++ mix_all a b c d rest
  | _ => []
  end.
(** FIPS 197, 5.1.3 MixColumns (crypto/aes/aes.go:55, 62, 87). *)
Definition mix_columns (s : list Z) : list Z := mix_all 2 3 1 1 s.
(** FIPS 197, 5.3.3 InvMixColumns (crypto/aes/aes.go:55, 62, 87). *)
Definition inv_mix_columns (s : list Z) : list Z := mix_all 14 11 13 9 s.

(** Bytewise exclusive or (FIPS 197, 5.1.4 AddRoundKey) (crypto/aes/aes.go:55, 62, 87). *)
Definition add_key (s k : list Z) : list Z := map (fun p => Z.lxor (fst p) (snd p)) (combine s k).

(** FIPS 197, 5.2: the words of the key schedule from number [i] on, [ws] being those before it, the last one first;
    [n] words are missing; [rc] is the next round constant (crypto/aes/aes.go:40, 73). *)
Fixpoint expand (n i nk : nat) (rc : Z) (ws : list (list Z)) : list (list Z) :=
  match n with
  | O => rev ws
  | S n =>
      let temp := hd [] ws in
      let old := nth (nk - 1) ws [] in
      if (i mod nk =? 0)%nat then
        let t := map sub_byte (tl temp ++ firstn 1 temp) in
        let t := match t with x :: r => Z.lxor x rc :: r | [] => [] end in
        expand n (S i) nk (xtime rc) (add_key old t :: ws)
      else if ((6 <? nk) && (i mod nk =? 4))%nat%bool then expand n (S i) nk rc (add_key old (map sub_byte temp) :: ws)
      else expand n (S i) nk rc (add_key old temp :: ws)
  end.
(** Four bytes to a word (FIPS 197, 5.2; crypto/aes/aes.go:40, 73). *)
Fixpoint words (k : list Z) : list (list Z) :=
  match k with
  | a :: b :: c :: d :: rest => [a; b; c; d] :: words rest
  | _ => []
  end.
(** Four words to a round key (FIPS 197, 5.2; crypto/aes/aes.go:40, 73). *)
Fixpoint round_keys (ws : list (list Z)) : list (list Z) :=
  match ws with
  | a :: b :: c :: d :: rest => (a ++ b ++ c ++ d) :: round_keys rest
  | _ => []
  end.
(** FIPS 197, 5.2 KeyExpansion for 4, 6 or 8 words: 11, 13 or 15 round keys (aes.NewCipher, crypto/aes/aes.go:40, 73). *)
Definition key_schedule (key : list Z) : list (list Z) :=
  let ws := words key in
  let nk := length ws in
  round_keys (expand (4 * (nk + 7) - nk) nk nk 1 (rev ws)).

(** FIPS 197, 5.1: the rounds after the first AddRoundKey; the last one has no MixColumns (crypto/aes/aes.go:55, 62, 87). *)
Fixpoint cipher_rounds (ks : list (list Z)) (s : list Z) : list Z :=
  match ks with
  | [] => s
  | [k] => add_key (shift_rows (map sub_byte s)) k
  | k :: rest => cipher_rounds rest (add_key (mix_columns (shift_rows (map sub_byte s))) k)
  end.
(** FIPS 197, 5.1 Cipher (CryptBlocks, called at crypto/aes/aes.go:55, 62). *)
Definition aes_E (key b : list Z) : list Z :=
  match key_schedule key with
  | k :: ks => cipher_rounds ks (add_key b k)
  | [] => b
  end.
(** FIPS 197, 5.3: the rounds of InvCipher, the round keys in reverse order (crypto/aes/aes.go:55, 62, 87). *)
Fixpoint inv_rounds (ks : list (list Z)) (s : list Z) : list Z :=
  match ks with
  | [] => s
  | [k] => add_key (map inv_sub_byte (inv_shift_rows s)) k
  | k :: rest => inv_rounds rest (inv_mix_columns (add_key (map inv_sub_byte (inv_shift_rows s)) k))
  end.
(** FIPS 197, 5.3 InvCipher (CryptBlocks, called at crypto/aes/aes.go:87). *)
Definition aes_D (key b : list Z) : list Z :=
  match rev (key_schedule key) with
  | k :: ks => inv_rounds ks (add_key b k)
  | [] => b
  end.
