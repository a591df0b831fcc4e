(** What triple DES in blocks means, independent of the code. *)
From Coq Require Import ZArith List Bool.
Import ListNotations.
Open Scope Z_scope.

(** A message filled up to whole blocks of 8 with zeros, at least one. *)
Definition zpadded (d : list Z) : list Z := d ++ repeat 0 (Z.to_nat (8 - Z.of_nat (length d) mod 8)).
(** The blocks of [n] bytes of a text, and block number [i]. *)
Definition blocks_of (n : nat) (l : list Z) (bs : list (list Z)) : Prop := concat bs = l /\ Forall (fun b => length b = n) bs.
Definition block (n i : nat) (l : list Z) : list Z := firstn n (skipn (n * i) l).
(** The three keys of 8 bytes; a short key is filled up with zeros, what is beyond 24 bytes is left out. *)
Definition key_part (i : nat) (key : list Z) : list Z := firstn 8 (skipn (8 * i) (key ++ repeat 0 24)).
(** Keys that differ only in the lowest bits of their bytes. *)
Definition same_but_parity (k1 k2 : list Z) : Prop := Forall2 (fun x y => x / 2 = y / 2) k1 k2.
(** Published vectors of DES (key, block, text); those from the fourth on are the table tests of NBS SP 500-20. *)
Definition des_vectors : list (list Z * list Z * list Z) :=
  [([19; 52; 87; 121; 155; 188; 223; 241], [1; 35; 69; 103; 137; 171; 205; 239], [133; 232; 19; 84; 15; 10; 180; 5]);
   ([1; 35; 69; 103; 137; 171; 205; 239], [78; 111; 119; 32; 105; 115; 32; 116], [63; 164; 14; 138; 152; 77; 72; 21]);
   ([14; 50; 146; 50; 234; 109; 13; 115], [135; 135; 135; 135; 135; 135; 135; 135], [0; 0; 0; 0; 0; 0; 0; 0]);
   ([124; 161; 16; 69; 74; 26; 110; 87], [1; 161; 214; 208; 57; 119; 103; 66], [105; 15; 91; 13; 154; 38; 147; 155]);
   ([1; 49; 217; 97; 157; 193; 55; 110], [92; 213; 76; 168; 61; 239; 87; 218], [122; 56; 157; 16; 53; 75; 210; 113]);
   ([7; 161; 19; 62; 74; 11; 38; 134], [2; 72; 212; 56; 6; 246; 113; 114], [134; 142; 187; 81; 202; 180; 89; 154]);
   ([56; 73; 103; 76; 38; 2; 49; 158], [81; 69; 75; 88; 45; 223; 68; 10], [113; 120; 135; 110; 1; 241; 155; 42]);
   ([4; 185; 21; 186; 67; 254; 181; 182], [66; 253; 68; 48; 89; 87; 127; 162], [175; 55; 251; 66; 31; 140; 64; 149]);
   ([1; 19; 185; 112; 253; 52; 242; 206], [5; 155; 94; 8; 81; 207; 20; 58], [134; 165; 96; 241; 14; 198; 216; 91]);
   ([1; 112; 241; 117; 70; 143; 181; 230], [7; 86; 216; 224; 119; 71; 97; 210], [12; 211; 218; 2; 0; 33; 220; 9]);
   ([67; 41; 127; 173; 56; 227; 115; 254], [118; 37; 20; 184; 41; 191; 72; 106], [234; 103; 107; 44; 183; 219; 43; 122]);
   ([7; 167; 19; 112; 69; 218; 42; 22], [59; 221; 17; 144; 73; 55; 40; 2], [223; 214; 74; 129; 92; 175; 26; 15]);
   ([4; 104; 145; 4; 194; 253; 59; 47], [38; 149; 95; 104; 53; 175; 96; 154], [92; 81; 60; 156; 72; 134; 192; 136]);
   ([55; 208; 107; 181; 22; 203; 117; 70], [22; 77; 94; 64; 79; 39; 82; 50], [10; 42; 238; 174; 63; 244; 171; 119]);
   ([31; 8; 38; 13; 26; 194; 70; 94], [107; 5; 110; 24; 117; 159; 92; 202], [239; 27; 240; 62; 93; 250; 87; 90]);
   ([88; 64; 35; 100; 26; 186; 97; 118], [0; 75; 214; 239; 9; 23; 96; 98], [136; 191; 13; 182; 215; 13; 238; 86]);
   ([2; 88; 22; 22; 70; 41; 176; 7], [72; 13; 57; 0; 110; 231; 98; 242], [161; 249; 145; 85; 65; 2; 11; 86]);
   ([73; 121; 62; 188; 121; 179; 37; 143], [67; 117; 64; 200; 105; 143; 60; 250], [111; 191; 28; 175; 207; 253; 5; 86]);
   ([79; 176; 94; 21; 21; 171; 115; 167], [7; 45; 67; 160; 119; 7; 82; 146], [47; 34; 228; 155; 171; 124; 161; 172]);
   ([73; 233; 93; 109; 76; 162; 41; 191], [2; 254; 85; 119; 129; 23; 241; 42], [90; 107; 97; 44; 194; 108; 206; 74]);
   ([28; 88; 127; 28; 19; 146; 79; 239], [48; 85; 50; 40; 109; 111; 41; 90], [99; 250; 192; 208; 52; 217; 247; 147])].
