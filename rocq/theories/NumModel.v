(** Models of math/seq/sequence64.go and math/prime/prime.go. *)
From Coq Require Import ZArith List Bool.
From Verif Require Import GoBase MathModel PrimeData.
Import ListNotations.
Open Scope Z_scope.

(** math/seq/sequence.go:15-19: recycling options. *)
Definition NO_REC : Z := 16.
(** math/seq/sequence.go:17 REC_FST. *)
Definition REC_FST : Z := 48.
(** math/seq/sequence.go:18 REC_LST. *)
Definition REC_LST : Z := 64.
(** math/seq/sequence.go:20 _get_cecycle. *)
Definition get_cecycle : Z := 240.
(** math/seq/sequence.go:22 NOUSE_FST. *)
Definition NOUSE_FST : Z := 256.
(** math/seq/sequence.go:23 PANIC_ERR. *)
Definition PANIC_ERR : Z := 512.
(** math/seq/sequence.go:25 _get_usage_option. *)
Definition get_usage_option : Z := 3840.
(** math/seq/sequence.go:27 DFT_OP_ID_INC. *)
Definition DFT_OP_ID_INC : Z := Z.lor (Z.lor 1 NO_REC) NOUSE_FST.
(** math/seq/sequence.go:28 DFT_OP_ID_NO_ERR. *)
Definition DFT_OP_ID_NO_ERR : Z := Z.lor (Z.lor (Z.lor 1 NO_REC) NOUSE_FST) PANIC_ERR.

(** math/seq/sequence64.go:22-26 Seq64 (the name is only printed, not modelled). *)
Record seq64 := Seq64 { sid : range; sopt : Z }.

(** math/seq/sequence64.go:28-43 NewSeq64; [None] stands for nil. *)
Definition new_seq64 (min max opt : Z) : option seq64 :=
  let (r, ok) := range_init (Range 0 0 0) min min max in
  if ok then
    let r := range_reset r in
    let r := if Z.land opt get_usage_option =? NOUSE_FST then fst (range_inc 64 r) else r in
    Some (Seq64 r opt)
  else None.

(** math/seq/sequence64.go:105-107 push_recycle: stores nothing. *)
Definition push_recycle (s : seq64) (r : Z) : seq64 * bool := (s, true).
(** math/seq/sequence64.go:108-113 pop_recycle: (0, nil) in either branch. *)
Definition pop_recycle (s : seq64) (ty : Z) : Z * bool :=
  if Z.land (sopt s) get_cecycle =? ty then (0, true) else (0, true).

(** math/seq/sequence64.go:55-78 Next: value and "no error"; the deferred
    function (56-60) turns an error into a panic when PANIC_ERR is set. *)
Definition seq_next (s : seq64) : outcome (seq64 * (Z * bool)) :=
  let finish (s : seq64) (r : Z) (ok : bool) :=
    if negb ok && (Z.land (sopt s) PANIC_ERR =? PANIC_ERR) then Panic else Ok (s, (r, ok)) in
  let (r, ok) := pop_recycle s REC_FST in
  if negb ok then finish s r ok
  else
    let '(id', (r, ok)) := range_inc 64 (sid s) in
    let s := Seq64 id' (sopt s) in
    if negb ok then
      if Z.land (sopt s) get_cecycle =? NO_REC then Panic
      else let (r, ok) := pop_recycle s REC_LST in finish s r ok
    else finish s r ok.

(** math/seq/sequence64.go:89-96 Recycle: true = no error. *)
Definition seq_recycle (s : seq64) (r : Z) : seq64 * bool :=
  if in_current_range (sid s) r then push_recycle s r else (s, false).
(** math/seq/sequence64.go:45-48 Current, 49-51 Min, 52-54 Max. *)
Definition seq_info (s : seq64) : Z * Z * Z := (rval (sid s), rmin (sid s), rmax (sid s)).

(** math/prime/prime.go:15-23: the loop of IsPrime over the rest of the table;
    [max] is the constant 0 of line 14 (the square root is commented out). *)
Fixpoint prime_loop (table : list Z) (max num : Z) : bool :=
  match table with
  | [] => true
  | p :: rest => if max <? p then true
                 else if num mod p =? 0 then false else prime_loop rest max num
  end.
(** math/prime/prime.go:3-25 IsPrime. *)
Definition is_prime (num : Z) : bool :=
  if num <? 2 then false
  else if (num =? 2) || (num =? 3) then true
  else
    let m := num mod 6 in
    if negb (m =? 1) && negb (m =? 5) then false
    else prime_loop (skipn 2 g_primes) 0 num.

(** math/prime/prime.go:27-35 step on the pair (val, sqrtVal), in 32-bit words. *)
Definition sqrt_step (shift : Z) (st : Z * Z) : Z * Z :=
  let (val, sq) := st in
  let magic := Z.shiftr (2 ^ 30) shift in
  if wrap 32 (magic + sq) <=? val
  then (wrap 32 (val - wrap 32 (magic + sq)), Z.lor (Z.shiftr sq 1) magic)
  else (val, Z.shiftr sq 1).
(** math/prime/prime.go:40-42: the loop from shift 30-2k on, [S k] rounds. *)
Fixpoint sqrt_loop (k : nat) (i : Z) (st : Z * Z) : Z * Z :=
  match k with
  | O => st
  | S k => if i <=? 30 then sqrt_loop k (i + 2) (sqrt_step i st) else st
  end.
(** math/prime/prime.go:38-49 SqrtUint32: at most 16 rounds (i = 0, 2, .., 30). *)
Definition sqrt_uint32 (val : Z) : Z :=
  let (val, sq) := sqrt_loop 17 0 (val, 0) in
  if sq <? val then wrap 32 (sq + 1) else sq.
