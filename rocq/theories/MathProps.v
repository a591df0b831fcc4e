(** Bit access, decimal grouping, counters. *)
From Coq Require Import ZArith List Bool Lia.
From Verif Require Import GoBase GoLists MathModel MathSpec MathProofs.
Import ListNotations.
Open Scope Z_scope.

(** Every index below the limit gives exactly the addressed bits, every other
    index gives the error. *)
Theorem C32_get_bits : forall v idx, 0 <= v < 2 ^ 32 -> 0 <= idx < 2 ^ 32 ->
  get_bit v idx = (if idx <? 32 then Some (bit_field v idx 1) else None) /\
  get_byte v idx = (if idx <? 4 then Some (bit_field v (8 * idx) 8) else None) /\
  get_word v idx = (if idx <? 2 then Some (bit_field v (16 * idx) 16) else None).
Proof. exact bits_spec. Qed.
Print Assumptions C32_get_bits.
(** The bytes, and the words, put together give the value back. *)
Theorem C32_reassemble : forall v, 0 <= v < 2 ^ 32 ->
  (exists b0 b1 b2 b3, get_byte v 0 = Some b0 /\ get_byte v 1 = Some b1 /\
     get_byte v 2 = Some b2 /\ get_byte v 3 = Some b3 /\
     v = b0 + 2 ^ 8 * b1 + 2 ^ 16 * b2 + 2 ^ 24 * b3) /\
  (exists w0 w1, get_word v 0 = Some w0 /\ get_word v 1 = Some w1 /\ v = w0 + 2 ^ 16 * w1).
Proof. exact bytes_words_reassemble. Qed.
Print Assumptions C32_reassemble.
Example C32_ex : get_bit 2147483650 31 = Some 1 /\ get_bit 2147483650 2 = Some 0 /\
  get_byte 305419896 2 = Some 52 /\ get_word 305419896 1 = Some 4660 /\ get_byte 305419896 4 = None.
Proof. vm_compute. auto. Qed.

(** CommaString gives the decimal digits of the value in groups of three. *)
Theorem C33_comma_string : forall v, 0 <= v < 2 ^ 64 ->
  exists s, comma_string v = Ok s /\ is_decimal v (strip_commas s) /\ grouped s.
Proof. exact comma_string_spec. Qed.
Print Assumptions C33_comma_string.
(** 1234007 -> "1,234,007"; 1000 -> "1,000"; 0 -> "0". *)
Example C33_ex : comma_string 1234007 = Ok [49; 44; 50; 51; 52; 44; 48; 48; 55] /\
  comma_string 1000 = Ok [49; 44; 48; 48; 48] /\ comma_string 0 = Ok [48].
Proof. vm_compute. auto. Qed.

(** What remains of the claim: a counter created inside its range stays there if
    the caller never sets, increments or decrements past a bound himself.
    Missing: New and Set reject nothing, Inc and Dec step over the bounds (see
    the refutations and C60). *)
Theorem C34_range_partial : forall w ops, 0 < w -> forall v mn mx,
  0 <= mn -> mx < 2 ^ w -> mn <= v <= mx -> careful v mn mx ops ->
  let r := fst (spec_ops (range_step w) (Range v mn mx) ops) in
  rmin r = mn /\ rmax r = mx /\ mn <= rval r <= mx.
Proof. exact range_careful. Qed.
Print Assumptions C34_range_partial.
(** A counter created outside its range, without an error. *)
Theorem C34_range_new_refuted : exists v mn mx r,
  0 <= v < 2 ^ 32 /\ 0 <= mn <= mx /\ mx < 2 ^ 32 /\
  range_new v mn mx = Some r /\ ~ (rmin r <= rval r <= rmax r).
Proof. exists 5, 10, 20, (Range 5 10 20). cbn. repeat split; try lia; reflexivity. Qed.
Print Assumptions C34_range_new_refuted.
(** Inc at the upper bound succeeds and leaves the range. *)
Theorem C34_range_inc_refuted : exists r r' v,
  rmin r <= rval r <= rmax r /\ 0 <= rmin r /\ rmax r < 2 ^ 32 /\
  range_inc 32 r = (r', (v, true)) /\ ~ (rmin r' <= rval r' <= rmax r').
Proof.
  exists (Range 20 10 20), (Range 21 10 20), 20. vm_compute.
  repeat split; try discriminate. intros [_ H]. now apply H.
Qed.
Print Assumptions C34_range_inc_refuted.
Example C34_ex : careful 12 10 20 [RInc; RSet 20; RDec; RResetR; RReset; RInc; RGet] /\
  spec_ops (range_step 32) (Range 12 10 20) [RInc; RSet 20; RDec; RGet; RInRange 21]
  = (Range 19 10 20, [RRes 12 true; RRes 13 true; RRes 20 true; RVals 19 10 20; RBool false]).
Proof. vm_compute. intuition discriminate. Qed.

(** Exact behaviour for every history: a number modulo 2^w whose bounds are only
    compared in InRange and InCurrentRange; Inc, Dec and Set return the value
    before the call. *)
Theorem C60_range_exact : forall w ops v mn mx,
  exists v', spec_ops (range_step w) (Range v mn mx) ops
    = (Range v' mn mx, snd (spec_ops (modular_step w) (v, mn, mx) ops)) /\
    fst (spec_ops (modular_step w) (v, mn, mx) ops) = (v', mn, mx).
Proof. exact range_exact. Qed.
Print Assumptions C60_range_exact.
(** Div panics on zero in both types, Mod only in the 64-bit one; the 32-bit Mod
    returns the lower bound and an error. *)
Theorem C60_range_div_mod : forall r x, 0 <= rval r -> 0 <= x ->
  range_div r x = (if x =? 0 then Panic else Ok (rval r / x, true)) /\
  range64_mod r x = (if x =? 0 then Panic else Ok (rval r mod x, true)) /\
  range32_mod r x = (if x =? 0 then Ok (rmin r, false) else Ok (rval r mod x, true)).
Proof. exact range_div_mod. Qed.
Print Assumptions C60_range_div_mod.
Example C60_ex : spec_ops (range_step 32) (Range 4294967295 3 7) [RInc; RGet; RDec; RInCur 9]
  = (Range 4294967295 3 7, [RRes 4294967295 true; RVals 0 3 7; RRes 0 true; RBool true]) /\
  range64_mod (Range 17 3 20) 5 = Ok (2, true) /\ range32_mod (Range 17 3 20) 0 = Ok (3, false).
Proof. vm_compute. auto. Qed.
