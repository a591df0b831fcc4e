(** Models of math/bits_bytes.go, math/uint64.go, math/range_uint32.go and
    math/range_uint64.go. *)
From Coq Require Import ZArith List Bool.
From Verif Require Import GoBase.
Import ListNotations.
Open Scope Z_scope.

(** math/bits_bytes.go:7-9 _check_bit. *)
Definition check_bit (idx : Z) : bool := (0 <=? idx) && (idx <? 32).
(** math/bits_bytes.go:10-13 _check_byte. *)
Definition check_byte (idx : Z) : bool := (0 <=? idx) && (idx <? 4).
(** math/bits_bytes.go:14-16 _check_word. *)
Definition check_word (idx : Z) : bool := (0 <=? idx) && (idx <? 2).

(** math/bits_bytes.go:18-24 GetBit; [None] stands for the error result.  The
    untyped constant 1 takes the type uint32 from its context. *)
Definition get_bit (val idx : Z) : option Z :=
  if check_bit idx then Some (Z.shiftr (Z.land val (wrap 32 (Z.shiftl 1 idx))) idx) else None.
(** math/bits_bytes.go:25-32 GetByte. *)
Definition get_byte (val idx : Z) : option Z :=
  if check_byte idx then
    let bits := wrap 32 (idx * 8) in
    Some (Z.shiftr (Z.land val (wrap 32 (Z.shiftl 255 bits))) bits)
  else None.
(** math/bits_bytes.go:33-40 GetWord. *)
Definition get_word (val idx : Z) : option Z :=
  if check_word idx then
    let bits := wrap 32 (idx * 16) in
    Some (Z.shiftr (Z.land val (wrap 32 (Z.shiftl 65535 bits))) bits)
  else None.

(** Character codes used below (Go language; no /repo lines). *)
Definition chr_comma : Z := 44.
(** '0' (Go language; no /repo lines). *)
Definition chr_0 : Z := 48.

(** Decimal digits of a non-negative number, most significant first, at least
    one (fmt verb %d for unsigned values; standard library, no /repo lines). *)
Fixpoint dec_loop (fuel : nat) (v : Z) : list Z :=
  match fuel with
  | O => []
  | S f => if v <? 10 then [chr_0 + v] else dec_loop f (v / 10) ++ [chr_0 + v mod 10]
  end.
(** fmt verb %d for unsigned values (standard library, no /repo lines); the
    fuel is the number of binary digits. *)
Definition fmt_d (v : Z) : list Z := dec_loop (S (Z.to_nat (Z.log2 v))) v.
(** fmt verb %0wd for unsigned values (standard library, no /repo lines). *)
Definition fmt_0d (w : nat) (v : Z) : list Z :=
  repeat chr_0 (w - length (fmt_d v)) ++ fmt_d v.

(** math/uint64.go:13-17: the loop of CommaString.  Strings are lists of
    character codes. *)
Fixpoint comma_loop (fuel : nat) (l : Z) (s : list Z) : outcome (list Z) :=
  if 1000 <=? l then
    match fuel with
    | O => Diverge
    | S f => comma_loop f (l / 1000) ([chr_comma] ++ fmt_0d 3 (l mod 1000) ++ s)
    end
  else Ok (fmt_d l ++ s).
(** math/uint64.go:9-20 CommaString. *)
Definition comma_string (me : Z) : outcome (list Z) := comma_loop (Z.to_nat (Z.log2 me)) me [].

(** math/range_uint32.go:14-16 RangeUint32 and math/range_uint64.go:20-22
    RangeUInt64. *)
Record range := Range { rval : Z; rmin : Z; rmax : Z }.

(** math/range_uint32.go:143-150 verifyRangeUint32, math/range_uint64.go:144-151:
    the error assignments are commented out, so the error is always nil. *)
Definition verify_range (val min max : Z) : bool := true.
(** math/range_uint32.go:116-119 InRange, math/range_uint64.go:122-125. *)
Definition in_range (r : range) (other : Z) : bool := (rmin r <=? other) && (other <=? rmax r).
(** math/range_uint32.go:120-123 InCurrentRange, math/range_uint64.go:127-130. *)
Definition in_current_range (r : range) (other : Z) : bool := (rmin r <=? other) && (other <=? rval r).
(** math/range_uint32.go:136-141 verify, math/range_uint64.go:137-142: the error
    assignment is commented out, so the error is always nil (true = no error). *)
Definition range_verify (r : range) (val : Z) : bool :=
  if negb (in_range r val) then true else true.
(** math/range_uint32.go:18-23 NewRangeUint32, math/range_uint64.go:24-29; [None] stands for an error. *)
Definition range_new (val min max : Z) : option range :=
  if verify_range val min max then Some (Range val min max) else None.
(** math/range_uint32.go:35-40 Init, math/range_uint64.go:41-46. *)
Definition range_init (r : range) (val min max : Z) : range * bool :=
  if verify_range val min max then (Range val min max, true) else (r, false).
(** math/range_uint32.go:25-28 Reset, math/range_uint64.go:31-34. *)
Definition range_reset (r : range) : range := Range (rmin r) (rmin r) (rmax r).
(** math/range_uint32.go:30-33 ResetR, math/range_uint64.go:36-39. *)
Definition range_reset_r (r : range) : range := Range (rmax r) (rmin r) (rmax r).
(** math/range_uint32.go:42-49 Add ([w] = 32; 64 for math/range_uint64.go:48-55);
    result and "no error".  The guard at 43-45 has an empty body. *)
Definition range_add (w : Z) (r : range) (other : Z) : Z * bool :=
  let v := wrap w (rval r + other) in (v, range_verify r v).
(** math/range_uint32.go:50-57 Sub, math/range_uint64.go:56-63. *)
Definition range_sub (w : Z) (r : range) (other : Z) : Z * bool :=
  let v := wrap w (rval r - other) in (v, range_verify r v).
(** math/range_uint32.go:59-66 Mul, math/range_uint64.go:65-72. *)
Definition range_mul (w : Z) (r : range) (other : Z) : Z * bool :=
  let v := wrap w (rval r * other) in (v, range_verify r v).
(** math/range_uint32.go:67-74 Div, math/range_uint64.go:73-80: division by zero panics. *)
Definition range_div (r : range) (other : Z) : outcome (Z * bool) :=
  if other =? 0 then Panic else let v := rval r / other in Ok (v, range_verify r v).
(** math/range_uint32.go:75-82 Mod of RangeUint32: zero gives (min, error). *)
Definition range32_mod (r : range) (other : Z) : outcome (Z * bool) :=
  if other =? 0 then Ok (rmin r, false)
  else let v := rval r mod other in Ok (v, range_verify r v).
(** math/range_uint64.go:81-88 Mod of RangeUInt64: zero panics. *)
Definition range64_mod (r : range) (other : Z) : outcome (Z * bool) :=
  if other =? 0 then Panic
  else let v := rval r mod other in Ok (v, range_verify r v).
(** math/range_uint32.go:97-103 Set, math/range_uint64.go:103-109: returns the value before the call. *)
Definition range_set (r : range) (other : Z) : range * (Z * bool) :=
  if range_verify r other then (Range other (rmin r) (rmax r), (rval r, true))
  else (r, (rval r, false)).
(** math/range_uint32.go:83-89 Inc, math/range_uint64.go:89-95. *)
Definition range_inc (w : Z) (r : range) : range * (Z * bool) := range_set r (wrap w (rval r + 1)).
(** math/range_uint32.go:90-96 Dec, math/range_uint64.go:96-102 (its argument is not used). *)
Definition range_dec (w : Z) (r : range) : range * (Z * bool) := range_set r (wrap w (rval r - 1)).
