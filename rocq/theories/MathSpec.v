(** Positional notation and counters, independent of the code. *)
From Coq Require Import ZArith List Bool.
From Verif Require Import GoBase MathModel.
Import ListNotations.
Open Scope Z_scope.

(** The [n] bits of [v] starting at bit number [i]. *)
Definition bit_field (v i n : Z) : Z := (v / 2 ^ i) mod 2 ^ n.

(** [s] is the usual decimal writing of [v]. *)
Definition is_digit (c : Z) : Prop := 48 <= c <= 57.
Definition digits_value (s : list Z) : Z := fold_left (fun a c => 10 * a + (c - 48)) s 0.
Definition is_decimal (v : Z) (s : list Z) : Prop :=
  s <> [] /\ Forall is_digit s /\ digits_value s = v /\ (hd 48 s = 48 -> s = [48]).

(** Deleting the commas. *)
Definition strip_commas (s : list Z) : list Z := filter (fun c => negb (c =? 44)) s.

(** [s] is a group of one to three characters followed by groups of exactly
    three, each after a comma; no group contains a comma. *)
Definition grouped (s : list Z) : Prop :=
  exists g gs, s = g ++ flat_map (fun h => 44 :: h) gs /\
    (1 <= length g <= 3)%nat /\ Forall (fun h => length h = 3%nat) gs /\
    Forall (fun h => ~ In 44 h) (g :: gs).

(** ** Counters *)
Inductive rop := RAdd (x : Z) | RSub (x : Z) | RMul (x : Z) | RSet (x : Z) | RInc | RDec
  | RReset | RResetR | RInRange (x : Z) | RInCur (x : Z) | RGet.
Inductive robs := RUnit | RRes (v : Z) (ok : bool) | RBool (b : bool) | RVals (v mn mx : Z).

(** Calling the modelled counter of [w] bits. *)
Definition range_step (w : Z) (r : range) (op : rop) : range * robs :=
  match op with
  | RAdd x => let (v, ok) := range_add w r x in (r, RRes v ok)
  | RSub x => let (v, ok) := range_sub w r x in (r, RRes v ok)
  | RMul x => let (v, ok) := range_mul w r x in (r, RRes v ok)
  | RSet x => let '(r', (v, ok)) := range_set r x in (r', RRes v ok)
  | RInc => let '(r', (v, ok)) := range_inc w r in (r', RRes v ok)
  | RDec => let '(r', (v, ok)) := range_dec w r in (r', RRes v ok)
  | RReset => (range_reset r, RUnit)
  | RResetR => (range_reset_r r, RUnit)
  | RInRange x => (r, RBool (in_range r x))
  | RInCur x => (r, RBool (in_current_range r x))
  | RGet => (r, RVals (rval r) (rmin r) (rmax r))
  end.

(** The caller keeps the value inside the range himself. *)
Fixpoint careful (v mn mx : Z) (ops : list rop) : Prop :=
  match ops with
  | [] => True
  | RSet x :: rest => mn <= x <= mx /\ careful x mn mx rest
  | RInc :: rest => v < mx /\ careful (v + 1) mn mx rest
  | RDec :: rest => mn < v /\ careful (v - 1) mn mx rest
  | RReset :: rest => careful mn mn mx rest
  | RResetR :: rest => careful mx mn mx rest
  | _ :: rest => careful v mn mx rest
  end.

(** What the counters really are: one number modulo 2^w plus two bounds that are
    only ever compared in InRange and InCurrentRange. *)
Definition modular_step (w : Z) (s : Z * Z * Z) (op : rop) : (Z * Z * Z) * robs :=
  let '(v, mn, mx) := s in
  match op with
  | RAdd x => (s, RRes ((v + x) mod 2 ^ w) true)
  | RSub x => (s, RRes ((v - x) mod 2 ^ w) true)
  | RMul x => (s, RRes ((v * x) mod 2 ^ w) true)
  | RSet x => ((x, mn, mx), RRes v true)
  | RInc => (((v + 1) mod 2 ^ w, mn, mx), RRes v true)
  | RDec => (((v - 1) mod 2 ^ w, mn, mx), RRes v true)
  | RReset => ((mn, mn, mx), RUnit)
  | RResetR => ((mx, mn, mx), RUnit)
  | RInRange x => (s, RBool ((mn <=? x) && (x <=? mx)))
  | RInCur x => (s, RBool ((mn <=? x) && (x <=? v)))
  | RGet => (s, RVals v mn mx)
  end.
