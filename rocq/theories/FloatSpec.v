(** Doubles and their values, independent of the code. *)
From Coq Require Import ZArith Bool SpecFloat.
Open Scope Z_scope.

(** The data are a double: a mantissa of 53 bits and an exponent in range. *)
Definition double (f : spec_float) : Prop := valid_binary 53 1024 f = true.

(** Neither a NaN nor infinite. *)
Definition finite (f : spec_float) : Prop :=
  match f with S754_zero _ | S754_finite _ _ _ => True | _ => False end.

(** Every finite double is a multiple of 2^-1074; its value in this unit. *)
Definition units (f : spec_float) : Z :=
  match f with
  | S754_finite s m e => (if s then -1 else 1) * (Zpos m * 2 ^ (e + 1074))
  | _ => 0
  end.

(** The difference of the two values, in units of 2^-1074, without rounding. *)
Definition dist (a b : spec_float) : Z := Z.abs (units a - units b).
