(** Model of math/float.go.  A float64 is an IEEE 754 binary64 number without
    the payload of a NaN (Coq.Floats.SpecFloat, precision 53, emax 1024). *)
From Coq Require Import ZArith Bool SpecFloat.
Open Scope Z_scope.

(** math/float.go:8 Epslon.  The constant 0.000001 becomes a float64 where it is
    compared (line 11): the double nearest to it, 4722366482869645 / 2^72. *)
Definition epslon : spec_float := S754_finite false 4722366482869645 (-72).

(** math/float.go:11 Equal: math.Abs(a-b) < Epslon.  The difference is rounded to
    the nearest double, ties to even; math.Abs clears the sign. *)
Definition float_equal (a b : spec_float) : bool :=
  SFltb (SFabs (SFsub 53 1024 a b)) epslon.
