(** Properties of math.Equal (math/float.go). *)
From Coq Require Import ZArith Bool SpecFloat.
From Verif Require Import FloatModel FloatSpec FloatProofs FloatMore.
Open Scope Z_scope.

(** C131: Equal(a,b) holds exactly if both are finite and the difference of the
    values (not rounded) is at most 9444732965739289 / 2^73. *)
Theorem C131_equal_exact : forall a b, double a -> double b ->
  float_equal a b = true <->
  finite a /\ finite b /\ dist a b <= 9444732965739289 * 2 ^ (1074 - 73).
Proof. exact float_equal_iff. Qed.
Print Assumptions C131_equal_exact.
(** 1.0 and the two doubles around 1.000001; the difference of the first is above
    1e-6 - 2e-16, that of the second above 1e-6. *)
Example C131_ex :
  let one := S754_finite false 4503599627370496 (-52) in
  let x := S754_finite false 4503604130970123 (-52) in
  let y := S754_finite false 4503604130970124 (-52) in
  float_equal one x = true /\ float_equal x one = true /\ float_equal one y = false /\
  double one /\ double x /\ double y /\
  (* the constant is the double nearest to one millionth *)
  epslon = SFdiv 53 1024 one (S754_finite false 8589934592000000 (-33)).
Proof. vm_compute. repeat split. Qed.

(** C132: Equal(a,b) is |a-b| < 0.000001.  Partial: one direction is true; the other
    only if the difference is at most 0.000001 - 2e-22. *)
Theorem C132_equal_millionth_partial : forall a b, double a -> double b -> finite a -> finite b ->
  (float_equal a b = true -> dist a b * 1000000 < 2 ^ 1074) /\
  (dist a b * 10 ^ 22 <= (10 ^ 16 - 2) * 2 ^ 1074 -> float_equal a b = true).
Proof. exact equal_millionth. Qed.
Print Assumptions C132_equal_millionth_partial.
(** The double nearest to 0.000001 is below 0.000001 and not Equal to 0. *)
Theorem C132_equal_millionth_refuted : exists a b, double a /\ double b /\ finite a /\ finite b /\
  dist a b * 1000000 < 2 ^ 1074 /\ float_equal a b = false.
Proof. exact equal_millionth_bad. Qed.
Print Assumptions C132_equal_millionth_refuted.
Example C132_ex : float_equal (S754_finite false 4722366482869644 (-72)) (S754_zero true) = true /\
  float_equal (S754_finite true 4722366482869645 (-72)) (S754_zero false) = false.
Proof. vm_compute. auto. Qed.

(** C133: Equal is an equivalence.  Partial: symmetric; reflexive on finite numbers. *)
Theorem C133_equivalence_partial :
  (forall a b, double a -> double b -> float_equal a b = float_equal b a) /\
  (forall a, double a -> (float_equal a a = true <-> finite a)).
Proof. exact (conj float_equal_sym float_equal_refl). Qed.
Print Assumptions C133_equivalence_partial.
Theorem C133_equivalence_refuted :
  (exists a, double a /\ a <> S754_nan /\ float_equal a a = false) /\
  (exists a b c, double a /\ double b /\ double c /\
     float_equal a b = true /\ float_equal b c = true /\ float_equal a c = false).
Proof. exact equivalence_bad. Qed.
Print Assumptions C133_equivalence_refuted.
Example C133_ex : float_equal (S754_infinity false) (S754_infinity false) = false /\
  float_equal (S754_zero true) (S754_zero false) = true /\
  float_equal (S754_finite true 1 (-1074)) (S754_finite false 1 (-1074)) = true.
Proof. vm_compute. auto. Qed.

(** C134: above 2^33 Equal is ==. *)
Theorem C134_equal_large : forall a b, double a -> double b ->
  2 ^ (33 + 1074) < Z.abs (units a) ->
  float_equal a b = true <-> finite b /\ units a = units b.
Proof. exact float_equal_large. Qed.
Print Assumptions C134_equal_large.
(** The bound is sharp: 2^33 is Equal to the double below it. *)
Example C134_ex :
  let a := S754_finite false 4503599627370496 (-19) in
  let b := S754_finite false 9007199254740991 (-20) in
  let c := S754_finite false 4503599627370497 (-19) in
  units a = 2 ^ (33 + 1074) /\ float_equal a b = true /\ units a <> units b /\
  float_equal c a = false /\ float_equal c c = true.
Proof. vm_compute. repeat split. discriminate. Qed.
