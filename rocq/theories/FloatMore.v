From Coq Require Import ZArith Bool Lia SpecFloat.
From Verif Require Import FloatModel FloatSpec FloatProofs.
Open Scope Z_scope.

Lemma equal_millionth : forall a b, double a -> double b -> finite a -> finite b ->
  (float_equal a b = true -> dist a b * 1000000 < 2 ^ 1074) /\
  (dist a b * 10 ^ 22 <= (10 ^ 16 - 2) * 2 ^ 1074 -> float_equal a b = true).
Proof.
  intros a b Da Db Fa Fb. split.
  - intros H. apply (float_equal_below a b Da Db H).
  - intros H. apply float_equal_near; auto.
Qed.

Lemma equal_millionth_bad : exists a b, double a /\ double b /\ finite a /\ finite b /\
  dist a b * 1000000 < 2 ^ 1074 /\ float_equal a b = false.
Proof.
  exists (S754_finite false 4722366482869645 (-72)), (S754_zero false).
  vm_compute. repeat split.
Qed.

Lemma equivalence_bad :
  (exists a, double a /\ a <> S754_nan /\ float_equal a a = false) /\
  (exists a b c, double a /\ double b /\ double c /\
     float_equal a b = true /\ float_equal b c = true /\ float_equal a c = false).
Proof.
  split.
  - exists (S754_infinity false). split; [reflexivity|]. split; [discriminate|reflexivity].
  - exists (S754_zero false), (S754_finite false 4503599627370496 (-72)), (S754_finite false 4503599627370496 (-71)).
    vm_compute. repeat split.
Qed.
