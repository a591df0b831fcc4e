(** Properties of the conversions of durations to float64. *)
From Coq Require Import ZArith QArith Qabs List Bool SpecFloat.
From Verif Require Import DurFloatProofs DurFloatQ.
From Verif Require Import DurModel DurFloatModel DurFloatSpec.
Import ListNotations.
Open Scope Z_scope.

(** C191: a longer duration never has fewer seconds, minutes, hours, days or weeks. *)
Theorem C191_conversions_monotone : forall f u d d', In (f, u) conversions -> int64 d -> int64 d' -> d <= d' -> SFleb (f d) (f d') = true.
Proof. exact conv_mono. Qed.
Print Assumptions C191_conversions_monotone.
(** Across the end of an hour, and where different durations give the same number of days. *)
Example C191_ex :
  dur_hours 7199999999999 = S754_finite false 9007199254739741 (-52) /\ dur_hours 7200000000000 = S754_finite false 4503599627370496 (-51) /\
  dur_days 9007199254740993 = dur_days 9007199254740992 /\ SFleb (dur_days 9007199254740992) (dur_days 9007199254740993) = true /\
  SFleb (dur_hours 7200000000000) (dur_hours 7199999999999) = false.
Proof. vm_compute. repeat split; reflexivity. Qed.

(** C192: whole units come out exactly, and the conversion of -d is that of d with the other sign. *)
Theorem C192_whole_units : forall f u k, In (f, u) conversions -> int64 (k * u) -> f (k * u) = f64 k.
Proof. exact conv_whole. Qed.
Print Assumptions C192_whole_units.
Theorem C192_opposite : forall f u d, In (f, u) conversions -> int64 d -> int64 (- d) -> d <> 0 -> f (- d) = SFopp (f d).
Proof. exact conv_opp. Qed.
Print Assumptions C192_opposite.
(** 106751 days, nearly the longest duration; half a week backwards. *)
Example C192_ex : dur_days (106751 * 86400000000000) = S754_finite false 7335872861044736 (-36) /\ f64 106751 = S754_finite false 7335872861044736 (-36) /\
  (qval (f64 106751) == inject_Z 106751)%Q /\
  dur_weeks (-302400000000000) = S754_finite true 4503599627370496 (-53) /\ (qval (dur_weeks (-302400000000000)) == - (1 # 2))%Q.
Proof. vm_compute. repeat split; reflexivity. Qed.

(** C193: the conversions are numbers that differ from the quotient by less than one part in 2^52. *)
Theorem C193_accuracy : forall f u d, In (f, u) conversions -> int64 d ->
  is_number (f d) /\ (Qabs (qval (f d) - inject_Z d / inject_Z u) <= Qabs (inject_Z d / inject_Z u) * (1 # 2 ^ 52))%Q.
Proof. exact conv_accurate. Qed.
Print Assumptions C193_accuracy.
(** One second more than three minutes, in minutes: 181 / 60 is between the result and the next double. *)
Example C193_ex : dur_minutes 181000000000 = S754_finite false 6792929437950498 (-51) /\
  (qval (dur_minutes 181000000000) < 181 # 60)%Q /\ (181 # 60 < qval (S754_finite false 6792929437950499 (-51)))%Q.
Proof. vm_compute. repeat split; reflexivity. Qed.

(** C194 (partial): the conversions give a float64 that is nearest to the quotient.  Proved for durations shorter than the unit, for whole
    units, and for days and weeks up to 2^53 nanoseconds (104 days).  Missing: all others, with which it is false of each of the five. *)
Theorem C194_nearest_partial : forall f u d, In (f, u) conversions -> int64 d ->
  Z.abs d < u \/ (86400000000000 <= u /\ Z.abs d <= 2 ^ 53) \/ (u | d) -> nearest (inject_Z d / inject_Z u) (f d).
Proof. exact conv_nearest. Qed.
Print Assumptions C194_nearest_partial.
Theorem C194_nearest_refuted : exists f u, In (f, u) conversions /\ exists d, int64 d /\ ~ nearest (inject_Z d / inject_Z u) (f d).
Proof. exists dur_seconds, 1000000000. split; [left; reflexivity | apply (conv_nearest_bad dur_seconds); left; reflexivity]. Qed.
Print Assumptions C194_nearest_refuted.
Theorem C194_nearest_all_refuted : forall f u, In (f, u) conversions -> exists d, int64 d /\ ~ nearest (inject_Z d / inject_Z u) (f d).
Proof. exact conv_nearest_bad. Qed.
Print Assumptions C194_nearest_all_refuted.
(** 1.046941389 s: Seconds gives the double above the nearest one. *)
Example C194_ex : dur_seconds 1046941389 = S754_finite false 4715004849379150 (-52) /\
  (Qabs (qval (S754_finite false 4715004849379149 (-52)) - (1046941389 # 1000000000)) < Qabs (qval (dur_seconds 1046941389) - (1046941389 # 1000000000)))%Q.
Proof. vm_compute. split; reflexivity. Qed.
