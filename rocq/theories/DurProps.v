(** Properties C55 and C92: Duration.String and ParseDuration. *)
From Coq Require Import String ZArith List Bool Lia.
From Verif Require Import GoBase GoStrings MathModel MathSpec DurModel DurProofs.
Import ListNotations.
Open Scope Z_scope.

(** C55: from one day on, the text is the number of whole days in decimal, the
    letter d, and the standard text of what is left, less than a day. *)
Theorem C55_days : forall d, day <= d < 2 ^ 63 ->
  exists n rest text, 1 <= n /\ 0 <= rest < 24 * 60 * 60 * 1000000000 /\
    d = n * (24 * 60 * 60 * 1000000000) + rest /\
    is_decimal n text /\ dur_string d = text ++ 100 :: std_string rest.
Proof. exact (fun d H => dur_days d (proj1 H)). Qed.
Print Assumptions C55_days.
Example C55_days_ex : dur_string (90060 * second) = bytes_of "1d1h1m0s" /\ dur_string (14 * day + 1500 * millisecond) = bytes_of "14d1.5s" /\ dur_string day = bytes_of "1d0s".
Proof. vm_compute. auto. Qed.

(** C55: below one day (and below zero) the text is the standard one, which is
    read back as the same duration; the shortest int64 is left out because
    versions of time.ParseDuration differ on it. *)
Theorem C55_standard : forall d, - 2 ^ 63 < d < day ->
  dur_string d = std_string d /\ parse_duration (dur_string d) = Some d.
Proof. exact dur_short. Qed.
Print Assumptions C55_standard.
Example C55_standard_ex : dur_string (day - 1) = bytes_of "23h59m59.999999999s" /\ dur_string (- (5 * day)) = bytes_of "-120h0m0s" /\
  dur_string 1500 = bytes_of "1.5" ++ 194 :: 181 :: bytes_of "s".
Proof. vm_compute. auto. Qed.

(** C55: different durations have different texts, for all int64 values. *)
Theorem C55_injective : forall d e, - 2 ^ 63 <= d < 2 ^ 63 -> - 2 ^ 63 <= e < 2 ^ 63 ->
  dur_string d = dur_string e -> d = e.
Proof. exact dur_inj. Qed.
Print Assumptions C55_injective.
Example C55_injective_ex : dur_string (day + 1) = bytes_of "1d1ns" /\ dur_string (day + 1000) <> dur_string (day + 1) /\
  dur_string (- 2 ^ 63) = bytes_of "-2562047h47m16.854775808s" /\ dur_string (2 ^ 63 - 1) = bytes_of "106751d23h47m16.854775807s".
Proof. vm_compute. repeat split; discriminate. Qed.

(** C92: ParseDuration reads what String writes. True of durations below one day;
    missing are those of a day or more (refuted below) and the shortest int64. *)
Theorem C92_round_trip_partial : forall d, - 2 ^ 63 < d < day -> parse_duration (dur_string d) = Some d.
Proof. exact (fun d H => proj2 (dur_short d H)). Qed.
Print Assumptions C92_round_trip_partial.
Example C92_round_trip_ex : parse_duration (bytes_of "23h59m59.999999999s") = Some (day - 1) /\ parse_duration (bytes_of "-120h0m0s") = Some (- (5 * day)).
Proof. vm_compute. auto. Qed.

(** C92: every text of a duration of at least one day is an error for
    ParseDuration. *)
Theorem C92_days_unreadable : forall d, day <= d < 2 ^ 63 -> parse_duration (dur_string d) = None.
Proof. exact (fun d H => parse_days d (proj1 H)). Qed.
Print Assumptions C92_days_unreadable.
Example C92_days_unreadable_ex : parse_duration (bytes_of "14d1.5s") = None /\ parse_duration (bytes_of "336h0m1.5s") = Some (14 * day + 1500 * millisecond).
Proof. vm_compute. auto. Qed.

(** C92 as stated is false. *)
Theorem C92_round_trip_refuted : exists d, - 2 ^ 63 <= d < 2 ^ 63 /\ parse_duration (dur_string d) <> Some d.
Proof. exact round_trip_false. Qed.
Print Assumptions C92_round_trip_refuted.
