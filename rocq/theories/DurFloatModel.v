(** Model of the conversions of durations to float64, time/duration.go:38-50, 68-81.  A float64 is an IEEE 754 binary64 number without the payload of a
    NaN (Coq.Floats.SpecFloat, precision 53, emax 1024). *)
From Coq Require Import ZArith SpecFloat.
From Verif Require Import DurModel.
Open Scope Z_scope.

(** The conversion float64(n) of an integer, used at time/duration.go:44, 49: the nearest double, ties to even; zero is positive. *)
Definition f64 (n : Z) : spec_float := binary_normalize 53 1024 n 0 false.
(** time/duration.go:43-45 Days. *)
Definition dur_days (d : Z) : spec_float := SFdiv 53 1024 (f64 d) (f64 day).
(** time/duration.go:48-50 Weeks. *)
Definition dur_weeks (d : Z) : spec_float := SFdiv 53 1024 (f64 d) (f64 week).
(** Seconds, Minutes and Hours of Go's package time (since Go 1.10), called at time/duration.go:70, 75, 80:
    [w := d / unit; nsec := d % unit; return float64(w) + float64(nsec)/unit]; / and % of int64 truncate. *)
Definition std_float (u d : Z) : spec_float := SFadd 53 1024 (f64 (Z.quot d u)) (SFdiv 53 1024 (f64 (Z.rem d u)) (f64 u)).
(** time/duration.go:69-71 Seconds. *)
Definition dur_seconds (d : Z) : spec_float := std_float second d.
(** time/duration.go:74-76 Minutes. *)
Definition dur_minutes (d : Z) : spec_float := std_float minute d.
(** time/duration.go:79-81 Hours. *)
Definition dur_hours (d : Z) : spec_float := std_float hour d.
