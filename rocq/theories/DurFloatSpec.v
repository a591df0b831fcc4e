(** What the conversions of durations to float64 should be: quotients. *)
From Coq Require Import ZArith QArith Qabs Qpower List SpecFloat.
From Verif Require Import DurModel DurFloatModel.
Import ListNotations.

(** The conversions and how many nanoseconds their unit has. *)
Definition conversions : list ((Z -> spec_float) * Z) :=
  [(dur_seconds, 1000000000%Z); (dur_minutes, 60000000000%Z); (dur_hours, 3600000000000%Z); (dur_days, 86400000000000%Z); (dur_weeks, 604800000000000%Z)].
Definition int64 (d : Z) : Prop := (- 2 ^ 63 <= d < 2 ^ 63)%Z.
(** The number a finite float64 stands for. *)
Definition qval (f : spec_float) : Q :=
  match f with
  | S754_finite s m e => (inject_Z (if s then Zneg m else Zpos m) * (2 # 1) ^ e)%Q
  | _ => 0%Q
  end.
Definition is_number (f : spec_float) : Prop := valid_binary 53 1024 f = true /\ match f with S754_zero _ | S754_finite _ _ _ => True | _ => False end.
(** [f] is a float64 nearest to [q]. *)
Definition nearest (q : Q) (f : spec_float) : Prop := is_number f /\ forall g, is_number g -> (Qabs (qval f - q) <= Qabs (qval g - q))%Q.
