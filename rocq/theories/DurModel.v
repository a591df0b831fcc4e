(** Model of time/duration.go and of the standard formatting and parsing of
    durations that it uses. A duration is its number of nanoseconds, an int64. *)
From Coq Require Import String ZArith List Bool.
From Verif Require Import GoBase GoStrings MathModel.
Import ListNotations.
Open Scope Z_scope.

(** time/duration.go:28-33, the constants. *)
Definition microsecond : Z := 1000.
(** See above. *)
Definition millisecond : Z := 1000000.
(** See above. *)
Definition second : Z := 1000000000.
(** See above. *)
Definition minute : Z := 60 * second.
(** See above. *)
Definition hour : Z := 60 * minute.
(** time/duration.go:21-22 Day, Week. *)
Definition day : Z := 24 * hour.
(** See above. *)
Definition week : Z := 7 * day.

(** fmtFrac of Go's package time (called by Duration.String at
    time/duration.go:55, 59): the last [prec] digits of [v] before [acc], without
    trailing zeros, after a point if any digit is left; and the rest of [v]. *)
Fixpoint fmt_frac (prec : nat) (print : bool) (acc : list Z) (v : Z) : list Z * Z :=
  match prec with
  | O => (if print then 46 :: acc else acc, v)
  | S p =>
      let digit := v mod 10 in
      let pr := print || negb (digit =? 0) in
      fmt_frac p pr (if pr then (48 + digit) :: acc else acc) (v / 10)
  end.
(** Duration.String of Go's package time for a nonnegative number of nanoseconds
    (called at time/duration.go:55, 59); zero is "0s", as since Go 1.7. *)
Definition std_unsigned (u : Z) : list Z :=
  if u <? second then
    if u =? 0 then bytes_of "0s"
    else if u <? microsecond then fmt_d u ++ bytes_of "ns"
    else if u <? millisecond then let '(s, v) := fmt_frac 3 false (194 :: 181 :: bytes_of "s") u in fmt_d v ++ s
    else let '(s, v) := fmt_frac 6 false (bytes_of "ms") u in fmt_d v ++ s
  else
    let '(s, v) := fmt_frac 9 false (bytes_of "s") u in
    let s := fmt_d (v mod 60) ++ s in
    let v := v / 60 in
    if 0 <? v then
      let s := fmt_d (v mod 60) ++ bytes_of "m" ++ s in
      let v := v / 60 in
      if 0 <? v then fmt_d v ++ bytes_of "h" ++ s else s
    else s.
(** Duration.String of Go's package time (called at time/duration.go:55, 59). *)
Definition std_string (d : Z) : list Z :=
  if d <? 0 then 45 :: std_unsigned (- d) else std_unsigned d.

(** time/duration.go:53-62 String; / and % of an int64 by Day truncate towards
    zero, here of a nonnegative number. *)
Definition dur_string (d : Z) : list Z :=
  if d <? day then std_string d
  else fmt_d (Z.quot d day) ++ bytes_of "d" ++ std_string (Z.rem d day).

(** The units of time.ParseDuration (called at time/duration.go:85); 194 181 and
    206 188 are the two ways to write the letter mu. *)
Definition unit_map : list (list Z * Z) :=
  [(bytes_of "ns", 1); (bytes_of "us", microsecond); (194 :: 181 :: bytes_of "s", microsecond);
   (206 :: 188 :: bytes_of "s", microsecond); (bytes_of "ms", millisecond); (bytes_of "s", second);
   (bytes_of "m", minute); (bytes_of "h", hour)].
(** Lookup in that table (standard library, no /repo lines). *)
Fixpoint unit_find (u : list Z) (l : list (list Z * Z)) : option Z :=
  match l with
  | [] => None
  | (k, v) :: l => if str_eqb k u then Some v else unit_find u l
  end.
(** The leading digits (leadingInt; standard library, no /repo lines). *)
Definition is_digb (c : Z) : bool := (48 <=? c) && (c <=? 57).
(** See above. *)
Fixpoint lead_digits (s : list Z) : list Z * list Z :=
  match s with
  | c :: t => if is_digb c then let '(d, r) := lead_digits t in (c :: d, r) else ([], s)
  | [] => ([], [])
  end.
(** The value of digits (leadingInt; standard library, no /repo lines). *)
Definition dig_value (ds : list Z) : Z := fold_left (fun a c => 10 * a + (c - 48)) ds 0.
(** The leading characters up to a digit or a point (the unit; standard library,
    no /repo lines). *)
Fixpoint lead_unit (s : list Z) : list Z * list Z :=
  match s with
  | c :: t => if is_digb c || (c =? 46) then ([], s) else let '(d, r) := lead_unit t in (c :: d, r)
  | [] => ([], [])
  end.
(** The largest int64. *)
Definition max_int64 : Z := 2 ^ 63 - 1.
(** The loop of time.ParseDuration (called at time/duration.go:85): number, point,
    fraction, unit, again and again; [None] is an error. The fraction is converted
    exactly and rounded down; the code does it in float64, which is exact when the
    decimals of the fraction are whole nanoseconds. Running out of fuel cannot
    happen: every round uses a character. *)
Fixpoint parse_loop (fuel : nat) (d : Z) (s : list Z) : option Z :=
  match s, fuel with
  | [], _ => Some d
  | _, O => None
  | _, S fuel =>
      let '(iv, s1) := lead_digits s in
      let '(fv, s2) := match s1 with 46 :: t => lead_digits t | _ => ([], s1) end in
      if (length iv =? 0)%nat && (length fv =? 0)%nat then None
      else
        let '(u, s3) := lead_unit s2 in
        match u, unit_find u unit_map with
        | [], _ => None
        | _, None => None
        | _, Some unit =>
            let v := dig_value iv * unit in
            let v := v + dig_value fv * unit / 10 ^ zlen fv in
            let d := d + v in
            if (max_int64 <? dig_value iv * unit) || (max_int64 <? v) || (max_int64 <? d) then None
            else parse_loop fuel d s3
        end
  end.
(** time.ParseDuration, re-exported at time/duration.go:83-87. *)
Definition parse_duration (s : list Z) : option Z :=
  let '(neg, s) := match s with 45 :: t => (true, t) | 43 :: t => (false, t) | _ => (false, s) end in
  if str_eqb s [48] then Some 0
  else match s with
       | [] => None
       | _ => option_map (fun d => if neg : bool then - d else d) (parse_loop (length s) 0 s)
       end.
