(** Reading a printed size. *)
From Coq Require Import String ZArith List Bool.
From Verif Require Import GoBase GoStrings MathModel MathSpec.
Import ListNotations.
Open Scope Z_scope.

(** The units and how many bytes each is. *)
Definition units : list (list Z * Z) :=
  [(bytes_of "B", 1); (bytes_of "KB", 2 ^ 10); (bytes_of "MB", 2 ^ 20); (bytes_of "GB", 2 ^ 30);
   (bytes_of "TB", 2 ^ 40); (bytes_of "PB", 2 ^ 50); (bytes_of "EB", 2 ^ 60)].

(** The text is a number with three decimals, [n] thousandths in all, and a unit
    of [u] bytes. *)
Definition shows (text : list Z) (n u : Z) : Prop :=
  exists w f name, text = w ++ [46] ++ f ++ name /\ is_decimal (n / 1000) w /\
    length f = 3%nat /\ Forall is_digit f /\ digits_value f = n mod 1000 /\ In (name, u) units.
