(** The sequence of letters behind strings.Rand, independent of the code. *)
From Coq Require Import ZArith List Bool.
From Verif Require Import GoBase ConcBase RandSpec.
Import ListNotations.
Open Scope Z_scope.

(** Letter number [k] (the first is number 0) after [seed]. *)
Definition letter (seed : Z) (k : nat) : Z := 65 + lcg 32 7368787 2750159 (S k) seed mod 26.

(** The results of calls with these lengths, cut from the sequence one after the
    other, the first at position [k]. *)
Fixpoint segments (seed : Z) (k : nat) (lens : list nat) : list (list Z) :=
  match lens with
  | [] => []
  | n :: lens => map (letter seed) (seq k n) :: segments seed (k + n) lens
  end.

(** Kinds of characters. *)
Definition is_upper (c : Z) : bool := (65 <=? c) && (c <=? 90).
Definition is_lower (c : Z) : bool := (97 <=? c) && (c <=? 122).
Definition is_digit (c : Z) : bool := (48 <=? c) && (c <=? 57).
Definition is_symbol (c : Z) : bool := (33 <=? c) && (c <=? 126) && negb (is_upper c || is_lower c || is_digit c).

(** The string has a character of every kind that the rule asks for (bits 17 to 21:
    number, letter, upper case letter, lower case letter, symbol). *)
Definition obeys (rule : Z) (s : list Z) : Prop :=
  (Z.testbit rule 17 = true -> existsb is_digit s = true) /\
  (Z.testbit rule 18 = true -> existsb (fun c => is_upper c || is_lower c) s = true) /\
  (Z.testbit rule 19 = true -> existsb is_upper s = true) /\
  (Z.testbit rule 20 = true -> existsb is_lower s = true) /\
  (Z.testbit rule 21 = true -> existsb is_symbol s = true).

(** Neighbours are an even and an odd letter of the alphabet. *)
Fixpoint alternating (s : list Z) : Prop :=
  match s with
  | a :: (b :: _) as t => Z.odd a <> Z.odd b /\ alternating t
  | _ => True
  end.
