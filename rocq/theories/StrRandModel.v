(** Model of strings/rand.go.  A string is the list of its bytes. *)
From Coq Require Import ZArith List Bool.
From Verif Require Import GoBase ConcBase RandModel.
Import ListNotations.
Open Scope Z_scope.

(** strings/rand.go:26 upper = "ABCDEFGHIJKLMNOPQRSTUVWXYZ". *)
Definition upper_letters : list Z :=
  [65; 66; 67; 68; 69; 70; 71; 72; 73; 74; 75; 76; 77; 78; 79; 80; 81; 82; 83; 84; 85; 86; 87; 88; 89; 90].

(** strings/rand.go:15-20: 1 << (iota + 16). *)
Definition rule_limit_len : Z := 2 ^ 16.
(** strings/rand.go:16. *)
Definition rule_number : Z := 2 ^ 17.
(** strings/rand.go:17. *)
Definition rule_letter : Z := 2 ^ 18.
(** strings/rand.go:18. *)
Definition rule_letter_upper : Z := 2 ^ 19.
(** strings/rand.go:19. *)
Definition rule_letter_lower : Z := 2 ^ 20.
(** strings/rand.go:20. *)
Definition rule_symbol : Z := 2 ^ 21.

(** strings/rand.go:36: one letter, upper[rnd.RandMax(uint32(len(upper)))]; new
    seed of the generator rnd of lines 7-9 and the byte. *)
Definition draw (seed : Z) : outcome (Z * Z) :=
  ' (seed, i) <- rand_max gen32 seed (wrap 32 (zlen upper_letters)) ;;
  c <- zget upper_letters i ;;
  Ok (seed, c).

(** strings/rand.go:35-37: the loop, [n] letters to go. *)
Fixpoint draws (n : nat) (seed : Z) : outcome (Z * list Z) :=
  match n with
  | O => Ok (seed, [])
  | S n =>
      ' (seed, c) <- draw seed ;;
      ' (seed, cs) <- draws n seed ;;
      Ok (seed, c :: cs)
  end.

(** strings/rand.go:33-39 Rand.  make panics if the length is negative (lengths too
    large for the memory are left out); the rule is not used. *)
Definition str_rand (seed rule len : Z) : outcome (Z * list Z) :=
  if len <? 0 then Panic else draws (Z.to_nat len) seed.

(** strings/rand.go:42-44 GetRule. *)
Definition get_rule (s : list Z) : Z := 0.

(** Calls of Rand one after the other (strings/rand.go:33), the generator is the
    variable of strings/rand.go:8. *)
Definition sr_step (seed : Z) (call : Z * Z) : outcome (Z * list Z) :=
  str_rand seed (fst call) (snd call).

(** Concurrent calls.  A goroutine is outside or in Rand with the letters drawn so
    far and the number still to draw (strings/rand.go:34-38). *)
Inductive sr_pc := SIdle | SLoop (len : nat) (b : list Z) (n : nat).
(** The shared generator and the goroutines (strings/rand.go:8). *)
Record sr_state := SrState { sr_seed : Z; sr_pcs : nat -> sr_pc }.

(** One step of goroutine [t]: it calls Rand with length [len] (line 33), draws one
    letter (line 36; RandMax is one atomic step, see C40), or returns (line 38). *)
Definition sr_cstep (s : sr_state) (t : nat) (len : nat) : sr_state * list (ext nat (list Z)) :=
  match sr_pcs s t with
  | SIdle => (SrState (sr_seed s) (fupd (sr_pcs s) t (SLoop len [] len)), [Inv t len])
  | SLoop l b O => (SrState (sr_seed s) (fupd (sr_pcs s) t SIdle), [Ret t l b])
  | SLoop l b (S n) =>
      match draw (sr_seed s) with
      | Ok (seed, c) => (SrState seed (fupd (sr_pcs s) t (SLoop l (b ++ [c]) n)), [])
      | _ => (s, [])
      end
  end.
(** No call running (strings/rand.go:8). *)
Definition sr_init (seed : Z) : sr_state := SrState seed (fun _ => SIdle).
