(** Primes, square roots and sequences, independent of the code. *)
From Coq Require Import ZArith Znumtheory List Bool.
From Verif Require Import GoBase NumModel.
Import ListNotations.
Open Scope Z_scope.

(** [s] is an integer nearest to the real square root of [v]:
    s - 1/2 <= sqrt v <= s + 1/2, written without roots. *)
Definition nearest_root (v s : Z) : Prop :=
  0 <= s /\ 4 * v <= (2 * s + 1) ^ 2 /\ (s = 0 \/ (2 * s - 1) ^ 2 <= 4 * v).

(** Operations of the sequence generator and what they return. *)
Inductive sqop := SNext | SRecycle (r : Z) | SInfo.
Inductive sqobs := SVal (r : Z) (ok : bool) | SErr (ok : bool) | SNums (cur mn mx : Z).
Definition seq_step (s : seq64) (op : sqop) : outcome (seq64 * sqobs) :=
  match op with
  | SNext => x <- seq_next s ;; let '(s', (r, ok)) := x in Ok (s', SVal r ok)
  | SRecycle r => let (s', ok) := seq_recycle s r in Ok (s', SErr ok)
  | SInfo => let '(c, mn, mx) := seq_info s in Ok (s, SNums c mn mx)
  end.

(** A 64-bit counter that hands out its value and adds one. *)
Definition counter_step (mn mx : Z) (c : Z) (op : sqop) : Z * sqobs :=
  match op with
  | SNext => ((c + 1) mod 2 ^ 64, SVal c true)
  | SRecycle r => (c, SErr ((mn <=? r) && (r <=? c)))
  | SInfo => (c, SNums c mn mx)
  end.

(** The results of the Next calls in a list of observations. *)
Fixpoint next_values (os : list sqobs) : list Z :=
  match os with
  | [] => []
  | SVal r _ :: os => r :: next_values os
  | _ :: os => next_values os
  end.
