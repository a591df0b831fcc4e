(** Model of the creation of generators: math/rand/rand.go, math/rand/rand.gp_32.go
    and math/rand/rand.gp_64.go. *)
From Coq Require Import ZArith List Bool.
From Verif Require Import GoBase GoLists RandModel.
Import ListNotations.
Open Scope Z_scope.

(** math/rand/rand.go:11-15 RandSeed; [tsc] is the result of RDTSC (time/rdtsc.go:17-19),
    [now] that of time.Now().Unix(), an int64. *)
Definition rand_seed (tsc now init : Z) : Z :=
  let r := wrap 64 (wrap 64 (tsc + wrap 64 now) + init) in
  wrap 64 (wrap 64 (r * 4294967291) + 8615693).

(** The seed of gRand64 (gRand32), math/rand/rand.gp_64.go:28-30, and of the generators that were created. *)
Record seeds := Seeds { sd_global : Z; sd_made : list Z }.
(** Package initialisation: math/rand/rand.gp_64.go:28-30. *)
Definition sd_init (g : gen) (tsc now : Z) : seeds := Seeds (wrap (gw g) (rand_seed tsc now 0)) [].

(** Calls: NewRand64 (line 58) with the clocks it reads, NewRand64S (53), Rand64 (33), RandRange64 (41), RandMax64 (38),
    and of a generator with its number Rand (63), RandRange (84), RandMax (96), Srand (106), Seed (101): math/rand/rand.gp_64.go
    and the same lines of math/rand/rand.gp_32.go. *)
Inductive sd_op :=
  | SNew (tsc now : Z) | SNewS (seed : Z) | SGRand | SGRange (min max : Z) | SGMax (max : Z)
  | SRand (i : nat) | SRange (i : nat) (min max : Z) | SMax (i : nat) (max : Z) | SSrand (i : nat) (x : Z) | SSeed (i : nat).

(** Access to generator [i] with function [f] (Go language; no /repo lines).  A generator that was not created is a nil
    pointer. *)
Definition sd_use (s : seeds) (i : nat) (f : Z -> outcome (Z * Z)) : outcome (seeds * Z) :=
  match nth_error (sd_made s) i with
  | None => Panic
  | Some x => ' (x', r) <- f x ;; Ok (Seeds (sd_global s) (firstn i (sd_made s) ++ x' :: skipn (S i) (sd_made s)), r)
  end.
(** Access to the global generator (math/rand/rand.gp_64.go:33-43). *)
Definition sd_glob (s : seeds) (f : Z -> outcome (Z * Z)) : outcome (seeds * Z) :=
  ' (x', r) <- f (sd_global s) ;; Ok (Seeds x' (sd_made s), r).

(** math/rand/rand.gp_64.go:33-109 (math/rand/rand.gp_32.go:33-109).  The result of the two functions that create a generator is here what
    Seed of the new generator returns.  Arguments are words. *)
Definition sd_step (g : gen) (s : seeds) (op : sd_op) : outcome (seeds * Z) :=
  let W := wrap (gw g) in
  match op with
  | SNew tsc now =>
      let (x', r) := rand g (sd_global s) in
      let seed := W (rand_seed tsc now r) in
      Ok (Seeds x' (sd_made s ++ [seed]), seed)
  | SNewS seed => Ok (Seeds (sd_global s) (sd_made s ++ [W seed]), W seed)
  | SGRand => sd_glob s (fun x => Ok (rand g x))
  | SGRange a b => sd_glob s (fun x => rand_range g x (W a) (W b))
  | SGMax n => sd_glob s (fun x => rand_max g x (W n))
  | SRand i => sd_use s i (fun x => Ok (rand g x))
  | SRange i a b => sd_use s i (fun x => rand_range g x (W a) (W b))
  | SMax i n => sd_use s i (fun x => rand_max g x (W n))
  | SSrand i y => sd_use s i (fun x => Ok (W y, x))
  | SSeed i => sd_use s i (fun x => Ok (x, x))
  end.
