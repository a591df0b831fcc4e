(** Models of math/rand/rand.gp_32.go and math/rand/rand.gp_64.go. *)
From Coq Require Import ZArith List Bool.
From Verif Require Import GoBase ConcBase.
Import ListNotations.
Open Scope Z_scope.

(** Word size, multiplier and increment of the two generators:
    math/rand/rand.gp_32.go:67 and math/rand/rand.gp_64.go:67. *)
Record gen := Gen { gw : Z; ga : Z; gc : Z }.
(** math/rand/rand.gp_32.go:67. *)
Definition gen32 : gen := Gen 32 7368787 2750159.
(** math/rand/rand.gp_64.go:67. *)
Definition gen64 : gen := Gen 64 4294955897 4094975977.

(** math/rand/rand.gp_64.go:67 (math/rand/rand.gp_32.go:67): n = o*a + c. *)
Definition rand_next (g : gen) (o : Z) : Z := wrap (gw g) (wrap (gw g) (o * ga g) + gc g).

(** math/rand/rand.gp_64.go:63-76 Rand without concurrent calls: the swap
    succeeds at the first try.  New seed and result. *)
Definition rand (g : gen) (seed : Z) : Z * Z := let n := rand_next g seed in (n, n).
(** math/rand/rand.gp_64.go:84-93 RandRange: a zero divisor panics. *)
Definition rand_range (g : gen) (seed min max : Z) : outcome (Z * Z) :=
  let (min, max) := if max <? min then (max, min) else (min, max) in
  let d := wrap (gw g) (wrap (gw g) (max - min) + 1) in
  let (seed', r) := rand g seed in
  if d =? 0 then Panic else Ok (seed', wrap (gw g) (r mod d + min)).
(** math/rand/rand.gp_64.go:96-98 RandMax. *)
Definition rand_max (g : gen) (seed max : Z) : outcome (Z * Z) :=
  rand_range g seed 0 (wrap (gw g) (max - 1)).

(** Concurrent calls.  The calls that touch the shared seed:
    math/rand/rand.gp_64.go:63 Rand, 106 Srand, 101 Seed. *)
Inductive rnd_op := ORand | OSrand (x : Z) | OSeed.
(** Where a goroutine is: outside, at the first atomic access of a call, after
    the load of line 66 with the value [o], before the return. *)
Inductive rnd_pc := PIdle | PCall (op : rnd_op) | PLoaded (o : Z) | PRet (op : rnd_op) (r : Z).
(** Shared seed and goroutines (math/rand/rand.gp_64.go:47-50). *)
Record rnd_state := RndState { rseed : Z; rpc : nat -> rnd_pc }.

(** One atomic step of goroutine [t]; [op] is what it calls if it is outside.
    math/rand/rand.gp_64.go:65-72 (load, compare and swap, loop), 101-103 Seed,
    106-109 Srand. *)
Definition rnd_step (g : gen) (s : rnd_state) (t : nat) (op : rnd_op) : rnd_state * list (ext rnd_op Z) :=
  match rpc s t with
  | PIdle => (RndState (rseed s) (fupd (rpc s) t (PCall op)), [Inv t op])
  | PCall ORand => (RndState (rseed s) (fupd (rpc s) t (PLoaded (rseed s))), [])
  | PCall (OSrand x) => (RndState x (fupd (rpc s) t (PRet (OSrand x) (rseed s))), [])
  | PCall OSeed => (RndState (rseed s) (fupd (rpc s) t (PRet OSeed (rseed s))), [])
  | PLoaded o =>
      let n := rand_next g o in
      if rseed s =? o then (RndState n (fupd (rpc s) t (PRet ORand n)), [])
      else (RndState (rseed s) (fupd (rpc s) t (PCall ORand)), [])
  | PRet op r => (RndState (rseed s) (fupd (rpc s) t PIdle), [Ret t op r])
  end.
(** A generator created by math/rand/rand.gp_64.go:53-55 NewRand64S, no call running. *)
Definition rnd_init (seed : Z) : rnd_state := RndState seed (fun _ => PIdle).
