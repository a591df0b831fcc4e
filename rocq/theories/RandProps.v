(** The random number generators. *)
From Coq Require Import ZArith List Bool Lia Permutation.
From Verif Require Import GoBase ConcBase RandModel RandSpec RandProofs.
Import ListNotations.
Open Scope Z_scope.

(** RandRange and RandMax stay in range for every seed and every pair of bounds
    except the full range and the bound zero.  Missing: those two inputs, which
    panic. *)
Theorem C38_rand_range_partial : forall g, g = gen32 \/ g = gen64 -> forall seed,
  (forall x y, 0 <= x < 2 ^ gw g -> 0 <= y < 2 ^ gw g ->
     ~ (Z.min x y = 0 /\ Z.max x y = 2 ^ gw g - 1) ->
     exists seed' r, rand_range g seed x y = Ok (seed', r) /\ Z.min x y <= r <= Z.max x y) /\
  (forall n, 0 < n < 2 ^ gw g -> exists seed' r, rand_max g seed n = Ok (seed', r) /\ 0 <= r < n).
Proof. exact rand_range_all. Qed.
Print Assumptions C38_rand_range_partial.
(** The full range and the bound zero panic in both generators, whatever the seed. *)
Theorem C38_rand_range_refuted : exists x y n, forall g, g = gen32 \/ g = gen64 ->
  0 <= x < 2 ^ 32 /\ 0 <= y < 2 ^ 32 /\ 0 <= n < 2 ^ 32 /\ forall seed,
  rand_max g seed n = Panic /\ (gw g = 32 -> rand_range g seed x y = Panic).
Proof. exact rand_range_panics. Qed.
Print Assumptions C38_rand_range_refuted.
Example C38_ex : rand_range gen32 1 20 10 = Ok (10118946, 12) /\ rand_max gen64 5 10 = Ok (25569755462, 2).
Proof. vm_compute. auto. Qed.

(** Exact value: lowest bound plus the next state modulo the width. *)
Theorem C64_rand_range_exact : forall g seed x y,
  0 < gw g -> 0 <= x < 2 ^ gw g -> 0 <= y < 2 ^ gw g ->
  let lo := Z.min x y in let hi := Z.max x y in
  rand_range g seed x y =
  if hi - lo =? 2 ^ gw g - 1 then Panic
  else Ok (lcg (gw g) (ga g) (gc g) 1 seed,
           lo + lcg (gw g) (ga g) (gc g) 1 seed mod (hi - lo + 1)).
Proof. exact rand_range_exact. Qed.
Print Assumptions C64_rand_range_exact.
Example C64_ex : rand_range gen64 0 7 7 = Ok (4094975977, 7) /\ rand_range gen32 0 4294967295 0 = Panic.
Proof. vm_compute. auto. Qed.

(** The 64-bit generator has period exactly 2^64 from every seed and reaches
    every value.  Missing: the 32-bit generator, which does not (see below). *)
Theorem C39_period64_partial : forall seed, 0 <= seed < 2 ^ 64 ->
  (forall i j, lcg 64 (ga gen64) (gc gen64) i seed = lcg 64 (ga gen64) (gc gen64) j seed <->
     (2 ^ 64 | Z.of_nat j - Z.of_nat i)) /\
  (forall v, 0 <= v < 2 ^ 64 -> exists n, Z.of_nat n < 2 ^ 64 /\ lcg 64 (ga gen64) (gc gen64) n seed = v).
Proof. exact period64. Qed.
Print Assumptions C39_period64_partial.
(** [lcg] is what successive calls of Rand return. *)
Theorem C39_lcg_is_rand : forall g k seed,
  snd (rand g (lcg (gw g) (ga g) (gc g) k seed)) = lcg (gw g) (ga g) (gc g) (S k) seed /\
  fst (rand g (lcg (gw g) (ga g) (gc g) k seed)) = lcg (gw g) (ga g) (gc g) (S k) seed.
Proof. exact lcg_is_rand. Qed.
Print Assumptions C39_lcg_is_rand.
(** A seed from which some 32-bit value is never produced (so it is from every
    seed, see C65). *)
Theorem C39_period32_refuted : exists seed v, 0 <= seed < 2 ^ 32 /\ 0 <= v < 2 ^ 32 /\
  forall n, lcg 32 (ga gen32) (gc gen32) n seed <> v.
Proof. exact period32_not_full. Qed.
Print Assumptions C39_period32_refuted.
Example C39_ex : lcg 64 (ga gen64) (gc gen64) 3 12345 = 18134573210554729668 /\
  map (fun n => lcg 32 (ga gen32) (gc gen32) n 0 mod 4) [0; 1; 2; 3; 4; 5]%nat = [0; 3; 0; 3; 0; 3].
Proof. vm_compute. auto. Qed.

(** The 32-bit generator: period exactly 2^31 from every seed; it produces
    exactly the values whose last two bits agree with each other iff those of the
    seed do. *)
Theorem C65_period32 : forall seed, 0 <= seed < 2 ^ 32 ->
  (forall i j, lcg 32 (ga gen32) (gc gen32) i seed = lcg 32 (ga gen32) (gc gen32) j seed <->
     (2 ^ 31 | Z.of_nat j - Z.of_nat i)) /\
  (forall v, 0 <= v < 2 ^ 32 ->
     (exists n, lcg 32 (ga gen32) (gc gen32) n seed = v) <->
     Bool.eqb (Z.testbit v 0) (Z.testbit v 1) = Bool.eqb (Z.testbit seed 0) (Z.testbit seed 1)).
Proof. exact period32. Qed.
Print Assumptions C65_period32.
Example C65_ex : lcg 32 (ga gen32) (gc gen32) 2 1 = 3728230101 /\
  Bool.eqb (Z.testbit 3728230101 0) (Z.testbit 3728230101 1) = false.
Proof. vm_compute. auto. Qed.

(** Under every schedule the calls of Rand, Srand and Seed are linearizable. *)
Theorem C40_rand_linearizable : forall g seed sched,
  linearizable (rnd_spec (gw g) (ga g) (gc g)) seed (snd (crun (rnd_step g) (rnd_init seed) sched)).
Proof. exact rnd_linearizable. Qed.
Print Assumptions C40_rand_linearizable.
(** When only Rand is called, the returned values are values at different
    positions of the sequence, none beyond the number of calls ... *)
Theorem C40_rand_positions : forall g seed sched, only_rand sched ->
  let h := snd (crun (rnd_step g) (rnd_init seed) sched) in
  exists ks, NoDup ks /\ Forall (fun k => (k < length (invs h))%nat) ks /\
    map (fun e => snd e) (rets h) = map (fun k => lcg (gw g) (ga g) (gc g) (S k) seed) ks.
Proof. exact rnd_positions. Qed.
Print Assumptions C40_rand_positions.
(** ... and once all calls have returned they are exactly the first ones. *)
Theorem C40_rand_all : forall g seed sched, only_rand sched ->
  let h := snd (crun (rnd_step g) (rnd_init seed) sched) in
  length (rets h) = length (invs h) ->
  Permutation (map (fun e => snd e) (rets h))
    (map (fun k => lcg (gw g) (ga g) (gc g) (S k) seed) (seq 0 (length (invs h)))).
Proof. exact rnd_all_returned. Qed.
Print Assumptions C40_rand_all.
(** So no two of up to 2^64 (2^31) concurrent calls return the same value. *)
Theorem C40_rand_distinct : forall seed sched, only_rand sched ->
  (0 <= seed < 2 ^ 64 ->
   let h := snd (crun (rnd_step gen64) (rnd_init seed) sched) in
   Z.of_nat (length (invs h)) <= 2 ^ 64 -> NoDup (map (fun e => snd e) (rets h))) /\
  (0 <= seed < 2 ^ 32 ->
   let h := snd (crun (rnd_step gen32) (rnd_init seed) sched) in
   Z.of_nat (length (invs h)) <= 2 ^ 31 -> NoDup (map (fun e => snd e) (rets h))).
Proof. exact rnd_distinct_both. Qed.
Print Assumptions C40_rand_distinct.
(** Two goroutines whose loads overlap: one swap fails and is retried. *)
Example C40_ex : snd (crun (rnd_step gen32) (rnd_init 1)
    (map (fun t => (t, ORand)) [0; 1; 0; 1; 1; 0; 1; 0; 0; 0]%nat))
  = [Inv 0 ORand; Inv 1 ORand; Ret 1 ORand 10118946; Ret 0 ORand 3728230101].
Proof. vm_compute. reflexivity. Qed.
