(** Properties of new generators. *)
From Coq Require Import ZArith List Bool.
From Verif Require Import GoBase GoLists RandModel RandSpec SeedModel SeedSpec SeedProofs SeedMore SeedAlone.
Import ListNotations.
Open Scope Z_scope.

(** C154 (partial): generators created by NewRand start from different seeds.  Proved if both calls read the same clocks and not as
    many numbers as the period has were drawn in between.  Missing: calls at different times, for which it is false; the next
    theorem says exactly when the seeds are equal.  Other calls may happen before and in between. *)
Theorem C154_new_seeds_partial :
  forall t0 n0 l1 t n l2 s' rs,
  (run_ops (sd_step gen64) (sd_init gen64 t0 n0) (l1 ++ SNew t n :: l2 ++ [SNew t n]) = Ok (s', rs) ->
   Z.of_nat (taken l2) < 2 ^ 64 - 1 -> nth (length l1) rs 0 <> last rs 0) /\
  (run_ops (sd_step gen32) (sd_init gen32 t0 n0) (l1 ++ SNew t n :: l2 ++ [SNew t n]) = Ok (s', rs) ->
   Z.of_nat (taken l2) < 2 ^ 31 - 1 -> nth (length l1) rs 0 <> last rs 0).
Proof. exact same_clock_differ. Qed.
Print Assumptions C154_new_seeds_partial.
Theorem C154_new_seeds_exact :
  forall g s l1 t1 n1 l2 t2 n2 s' rs, g = gen32 \/ g = gen64 ->
  run_ops (sd_step g) s (l1 ++ SNew t1 n1 :: l2 ++ [SNew t2 n2]) = Ok (s', rs) ->
  nth (length l1) rs 0 = last rs 0 <->
  (2 ^ gw g | t1 + n1 + lcg (gw g) (ga g) (gc g) (taken l1 + 1) (sd_global s) -
              (t2 + n2 + lcg (gw g) (ga g) (gc g) (taken l1 + taken l2 + 2) (sd_global s))).
Proof. exact seeds_exact. Qed.
Print Assumptions C154_new_seeds_exact.
Theorem C154_new_seeds_refuted :
  exists t0 t1 t2 n s' rs, 0 < t0 < t1 /\ t1 < t2 < 2 ^ 64 /\
  run_ops (sd_step gen64) (sd_init gen64 t0 n) [SNew t1 n; SNew t2 n] = Ok (s', rs) /\ nth 0 rs 0 = last rs 0.
Proof. exact clock_moves. Qed.
Print Assumptions C154_new_seeds_refuted.

(** The tick counter is 5 and the time 7 whenever they are read. *)
Example C154_ex :
  match run_ops (sd_step gen64) (sd_init gen64 5 7) [SGRand; SNew 5 7; SRand 0; SGMax 6; SNew 5 7; SSeed 0; SSeed 1] with
  | Ok (s, rs) => rs = [36416267868228530; 12586480795645879706; 5246529174848246707; 2; 1281963655078941208; 5246529174848246707; 1281963655078941208]
  | _ => False
  end /\
  taken [SGRand; SNew 5 7; SRand 0; SGMax 6; SNew 5 7; SSeed 0; SSeed 1] = 4%nat.
Proof. vm_compute. auto. Qed.

(** C155: at any time every seed comes from exactly one argument of RandSeed (so the seeds are as uniform as the numbers of the
    global generator). *)
Theorem C155_rand_seed_bijective :
  forall g t n v, g = gen32 \/ g = gen64 -> 0 <= v < 2 ^ gw g ->
  exists init, (0 <= init < 2 ^ gw g /\ wrap (gw g) (rand_seed t n init) = v) /\
    forall i, 0 <= i < 2 ^ gw g -> wrap (gw g) (rand_seed t n i) = v -> i = init.
Proof. exact rand_seed_bijective. Qed.
Print Assumptions C155_rand_seed_bijective.
Example C155_ex : rand_seed 5 7 100 = 481044952285 /\ rand_seed 5 7 101 = 485339919576 /\ rand_seed 5 (-7) (2 ^ 64 - 1) = 18446744060833265436.
Proof. vm_compute. auto. Qed.

(** C156: all 64-bit generators return the same cycle of numbers, each from another place: the numbers of one generator
    are those of another, from some call on.  Of two 32-bit generators this holds exactly if the two lowest bits of the seeds are both
    equal or both different. *)
Theorem C156_same_cycle :
  (forall x y, 0 <= x < 2 ^ 64 -> 0 <= y < 2 ^ 64 ->
    exists k, Z.of_nat k < 2 ^ 64 /\ forall i, rand_calls gen64 i y = rand_calls gen64 (k + i) x) /\
  (forall x y, 0 <= x < 2 ^ 32 -> 0 <= y < 2 ^ 32 ->
    (exists k, forall i, rand_calls gen32 i y = rand_calls gen32 (k + i) x) <->
    Bool.eqb (Z.testbit y 0) (Z.testbit y 1) = Bool.eqb (Z.testbit x 0) (Z.testbit x 1)).
Proof. exact (conj same_cycle64 same_cycle32). Qed.
Print Assumptions C156_same_cycle.
(** The second seed is what the generator with seed 1 returned at its third call. *)
Example C156_ex : rand_calls gen64 2 1 = 11834719544806708172 /\
  map (fun i => rand_calls gen64 i 11834719544806708172) [0; 1; 2]%nat = map (fun i => rand_calls gen64 (3 + i) 1) [0; 1; 2]%nat.
Proof. vm_compute. auto. Qed.

(** C157: the low bits of RandMax repeat quickly.  If n is 2^k m, the remainders modulo 2^k of the results of RandMax64(n) repeat
    exactly every 2^k calls, and those of RandMax32(n) every 2^(k-1) calls (k at least 2).  If n is even, the results are even and
    odd in turn. *)
Theorem C157_low_bits :
  (forall x k m, 0 <= x < 2 ^ 64 -> 0 <= k -> 0 < m -> 2 ^ k * m < 2 ^ 64 ->
    exists f, (forall i, max_calls gen64 (2 ^ k * m) i x = Ok (f i)) /\
      forall i j, f i mod 2 ^ k = f j mod 2 ^ k <-> (2 ^ k | Z.of_nat j - Z.of_nat i)) /\
  (forall x k m, 0 <= x < 2 ^ 32 -> 2 <= k -> 0 < m -> 2 ^ k * m < 2 ^ 32 ->
    exists f, (forall i, max_calls gen32 (2 ^ k * m) i x = Ok (f i)) /\
      forall i j, f i mod 2 ^ k = f j mod 2 ^ k <-> (2 ^ (k - 1) | Z.of_nat j - Z.of_nat i)).
Proof. exact (conj low64 low32). Qed.
Print Assumptions C157_low_bits.
Theorem C157_even_odd :
  forall g x n, g = gen32 \/ g = gen64 -> 0 <= x < 2 ^ gw g -> 0 < n < 2 ^ gw g -> Z.even n = true ->
  exists f, (forall i, max_calls g n i x = Ok (f i)) /\ forall i, Z.even (f (S i)) = negb (Z.even (f i)).
Proof. exact even_turns. Qed.
Print Assumptions C157_even_odd.
(** Eight throws of a die with six faces, then RandMax32(8). *)
Example C157_ex :
  map (fun i => max_calls gen64 6 i 12345) [0; 1; 2; 3; 4; 5; 6; 7]%nat = map Ok [4; 3; 0; 1; 2; 3; 2; 5] /\
  map (fun i => max_calls gen32 8 i 1) [0; 1; 2; 3; 4; 5; 6; 7]%nat = map Ok [2; 5; 6; 1; 2; 5; 6; 1].
Proof. vm_compute. auto. Qed.

(** C241: what a generator with a given seed returns depends on the seed and on its own calls only.  The calls before and in between
    are any calls of other generators and of the package; the right side is another run of a program, started at another time, that
    makes only this generator and calls only it. *)
Theorem C241_seeded_alone :
  forall g t0 n0 l1 seed ops s' rs t1 n1,
  run_ops (sd_step g) (sd_init g t0 n0) (l1 ++ SNewS seed :: ops) = Ok (s', rs) ->
  exists t', run_ops (sd_step g) (sd_init g t1 n1) (SNewS seed :: map first_one (filter (mine (created l1)) ops)) =
    Ok (t', wrap (gw g) seed :: picked (mine (created l1)) ops (skipn (S (length l1)) rs)).
Proof. exact seeded_alone. Qed.
Print Assumptions C241_seeded_alone.
(** The generator of the package gives what it gives without the calls of other generators. *)
Theorem C241_common_alone :
  forall g t0 n0 ops s' rs, run_ops (sd_step g) (sd_init g t0 n0) ops = Ok (s', rs) ->
  exists t', run_ops (sd_step g) (sd_init g t0 n0) (filter common_one ops) = Ok (t', picked common_one ops rs).
Proof. intros g t0 n0 ops s' rs E. exact (common_run g ops _ s' rs _ E eq_refl). Qed.
Print Assumptions C241_common_alone.
(** The numbers of one generator follow each other as the functions of C154 to C157 say. *)
Theorem C241_seeded_sequence :
  forall g t n seed k,
  (exists s', run_ops (sd_step g) (sd_init g t n) (SNewS seed :: repeat (SRand 0) k) =
     Ok (s', wrap (gw g) seed :: map (fun i => rand_calls g i (wrap (gw g) seed)) (seq 0 k))) /\
  (forall m s' rs, run_ops (sd_step g) (sd_init g t n) (SNewS seed :: repeat (SMax 0 m) k) = Ok (s', rs) ->
     map Ok (tl rs) = map (fun i => max_calls g (wrap (gw g) m) i (wrap (gw g) seed)) (seq 0 k)).
Proof. exact seeded_sequence. Qed.
Print Assumptions C241_seeded_sequence.
(** Two generators with the same seed, called in turn with the functions of the package. *)
Example C241_ex :
  let ops := [SRand 1; SMax 2 6; SGRand; SMax 1 6; SSrand 2 9; SRand 2; SRand 1; SRand 0] in
  exists s' rs, run_ops (sd_step gen64) (sd_init gen64 3 4) ([SNew 5 6] ++ SNewS 12345 :: SNewS 12345 :: ops) = Ok (s', rs) /\
  map first_one (filter (mine 1) (SNewS 12345 :: ops)) = [SRand 0; SMax 0 6; SRand 0] /\
  (exists t', run_ops (sd_step gen64) (sd_init gen64 7 8) [SNewS 12345; SRand 0; SMax 0 6; SRand 0] =
    Ok (t', 12345 :: picked (mine 1) (SNewS 12345 :: ops) (skipn 2 rs))) /\
  skipn 3 rs = [53025325524442; 4; 7982383144214558932; 3; 53025325524442; 42749579050; 18134573210554729668; 4504455047666102392].
Proof. do 2 eexists. split; [vm_compute; reflexivity|]. split; [vm_compute; reflexivity|]. split; [eexists; vm_compute; reflexivity|vm_compute; reflexivity]. Qed.
