(** Sequences, primes, square roots. *)
From Coq Require Import ZArith Znumtheory List Bool Lia Sorted.
From Verif Require Import GoBase GoLists MathModel PrimeData NumModel NumSpec NumProofs.
Import ListNotations.
Open Scope Z_scope.

(** While ids are left, a generator hands out start, start+1, ..., all distinct,
    all within the bounds and without an error, whatever else is called between.
    Missing: the generator does not stop at max, and the first value is only
    skipped when NOUSE_FST is the sole usage option (see the refutations). *)
Theorem C35_seq_partial : forall min max opt ops, 0 <= min -> max < 2 ^ 64 -> 0 <= opt ->
  let start := if (opt / 256) mod 16 =? 1 then min + 1 else min in
  start + Z.of_nat (count_next ops) <= max + 1 ->
  exists s s' os, new_seq64 min max opt = Some s /\ run_ops seq_step s ops = Ok (s', os) /\
    next_values os = map (fun i => start + Z.of_nat i) (seq 0 (count_next ops)) /\
    NoDup (next_values os) /\ Forall (fun r => min <= r <= max) (next_values os) /\
    Forall (fun o => match o with SVal _ ok => ok = true | _ => True end) os.
Proof. exact seq_partial. Qed.
Print Assumptions C35_seq_partial.
(** The generator hands out values above max without an error. *)
Theorem C35_seq_exhausted_refuted : exists min max opt s s' os, min <= max /\
  new_seq64 min max opt = Some s /\ run_ops seq_step s [SNext; SNext] = Ok (s', os) /\
  os = [SVal max true; SVal (max + 1) true].
Proof. exists 7, 7, 0. do 3 eexists. split; [lia|]. split; [reflexivity|]. split; reflexivity. Qed.
Print Assumptions C35_seq_exhausted_refuted.
(** With the predefined option DFT_OP_ID_NO_ERR, which contains NOUSE_FST, the
    first value is handed out. *)
Theorem C35_seq_first_refuted : exists min max s s',
  new_seq64 min max DFT_OP_ID_NO_ERR = Some s /\
  Z.land DFT_OP_ID_NO_ERR NOUSE_FST = NOUSE_FST /\
  run_ops seq_step s [SNext] = Ok (s', [SVal min true]).
Proof. exists 10, 20. do 2 eexists. repeat split. Qed.
Print Assumptions C35_seq_first_refuted.
Example C35_ex : exists s s', new_seq64 100 200 DFT_OP_ID_INC = Some s /\
  run_ops seq_step s [SNext; SRecycle 101; SNext; SInfo; SRecycle 104]
  = Ok (s', [SVal 101 true; SErr true; SVal 102 true; SNums 103 100 200; SErr false]).
Proof. do 2 eexists. split; reflexivity. Qed.

(** Exact behaviour: a 64-bit counter that never fails; recycling keeps nothing. *)
Theorem C61_seq_exact : forall min max opt ops, 0 <= min < 2 ^ 64 -> 0 <= opt ->
  let start := if (opt / 256) mod 16 =? 1 then (min + 1) mod 2 ^ 64 else min in
  exists s s' os, new_seq64 min max opt = Some s /\ run_ops seq_step s ops = Ok (s', os) /\
    os = snd (spec_ops (counter_step min max) start ops) /\
    next_values os = map (fun i => (start + Z.of_nat i) mod 2 ^ 64) (seq 0 (count_next ops)).
Proof. exact seq_exact. Qed.
Print Assumptions C61_seq_exact.
Example C61_ex : exists s s', new_seq64 (2 ^ 64 - 1) 5 0 = Some s /\
  run_ops seq_step s [SNext; SNext; SNext] = Ok (s', [SVal (2 ^ 64 - 1) true; SVal 0 true; SVal 1 true]).
Proof. do 2 eexists. split; reflexivity. Qed.

(** IsPrime has no false negatives.  Missing: the converse, which is false. *)
Theorem C36_is_prime_partial : forall n, prime n -> is_prime n = true.
Proof. exact prime_is_prime. Qed.
Print Assumptions C36_is_prime_partial.
Theorem C36_is_prime_refuted : exists n, 0 <= n < 2 ^ 32 /\ is_prime n = true /\ ~ prime n.
Proof.
  exists 25. split; [lia|]. split; [vm_compute; reflexivity|].
  intros H. apply (prime_not_div 25 5 H); [lia|reflexivity].
Qed.
Print Assumptions C36_is_prime_refuted.
Example C36_ex : is_prime 65537 = true /\ is_prime 65535 = false /\ is_prime 35 = true /\ is_prime 1 = false.
Proof. vm_compute. auto. Qed.

(** What IsPrime really decides: 2, 3, and every number from 5 on that is
    divisible neither by 2 nor by 3. *)
Theorem C62_is_prime_exact : forall n, 0 <= n ->
  is_prime n = true <-> n = 2 \/ n = 3 \/ (5 <= n /\ (n mod 6 = 1 \/ n mod 6 = 5)).
Proof. exact is_prime_exact. Qed.
Print Assumptions C62_is_prime_exact.
Example C62_ex : is_prime 4294967295 = false /\ is_prime 4294967291 = true /\ is_prime 49 = true.
Proof. vm_compute. auto. Qed.

(** The table holds exactly the primes up to 65537, in increasing order. *)
Theorem C63_prime_table :
  StronglySorted Z.lt g_primes /\ (forall n, In n g_primes <-> prime n /\ n <= 65537).
Proof. exact table_complete. Qed.
Print Assumptions C63_prime_table.
Example C63_ex : nth 100 g_primes 0 = 547 /\ length g_primes = Z.to_nat 6543.
Proof. vm_compute. auto. Qed.

(** The result is an integer nearest to the real square root: the integer part,
    plus one when the remainder exceeds it. *)
Theorem C37_sqrt : forall v, 0 <= v < 2 ^ 32 -> nearest_root v (sqrt_uint32 v) /\
  sqrt_uint32 v = (let s := Z.sqrt v in if s <? v - s * s then s + 1 else s).
Proof. exact sqrt_spec. Qed.
Print Assumptions C37_sqrt.
(** No addition of any round leaves the 32-bit range. *)
Theorem C37_sqrt_no_overflow : forall v n, 0 <= v < 2 ^ 32 -> (n < 16)%nat ->
  let st := sqrt_loop n 0 (v, 0) in
  0 <= fst st < 2 ^ 32 /\ 0 <= snd st /\ Z.shiftr (2 ^ 30) (2 * Z.of_nat n) + snd st < 2 ^ 32.
Proof. exact sqrt_no_overflow. Qed.
Print Assumptions C37_sqrt_no_overflow.
Example C37_ex : sqrt_uint32 4294967295 = 65536 /\ sqrt_uint32 12 = 3 /\ sqrt_uint32 13 = 4 /\
  sqrt_uint32 1000000 = 1000 /\ sqrt_uint32 0 = 0.
Proof. vm_compute. auto. Qed.
