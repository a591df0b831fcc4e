(** Properties of strings.Rand (strings/rand.go). *)
From Coq Require Import ZArith List Bool Sorted.
From Verif Require Import GoBase GoLists ConcBase RandModel RandSpec StrRandModel StrRandSpec StrRandProofs StrRandConc StrRandMore.
Import ListNotations.
Open Scope Z_scope.

(** C135: the results of calls one after the other are consecutive pieces, of the
    lengths asked for, of one sequence of letters; a negative length panics. *)
Theorem C135_rand_string : forall seed calls,
  (Forall (fun c => 0 <= snd c) calls ->
   exists s', run_ops sr_step seed calls = Ok (s', segments seed 0 (map (fun c => Z.to_nat (snd c)) calls))) /\
  (Exists (fun c => snd c < 0) calls -> run_ops sr_step seed calls = Panic).
Proof. exact run_segments0. Qed.
Print Assumptions C135_rand_string.
Theorem C135_rand_string_shape : forall seed rule len, 0 <= len ->
  exists seed' s, str_rand seed rule len = Ok (seed', s) /\ Z.of_nat (length s) = len /\
    forallb is_upper s = true.
Proof. exact str_rand_shape. Qed.
Print Assumptions C135_rand_string_shape.
(** "EHC", "" and "RA". *)
Example C135_ex : run_ops sr_step 12345 [(0, 3); (7, 0); (0, 2)] =
    Ok (1224117154, [[69; 72; 67]; []; [82; 65]]) /\
  run_ops sr_step 12345 [(0, 3); (7, -1); (0, 2)] = Panic.
Proof. vm_compute. auto. Qed.

(** C136: every string of upper case letters is possible.  Partial: every letter is. *)
Theorem C136_rand_any_partial : forall seed c, 0 <= seed < 2 ^ 32 -> is_upper c = true ->
  exists len, forall rule, exists seed' s, str_rand seed rule len = Ok (seed', s) /\ last s 0 = c.
Proof. exact str_rand_letters. Qed.
Print Assumptions C136_rand_any_partial.
Theorem C136_rand_any_refuted : exists w, length w = 2%nat /\ forallb is_upper w = true /\
  forall seed rule seed', str_rand seed rule 2 <> Ok (seed', w).
Proof. exact rand_any_bad. Qed.
Print Assumptions C136_rand_any_refuted.

Example C136_ex : str_rand 1 0 12 =
  Ok (633007833, [71; 76; 87; 80; 77; 78; 81; 78; 83; 82; 65; 68]).
Proof. vm_compute. reflexivity. Qed.

(** C137: the letters of all calls, one after the other, take turns between the
    letters A, C, E, ... and B, D, F, ...; after 2^31 letters the
    generator is where it was. *)
Theorem C137_alternate : forall calls seed seed' rs,
  run_ops sr_step seed calls = Ok (seed', rs) -> alternating (concat rs).
Proof. exact segments_alternate. Qed.
Print Assumptions C137_alternate.
Theorem C137_period : forall calls seed seed' rs, 0 <= seed < 2 ^ 32 ->
  run_ops sr_step seed calls = Ok (seed', rs) ->
  Z.of_nat (length (concat rs)) = 2 ^ 31 -> seed' = seed.
Proof. exact run_period. Qed.
Print Assumptions C137_period.

Example C137_ex : map Z.odd (map (letter 12345) (seq 0 6)) = [true; false; true; false; true; false].
Proof. vm_compute. reflexivity. Qed.

(** C138: the string obeys the rule, and GetRule finds the rule.  Partial: rules
    that ask for letters or upper case letters only. *)
Theorem C138_rule_partial : forall seed rule len seed' s, 0 < len ->
  Z.testbit rule 17 = false -> Z.testbit rule 20 = false -> Z.testbit rule 21 = false ->
  str_rand seed rule len = Ok (seed', s) -> obeys rule s.
Proof. exact letter_rules. Qed.
Print Assumptions C138_rule_partial.
(** Rules that ask for a number, a lower case letter or a symbol are never obeyed. *)
Theorem C138_rule_never : forall seed rule len seed' s,
  Z.testbit rule 17 = true \/ Z.testbit rule 20 = true \/ Z.testbit rule 21 = true ->
  str_rand seed rule len = Ok (seed', s) -> ~ obeys rule s.
Proof. exact other_rules. Qed.
Print Assumptions C138_rule_never.
Theorem C138_rule_refuted :
  (exists seed rule len seed' s, 0 <= seed < 2 ^ 32 /\ rule = rule_number /\ 0 < len /\
     str_rand seed rule len = Ok (seed', s) /\ ~ obeys rule s) /\
  (exists s, existsb is_upper s = true /\ Z.testbit (get_rule s) 19 = false).
Proof. exact rule_bad. Qed.
Print Assumptions C138_rule_refuted.
Example C138_ex : obeys (rule_letter + rule_letter_upper) [65] /\ ~ obeys (rule_letter_lower + rule_symbol) [65; 66].
Proof. exact rule_ex. Qed.

(** C139: concurrent calls.  Each string returned has the length asked for and
    consists of letters of the sequence in increasing positions; no position is
    used twice, in all strings returned. *)
Theorem C139_rand_concurrent : forall seed sched, exists D : list (nat * nat * list nat),
  rets (snd (crun sr_cstep (sr_init seed) sched)) =
    map (fun e => (fst (fst e), snd (fst e), map (letter seed) (snd e))) D /\
  Forall (fun e => length (snd e) = snd (fst e) /\ StronglySorted lt (snd e)) D /\
  NoDup (concat (map snd D)).
Proof. exact sr_concurrent. Qed.
Print Assumptions C139_rand_concurrent.
(** Two goroutines share "EHCRA": one gets "ER", the other "HCA". *)
Example C139_ex : rets (snd (crun sr_cstep (sr_init 12345)
    [(1, 2); (2, 3); (1, 0); (2, 0); (2, 0); (1, 0); (1, 0); (2, 0); (2, 0)]%nat)) =
  [(1%nat, 2%nat, [69; 82]); (2%nat, 3%nat, [72; 67; 65])].
Proof. vm_compute. reflexivity. Qed.
