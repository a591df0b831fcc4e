From Coq Require Import ZArith List Bool Lia.
From Verif Require Import GoBase GoLists ConcBase RandModel RandSpec RandProofs StrRandModel StrRandSpec StrRandProofs StrRandConc.
Import ListNotations.
Open Scope Z_scope.

Lemma rand_any_bad : exists w, length w = 2%nat /\ forallb is_upper w = true /\
  forall seed rule seed', str_rand seed rule 2 <> Ok (seed', w).
Proof.
  exists [65; 65]. split; [reflexivity|]. split; [reflexivity|].
  intros seed rule seed' H. exact (no_double _ _ _ _ H 65 eq_refl).
Qed.

Lemma rule_bad :
  (exists seed rule len seed' s, 0 <= seed < 2 ^ 32 /\ rule = rule_number /\ 0 < len /\
     str_rand seed rule len = Ok (seed', s) /\ ~ obeys rule s) /\
  (exists s, existsb is_upper s = true /\ Z.testbit (get_rule s) 19 = false).
Proof.
  split.
  - destruct (str_rand_shape 1 rule_number 3 ltac:(lia)) as (seed' & s & E & _).
    exists 1, rule_number, 3, seed', s. split; [lia|]. split; [reflexivity|]. split; [lia|]. split; [exact E|].
    eapply other_rules; [|exact E]. left. reflexivity.
  - exists [65]. split; reflexivity.
Qed.

Lemma rule_ex : obeys (rule_letter + rule_letter_upper) [65] /\ ~ obeys (rule_letter_lower + rule_symbol) [65; 66].
Proof.
  split.
  - vm_compute. repeat split; auto; discriminate.
  - intros (_ & _ & _ & H & _). specialize (H eq_refl). discriminate H.
Qed.

Local Notation L := (lcg 32 7368787 2750159).

Lemma run_seed : forall calls seed seed' rs, run_ops sr_step seed calls = Ok (seed', rs) ->
  seed' = L (length (concat rs)) seed.
Proof.
  induction calls as [|c calls IH]; intros seed seed' rs H; cbn [run_ops] in H.
  - injection H as <- <-. reflexivity.
  - unfold sr_step at 1, str_rand in H. destruct (snd c <? 0); [discriminate|].
    rewrite draws_eq in H. cbn [bind] in H.
    destruct (run_ops sr_step (L (Z.to_nat (snd c)) seed) calls) as [[s1 r1]| |] eqn:E; try discriminate.
    cbn [bind] in H. injection H as <- <-. apply IH in E. rewrite E. cbn [concat].
    rewrite app_length, map_length, seq_length, <- lcg_add. f_equal. lia.
Qed.

Lemma run_period : forall calls seed seed' rs, 0 <= seed < 2 ^ 32 ->
  run_ops sr_step seed calls = Ok (seed', rs) -> Z.of_nat (length (concat rs)) = 2 ^ 31 -> seed' = seed.
Proof.
  intros calls seed seed' rs Hs H N. apply run_seed in H. rewrite H. clear H.
  destruct (period32 seed Hs) as [P _]. cbn [ga gc gen32] in P.
  change (L (length (concat rs)) seed = L 0 seed). apply P. exists (-1). rewrite N. lia.
Qed.
