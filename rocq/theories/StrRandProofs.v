From Coq Require Import ZArith List Bool Lia ZifyBool ZifyNat Permutation.
From Verif Require Import GoBase GoLists ConcBase RandModel RandSpec RandProofs StrRandModel StrRandSpec.
Import ListNotations.
Open Scope Z_scope.

Local Notation L := (lcg 32 7368787 2750159).

Lemma nth_upper : forall i, 0 <= i < 26 -> zget upper_letters i = Ok (65 + i).
Proof.
  intros i H. unfold zget. destruct (Z.ltb_spec i 0); [lia|].
  assert (K: (Z.to_nat i < 26)%nat) by lia. replace (65 + i) with (65 + Z.of_nat (Z.to_nat i)) by lia.
  revert K. generalize (Z.to_nat i). intros n K.
  do 26 (destruct n as [|n]; [reflexivity|]). lia.
Qed.

Lemma draw_eq : forall seed, draw seed = Ok (L 1 seed, letter seed 0).
Proof.
  intros seed. unfold draw. change (wrap 32 (zlen upper_letters)) with 26.
  unfold rand_max. change (wrap (gw gen32) (26 - 1)) with 25.
  rewrite rand_range_exact by (cbn; lia). cbv zeta.
  change (Z.max 0 25 - Z.min 0 25 =? 2 ^ gw gen32 - 1) with false. cbv iota.
  change (Z.max 0 25 - Z.min 0 25 + 1) with 26. change (Z.min 0 25) with 0.
  cbn [bind gw ga gc gen32]. rewrite Z.add_0_l. rewrite nth_upper by (apply Z.mod_pos_bound; lia).
  reflexivity.
Qed.

Lemma letter_shift : forall seed k j, letter (L k seed) j = letter seed (k + j).
Proof.
  intros. unfold letter. rewrite <- lcg_add. do 3 f_equal. lia.
Qed.

Lemma draws_eq : forall n seed, draws n seed = Ok (L n seed, map (letter seed) (seq 0 n)).
Proof.
  induction n; intros seed; cbn [draws].
  - reflexivity.
  - rewrite draw_eq. cbn [bind]. rewrite IHn. cbn [bind seq map]. rewrite <- lcg_add.
    replace (n + 1)%nat with (S n) by lia. f_equal. f_equal. f_equal.
    rewrite <- seq_shift, map_map. apply map_ext. intros j. rewrite letter_shift. reflexivity.
Qed.

Lemma seq_shift_k : forall n k, seq k n = map (fun j => (k + j)%nat) (seq 0 n).
Proof.
  induction n; intros k; cbn [seq map]; [reflexivity|]. f_equal; [lia|].
  rewrite (IHn (S k)), (IHn 1%nat), map_map. apply map_ext. intros. lia.
Qed.

Lemma run_segments : forall calls seed k,
  Forall (fun c => 0 <= snd c) calls ->
  exists s', run_ops sr_step (L k seed) calls =
    Ok (s', segments seed k (map (fun c => Z.to_nat (snd c)) calls)).
Proof.
  induction calls as [|c calls IH]; intros seed k H; cbn [run_ops map segments].
  - eauto.
  - inversion H as [|? ? H1 H2]; subst.
    unfold sr_step at 1, str_rand. destruct (Z.ltb_spec (snd c) 0); [lia|].
    rewrite draws_eq. cbn [bind]. rewrite <- lcg_add.
    destruct (IH seed (Z.to_nat (snd c) + k)%nat H2) as [s' E]. rewrite E. cbn [bind].
    exists s'. do 2 f_equal. f_equal.
    + rewrite (seq_shift_k (Z.to_nat (snd c)) k), map_map. apply map_ext. intros. apply letter_shift.
    + f_equal. lia.
Qed.

Lemma run_segments0 : forall seed calls,
  (Forall (fun c => 0 <= snd c) calls ->
   exists s', run_ops sr_step seed calls = Ok (s', segments seed 0 (map (fun c => Z.to_nat (snd c)) calls))) /\
  (Exists (fun c => snd c < 0) calls -> run_ops sr_step seed calls = Panic).
Proof.
  intros seed calls. split.
  - intros H. exact (run_segments calls seed 0 H).
  - revert seed. induction calls as [|c calls IH]; intros seed H; [inversion H|].
    cbn [run_ops]. unfold sr_step at 1, str_rand. destruct (Z.ltb_spec (snd c) 0); [reflexivity|].
    rewrite draws_eq. cbn [bind]. inversion H as [? ? H1|? ? H1]; subst; [lia|]. rewrite IH by auto. reflexivity.
Qed.

Lemma letter_upper : forall seed k, 65 <= letter seed k <= 90.
Proof. intros. unfold letter. pose proof (Z.mod_pos_bound (L (S k) seed) 26 ltac:(lia)). lia. Qed.

Lemma str_rand_shape : forall seed rule len, 0 <= len ->
  exists seed' s, str_rand seed rule len = Ok (seed', s) /\ Z.of_nat (length s) = len /\
    forallb is_upper s = true.
Proof.
  intros seed rule len H. unfold str_rand. destruct (Z.ltb_spec len 0); [lia|].
  rewrite draws_eq. do 2 eexists. split; [reflexivity|]. split.
  - rewrite map_length, seq_length. lia.
  - apply forallb_forall. intros c Hc. apply in_map_iff in Hc as (k & <- & _).
    pose proof (letter_upper seed k). unfold is_upper. lia.
Qed.

(** ** Parity *)
Lemma odd_mod_even : forall x m, 0 < m -> Z.odd m = false -> Z.odd (x mod m) = Z.odd x.
Proof.
  intros x m M H. rewrite (Z.div_mod x m) at 2 by lia. rewrite Z.odd_add, Z.odd_mul, H. cbn. destruct (Z.odd (x mod m)); reflexivity.
Qed.

Lemma letter_parity : forall seed k, Z.odd (letter seed (S k)) = negb (Z.odd (letter seed k)).
Proof.
  intros seed k. unfold letter. rewrite !Z.odd_add, !odd_mod_even by (try lia; reflexivity).
  change (L (S (S k)) seed) with ((7368787 * L (S k) seed + 2750159) mod 2 ^ 32).
  rewrite odd_mod_even by (try lia; reflexivity). rewrite Z.odd_add, Z.odd_mul.
  change (Z.odd 7368787) with true. change (Z.odd 2750159) with true. change (Z.odd 65) with true.
  destruct (Z.odd (L (S k) seed)); reflexivity.
Qed.

Lemma letters_alternate : forall n seed k, alternating (map (letter seed) (seq k n)).
Proof.
  induction n; intros seed k; cbn [seq map]; [exact Logic.I|].
  destruct n; cbn [seq map]; [exact Logic.I|].
  cbn [alternating]. split.
  - rewrite letter_parity. destruct (Z.odd (letter seed k)); discriminate.
  - exact (IHn seed (S k)).
Qed.

Lemma str_rand_alternates : forall seed rule len seed' s,
  str_rand seed rule len = Ok (seed', s) -> alternating s.
Proof.
  intros seed rule len seed' s H. unfold str_rand in H. destruct (len <? 0); [discriminate|].
  rewrite draws_eq in H. injection H as _ <-. apply letters_alternate.
Qed.

Lemma segments_alternate : forall calls seed seed' rs, run_ops sr_step seed calls = Ok (seed', rs) ->
  alternating (concat rs).
Proof.
  intros calls seed seed' rs H. destruct (run_segments0 seed calls) as [H1 H2].
  destruct (Forall_Exists_dec (fun c : Z * Z => 0 <= snd c) (fun c => Z_le_dec 0 (snd c)) calls) as [D|D].
  - destruct (H1 D) as [s1 E]. rewrite E in H. injection H as _ <-.
    clear. generalize (map (fun c : Z * Z => Z.to_nat (snd c)) calls). intros lens.
    assert (X: forall lens k, concat (segments seed k lens) = map (letter seed) (seq k (list_sum lens))).
    { clear. induction lens as [|n lens IH]; intros k; cbn [segments concat]; [reflexivity|].
      rewrite IH, <- map_app, <- seq_app. reflexivity. }
    rewrite X. apply letters_alternate.
  - rewrite H2 in H; [discriminate|]. eapply Exists_impl; [|exact D]. cbn. intros. lia.
Qed.

Lemma no_double : forall seed rule seed' s, str_rand seed rule 2 = Ok (seed', s) ->
  forall c, s <> [c; c].
Proof.
  intros seed rule seed' s H c ->. apply str_rand_alternates in H. cbn in H. tauto.
Qed.

Lemma letter_occurs : forall seed c, 0 <= seed < 2 ^ 32 -> is_upper c = true ->
  exists k, letter seed k = c.
Proof.
  intros seed c Hs Hc. unfold is_upper in Hc.
  destruct (period32 seed Hs) as [Hper Hv]. cbn [ga gc gen32] in *.
  set (cl := Bool.eqb (Z.testbit seed 0) (Z.testbit seed 1)) in *.
  assert (E: exists v, 0 <= v < 2 ^ 32 /\ v mod 26 = c - 65 /\ Bool.eqb (Z.testbit v 0) (Z.testbit v 1) = cl).
  { assert (A: 0 <= c - 65 < 26) by lia. revert A. generalize (c - 65). clear. intros i A.
    assert (B: Bool.eqb (Z.testbit (i + 26) 0) (Z.testbit (i + 26) 1) = negb (Bool.eqb (Z.testbit i 0) (Z.testbit i 1))).
    { rewrite <- !outer_class_bits. unfold outer_class.
      destruct (Z.eqb_spec (i mod 4) 0), (Z.eqb_spec (i mod 4) 3), (Z.eqb_spec ((i + 26) mod 4) 0),
        (Z.eqb_spec ((i + 26) mod 4) 3); cbn; auto; exfalso; Z.div_mod_to_equations; lia. }
    destruct (Bool.bool_dec (Bool.eqb (Z.testbit i 0) (Z.testbit i 1)) cl) as [C|C].
    - exists i. split; [lia|]. split; [apply Z.mod_small; lia|exact C].
    - exists (i + 26). split; [lia|]. split; [Z.div_mod_to_equations; lia|].
      rewrite B. destruct (Bool.eqb (Z.testbit i 0) (Z.testbit i 1)), cl; try reflexivity; exfalso; apply C; reflexivity. }
  destruct E as (v & V & M & C).
  apply Hv in C as [n N]; [|exact V].
  (* a position after the start *)
  destruct n as [|n].
  - cbn [lcg] in N. destruct (Z_of_nat_complete (2 ^ 31)) as [p Hp]; [apply Z.pow_nonneg; lia|].
    assert (1 < 2 ^ 31) by reflexivity. destruct p as [|p]; [lia|].
    exists p. unfold letter.
    assert (P: L 0 seed = L (S p) seed).
    { apply Hper. exists 1. rewrite <- Hp. lia. }
    rewrite <- P. cbn [lcg]. lia.
  - exists n. unfold letter. rewrite N. lia.
Qed.

Lemma letter_period : forall seed k n, 0 <= seed < 2 ^ 32 -> Z.of_nat n = 2 ^ 31 ->
  letter seed (k + n) = letter seed k.
Proof.
  intros seed k n H N. unfold letter. destruct (period32 seed H) as [P _]. cbn [ga gc gen32] in P.
  f_equal. f_equal. apply P. exists (-1). lia.
Qed.

Lemma str_rand_letters : forall seed c, 0 <= seed < 2 ^ 32 -> is_upper c = true ->
  exists len, forall rule, exists seed' s, str_rand seed rule len = Ok (seed', s) /\ last s 0 = c.
Proof.
  intros seed c Hs Hc. destruct (letter_occurs seed c Hs Hc) as [k K].
  exists (Z.of_nat (S k)). intros rule. unfold str_rand.
  destruct (Z.ltb_spec (Z.of_nat (S k)) 0); [lia|]. rewrite Nat2Z.id, draws_eq.
  do 2 eexists. split; [reflexivity|]. rewrite seq_S, map_app. cbn [map]. rewrite last_last. exact K.
Qed.

(** ** Rules *)
Lemma letter_rules : forall seed rule len seed' s, 0 < len ->
  Z.testbit rule 17 = false -> Z.testbit rule 20 = false -> Z.testbit rule 21 = false ->
  str_rand seed rule len = Ok (seed', s) -> obeys rule s.
Proof.
  intros seed rule len seed' s H B17 B20 B21 E.
  unfold str_rand in E. destruct (len <? 0); [discriminate|]. rewrite draws_eq in E. injection E as _ <-.
  destruct (Z.to_nat len) as [|n] eqn:N; [lia|]. cbn [seq map].
  pose proof (letter_upper seed 0) as U. assert (U2: is_upper (letter seed 0) = true) by (unfold is_upper; lia).
  unfold obeys. rewrite B17, B20, B21. cbn [existsb]. rewrite U2. cbn [orb].
  repeat split; auto; discriminate.
Qed.

Lemma other_rules : forall seed rule len seed' s,
  Z.testbit rule 17 = true \/ Z.testbit rule 20 = true \/ Z.testbit rule 21 = true ->
  str_rand seed rule len = Ok (seed', s) -> ~ obeys rule s.
Proof.
  intros seed rule len seed' s B E (O1 & _ & _ & O4 & O5).
  unfold str_rand in E. destruct (len <? 0); [discriminate|]. rewrite draws_eq in E. injection E as _ <-.
  assert (X: forall f, (forall c, 65 <= c <= 90 -> f c = false) ->
    existsb f (map (letter seed) (seq 0 (Z.to_nat len))) = true -> False).
  { intros f Hf Hx. apply existsb_exists in Hx as (c & Hin & Hc). apply in_map_iff in Hin as (k & <- & _).
    rewrite Hf in Hc by apply letter_upper. discriminate. }
  destruct B as [B|[B|B]].
  - apply (X is_digit); [|auto]. intros. unfold is_digit. lia.
  - apply (X is_lower); [|auto]. intros. unfold is_lower. lia.
  - apply (X is_symbol); [|auto]. intros. unfold is_symbol, is_upper. lia.
Qed.
