From Coq Require Import ZArith List Bool Lia Znumtheory.
From Verif Require Import GoBase GoLists RandModel RandSpec RandProofs SeedModel SeedSpec SeedProofs.
Import ListNotations.
Open Scope Z_scope.

(** RandSeed is a bijection. *)
Definition inv_a : Z := 8116567392260404019.
Lemma inv_a_ok : exists q, inv_a * 4294967291 = 1 + q * 2 ^ 64.
Proof. exists ((inv_a * 4294967291 - 1) / 2 ^ 64). vm_compute. reflexivity. Qed.
Lemma inv_a_word w : (2 ^ w | 2 ^ 64) -> (2 ^ w | inv_a * 4294967291 - 1).
Proof.
  intros [d D]. destruct inv_a_ok as [q Q]. exists (q * d). rewrite Q, D. ring.
Qed.
Lemma rand_seed_bijective g t n v : word g -> 0 <= v < 2 ^ gw g ->
  exists init, (0 <= init < 2 ^ gw g /\ wrap (gw g) (rand_seed t n init) = v) /\
    forall i, 0 <= i < 2 ^ gw g -> wrap (gw g) (rand_seed t n i) = v -> i = init.
Proof.
  intros W V. destruct (word_pos g W) as [P Q]. set (M := 2 ^ gw g) in *.
  exists ((inv_a * (v - 8615693) - t - n) mod M).
  assert (B: 0 <= (inv_a * (v - 8615693) - t - n) mod M < M) by (apply Z.mod_pos_bound; exact Q).
  assert (E: wrap (gw g) (rand_seed t n ((inv_a * (v - 8615693) - t - n) mod M)) = v).
  { rewrite new_seed_closed by exact W. fold M. rewrite <- (Z.mod_small v M) at 2 by exact V.
    apply eq_mod_div; [exact Q|]. pose proof (inv_a_word (gw g) (word_div g W)) as [d D]. fold M in D.
    set (y := inv_a * (v - 8615693) - t - n). pose proof (Z.div_mod y M ltac:(lia)) as DM.
    exists (d * (v - 8615693) - 4294967291 * (y / M)).
    assert (Y: y mod M = inv_a * (v - 8615693) - t - n - M * (y / M)) by (fold y; lia).
    rewrite Y. transitivity ((inv_a * 4294967291 - 1) * (v - 8615693) - 4294967291 * (y / M) * M); [ring|]. rewrite D. ring. }
  split; [split; assumption|]. intros i I E2. rewrite <- E in E2. rewrite !new_seed_closed in E2 by exact W.
  apply affine_inj in E2; [|exact P]. fold M in E2.
  set (j := (inv_a * (v - 8615693) - t - n) mod M) in *.
  replace (t + n + i - (t + n + j)) with (i - j) in E2 by ring. apply (eq_mod_div M i j Q) in E2.
  rewrite !Z.mod_small in E2 by assumption. exact E2.
Qed.

(** The numbers of a generator. *)
Lemma rand_calls_lcg g i : forall x, rand_calls g i x = lcg (gw g) (ga g) (gc g) (S i) x.
Proof.
  induction i as [|i IH]; intros x; cbn [rand_calls rand].
  - apply rand_next_lcg.
  - rewrite IH, rand_next_lcg. change ((ga g * x + gc g) mod 2 ^ gw g) with (lcg (gw g) (ga g) (gc g) 1 x).
    rewrite <- lcg_add. f_equal. lia.
Qed.
Lemma shifted g k x : forall i, rand_calls g i (lcg (gw g) (ga g) (gc g) k x) = rand_calls g (k + i) x.
Proof. intros i. rewrite !rand_calls_lcg, <- lcg_add. f_equal. lia. Qed.
Lemma same_cycle64 x y : 0 <= x < 2 ^ 64 -> 0 <= y < 2 ^ 64 ->
  exists k, Z.of_nat k < 2 ^ 64 /\ forall i, rand_calls gen64 i y = rand_calls gen64 (k + i) x.
Proof.
  intros X Y. destruct (period64 x X) as [_ V]. destruct (V y Y) as (k & K & E). exists k. split; [exact K|].
  intros i. rewrite <- E at 1. apply (shifted gen64 k x).
Qed.
Lemma same_cycle32 x y : 0 <= x < 2 ^ 32 -> 0 <= y < 2 ^ 32 ->
  (exists k, forall i, rand_calls gen32 i y = rand_calls gen32 (k + i) x) <->
  Bool.eqb (Z.testbit y 0) (Z.testbit y 1) = Bool.eqb (Z.testbit x 0) (Z.testbit x 1).
Proof.
  intros X Y. destruct (period32 x X) as [PX V]. destruct (period32 y Y) as [PY VY]. split.
  - intros [k K]. specialize (K 0%nat). rewrite !rand_calls_lcg, Nat.add_0_r in K. cbn [gw gen32] in K.
    assert (R: 0 <= lcg 32 (ga gen32) (gc gen32) 1 y < 2 ^ 32) by (apply lcg_range; [lia|exact Y]).
    pose proof (proj1 (VY _ R) (ex_intro _ 1%nat eq_refl)) as A.
    pose proof (proj1 (V _ R) (ex_intro _ (S k) (eq_sym K))) as B. congruence.
  - intros C. apply (V y Y) in C. destruct C as [k K]. exists k. intros i. rewrite <- K at 1. apply (shifted gen32 k x).
Qed.

(** The low bits. *)
Lemma lcg_low w k a c n x : 0 <= k <= w -> lcg w a c n x mod 2 ^ k = lcg k a c n (x mod 2 ^ k) mod 2 ^ k.
Proof.
  intros K. assert (P: 0 < 2 ^ k) by (apply Z.pow_pos_nonneg; lia). assert (D: (2 ^ k | 2 ^ w)).
  { exists (2 ^ (w - k)). rewrite <- Z.pow_add_r by lia. f_equal. lia. }
  induction n as [|n IH]; cbn [lcg]; [symmetry; apply Z.mod_mod; lia|].
  rewrite <- Zmod_div_mod; [|exact P|apply Z.pow_pos_nonneg; lia|exact D].
  rewrite Z.mod_mod by lia. rewrite Zplus_mod, Zmult_mod, IH, <- Zmult_mod, <- Zplus_mod. reflexivity.
Qed.
Lemma max_calls_closed g n i : word g -> 0 < n < 2 ^ gw g -> forall x,
  max_calls g n i x = Ok (lcg (gw g) (ga g) (gc g) (S i) x mod n).
Proof.
  intros W N. destruct (word_pos g W) as [P Q]. induction i as [|i IH]; intros x; cbn [max_calls]; unfold rand_max, wrap;
    rewrite (Z.mod_small (n - 1)) by lia; rewrite rand_range_exact by lia; cbv zeta;
    rewrite Z.min_l, Z.max_r by lia; (destruct (Z.eqb_spec (n - 1 - 0) (2 ^ gw g - 1)); [lia|]); cbn [bind].
  - f_equal. rewrite Z.add_0_l. f_equal. lia.
  - rewrite IH, <- lcg_add. do 3 f_equal. lia.
Qed.
Lemma mod_mul_low a k m : 0 <= k -> 0 < m -> (a mod (2 ^ k * m)) mod 2 ^ k = a mod 2 ^ k.
Proof.
  intros K M. assert (0 < 2 ^ k) by (apply Z.pow_pos_nonneg; lia). symmetry. apply Zmod_div_mod; [lia|nia|].
  exists m. ring.
Qed.
Lemma low64 x k m : 0 <= x < 2 ^ 64 -> 0 <= k -> 0 < m -> 2 ^ k * m < 2 ^ 64 ->
  exists f, (forall i, max_calls gen64 (2 ^ k * m) i x = Ok (f i)) /\
    forall i j, f i mod 2 ^ k = f j mod 2 ^ k <-> (2 ^ k | Z.of_nat j - Z.of_nat i).
Proof.
  intros X K M L. assert (P: 0 < 2 ^ k) by (apply Z.pow_pos_nonneg; lia).
  assert (KL: k < 64) by (apply (Z.pow_lt_mono_r_iff 2); nia).
  eexists. split.
  - intros i. apply max_calls_closed; [right; reflexivity|cbn [gw gen64]; nia].
  - intros i j. cbn beta. rewrite !mod_mul_low by lia. cbn [gw gen64]. rewrite !(lcg_low 64 k) by lia.
    destruct (Z.eq_dec k 0) as [->|NZ].
    + rewrite Z.pow_0_r, !Z.mod_1_r. split; [intros _; apply Z.divide_1_l|reflexivity].
    + remember (Z.to_nat (k - 1)) as w eqn:HW. replace k with (Z.of_nat (S w)) by lia.
      set (y := x mod 2 ^ Z.of_nat (S w)).
      assert (Y: 0 <= y < 2 ^ Z.of_nat (S w)) by (apply Z.mod_pos_bound; apply Z.pow_pos_nonneg; lia).
      assert (R: forall n, 0 <= lcg (Z.of_nat (S w)) (ga gen64) (gc gen64) n y < 2 ^ Z.of_nat (S w)) by (intro; apply lcg_range; [lia|exact Y]).
      rewrite !Z.mod_small by apply R.
      rewrite (lcg_full_period w (ga gen64) (gc gen64) eq_refl eq_refl y Y (S i) (S j)).
      replace (Z.of_nat (S j) - Z.of_nat (S i)) with (Z.of_nat j - Z.of_nat i) by lia. reflexivity.
Qed.
Lemma low32 x k m : 0 <= x < 2 ^ 32 -> 2 <= k -> 0 < m -> 2 ^ k * m < 2 ^ 32 ->
  exists f, (forall i, max_calls gen32 (2 ^ k * m) i x = Ok (f i)) /\
    forall i j, f i mod 2 ^ k = f j mod 2 ^ k <-> (2 ^ (k - 1) | Z.of_nat j - Z.of_nat i).
Proof.
  intros X K M L. assert (P: 0 < 2 ^ k) by (apply Z.pow_pos_nonneg; lia).
  assert (KL: k < 32) by (apply (Z.pow_lt_mono_r_iff 2); nia).
  eexists. split.
  - intros i. apply max_calls_closed; [left; reflexivity|cbn [gw gen32]; nia].
  - intros i j. cbn beta. rewrite !mod_mul_low by lia. cbn [gw gen32]. rewrite !(lcg_low 32 k) by lia.
    remember (Z.to_nat (k - 2)) as w eqn:HW. replace (k - 1) with (Z.of_nat (S w)) by lia. replace k with (Z.of_nat (S (S w))) by lia.
      set (y := x mod 2 ^ Z.of_nat (S (S w))).
      assert (Y: 0 <= y < 2 ^ Z.of_nat (S (S w))) by (apply Z.mod_pos_bound; apply Z.pow_pos_nonneg; lia).
      assert (R: forall n, 0 <= lcg (Z.of_nat (S (S w))) (ga gen32) (gc gen32) n y < 2 ^ Z.of_nat (S (S w))) by (intro; apply lcg_range; [lia|exact Y]).
      rewrite !Z.mod_small by apply R.
      rewrite (lcg_half_period w (ga gen32) (gc gen32) eq_refl eq_refl y Y (S i) (S j)).
      replace (Z.of_nat (S j) - Z.of_nat (S i)) with (Z.of_nat j - Z.of_nat i) by lia. reflexivity.
Qed.
(** An even bound: the results are even and odd in turn. *)
Lemma even_turns g x n : word g -> 0 <= x < 2 ^ gw g -> 0 < n < 2 ^ gw g -> Z.even n = true ->
  exists f, (forall i, max_calls g n i x = Ok (f i)) /\ forall i, Z.even (f (S i)) = negb (Z.even (f i)).
Proof.
  intros W X N E. eexists. split; [intros i; apply max_calls_closed; assumption|]. intros i. cbn beta.
  destruct (word_pos g W) as [P Q]. destruct (word_odd g W) as [OA OC].
  assert (EV: forall a b, 0 < b -> Z.even b = true -> Z.even (a mod b) = Z.even a).
  { intros a b B EB. rewrite Z.mod_eq by lia. rewrite Z.even_sub, Z.even_mul, EB. cbn [orb]. destruct (Z.even a); reflexivity. }
  rewrite !(EV _ n) by (try exact E; lia). cbn [lcg].
  assert (E2: Z.even (2 ^ gw g) = true) by (destruct W as [->| ->]; reflexivity).
  rewrite (EV (_ + _)) by assumption.
  rewrite <- !Z.negb_odd in *. rewrite Z.odd_add, Z.odd_mul, OA, OC. cbn [andb]. destruct (Z.odd _); reflexivity.
Qed.
