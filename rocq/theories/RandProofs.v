(** Lemmas about the generators. *)
From Coq Require Import ZArith Znumtheory List Bool Lia ZifyBool ZifyNat Permutation.
From Verif Require Import GoBase ConcBase RandModel RandSpec.
Import ListNotations.
Open Scope Z_scope.

Lemma rand_next_lcg g o : rand_next g o = (ga g * o + gc g) mod 2 ^ gw g.
Proof. unfold rand_next, wrap. rewrite Zplus_mod_idemp_l. f_equal. ring. Qed.

(** ** Ranges *)
Lemma rand_range_exact g seed x y : 0 < gw g -> 0 <= x < 2 ^ gw g -> 0 <= y < 2 ^ gw g ->
  let lo := Z.min x y in let hi := Z.max x y in
  rand_range g seed x y =
  if hi - lo =? 2 ^ gw g - 1 then Panic
  else Ok (lcg (gw g) (ga g) (gc g) 1 seed,
           lo + lcg (gw g) (ga g) (gc g) 1 seed mod (hi - lo + 1)).
Proof.
  intros Hw Hx Hy. cbv zeta. unfold rand_range.
  replace (if y <? x then (y, x) else (x, y)) with (Z.min x y, Z.max x y).
  2:{ destruct (Z.ltb_spec y x); f_equal; lia. }
  set (lo := Z.min x y). set (hi := Z.max x y). assert (Hl : 0 <= lo <= hi /\ hi < 2 ^ gw g) by lia.
  clearbody lo hi. cbv zeta. unfold rand. cbv zeta. cbn [lcg]. rewrite <- rand_next_lcg.
  set (r := rand_next g seed). assert (Hr : 0 <= r < 2 ^ gw g).
  { unfold r, rand_next, wrap. apply Z.mod_pos_bound. lia. }
  clearbody r. unfold wrap. rewrite (Z.mod_small (hi - lo)) by lia.
  destruct (Z.eqb_spec (hi - lo) (2 ^ gw g - 1)) as [E|E].
  - rewrite E. replace (2 ^ gw g - 1 + 1) with (2 ^ gw g) by lia. rewrite Z.mod_same by lia. reflexivity.
  - rewrite (Z.mod_small (hi - lo + 1)) by lia.
    destruct (Z.eqb_spec (hi - lo + 1) 0); [lia|].
    pose proof (Z.mod_pos_bound r (hi - lo + 1) ltac:(lia)).
    rewrite (Z.mod_small (_ + lo)) by lia. do 2 f_equal. lia.
Qed.

Lemma rand_range_in g seed x y : 0 < gw g -> 0 <= x < 2 ^ gw g -> 0 <= y < 2 ^ gw g ->
  ~ (Z.min x y = 0 /\ Z.max x y = 2 ^ gw g - 1) ->
  exists seed' r, rand_range g seed x y = Ok (seed', r) /\ Z.min x y <= r <= Z.max x y.
Proof.
  intros Hw Hx Hy Hn. rewrite rand_range_exact by auto.
  destruct (Z.eqb_spec (Z.max x y - Z.min x y) (2 ^ gw g - 1)); [lia|].
  do 2 eexists. split; [reflexivity|].
  pose proof (Z.mod_pos_bound (lcg (gw g) (ga g) (gc g) 1 seed) (Z.max x y - Z.min x y + 1) ltac:(lia)). lia.
Qed.

Lemma rand_max_in g seed n : 0 < gw g -> 0 < n < 2 ^ gw g ->
  exists seed' r, rand_max g seed n = Ok (seed', r) /\ 0 <= r < n.
Proof.
  intros Hw Hn. unfold rand_max, wrap. rewrite Z.mod_small by lia.
  destruct (rand_range_in g seed 0 (n - 1)) as (s' & r & E & Hr); auto; try lia.
  exists s', r. split; auto. lia.
Qed.

(** ** Geometric sums *)
Fixpoint gsum (a : Z) (n : nat) : Z :=
  match n with O => 0 | S n => a * gsum a n + 1 end.

Lemma gsum_pow a n : (a - 1) * gsum a n = a ^ Z.of_nat n - 1.
Proof.
  induction n as [|n IH]; [cbn [gsum]; change (Z.of_nat 0) with 0; rewrite Z.pow_0_r; ring|].
  cbn [gsum]. rewrite Nat2Z.inj_succ, Z.pow_succ_r by lia.
  transitivity (a * ((a - 1) * gsum a n) + (a - 1)); [ring|]. rewrite IH. ring.
Qed.

Lemma gsum_add a n m : gsum a (n + m) = a ^ Z.of_nat n * gsum a m + gsum a n.
Proof.
  induction n as [|n IH]; [cbn [gsum Nat.add]; change (Z.of_nat 0) with 0; rewrite Z.pow_0_r; ring|].
  cbn [gsum Nat.add]. rewrite IH.
  rewrite Nat2Z.inj_succ, Z.pow_succ_r by lia. ring.
Qed.

Lemma gsum_odd a n : Z.odd a = true -> Z.odd (gsum a n) = Nat.odd n.
Proof.
  intros Ha. induction n as [|n IH]; auto. cbn [gsum].
  rewrite Z.odd_add, Z.odd_mul, Ha, IH. cbn [andb].
  rewrite Nat.odd_succ, <- Nat.negb_odd. now destruct (Nat.odd n).
Qed.

Lemma pow2_gauss k x y : 0 <= k -> Z.odd x = true -> (2 ^ k | x * y) -> (2 ^ k | y).
Proof.
  intros Hk Hx H. apply (Gauss _ x); auto. apply rel_prime_sym.
  assert (G : forall n : nat, rel_prime x (2 ^ Z.of_nat n)).
  { intros n. induction n as [|n IHn]; [apply rel_prime_sym, rel_prime_1|].
    rewrite Nat2Z.inj_succ, Z.pow_succ_r by lia. apply rel_prime_mult; auto.
    apply rel_prime_sym, prime_rel_prime; [apply prime_2|].
    intros [z Hz]. rewrite Hz, Z.odd_mul in Hx. cbn in Hx. rewrite andb_false_r in Hx. discriminate. }
  specialize (G (Z.to_nat k)). now rewrite Z2Nat.id in G by lia.
Qed.

Lemma gsum_div a k : a mod 4 = 1 -> forall n : nat, (2 ^ Z.of_nat k | gsum a n) <-> (2 ^ Z.of_nat k | Z.of_nat n).
Proof.
  intros Ha. assert (Hodd : Z.odd a = true) by (rewrite Zodd_mod; apply Zeq_is_eq_bool; Z.div_mod_to_equations; lia).
  induction k as [|k IH]; intros n.
  - change (2 ^ Z.of_nat 0) with 1. split; intros _; apply Z.divide_1_l.
  - destruct (Nat.Even_or_Odd n) as [[p Hp]|[p Hp]].
    + subst n. replace (2 * p)%nat with (p + p)%nat by lia. rewrite gsum_add.
      assert (Hap : exists z, a ^ Z.of_nat p + 1 = 2 * z /\ Z.odd z = true).
      { assert (M : (a ^ Z.of_nat p) mod 4 = 1).
        { clear -Ha. induction p as [|p IHp]; [reflexivity|]. rewrite Nat2Z.inj_succ, Z.pow_succ_r by lia.
          rewrite Zmult_mod, Ha, IHp. reflexivity. }
        exists ((a ^ Z.of_nat p + 1) / 2). split.
        - Z.div_mod_to_equations; lia.
        - rewrite Zodd_mod. apply Zeq_is_eq_bool. Z.div_mod_to_equations; lia. }
      destruct Hap as (z & Hz & Hzo).
      replace (a ^ Z.of_nat p * gsum a p + gsum a p) with ((a ^ Z.of_nat p + 1) * gsum a p) by ring.
      rewrite Hz, Nat2Z.inj_succ, Z.pow_succ_r by lia. specialize (IH p).
      rewrite Nat2Z.inj_add. replace (Z.of_nat p + Z.of_nat p) with (2 * Z.of_nat p) by ring.
      rewrite <- Z.mul_assoc. rewrite !Z.mul_divide_cancel_l by lia.
      rewrite <- IH. split; intros H.
      * apply (pow2_gauss (Z.of_nat k) z); auto. lia.
      * now apply Z.divide_mul_r.
    + assert (Nat.odd n = true) by (apply Nat.odd_spec; exists p; lia).
      rewrite Nat2Z.inj_succ, Z.pow_succ_r by lia. split; intros [z Hz]; exfalso.
      * pose proof (gsum_odd a n Hodd) as Ho. rewrite Hz, Z.odd_mul, Z.odd_mul in Ho. cbn in Ho.
        rewrite andb_false_r in Ho. congruence.
      * assert (Z.odd (Z.of_nat n) = false) by (rewrite Hz, Z.odd_mul, Z.odd_mul; cbn; apply andb_false_r).
        assert (Z.odd (Z.of_nat n) = true) by (subst n; replace (Z.of_nat (2 * p + 1)) with (1 + 2 * Z.of_nat p) by lia; apply Z.odd_add_mul_2).
        congruence.
Qed.

(** ** Periods *)
Lemma lcg_closed w a c n x : 0 < w -> 0 <= x < 2 ^ w ->
  lcg w a c n x = (x + gsum a n * ((a - 1) * x + c)) mod 2 ^ w.
Proof.
  intros Hw Hx. induction n as [|n IH].
  - cbn. now rewrite Z.add_0_r, Z.mod_small.
  - cbn [lcg gsum]. rewrite IH. rewrite <- Zplus_mod_idemp_l, Zmult_mod_idemp_r, Zplus_mod_idemp_l.
    f_equal. ring.
Qed.

Lemma lcg_range w a c n x : 0 < w -> 0 <= x < 2 ^ w -> 0 <= lcg w a c n x < 2 ^ w.
Proof. intros Hw Hx. destruct n; cbn [lcg]; auto. apply Z.mod_pos_bound. lia. Qed.

Lemma lcg_add w a c n m x : lcg w a c (n + m) x = lcg w a c n (lcg w a c m x).
Proof. induction n as [|n IH]; auto. cbn [Nat.add lcg]. now rewrite IH. Qed.

Lemma lcg_fix w a c n x : 0 < w -> 0 <= x < 2 ^ w ->
  lcg w a c n x = x <-> (2 ^ w | gsum a n * ((a - 1) * x + c)).
Proof.
  intros Hw Hx. rewrite lcg_closed by auto. assert (P : 0 < 2 ^ w) by (apply Z.pow_pos_nonneg; lia).
  set (d := gsum a n * ((a - 1) * x + c)). split; intros H.
  - exists ((x + d) / 2 ^ w). pose proof (Z.div_mod (x + d) (2 ^ w) ltac:(lia)). lia.
  - destruct H as [z Hz]. rewrite Hz, Z.mod_add by lia. now apply Z.mod_small.
Qed.

Lemma odd_incr a c x : Z.odd a = true -> Z.odd c = true -> Z.odd ((a - 1) * x + c) = true.
Proof.
  intros Ha Hc. rewrite Z.odd_add, Z.odd_mul, Hc, Z.odd_sub, Ha. reflexivity.
Qed.

Lemma odd_of_mod4 a r : a mod 4 = r -> r = 1 \/ r = 3 -> Z.odd a = true.
Proof.
  intros H Hr. rewrite Zodd_mod. apply Zeq_is_eq_bool. Z.div_mod_to_equations; lia.
Qed.

(** full period *)
Lemma lcg_fix_full w a c n x : a mod 4 = 1 -> Z.odd c = true -> 0 <= x < 2 ^ Z.of_nat (S w) ->
  lcg (Z.of_nat (S w)) a c n x = x <-> (2 ^ Z.of_nat (S w) | Z.of_nat n).
Proof.
  intros Ha Hc Hx. rewrite lcg_fix by (auto; lia).
  rewrite <- (gsum_div a (S w) Ha n). split; intros H.
  - rewrite Z.mul_comm in H. apply pow2_gauss in H; auto; [lia|].
    apply odd_incr; auto. eapply odd_of_mod4; eauto.
  - now apply Z.divide_mul_l.
Qed.

Lemma lcg_orbit (P : nat -> Z -> Prop) (w a c : Z) :
  0 < w -> (forall x, 0 <= x < 2 ^ w -> forall n, lcg w a c n x = x <-> P n x) ->
  (forall n x y, P n x <-> P n y) ->
  Z.odd a = true ->
  forall x, 0 <= x < 2 ^ w -> forall i j, (i <= j)%nat ->
  lcg w a c i x = lcg w a c j x <-> P (j - i)%nat x.
Proof.
  intros Hw HP HPx Ha x Hx i j Hij. replace j with ((j - i) + i)%nat at 1 by lia.
  rewrite lcg_add. pose proof (lcg_range w a c i x Hw Hx) as Hr.
  split; intros H.
  - apply (HPx _ (lcg w a c i x)). apply HP; auto.
  - symmetry. apply HP; auto. now apply (HPx _ x).
Qed.

Lemma divide_sub_sym d i j : (i <= j)%nat ->
  (d | Z.of_nat (j - i)) <-> (d | Z.of_nat j - Z.of_nat i).
Proof. intros H. now replace (Z.of_nat (j - i)) with (Z.of_nat j - Z.of_nat i) by lia. Qed.

Lemma lcg_full_period w a c : a mod 4 = 1 -> Z.odd c = true ->
  forall x, 0 <= x < 2 ^ Z.of_nat (S w) -> forall i j,
  lcg (Z.of_nat (S w)) a c i x = lcg (Z.of_nat (S w)) a c j x <->
  (2 ^ Z.of_nat (S w) | Z.of_nat j - Z.of_nat i).
Proof.
  intros Ha Hc x Hx.
  assert (G : forall i j, (i <= j)%nat ->
    lcg (Z.of_nat (S w)) a c i x = lcg (Z.of_nat (S w)) a c j x <->
    (2 ^ Z.of_nat (S w) | Z.of_nat j - Z.of_nat i)).
  { intros i j Hij. rewrite <- divide_sub_sym by auto.
    apply (lcg_orbit (fun n _ => (2 ^ Z.of_nat (S w) | Z.of_nat n))); auto.
    - lia.
    - intros y Hy n. now apply lcg_fix_full.
    - tauto.
    - eapply odd_of_mod4; eauto. }
  intros i j. destruct (Nat.le_ge_cases i j) as [H|H]; auto.
  split; intros E.
  - apply Z.divide_opp_r. replace (- (Z.of_nat j - Z.of_nat i)) with (Z.of_nat i - Z.of_nat j) by lia.
    apply G; auto.
  - symmetry. apply G; auto. replace (Z.of_nat i - Z.of_nat j) with (- (Z.of_nat j - Z.of_nat i)) by lia.
    now apply Z.divide_opp_r.
Qed.

(** pigeonhole *)
Lemma orbit_onto (f : nat -> Z) (en : nat -> Z) (N : nat) (C : Z -> Prop) :
  (forall i j, (i < N)%nat -> (j < N)%nat -> f i = f j -> i = j) ->
  (forall i, C (f i)) ->
  (forall v, C v -> exists i, (i < N)%nat /\ en i = v) ->
  forall v, C v -> exists i, (i < N)%nat /\ f i = v.
Proof.
  intros Hinj HC Hen v Hv.
  assert (Hnd : NoDup (map f (seq 0 N))).
  { assert (G : forall l, NoDup l -> (forall i, In i l -> (i < N)%nat) -> NoDup (map f l)).
    { induction 1 as [|i l Hi _ IH]; intros Hl; cbn; constructor.
      - intros Hin. apply in_map_iff in Hin as (j & E & Hj). apply Hi.
        rewrite (Hinj i j); auto; apply Hl; cbn; auto.
      - apply IH. intros; apply Hl; cbn; auto. }
    apply G; [apply seq_NoDup|]. intros i Hi. apply in_seq in Hi. lia. }
  assert (Hincl : incl (map f (seq 0 N)) (map en (seq 0 N))).
  { intros z Hz. apply in_map_iff in Hz as (i & <- & Hi). destruct (Hen (f i) (HC i)) as (k & Hk & <-).
    apply in_map. apply in_seq. lia. }
  assert (Hall : incl (map en (seq 0 N)) (map f (seq 0 N))).
  { apply NoDup_length_incl; auto. rewrite !map_length. lia. }
  destruct (Hen v Hv) as (k & Hk & <-).
  assert (Hin : In (en k) (map f (seq 0 N))) by (apply Hall, in_map, in_seq; lia).
  apply in_map_iff in Hin as (i & E & Hi). apply in_seq in Hi. exists i. split; auto. lia.
Qed.

Lemma lcg_visits_all w a c : a mod 4 = 1 -> Z.odd c = true ->
  forall x v, 0 <= x < 2 ^ Z.of_nat (S w) -> 0 <= v < 2 ^ Z.of_nat (S w) ->
  exists n, Z.of_nat n < 2 ^ Z.of_nat (S w) /\ lcg (Z.of_nat (S w)) a c n x = v.
Proof.
  intros Ha Hc x v Hx Hv. set (M := 2 ^ Z.of_nat (S w)) in *.
  destruct (orbit_onto (fun n => lcg (Z.of_nat (S w)) a c n x) Z.of_nat (Z.to_nat M)
    (fun z => 0 <= z < M)) with (v := v) as (n & Hn & E); auto.
  - intros i j Hi Hj E. apply lcg_full_period in E; auto. fold M in E. destruct E as [z Hz].
    assert (z = 0) by nia. subst z. lia.
  - intros i. apply lcg_range; auto; lia.
  - intros z Hz. exists (Z.to_nat z). lia.
  - exists n. split; auto. lia.
Qed.

(** multiplier 3 modulo 4: half period *)
Lemma gsum_even a n : gsum a (n + n) = (a + 1) * gsum (a * a) n.
Proof.
  induction n as [|n IH]; [cbn [gsum Nat.add]; ring|]. replace (S n + S n)%nat with (S (S (n + n))) by lia.
  cbn [gsum]. rewrite IH. ring.
Qed.

Lemma lcg_fix_half w a c n x : a mod 8 = 3 -> Z.odd c = true -> 0 <= x < 2 ^ Z.of_nat (S (S w)) ->
  lcg (Z.of_nat (S (S w))) a c n x = x <-> (2 ^ Z.of_nat (S w) | Z.of_nat n).
Proof.
  intros Ha Hc Hx. rewrite lcg_fix by (auto; lia).
  assert (Hodd : Z.odd a = true) by (apply (odd_of_mod4 a 3); [Z.div_mod_to_equations; lia|auto]).
  assert (Hin : Z.odd ((a - 1) * x + c) = true) by now apply odd_incr.
  assert (R : (2 ^ Z.of_nat (S (S w)) | gsum a n * ((a - 1) * x + c)) <-> (2 ^ Z.of_nat (S (S w)) | gsum a n)).
  { split; intros H; [|now apply Z.divide_mul_l]. rewrite Z.mul_comm in H. apply pow2_gauss in H; auto. lia. }
  rewrite R. clear R.
  destruct (Nat.Even_or_Odd n) as [[p Hp]|[p Hp]].
  - subst n. replace (2 * p)%nat with (p + p)%nat by lia. rewrite gsum_even.
    assert (Hz : exists z, a + 1 = 4 * z /\ Z.odd z = true).
    { exists ((a + 1) / 4). split; [Z.div_mod_to_equations; lia|].
      rewrite Zodd_mod. apply Zeq_is_eq_bool. Z.div_mod_to_equations; lia. }
    destruct Hz as (z & Hz & Hzo). rewrite Hz.
    rewrite !Nat2Z.inj_succ, !Z.pow_succ_r by lia. rewrite Nat2Z.inj_add.
    replace (Z.of_nat p + Z.of_nat p) with (2 * Z.of_nat p) by ring.
    replace (2 * (2 * 2 ^ Z.of_nat w)) with (4 * 2 ^ Z.of_nat w) by ring.
    rewrite <- (Z.mul_assoc 4). rewrite !Z.mul_divide_cancel_l by lia.
    assert (Ha2 : (a * a) mod 4 = 1).
    { rewrite Zmult_mod. replace (a mod 4) with 3 by (Z.div_mod_to_equations; lia). reflexivity. }
    rewrite <- (gsum_div (a * a) w Ha2 p). split; intros H.
    + apply (pow2_gauss (Z.of_nat w) z); auto. lia.
    + now apply Z.divide_mul_r.
  - assert (Hn : Nat.odd n = true) by (apply Nat.odd_spec; exists p; lia).
    rewrite !Nat2Z.inj_succ, !Z.pow_succ_r by lia. split; intros [z Hz]; exfalso.
    + pose proof (gsum_odd a n Hodd) as Ho. rewrite Hz, Z.odd_mul, Z.odd_mul in Ho. cbn in Ho.
      rewrite andb_false_r in Ho. congruence.
    + assert (Z.odd (Z.of_nat n) = false) by (rewrite Hz, Z.odd_mul, Z.odd_mul; cbn; apply andb_false_r).
      assert (Z.odd (Z.of_nat n) = true) by (subst n; replace (Z.of_nat (2 * p + 1)) with (1 + 2 * Z.of_nat p) by lia; apply Z.odd_add_mul_2).
      congruence.
Qed.

Lemma lcg_half_period w a c : a mod 8 = 3 -> Z.odd c = true ->
  forall x, 0 <= x < 2 ^ Z.of_nat (S (S w)) -> forall i j,
  lcg (Z.of_nat (S (S w))) a c i x = lcg (Z.of_nat (S (S w))) a c j x <->
  (2 ^ Z.of_nat (S w) | Z.of_nat j - Z.of_nat i).
Proof.
  intros Ha Hc x Hx.
  assert (G : forall i j, (i <= j)%nat ->
    lcg (Z.of_nat (S (S w))) a c i x = lcg (Z.of_nat (S (S w))) a c j x <->
    (2 ^ Z.of_nat (S w) | Z.of_nat j - Z.of_nat i)).
  { intros i j Hij. rewrite <- divide_sub_sym by auto.
    apply (lcg_orbit (fun n _ => (2 ^ Z.of_nat (S w) | Z.of_nat n))); auto.
    - lia.
    - intros y Hy n. now apply lcg_fix_half.
    - tauto.
    - apply (odd_of_mod4 a 3); [Z.div_mod_to_equations; lia|auto]. }
  intros i j. destruct (Nat.le_ge_cases i j) as [H|H]; auto.
  split; intros E.
  - apply Z.divide_opp_r. replace (- (Z.of_nat j - Z.of_nat i)) with (Z.of_nat i - Z.of_nat j) by lia.
    apply G; auto.
  - symmetry. apply G; auto. replace (Z.of_nat i - Z.of_nat j) with (- (Z.of_nat j - Z.of_nat i)) by lia.
    now apply Z.divide_opp_r.
Qed.

(** the two classes: last two bits 00 or 11, last two bits 01 or 10 *)
Definition outer_class (v : Z) : bool := (v mod 4 =? 0) || (v mod 4 =? 3).

Lemma mod_mod_pow w z : z mod 2 ^ Z.of_nat (S (S w)) mod 4 = z mod 4.
Proof.
  symmetry. apply Zmod_div_mod; try lia.
  - rewrite !Nat2Z.inj_succ, !Z.pow_succ_r by lia. exists (2 ^ Z.of_nat w). ring.
Qed.

Lemma lcg_class w a c n x : a mod 4 = 3 -> c mod 4 = 3 ->
  outer_class (lcg (Z.of_nat (S (S w))) a c n x) = outer_class x.
Proof.
  intros Ha Hc. induction n as [|n IH]; auto. cbn [lcg]. rewrite <- IH.
  set (y := lcg (Z.of_nat (S (S w))) a c n x). unfold outer_class. rewrite mod_mod_pow.
  rewrite Zplus_mod, Zmult_mod, Ha, Hc. pose proof (Z.mod_pos_bound y 4 ltac:(lia)).
  assert (y mod 4 = 0 \/ y mod 4 = 1 \/ y mod 4 = 2 \/ y mod 4 = 3) as [E|[E|[E|E]]] by lia;
  rewrite E; reflexivity.
Qed.

Lemma lcg_visits_class w a c : a mod 8 = 3 -> c mod 4 = 3 ->
  forall x v, 0 <= x < 2 ^ Z.of_nat (S (S w)) -> 0 <= v < 2 ^ Z.of_nat (S (S w)) ->
  (exists n, lcg (Z.of_nat (S (S w))) a c n x = v) <-> outer_class v = outer_class x.
Proof.
  intros Ha Hc x v Hx Hv. assert (Ha4 : a mod 4 = 3) by (Z.div_mod_to_equations; lia).
  assert (Hco : Z.odd c = true) by (apply (odd_of_mod4 c 3); auto).
  split; [intros (n & <-); now apply lcg_class|]. intros Hcl.
  assert (Hpow : 2 ^ Z.of_nat (S (S w)) = 2 * 2 ^ Z.of_nat (S w)) by (rewrite (Nat2Z.inj_succ (S w)), Z.pow_succ_r by lia; lia).
  assert (Hpow2 : 2 ^ Z.of_nat (S w) = 2 * 2 ^ Z.of_nat w) by (rewrite Nat2Z.inj_succ, Z.pow_succ_r by lia; lia).
  set (M := 2 ^ Z.of_nat (S w)) in *.
  set (en := fun i : nat => let i := Z.of_nat i in
     if outer_class x then 4 * (i / 2) + 3 * (i mod 2) else 4 * (i / 2) + 1 + i mod 2).
  destruct (orbit_onto (fun n => lcg (Z.of_nat (S (S w))) a c n x) en (Z.to_nat M)
    (fun z => 0 <= z < 2 * M /\ outer_class z = outer_class x)) with (v := v) as (n & Hn & E).
  - intros i j Hi Hj E. apply lcg_half_period in E; auto; fold M in E.
    destruct E as [z Hz]. assert (z = 0) by nia. subst z. lia.
  - intros i. split; [rewrite <- Hpow; apply lcg_range; auto; lia|now apply lcg_class].
  - intros z [Hz Hzc]. unfold en. rewrite <- Hzc.
    exists (Z.to_nat (2 * (z / 4) + (if outer_class z then z mod 4 / 3 else z mod 4 - 1))).
    pose proof (Z.mod_pos_bound z 4 ltac:(lia)). pose proof (Z.div_mod z 4 ltac:(lia)).
    unfold outer_class.
    assert (z mod 4 = 0 \/ z mod 4 = 1 \/ z mod 4 = 2 \/ z mod 4 = 3) as [E|[E|[E|E]]] by lia;
    rewrite E; cbn [Z.eqb orb Pos.eqb]; change (3 / 3) with 1; change (0 / 3) with 0;
    (split; [lia|]); cbv zeta; rewrite Z2Nat.id by lia; Z.div_mod_to_equations; lia.
  - split; auto. lia.
  - exists n. exact E.
Qed.

(** ** Concurrent calls *)
Definition rnd_rel (s : rnd_state) (a : Z) (st : nat -> tstat rnd_op Z) : Prop :=
  a = rseed s /\ forall t,
    match rpc s t with
    | PIdle => st t = TIdle
    | PCall op => st t = TPend op
    | PLoaded _ => st t = TPend ORand
    | PRet op r => st t = TDone op r
    end.

Ltac upd_all t :=
  let u := fresh "u" in
  intros u; unfold fupd; destruct (Nat.eqb_spec u t) as [->|];
  [auto|match goal with H : forall x, _ |- _ => exact (H u) end].

Lemma rnd_step_sim g s a st t op : rnd_rel s a st -> exists evs a' st',
  erase evs = snd (rnd_step g s t op) /\ lin_run (rnd_spec (gw g) (ga g) (gc g)) a st evs a' st' /\
  rnd_rel (fst (rnd_step g s t op)) a' st'.
Proof.
  intros [Ea Hst]. pose proof (Hst t) as Ht. unfold rnd_step.
  destruct (rpc s t) as [|[|x|]|o|op' r] eqn:E.
  - exists [AInv t op], a, (fupd st t (TPend op)). split; [reflexivity|]. split.
    + eapply lr_inv; eauto. constructor.
    + split; auto. cbn. upd_all t.
  - exists [], a, st. split; [reflexivity|]. split; [constructor|]. split; auto. cbn.
    intros u. unfold fupd. destruct (Nat.eqb_spec u t) as [->|]; [auto|apply Hst].
  - exists [ALin t (OSrand x) a], x, (fupd st t (TDone (OSrand x) a)). split; [reflexivity|]. split.
    + eapply lr_lin; eauto; [|constructor]. cbn. auto.
    + split; auto. cbn. rewrite <- Ea. upd_all t.
  - exists [ALin t OSeed a], a, (fupd st t (TDone OSeed a)). split; [reflexivity|]. split.
    + eapply lr_lin; eauto; [|constructor]. cbn. auto.
    + split; auto. cbn. rewrite <- Ea. upd_all t.
  - cbv zeta. destruct (Z.eqb_spec (rseed s) o) as [Eo|Eo].
    + exists [ALin t ORand (rand_next g o)], (rand_next g o), (fupd st t (TDone ORand (rand_next g o))).
      split; [reflexivity|]. split.
      * eapply lr_lin; eauto; [|constructor]. cbn. rewrite Ea, Eo. split; auto. apply rand_next_lcg.
      * split; auto. cbn. upd_all t.
    + exists [], a, st. split; [reflexivity|]. split; [constructor|]. split; auto. cbn.
      intros u. unfold fupd. destruct (Nat.eqb_spec u t) as [->|]; [auto|apply Hst].
  - exists [ARet t op' r], a, (fupd st t TIdle). split; [reflexivity|]. split.
    + eapply lr_ret; eauto. constructor.
    + split; auto. cbn. upd_all t.
Qed.

Lemma rnd_linearizable g seed sched :
  linearizable (rnd_spec (gw g) (ga g) (gc g)) seed (snd (crun (rnd_step g) (rnd_init seed) sched)).
Proof.
  destruct (lin_sim (rnd_spec (gw g) (ga g) (gc g)) (rnd_step g) rnd_rel) with
    (sched := sched) (s := rnd_init seed) (a := seed) (st := fun _ : nat => @TIdle rnd_op Z)
    as (evs & a' & st' & E & L & _).
  - intros. now apply rnd_step_sim.
  - split; [reflexivity|intros t; reflexivity].
  - exists evs, a', st'. auto.
Qed.

(** Only Rand is called: the effects are the successive values. *)
Lemma lin_rand_values w a c h : forall s st s' st',
  lin_run (rnd_spec w a c) s st h s' st' -> Forall (fun e => snd (fst e) = ORand) (lins h) ->
  map snd (lins h) = map (fun k => lcg w a c (S k) s) (seq 0 (length (lins h))).
Proof.
  intros s st s' st' H. induction H as [|? ? ? ? ? ? ? ? ? IH|s st t op r b h s' st' Ht Hs Hr IH|? ? ? ? ? ? ? ? ? ? IH];
  cbn [lins]; intros Hf; auto.
  inversion Hf as [|? ? Ho Hf']; subst. cbn in Ho. subst op. destruct Hs as [-> ->].
  cbn [length seq map snd]. f_equal. rewrite IH by auto. rewrite <- seq_shift, map_map.
  apply map_ext. intros k.
  change ((a * s + c) mod 2 ^ w) with (lcg w a c 1 s). rewrite <- lcg_add. f_equal. lia.
Qed.

Definition ops_rand (st : nat -> tstat rnd_op Z) : Prop :=
  forall t, match st t with TPend op => op = ORand | _ => True end.

Lemma only_rand_lins w a c h : forall s st s' st',
  lin_run (rnd_spec w a c) s st h s' st' -> ops_rand st ->
  Forall (fun e => match e with Inv _ op => op = ORand | _ => True end) (erase h) ->
  Forall (fun e => snd (fst e) = ORand) (lins h).
Proof.
  intros s st s' st' H. induction H as [|s st t op h s' st' Ht Hr IH|s st t op r b h s' st' Ht Hs Hr IH|s st t op r h s' st' Ht Hr IH];
  cbn [lins erase]; intros Ho Hf; auto.
  - inversion Hf as [|? ? Hop Hf']; subst. apply IH; auto.
    intros u. unfold fupd. destruct (Nat.eqb_spec u t) as [->|]; auto. apply Ho.
  - constructor.
    + cbn. specialize (Ho t). now rewrite Ht in Ho.
    + apply IH; auto. intros u. unfold fupd. destruct (Nat.eqb_spec u t) as [->|]; auto. apply Ho.
  - inversion Hf; subst. apply IH; auto.
    intros u. unfold fupd. destruct (Nat.eqb_spec u t) as [->|]; auto. apply Ho.
Qed.

Lemma only_rand_events g sched : forall s, only_rand sched ->
  Forall (fun e => match e with Inv _ op => op = ORand | _ => True end) (snd (crun (rnd_step g) s sched)).
Proof.
  induction sched as [|[t op] sched IH]; intros s H; [constructor|]. inversion H as [|? ? Hop H']; subst.
  cbn [crun]. cbn in Hop. subst op.
  assert (E : Forall (fun e : ext rnd_op Z => match e with Inv _ op => op = ORand | _ => True end) (snd (rnd_step g s t ORand))).
  { unfold rnd_step. destruct (rpc s t) as [|[|x|]|o|op' r]; cbn; auto.
    destruct (rseed s =? o); constructor. }
  destruct (rnd_step g s t ORand) as [s1 h1]. specialize (IH s1 H').
  destruct (crun (rnd_step g) s1 sched) as [s2 h2]. cbn [snd] in *. apply Forall_app. auto.
Qed.

Lemma rnd_positions g seed sched : only_rand sched ->
  let h := snd (crun (rnd_step g) (rnd_init seed) sched) in
  exists ks, NoDup ks /\ Forall (fun k => (k < length (invs h))%nat) ks /\
    map (fun e => snd e) (rets h) = map (fun k => lcg (gw g) (ga g) (gc g) (S k) seed) ks.
Proof.
  intros Hor h. destruct (rnd_linearizable g seed sched) as (h' & a' & st' & E & L). fold h in E.
  destruct (rets_positions _ _ _ _ _ L) as (ks & Hnd & Hb & Hf). rewrite E in Hf, Hb.
  assert (Hl : Forall (fun e => snd (fst e) = ORand) (lins h')).
  { eapply only_rand_lins; eauto; [intros t; exact I|]. rewrite E. now apply only_rand_events. }
  pose proof (lin_rand_values _ _ _ _ _ _ _ _ L Hl) as Hv.
  exists ks. split; auto. split; auto. clear - Hf Hv.
  induction Hf as [|k e ks rs Hk _ IH]; [reflexivity|]. cbn [map]. rewrite IH. f_equal.
  apply (map_nth_error snd) in Hk. rewrite Hv in Hk.
  assert (Hlt : (k < length (lins h'))%nat).
  { assert (nth_error (map (fun k0 => lcg (gw g) (ga g) (gc g) (S k0) seed) (seq 0 (length (lins h')))) k <> None) by congruence.
    apply nth_error_Some in H. now rewrite map_length, seq_length in H. }
  assert (Hs : nth_error (seq 0 (length (lins h'))) k = Some k).
  { rewrite nth_error_nth' with (d := 0%nat) by now rewrite seq_length. now rewrite seq_nth. }
  apply (map_nth_error (fun k0 => lcg (gw g) (ga g) (gc g) (S k0) seed)) in Hs. congruence.
Qed.

(** Within one period no value is returned twice. *)
Lemma NoDup_map_on {A B} (f : A -> B) l : NoDup l ->
  (forall x y, In x l -> In y l -> f x = f y -> x = y) -> NoDup (map f l).
Proof.
  induction 1 as [|x l Hx Hl IH]; intros Hf; cbn; constructor.
  - intros Hin. apply in_map_iff in Hin as (y & E & Hy). apply Hx.
    rewrite (Hf x y); auto; cbn; auto.
  - apply IH. intros; apply Hf; cbn; auto.
Qed.

Lemma rnd_all_returned g seed sched : only_rand sched ->
  let h := snd (crun (rnd_step g) (rnd_init seed) sched) in
  length (rets h) = length (invs h) ->
  Permutation (map (fun e => snd e) (rets h))
    (map (fun k => lcg (gw g) (ga g) (gc g) (S k) seed) (seq 0 (length (invs h)))).
Proof.
  intros Hor h Hlen. destruct (rnd_positions g seed sched Hor) as (ks & Hnd & Hb & E). fold h in Hb, E.
  rewrite E. apply Permutation_map. apply NoDup_Permutation_bis; auto.
  - rewrite seq_length, <- Hlen. apply (f_equal (@length Z)) in E. rewrite !map_length in E. lia.
  - intros k Hk. rewrite Forall_forall in Hb. apply in_seq. specialize (Hb k Hk). lia.
Qed.

Lemma rnd_distinct g seed sched p : only_rand sched ->
  (forall i j, lcg (gw g) (ga g) (gc g) i seed = lcg (gw g) (ga g) (gc g) j seed -> (p | Z.of_nat j - Z.of_nat i)) ->
  let h := snd (crun (rnd_step g) (rnd_init seed) sched) in
  Z.of_nat (length (invs h)) <= p -> NoDup (map (fun e => snd e) (rets h)).
Proof.
  intros Hor Hper h Hle. destruct (rnd_positions g seed sched Hor) as (ks & Hnd & Hb & E). fold h in Hb, E.
  rewrite E. apply NoDup_map_on; auto. intros i j Hi Hj Eij.
  apply Hper in Eij as [z Hz]. rewrite Forall_forall in Hb.
  pose proof (Hb i Hi). pose proof (Hb j Hj). assert (z = 0) by nia. subst. lia.
Qed.

(** ** The two generators *)
Lemma rand_range_all g : g = gen32 \/ g = gen64 -> forall seed,
  (forall x y, 0 <= x < 2 ^ gw g -> 0 <= y < 2 ^ gw g ->
     ~ (Z.min x y = 0 /\ Z.max x y = 2 ^ gw g - 1) ->
     exists seed' r, rand_range g seed x y = Ok (seed', r) /\ Z.min x y <= r <= Z.max x y) /\
  (forall n, 0 < n < 2 ^ gw g -> exists seed' r, rand_max g seed n = Ok (seed', r) /\ 0 <= r < n).
Proof.
  intros Hg seed. assert (0 < gw g) by (destruct Hg; subst; reflexivity). split; intros.
  - now apply rand_range_in.
  - now apply rand_max_in.
Qed.

Lemma rand_range_panics : exists x y n, forall g, g = gen32 \/ g = gen64 ->
  0 <= x < 2 ^ 32 /\ 0 <= y < 2 ^ 32 /\ 0 <= n < 2 ^ 32 /\ forall seed,
  rand_max g seed n = Panic /\ (gw g = 32 -> rand_range g seed x y = Panic).
Proof.
  exists 0, (2 ^ 32 - 1), 0. intros g Hg. repeat split; try lia.
  - unfold rand_max, rand_range, rand. destruct Hg; subst g; reflexivity.
  - intros Hw. unfold rand_range, rand. destruct Hg; subst g; [reflexivity|discriminate].
Qed.

Lemma lcg_is_rand g k seed :
  snd (rand g (lcg (gw g) (ga g) (gc g) k seed)) = lcg (gw g) (ga g) (gc g) (S k) seed /\
  fst (rand g (lcg (gw g) (ga g) (gc g) k seed)) = lcg (gw g) (ga g) (gc g) (S k) seed.
Proof. unfold rand. cbn [fst snd lcg]. rewrite rand_next_lcg. auto. Qed.

Lemma period64 seed : 0 <= seed < 2 ^ 64 ->
  (forall i j, lcg 64 (ga gen64) (gc gen64) i seed = lcg 64 (ga gen64) (gc gen64) j seed <->
     (2 ^ 64 | Z.of_nat j - Z.of_nat i)) /\
  (forall v, 0 <= v < 2 ^ 64 -> exists n, Z.of_nat n < 2 ^ 64 /\ lcg 64 (ga gen64) (gc gen64) n seed = v).
Proof.
  intros H. change 64 with (Z.of_nat 64) in *. split.
  - apply lcg_full_period; auto.
  - intros v Hv. apply lcg_visits_all; auto.
Qed.

Lemma outer_class_bits v : outer_class v = Bool.eqb (Z.testbit v 0) (Z.testbit v 1).
Proof.
  unfold outer_class. rewrite !Z.testbit_eqb by lia. change (2 ^ 0) with 1. change (2 ^ 1) with 2.
  rewrite Z.div_1_r. pose proof (Z.mod_pos_bound v 4 ltac:(lia)).
  destruct (Z.eqb_spec (v mod 4) 0), (Z.eqb_spec (v mod 4) 3), (Z.eqb_spec (v mod 2) 1),
    (Z.eqb_spec ((v / 2) mod 2) 1); cbn; auto; exfalso; Z.div_mod_to_equations; lia.
Qed.

Lemma period32 seed : 0 <= seed < 2 ^ 32 ->
  (forall i j, lcg 32 (ga gen32) (gc gen32) i seed = lcg 32 (ga gen32) (gc gen32) j seed <->
     (2 ^ 31 | Z.of_nat j - Z.of_nat i)) /\
  (forall v, 0 <= v < 2 ^ 32 ->
     (exists n, lcg 32 (ga gen32) (gc gen32) n seed = v) <->
     Bool.eqb (Z.testbit v 0) (Z.testbit v 1) = Bool.eqb (Z.testbit seed 0) (Z.testbit seed 1)).
Proof.
  intros H. change 32 with (Z.of_nat 32) in *. change 31 with (Z.of_nat 31). split.
  - apply lcg_half_period; auto.
  - intros v Hv. rewrite <- !outer_class_bits. apply lcg_visits_class; auto.
Qed.

Lemma period32_not_full : exists seed v, 0 <= seed < 2 ^ 32 /\ 0 <= v < 2 ^ 32 /\
  forall n, lcg 32 (ga gen32) (gc gen32) n seed <> v.
Proof.
  exists 0, 1. split; [lia|]. split; [lia|]. intros n E.
  destruct (period32 0 ltac:(lia)) as [_ Hv]. specialize (Hv 1 ltac:(lia)).
  assert (Hc := proj1 Hv (ex_intro _ n E)). discriminate Hc.
Qed.

Lemma rnd_distinct_both seed sched : only_rand sched ->
  (0 <= seed < 2 ^ 64 ->
   let h := snd (crun (rnd_step gen64) (rnd_init seed) sched) in
   Z.of_nat (length (invs h)) <= 2 ^ 64 -> NoDup (map (fun e => snd e) (rets h))) /\
  (0 <= seed < 2 ^ 32 ->
   let h := snd (crun (rnd_step gen32) (rnd_init seed) sched) in
   Z.of_nat (length (invs h)) <= 2 ^ 31 -> NoDup (map (fun e => snd e) (rets h))).
Proof.
  intros Hor. split; intros Hs h Hle.
  - apply (rnd_distinct gen64 seed sched (2 ^ 64)); auto. intros i j E. now apply (period64 seed Hs).
  - apply (rnd_distinct gen32 seed sched (2 ^ 31)); auto. intros i j E. now apply (period32 seed Hs).
Qed.
