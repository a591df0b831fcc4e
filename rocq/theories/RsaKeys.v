(** Two real RSA keys for the examples, of 751 and of 101 bits; the primes are proved prime by
    Proth's theorem. *)
From Coq Require Import ZArith List Bool Lia Znumtheory Zpow_facts ZifyBool ZifyNat Arith.
From Verif Require Import GoBase RsaModel RsaSpec RsaProofs CryptoSpec.
Import ListNotations.
Local Open Scope Z_scope.

Lemma prime_factor : forall n, 1 < n -> exists p, prime p /\ (p | n).
Proof.
  intros n Hn. assert (H : 1 < n) by exact Hn. revert H. pattern n. apply (Z_lt_induction); [|lia].
  clear n Hn. intros n IH Hn. destruct (prime_dec n) as [P|P].
  - exists n. split; auto. apply Z.divide_refl.
  - apply not_prime_divide in P; auto. destruct P as (m & Hm & D). destruct (IH m ltac:(lia) ltac:(lia)) as (p & Pp & Dp).
    exists p. split; auto. eapply Z.divide_trans; eauto.
Qed.

Lemma pow_m1 : forall q x u, 2 < q -> 0 <= u -> Z.odd u = true -> x mod q = q - 1 -> x ^ u mod q = q - 1.
Proof.
  intros q x u Hq Hu Ho E. rewrite Zpower_mod by lia. rewrite E.
  apply Z.odd_spec in Ho. destruct Ho as [v ->].
  rewrite Z.pow_add_r, Z.pow_mul_r, Z.pow_1_r by lia.
  assert (S : (q - 1) ^ 2 mod q = 1).
  { replace ((q - 1) ^ 2) with (1 + (q - 2) * q) by ring. rewrite Z.mod_add by lia. apply Z.mod_1_l; lia. }
  rewrite Zmult_mod, (mod_pow_1 ((q - 1) ^ 2) q v) by (auto; lia). rewrite Z.mul_1_l, Zmod_mod. apply Z.mod_small. lia.
Qed.

Lemma two_part : forall n, 0 < n -> exists j u, 0 <= j /\ 0 < u /\ Z.odd u = true /\ n = 2 ^ j * u.
Proof.
  intros n Hn. assert (H : 0 < n) by exact Hn. revert H. pattern n. apply Z_lt_induction; [|lia].
  clear n Hn. intros n IH Hn. destruct (Z.odd n) eqn:O.
  - exists 0, n. rewrite Z.pow_0_r. repeat split; auto; lia.
  - rewrite <- Z.negb_even in O. apply negb_false_iff in O. apply Z.even_spec in O. destruct O as [m ->].
    destruct (IH m ltac:(lia) ltac:(lia)) as (j & u & Hj & Hu & Ho & E).
    exists (j + 1), u. repeat split; auto; try lia. rewrite Z.pow_add_r by lia. rewrite E at 1. ring.
Qed.

Lemma proth_factor : forall q x k, prime q -> 2 < q -> 1 <= k -> x ^ (2 ^ (k - 1)) mod q = q - 1 -> (2 ^ k | q - 1).
Proof.
  intros q x k Hq H2 Hk E. destruct (two_part (q - 1) ltac:(lia)) as (j & u & Hj & Hu & Ho & F).
  destruct (Z.le_gt_cases k j) as [L|L].
  - rewrite F. apply Z.divide_mul_l. exists (2 ^ (j - k)). rewrite <- Z.pow_add_r by lia. f_equal. lia.
  - exfalso. pose proof (pow_m1 q (x ^ 2 ^ (k - 1)) u H2 ltac:(lia) Ho E) as A.
    assert (ND : ~ (q | x)).
    { intro D. assert (x ^ 2 ^ (k - 1) mod q = 0); [|lia]. apply Z.mod_divide; [lia|].
      replace (2 ^ (k - 1)) with (Z.succ (2 ^ (k - 1) - 1)) by lia.
      pose proof (Z.pow_pos_nonneg 2 (k - 1) ltac:(lia) ltac:(lia)).
      rewrite Z.pow_succ_r by lia. apply Z.divide_mul_l. exact D. }
    pose proof (fermat q x Hq ND) as B.
    pose proof (Z.pow_pos_nonneg 2 (k - 1) ltac:(lia) ltac:(lia)).
    pose proof (Z.pow_pos_nonneg 2 (k - 1 - j) ltac:(lia) ltac:(lia)).
    rewrite <- Z.pow_mul_r in A by lia.
    replace (2 ^ (k - 1) * u) with ((q - 1) * 2 ^ (k - 1 - j)) in A.
    + rewrite Z.pow_mul_r in A by lia. rewrite mod_pow_1 in A; auto; lia.
    + rewrite F. replace (2 ^ (k - 1)) with (2 ^ j * 2 ^ (k - 1 - j)); [ring|]. rewrite <- Z.pow_add_r by lia. f_equal. lia.
Qed.

Definition proth_check (h k a p : Z) : bool :=
  (p =? h * 2 ^ k + 1) && (h <? 2 ^ k) && (Zpow_mod a (h * 2 ^ (k - 1)) p =? p - 1) && (1 <=? k) && (1 <=? h).

Lemma proth : forall h k a p, proth_check h k a p = true -> prime p.
Proof.
  intros h k a p C. unfold proth_check in C. rewrite !andb_true_iff in C. destruct C as ((((C1 & C2) & C3) & C4) & C5).
  apply Z.eqb_eq in C1. apply Z.ltb_lt in C2. apply Z.eqb_eq in C3. apply Z.leb_le in C4. apply Z.leb_le in C5.
  pose proof (Z.pow_pos_nonneg 2 (k - 1) ltac:(lia) ltac:(lia)).
  assert (K2 : 2 ^ k = 2 * 2 ^ (k - 1)) by (rewrite <- Z.pow_succ_r by lia; f_equal; lia).
  assert (P3 : 3 <= p) by nia.
  rewrite Zpow_mod_correct in C3 by lia.
  assert (F : forall q, prime q -> (q | p) -> 2 ^ k + 1 <= q).
  { intros q Hq D. pose proof (prime_ge_2 q Hq).
    assert (q <> 2).
    { intro E. subst q. destruct D as [z Hz]. nia. }
    assert (D2 : (2 ^ k | q - 1)).
    { apply proth_factor with (a ^ h); auto; try lia. rewrite <- Z.pow_mul_r by lia.
      destruct D as [z Hz]. rewrite Hz in C3.
      assert (z * q <> 0) by lia.
      pose proof (Z.div_mod (a ^ (h * 2 ^ (k - 1))) (z * q) ltac:(lia)) as DM. rewrite C3 in DM. rewrite DM.
      set (w := a ^ (h * 2 ^ (k - 1)) / (z * q)).
      replace (z * q * w + (z * q - 1)) with (q - 1 + (z * w + z - 1) * q) by ring.
      rewrite Z.mod_add by lia. apply Z.mod_small. lia. }
    apply Z.divide_pos_le in D2; lia. }
  destruct (prime_dec p) as [P|P]; auto. exfalso.
  apply not_prime_divide in P; [|lia]. destruct P as (m & Hm & [z Hz]).
  destruct (prime_factor m) as (q & Hq & Dq); [lia|].
  assert (1 < z) by nia.
  destruct (prime_factor z) as (r & Hr & Dr); [lia|].
  assert (2 ^ k + 1 <= q). { apply F; auto. eapply Z.divide_trans; [exact Dq|]. exists z. exact Hz. }
  assert (2 ^ k + 1 <= r). { apply F; auto. eapply Z.divide_trans; [exact Dr|]. exists m. lia. }
  apply Z.divide_pos_le in Dq; [|lia]. apply Z.divide_pos_le in Dr; [|lia]. nia.
Qed.

Definition key751 : privkey := Priv (Pub 8053729501110812240260869488407281628334301638028920959631145992637880395131770496039229879115044104825118919028617226610865708132980797915043071399931857845915504656916772408352759358288862085860430137727617983334465350402049 65537)
  764804192214115833267345470831467385975792849919483022499753574524676804692000485862790271668443993712431191671895121494703854174222961515559367633097007661783342579713.
Definition key101 : privkey := Priv (Pub 1939830765921285050857213132801 65537) 3253918091294873157633.

Definition key_check (k : privkey) (h1 k1 a1 p h2 k2 a2 q : Z) : bool :=
  (2 <=? pk_e (sk_pub k)) && (pk_e (sk_pub k) <=? 2147483647) && (0 <? sk_d k) &&
  proth_check h1 k1 a1 p && proth_check h2 k2 a2 q && negb (p =? q) && (pk_n (sk_pub k) =? p * q) &&
  ((pk_e (sk_pub k) * sk_d k - 1) mod (p - 1) =? 0) && ((pk_e (sk_pub k) * sk_d k - 1) mod (q - 1) =? 0).
Lemma key_check_ok : forall k h1 k1 a1 p h2 k2 a2 q, key_check k h1 k1 a1 p h2 k2 a2 q = true -> rsa_key k.
Proof.
  intros k h1 k1 a1 p h2 k2 a2 q C. unfold key_check in C. rewrite !andb_true_iff in C.
  destruct C as ((((((((C1 & C2) & C3) & C4) & C5) & C6) & C7) & C8) & C9).
  apply proth in C4. apply proth in C5. pose proof (prime_ge_2 p C4). pose proof (prime_ge_2 q C5).
  assert (p <> 2 -> q <> 2 -> rsa_key k); [|].
  - intros Np Nq. split; [lia|]. split; [lia|]. exists p, q. split; auto. split; auto. split; [lia|]. split; [lia|].
    split; apply Z.mod_divide; lia.
  - destruct (Z.eq_dec p 2); [|destruct (Z.eq_dec q 2)]; auto.
    + split; [lia|]. split; [lia|]. exists p, q. split; auto. split; auto. split; [lia|]. split; [lia|].
      split; apply Z.mod_divide; lia.
    + split; [lia|]. split; [lia|]. exists p, q. split; auto. split; auto. split; [lia|]. split; [lia|].
      split; apply Z.mod_divide; lia.
Qed.

Lemma key751_ok : rsa_key key751.
Proof.
  apply (key_check_ok key751 16578416240794109824776547854594276907729038108201046335 192 7 104064405355051439214063337585924573525124327048365072349392103952764527680884088052684608834977191618899251036161
    12329221772702545080349170892232561785011116493520641523 192 3 77391779385398394255344960871162287913418643424140888496712476270025992057802773967590077670267463641246736580609).
  vm_compute. reflexivity.
Qed.
Lemma key101_ok : rsa_key key101.
Proof.
  apply (key_check_ok key101 8964377 27 3 1203178313875457 12012239 27 3 1612255426772993). vm_compute. reflexivity.
Qed.
Lemma key751_bits : has_bits key751 751.
Proof. split; [lia|]. split; vm_compute; congruence. Qed.
Lemma key101_bits : has_bits key101 101.
Proof. split; [lia|]. split; vm_compute; congruence. Qed.

(** The client and server made from the keys, in the toy standard library. *)
Lemma pair751 : forall st, pair_of (toy_std st) 751 (Some (sk_pub key751)) (Some key751).
Proof.
  intro st. do 2 eexists. split; [|split].
  - exists key751. split; [exact key751_ok|]. split; [exact key751_bits|]. reflexivity.
  - reflexivity.
  - reflexivity.
Qed.
Lemma pair101 : forall st, pair_of (toy_std st) 101 (Some (sk_pub key101)) (Some key101).
Proof.
  intro st. do 2 eexists. split; [|split].
  - exists key101. split; [exact key101_ok|]. split; [exact key101_bits|]. reflexivity.
  - reflexivity.
  - reflexivity.
Qed.
