From Coq Require Import ZArith List Bool Lia Znumtheory Zpow_facts Permutation ZifyBool ZifyNat Arith.
From Verif Require Import GoBase RsaModel RsaSpec CryptoSpec.
Import ListNotations.
Local Open Scope Z_scope.

(** * Fermat *)
Definition prodl (l : list Z) : Z := fold_right Z.mul 1 l.
Lemma prodl_perm : forall l l', Permutation l l' -> prodl l = prodl l'.
Proof. induction 1; cbn [prodl fold_right] in *; unfold prodl in *; cbn [fold_right]; try lia; congruence. Qed.
Lemma prodl_map : forall a p l, 0 < p -> (prodl (map (fun x => (a * x) mod p) l)) mod p = (a ^ Z.of_nat (length l) * prodl l) mod p.
Proof.
  intros a p l Hp. induction l as [|x l IH].
  - cbn [map length]. rewrite Z.pow_0_r. reflexivity.
  - change (prodl (map (fun x => (a * x) mod p) (x :: l))) with ((a * x) mod p * prodl (map (fun x => (a * x) mod p) l)).
    change (prodl (x :: l)) with (x * prodl l).
    rewrite Zmult_mod. rewrite IH, Zmod_mod. rewrite <- Zmult_mod.
    cbn [length]. rewrite Nat2Z.inj_succ, Z.pow_succ_r by lia. f_equal. ring.
Qed.
Lemma prodl_prime : forall p l, prime p -> (forall x, In x l -> 1 <= x < p) -> rel_prime (prodl l) p.
Proof.
  intros p l Hp. induction l as [|x l IH]; intros H.
  - apply rel_prime_1.
  - change (prodl (x :: l)) with (x * prodl l). apply rel_prime_sym. apply rel_prime_mult.
    + apply rel_prime_sym. apply rel_prime_le_prime; auto. apply H. left; reflexivity.
    + apply rel_prime_sym, IH. intros y Hy. apply H. right; exact Hy.
Qed.

Lemma fermat : forall p a, prime p -> ~ (p | a) -> a ^ (p - 1) mod p = 1.
Proof.
  intros p a Hp Ha. pose proof (prime_ge_2 p Hp) as H2.
  set (l := map Z.of_nat (seq 1 (Z.to_nat (p - 1)))).
  assert (Hin : forall x, In x l <-> 1 <= x < p).
  { intro x. unfold l. rewrite in_map_iff. split.
    - intros (y & <- & Hy). apply in_seq in Hy. lia.
    - intros Hx. exists (Z.to_nat x). split; [lia|]. apply in_seq. lia. }
  assert (Hnd : NoDup l).
  { unfold l. apply FinFun.Injective_map_NoDup; [intros x y; apply Nat2Z.inj|]. apply seq_NoDup. }
  assert (Hlen : Z.of_nat (length l) = p - 1).
  { unfold l. rewrite map_length, seq_length. lia. }
  assert (Hrp : rel_prime p a) by (apply prime_rel_prime; auto).
  set (l' := map (fun x => (a * x) mod p) l).
  assert (Hinj : forall x y, In x l -> In y l -> (a * x) mod p = (a * y) mod p -> x = y).
  { intros x y Hx Hy E. apply Hin in Hx. apply Hin in Hy.
    assert (D : (p | a * (x - y))).
    { apply Z.mod_divide; [lia|]. replace (a * (x - y)) with (a * x - a * y) by ring.
      rewrite Zminus_mod, E, Z.sub_diag. apply Z.mod_0_l; lia. }
    apply Gauss in D; auto. destruct D as [z Hz].
    assert (z = 0) by nia. nia. }
  assert (Hnd' : NoDup l').
  { unfold l'. clear - Hinj Hnd. induction l as [|x l IH]; cbn [map]; [constructor|].
    inversion Hnd; subst. constructor.
    - intro K. apply in_map_iff in K. destruct K as (y & E & Hy).
      assert (x = y). { apply Hinj; [left; reflexivity | right; exact Hy | congruence]. }
      subst. contradiction.
    - apply IH; auto. intros u v Hu Hv. apply Hinj; right; assumption. }
  assert (Hincl : incl l' l).
  { intros y Hy. unfold l' in Hy. apply in_map_iff in Hy. destruct Hy as (x & <- & Hx).
    apply Hin. apply Hin in Hx. pose proof (Z.mod_pos_bound (a * x) p ltac:(lia)).
    assert ((a * x) mod p <> 0); [|lia]. intro E. apply Z.mod_divide in E; [|lia].
    apply Gauss in E; auto. destruct E as [z Hz]. assert (z = 0 \/ z <> 0) as [Z0|Z0] by lia; nia. }
  assert (HP : Permutation l' l).
  { apply NoDup_Permutation_bis; auto. unfold l'. rewrite map_length. lia. }
  apply prodl_perm in HP. pose proof (prodl_map a p l ltac:(lia)) as HM. fold l' in HM. rewrite HP, Hlen in HM.
  assert (D : (p | (a ^ (p - 1) - 1) * prodl l)).
  { apply Z.mod_divide; [lia|]. rewrite Z.mul_sub_distr_r, Z.mul_1_l, Zminus_mod, <- HM, Z.sub_diag. apply Z.mod_0_l; lia. }
  rewrite Z.mul_comm in D. apply Gauss in D.
  - destruct D as [z Hz]. replace (a ^ (p - 1)) with (1 + z * p) by lia. rewrite Z.mod_add by lia. apply Z.mod_1_l; lia.
  - apply rel_prime_sym. apply prodl_prime; auto. intros x Hx. apply Hin; exact Hx.
Qed.

Lemma mod_pow_1 : forall a p j, 1 < p -> 0 <= j -> a mod p = 1 -> a ^ j mod p = 1.
Proof.
  intros a p j Hp Hj E. rewrite Zpower_mod by lia. rewrite E, Z.pow_1_l by lia. apply Z.mod_1_l; lia.
Qed.

Lemma pow_back : forall p m t, prime p -> 0 < t -> (p - 1 | t - 1) -> (p | m ^ t - m).
Proof.
  intros p m t Hp Ht [j Hj]. pose proof (prime_ge_2 p Hp) as H2.
  destruct (Zdivide_dec p m) as [D|D].
  - apply Z.divide_sub_r; auto. replace t with (Z.succ (t - 1)) by lia. rewrite Z.pow_succ_r by lia.
    apply Z.divide_mul_l; exact D.
  - apply Z.mod_divide; [lia|]. replace t with (Z.succ ((p - 1) * j)) by lia.
    assert (0 <= j) by nia.
    rewrite Z.pow_succ_r by nia. rewrite Z.pow_mul_r by lia.
    replace (m * (m ^ (p - 1)) ^ j - m) with (m * ((m ^ (p - 1)) ^ j - 1)) by ring.
    rewrite Zmult_mod, Zminus_mod, mod_pow_1; try lia.
    + rewrite Z.mod_1_l by lia. replace (1 - 1) with 0 by lia. rewrite Z.mod_0_l by lia.
      rewrite Z.mul_0_r. apply Z.mod_0_l; lia.
    + apply fermat; auto.
Qed.

Lemma rsa_pow : forall k m, rsa_key k -> 0 <= m < pk_n (sk_pub k) ->
  m ^ (pk_e (sk_pub k) * sk_d k) mod pk_n (sk_pub k) = m.
Proof.
  intros k m (He & Hd & p & q & Hp & Hq & Hpq & Hn & D1 & D2) Hm.
  set (t := pk_e (sk_pub k) * sk_d k) in *. assert (0 < t) by nia.
  pose proof (prime_ge_2 p Hp). pose proof (prime_ge_2 q Hq).
  assert (Rpq : rel_prime p q).
  { apply prime_rel_prime; auto. intro K. apply Hpq. apply prime_div_prime; auto. }
  assert (D : (p * q | m ^ t - m)).
  { destruct (pow_back p m t) as [u Hu]; auto. pose proof (pow_back q m t Hq) as Dq.
    rewrite Hu. rewrite Z.mul_comm. apply Z.mul_divide_mono_r.
    apply Gauss with p; [|apply rel_prime_sym; exact Rpq]. rewrite Z.mul_comm, <- Hu. apply Dq; auto. }
  rewrite Hn in *. destruct D as [z Hz]. replace (m ^ t) with (m + z * (p * q)) by lia.
  rewrite Z.mod_add by lia. apply Z.mod_small; lia.
Qed.

Lemma key_n_pos : forall k, rsa_key k -> 4 <= pk_n (sk_pub k).
Proof.
  intros k (He & Hd & p & q & Hp & Hq & Hpq & Hn & D1 & D2).
  pose proof (prime_ge_2 p Hp). pose proof (prime_ge_2 q Hq). nia.
Qed.

Lemma enc_dec : forall k m, rsa_key k -> 0 <= m < pk_n (sk_pub k) ->
  Zpow_mod (Zpow_mod m (pk_e (sk_pub k)) (pk_n (sk_pub k))) (sk_d k) (pk_n (sk_pub k)) = m.
Proof.
  intros k m Hk Hm. pose proof (key_n_pos k Hk) as Hn. pose proof Hk as (He & Hd & _).
  rewrite !Zpow_mod_correct by lia. rewrite <- Zpower_mod by lia. rewrite <- Z.pow_mul_r by lia.
  apply rsa_pow; auto.
Qed.
Lemma dec_enc : forall k m, rsa_key k -> 0 <= m < pk_n (sk_pub k) ->
  Zpow_mod (Zpow_mod m (sk_d k) (pk_n (sk_pub k))) (pk_e (sk_pub k)) (pk_n (sk_pub k)) = m.
Proof.
  intros k m Hk Hm. pose proof (key_n_pos k Hk) as Hn. pose proof Hk as (He & Hd & _).
  rewrite !Zpow_mod_correct by lia. rewrite <- Zpower_mod by lia. rewrite <- Z.pow_mul_r by lia.
  rewrite Z.mul_comm. apply rsa_pow; auto.
Qed.
Lemma zpm_range : forall m e n, 0 < n -> 0 <= Zpow_mod m e n < n.
Proof. intros. rewrite Zpow_mod_correct by lia. apply Z.mod_pos_bound; lia. Qed.

(** * Bytes and numbers *)
Lemma os2ip_acc : forall b a, fold_left (fun a x => a * 256 + x) b a = a * 256 ^ zlen b + num b.
Proof.
  induction b as [|x b IH]; intro a.
  - cbn. lia.
  - cbn [fold_left num]. rewrite IH. unfold zlen. cbn [length]. rewrite Nat2Z.inj_succ, Z.pow_succ_r by lia. ring.
Qed.
Lemma os2ip_num : forall b, os2ip b = num b.
Proof. intro b. unfold os2ip. rewrite os2ip_acc. lia. Qed.

Lemma num_app : forall a b, num (a ++ b) = num a * 256 ^ zlen b + num b.
Proof. intros. rewrite <- (os2ip_num (a ++ b)), <- (os2ip_num a). unfold os2ip. rewrite fold_left_app, os2ip_acc. reflexivity. Qed.

Lemma num_range : forall b, bytes b -> 0 <= num b < 256 ^ zlen b.
Proof.
  induction 1 as [|x b Hx Hb IH].
  - cbn. lia.
  - cbn [num]. unfold zlen in *. cbn [length]. rewrite Nat2Z.inj_succ, Z.pow_succ_r by lia. nia.
Qed.

Lemma i2osp_length : forall k x, length (i2osp k x) = k.
Proof. induction k; intro x; cbn [i2osp]; auto. rewrite app_length, IHk. cbn. lia. Qed.
Lemma i2osp_bytes : forall k x, bytes (i2osp k x).
Proof.
  induction k; intro x; cbn [i2osp]; [constructor|]. apply Forall_app; split; [apply IHk|].
  constructor; [|constructor]. apply Z.mod_pos_bound; lia.
Qed.
Lemma num_i2osp : forall k x, 0 <= x < 256 ^ Z.of_nat k -> num (i2osp k x) = x.
Proof.
  induction k; intros x Hx.
  - cbn in *. lia.
  - cbn [i2osp]. rewrite num_app. rewrite Nat2Z.inj_succ, Z.pow_succ_r in Hx by lia.
    rewrite IHk.
    + change (zlen [x mod 256]) with 1. cbn [num]. change (zlen (@nil Z)) with 0. rewrite Z.pow_0_r, Z.pow_1_r.
      pose proof (Z.div_mod x 256). lia.
    + split; [apply Z.div_pos; lia|]. apply Z.div_lt_upper_bound; lia.
Qed.
Lemma num_inj : forall a b, bytes a -> bytes b -> length a = length b -> num a = num b -> a = b.
Proof.
  intros a b Ha. revert b. induction Ha as [|x a Hx Ha IH]; intros b Hb HL E.
  - destruct b; [reflexivity|discriminate].
  - destruct b as [|y b]; [discriminate|]. inversion Hb; subst. injection HL as HL. cbn [num] in E.
    unfold zlen in E. rewrite HL in E. pose proof (num_range a Ha) as Ra. pose proof (num_range b H2) as Rb.
    unfold zlen in Ra, Rb. rewrite HL in Ra. assert (x = y) by nia. subst y. f_equal. apply IH; auto. lia.
Qed.
Lemma i2osp_num : forall b, bytes b -> i2osp (length b) (num b) = b.
Proof.
  intros b Hb. apply num_inj; auto.
  - apply i2osp_bytes.
  - apply i2osp_length.
  - apply num_i2osp. apply num_range; auto.
Qed.

(** * The size of a key *)
Lemma size_bounds : forall n, 1 <= n -> let k := (Z.log2 n + 8) / 8 in 1 <= k /\ 256 ^ (k - 1) <= n < 256 ^ k.
Proof.
  intros n Hn k. pose proof (Z.log2_spec n ltac:(lia)) as HL. pose proof (Z.log2_nonneg n).
  pose proof (Z.div_mod (Z.log2 n + 8) 8 ltac:(lia)) as HD. pose proof (Z.mod_pos_bound (Z.log2 n + 8) 8 ltac:(lia)).
  fold k in HD. assert (1 <= k) by lia. split; [lia|].
  change 256 with (2 ^ 8). rewrite <- !Z.pow_mul_r by lia. split.
  - eapply Z.le_trans; [|apply HL]. apply Z.pow_le_mono_r; lia.
  - eapply Z.lt_le_trans; [apply HL|]. apply Z.pow_le_mono_r; lia.
Qed.

Lemma size_bits : forall k bits, rsa_key k -> has_bits k bits -> key_size (sk_pub k) = byte_len bits.
Proof.
  intros k bits Hk (Hb & H). unfold key_size, byte_len. replace (Z.log2 (pk_n (sk_pub k))) with (bits - 1); [f_equal; lia|].
  symmetry. apply Z.log2_unique; [lia|]. replace (Z.succ (bits - 1)) with bits by lia. lia.
Qed.

Lemma em_small : forall k b, rsa_key k -> bytes b -> zlen b = key_size (sk_pub k) - 1 -> 0 <= num (0 :: b) < pk_n (sk_pub k).
Proof.
  intros k b Hk Hb HL. pose proof (key_n_pos k Hk). pose proof (size_bounds (pk_n (sk_pub k)) ltac:(lia)) as (H1 & H2).
  fold (key_size (sk_pub k)) in *. cbn [num]. pose proof (num_range b Hb). rewrite HL in *. lia.
Qed.
