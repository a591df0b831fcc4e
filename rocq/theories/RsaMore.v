From Coq Require Import ZArith List Bool Lia Znumtheory Zpow_facts ZifyBool ZifyNat Arith.
From Verif Require Import GoBase RsaModel RsaSpec RsaProofs CryptoSpec.
Import ListNotations.
Local Open Scope Z_scope.

Definition nonzero (b : list Z) : Prop := Forall (fun x => x <> 0) b.

Lemma zlen_cons : forall (x : Z) b, zlen (x :: b) = zlen b + 1.
Proof. intros. unfold zlen. cbn [length]. lia. Qed.
Lemma zlen_app : forall (a b : list Z), zlen (a ++ b) = zlen a + zlen b.
Proof. intros. unfold zlen. rewrite app_length. lia. Qed.

(** * Random bytes *)
Lemma lxor_byte : forall r, 0 <= r < 256 -> 0 <= Z.lxor r 66 < 256.
Proof.
  intros r Hr. assert (H0 : 0 <= Z.lxor r 66) by (apply Z.lxor_nonneg; lia). split; auto.
  assert (E : Z.lxor r 66 = Z.lxor r 66 mod 2 ^ 8).
  { apply Z.bits_inj'. intros n Hn. rewrite Z.lxor_spec. destruct (Z.lt_ge_cases n 8).
    - rewrite Z.mod_pow2_bits_low by lia. rewrite Z.lxor_spec. reflexivity.
    - rewrite Z.mod_pow2_bits_high by lia.
      rewrite <- (Z.mod_small r (2 ^ 8)) by lia. rewrite Z.mod_pow2_bits_high by lia.
      rewrite <- (Z.mod_small 66 (2 ^ 8)) by lia. rewrite Z.mod_pow2_bits_high by lia. reflexivity. }
  rewrite E. apply Z.mod_pos_bound; lia.
Qed.

Lemma refill_some : forall f rs y rs', bytes rs -> refill f rs = Some (y, rs') -> 0 < y < 256 /\ bytes rs'.
Proof.
  induction f; intros rs y rs' Hb E; cbn [refill] in E; [discriminate|].
  destruct rs as [|r rs]; [discriminate|]. inversion Hb; subst.
  destruct (Z.eqb_spec (Z.lxor r 66) 0).
  - eapply IHf; eauto.
  - injection E as <- <-. split; auto. pose proof (lxor_byte r H1). lia.
Qed.

Lemma nonzero_loop_some : forall s rs ps, bytes s -> bytes rs -> nonzero_loop s rs = Some ps ->
  length ps = length s /\ bytes ps /\ nonzero ps.
Proof.
  induction s as [|x s IH]; intros rs ps Hs Hr E; cbn [nonzero_loop] in E.
  - injection E as <-. repeat split; constructor.
  - inversion Hs; subst. destruct (Z.eqb_spec x 0).
    + destruct (refill (length rs) rs) as [[y rs']|] eqn:R; [|discriminate].
      apply refill_some in R; auto. destruct R as [Ry Rb].
      destruct (nonzero_loop s rs') as [t|] eqn:N; [|discriminate]. injection E as <-.
      destruct (IH rs' t H2 Rb N) as (A & B & C). split; [cbn; lia|]. split; constructor; auto; lia.
    + destruct (nonzero_loop s rs) as [t|] eqn:N; [|discriminate]. injection E as <-.
      destruct (IH rs t H2 Hr N) as (A & B & C). split; [cbn; lia|]. split; constructor; auto; lia.
Qed.
Lemma nonzero_loop_id : forall s rs, nonzero s -> nonzero_loop s rs = Some s.
Proof.
  induction 1 as [|x s Hx Hs IH]; cbn [nonzero_loop]; auto.
  destruct (Z.eqb_spec x 0); [lia|]. rewrite IH. reflexivity.
Qed.

Lemma forall_firstn : forall (P : Z -> Prop) n l, Forall P l -> Forall P (firstn n l).
Proof.
  intros P n l H. revert n. induction H; intros [|n]; cbn [firstn]; auto.
Qed.
Lemma forall_skipn : forall (P : Z -> Prop) n l, Forall P l -> Forall P (skipn n l).
Proof.
  intros P n l H. revert n. induction H; intros [|n]; cbn [skipn]; auto.
Qed.

Lemma nonzero_random_some : forall n rs ps, 0 <= n -> bytes rs -> nonzero_random n rs = Some ps ->
  zlen ps = n /\ bytes ps /\ nonzero ps.
Proof.
  intros n rs ps Hn Hb E. unfold nonzero_random in E. destruct (Z.leb_spec n (zlen rs)); [|discriminate].
  apply nonzero_loop_some in E; [|apply forall_firstn; exact Hb|apply forall_skipn; exact Hb].
  destruct E as (A & B & C). split; auto. unfold zlen in *. rewrite A, firstn_length. lia.
Qed.
Lemma nonzero_random_id : forall n rs, n <= zlen rs -> nonzero rs ->
  nonzero_random n rs = Some (firstn (Z.to_nat n) rs).
Proof.
  intros n rs Hn Hz. unfold nonzero_random. destruct (Z.leb_spec n (zlen rs)); [|lia].
  apply nonzero_loop_id. apply forall_firstn; exact Hz.
Qed.

(** * The padding of messages *)
Lemma index_zero_app : forall ps msg, nonzero ps -> index_zero (ps ++ 0 :: msg) = Some (length ps).
Proof.
  induction 1 as [|x ps Hx Hp IH]; cbn [index_zero app]; auto.
  destruct (Z.eqb_spec x 0); [lia|]. rewrite IH. reflexivity.
Qed.
Lemma index_zero_some : forall b i, index_zero b = Some i ->
  b = firstn i b ++ 0 :: skipn (S i) b /\ nonzero (firstn i b) /\ length (firstn i b) = i.
Proof.
  induction b as [|x b IH]; intros i E; cbn [index_zero] in E; [discriminate|].
  destruct (Z.eqb_spec x 0).
  - injection E as <-. subst x. cbn. repeat split; constructor.
  - destruct (index_zero b) as [j|] eqn:J; [|discriminate]. injection E as <-.
    destruct (IH j eq_refl) as (A & B & C). cbn [firstn skipn app length].
    split; [f_equal; exact A|]. split; [constructor; auto|]. f_equal; exact C.
Qed.

Definition em_of (ps msg : list Z) : list Z := 0 :: 2 :: ps ++ 0 :: msg.

Lemma em_len : forall ps msg, zlen (em_of ps msg) = zlen ps + zlen msg + 3.
Proof. intros. unfold em_of. rewrite !zlen_cons, zlen_app, zlen_cons. lia. Qed.
Lemma em_bytes : forall ps msg, bytes ps -> bytes msg -> bytes (em_of ps msg).
Proof.
  intros ps msg H1 H2. unfold em_of, bytes. constructor; [lia|]. constructor; [lia|].
  apply Forall_app. split; [exact H1|]. constructor; [lia|exact H2].
Qed.
Lemma em_range : forall k ps msg, rsa_key k -> bytes ps -> bytes msg -> zlen (em_of ps msg) = key_size (sk_pub k) ->
  0 <= num (em_of ps msg) < pk_n (sk_pub k).
Proof.
  intros k ps msg Hk H1 H2 HL. unfold em_of in *. apply em_small; auto.
  - pose proof (em_bytes ps msg H1 H2) as H. inversion H; subst. assumption.
  - rewrite zlen_cons in HL. lia.
Qed.

Lemma check_pub_ok : forall k, rsa_key k -> check_pub (sk_pub k) = true.
Proof. intros k (He & _). unfold check_pub. lia. Qed.
Lemma size_of : forall k, rsa_key k -> 1 <= key_size (sk_pub k) /\
  256 ^ (key_size (sk_pub k) - 1) <= pk_n (sk_pub k) < 256 ^ key_size (sk_pub k).
Proof. intros k Hk. pose proof (key_n_pos k Hk). apply (size_bounds (pk_n (sk_pub k))); lia. Qed.

Lemma num_cipher : forall k x, rsa_key k -> 0 <= x < pk_n (sk_pub k) ->
  num (i2osp (Z.to_nat (key_size (sk_pub k))) x) = x.
Proof.
  intros k x Hk Hx. destruct (size_of k Hk) as (H1 & H2). apply num_i2osp. rewrite Z2Nat.id by lia. lia.
Qed.

Definition cipher_of (k : privkey) (ps msg : list Z) : list Z :=
  i2osp (Z.to_nat (key_size (sk_pub k))) (Zpow_mod (num (em_of ps msg)) (pk_e (sk_pub k)) (pk_n (sk_pub k))).

(** What Encrypt returns. *)
Lemma encrypt_val : forall k rs msg ct, rsa_key k -> bytes rs -> bytes msg ->
  encrypt_pkcs1 (sk_pub k) rs msg = Val ct ->
  exists ps, bytes ps /\ nonzero ps /\ nonzero_random (key_size (sk_pub k) - zlen msg - 3) rs = Some ps /\
    8 <= zlen ps /\ zlen (em_of ps msg) = key_size (sk_pub k) /\ ct = cipher_of k ps msg.
Proof.
  intros k rs msg ct Hk Hr Hm E. unfold encrypt_pkcs1 in E. rewrite check_pub_ok in E by auto. cbn [negb] in E.
  destruct (Z.ltb_spec (key_size (sk_pub k) - 11) (zlen msg)); [discriminate|].
  destruct (nonzero_random _ rs) as [ps|] eqn:N; [|discriminate].
  pose proof N as N'. apply nonzero_random_some in N'; auto; [|lia]. destruct N' as (A & B & C).
  exists ps. repeat split; auto; try lia.
  - rewrite em_len. lia.
  - unfold cipher_of. rewrite <- os2ip_num. unfold em_of. injection E as <-. reflexivity.
Qed.
Lemma encrypt_cipher : forall k ps msg, rsa_key k -> nonzero ps -> 8 <= zlen ps ->
  zlen (em_of ps msg) = key_size (sk_pub k) ->
  encrypt_pkcs1 (sk_pub k) ps msg = Val (cipher_of k ps msg).
Proof.
  intros k ps msg Hk Hz H8 HL. rewrite em_len in HL. unfold encrypt_pkcs1. rewrite check_pub_ok by auto. cbn [negb].
  destruct (Z.ltb_spec (key_size (sk_pub k) - 11) (zlen msg)); [lia|].
  rewrite nonzero_random_id; auto; [|lia]. rewrite firstn_all2 by (unfold zlen in *; lia).
  unfold cipher_of. rewrite <- os2ip_num. reflexivity.
Qed.
Lemma cipher_len : forall k ps msg, rsa_key k -> zlen (cipher_of k ps msg) = key_size (sk_pub k).
Proof.
  intros k ps msg Hk. pose proof (size_of k Hk). unfold cipher_of, zlen. rewrite i2osp_length. lia.
Qed.
Lemma cipher_num : forall k ps msg, rsa_key k ->
  num (cipher_of k ps msg) = Zpow_mod (num (em_of ps msg)) (pk_e (sk_pub k)) (pk_n (sk_pub k)).
Proof.
  intros k ps msg Hk. unfold cipher_of. apply num_cipher; auto. apply zpm_range. pose proof (key_n_pos k Hk). lia.
Qed.

Lemma decrypt_cipher : forall st k ps msg, rsa_key k -> bytes ps -> bytes msg -> nonzero ps -> 8 <= zlen ps ->
  zlen (em_of ps msg) = key_size (sk_pub k) ->
  decrypt_pkcs1 st k (cipher_of k ps msg) = Val msg.
Proof.
  intros st k ps msg Hk Hp Hm Hz H8 HL. unfold decrypt_pkcs1. rewrite check_pub_ok by auto. cbn [negb].
  pose proof (em_len ps msg) as HE. pose proof (key_n_pos k Hk) as Hn.
  assert (zlen msg >= 0) by (unfold zlen; lia).
  destruct (Z.ltb_spec (key_size (sk_pub k)) 11); [lia|].
  rewrite cipher_len, os2ip_num by auto. pose proof (cipher_num k ps msg Hk) as HC.
  pose proof (zpm_range (num (em_of ps msg)) (pk_e (sk_pub k)) (pk_n (sk_pub k)) ltac:(lia)) as HR. rewrite <- HC in HR.
  replace (st && _) with false by (destruct st; cbn [andb]; lia).
  destruct (Z.ltb_spec (pk_n (sk_pub k)) (num (cipher_of k ps msg))); [lia|].
  rewrite HC, enc_dec by (auto; apply em_range; auto).
  replace (Z.to_nat (key_size (sk_pub k))) with (length (em_of ps msg)) by (unfold zlen in *; lia).
  rewrite i2osp_num by (apply em_bytes; auto). unfold em_of. cbn [app].
  rewrite index_zero_app by auto. destruct (Nat.ltb_spec (length ps) 8); [unfold zlen in *; lia|].
  f_equal. rewrite skipn_app. rewrite skipn_all2 by lia. replace (S (length ps) - length ps)%nat with 1%nat by lia. reflexivity.
Qed.

(** Decrypt accepts nothing else. *)
Lemma decrypt_val : forall st k ct msg, rsa_key k -> bytes ct -> zlen ct = key_size (sk_pub k) ->
  decrypt_pkcs1 st k ct = Val msg ->
  exists ps, bytes ps /\ bytes msg /\ nonzero ps /\ 8 <= zlen ps /\ zlen (em_of ps msg) = key_size (sk_pub k) /\ ct = cipher_of k ps msg.
Proof.
  intros st k ct msg Hk Hb HL E. unfold decrypt_pkcs1 in E. rewrite check_pub_ok in E by auto. cbn [negb] in E.
  pose proof (key_n_pos k Hk) as Hn.
  destruct (Z.ltb_spec (key_size (sk_pub k)) 11); [discriminate|].
  destruct (st && _); [discriminate|]. rewrite os2ip_num in E.
  destruct (Z.ltb_spec (pk_n (sk_pub k)) (num ct)) as [|HN]; [discriminate|].
  set (m := Zpow_mod (num ct) (sk_d k) (pk_n (sk_pub k))) in *.
  pose proof (zpm_range (num ct) (sk_d k) (pk_n (sk_pub k)) ltac:(lia)) as HR. fold m in HR.
  pose proof (num_cipher k m Hk HR) as HM.
  pose proof (i2osp_bytes (Z.to_nat (key_size (sk_pub k))) m) as HB.
  pose proof (i2osp_length (Z.to_nat (key_size (sk_pub k))) m) as HLe.
  destruct (i2osp (Z.to_nat (key_size (sk_pub k))) m) as [|a [|b rest]] eqn:I; try discriminate.
  { destruct a; discriminate. }
  destruct a as [|a|a]; try discriminate.
  destruct b as [|b|b]; try discriminate. destruct b as [b|b|]; try discriminate. destruct b as [b|b|]; try discriminate.
  destruct (index_zero rest) as [i|] eqn:J; [|discriminate].
  destruct (Nat.ltb_spec i 8); [discriminate|].
  assert (E' : skipn (S i) rest = msg) by congruence. clear E. subst msg.
  destruct (index_zero_some rest i J) as (A & B & C).
  set (ps := firstn i rest) in *.
  pose proof (Forall_inv_tail (Forall_inv_tail HB)) as HB2.
  assert (Hps : bytes ps) by (apply forall_firstn; exact HB2).
  assert (Hms : bytes (skipn (S i) rest)) by (apply forall_skipn; exact HB2).
  set (msg := skipn (S i) rest) in *.
  assert (HEM : 0 :: 2 :: rest = em_of ps msg) by (unfold em_of; rewrite <- A; reflexivity).
  assert (HEL : zlen (em_of ps msg) = key_size (sk_pub k)).
  { rewrite <- HEM. unfold zlen. rewrite HLe. lia. }
  exists ps. split; [exact Hps|]. split; [exact Hms|]. split; [exact B|]. split; [unfold zlen; lia|]. split; [exact HEL|].
  rewrite HEM in HM.
  assert (HNL : num ct < pk_n (sk_pub k)).
  { destruct (Z.eq_dec (num ct) (pk_n (sk_pub k))) as [EQ|]; [exfalso|lia].
    assert (m = 0).
    { unfold m. rewrite EQ, Zpow_mod_correct by lia. destruct Hk as (_ & Hd & _).
      replace (sk_d k) with (Z.succ (sk_d k - 1)) by lia. rewrite Z.pow_succ_r by lia.
      rewrite Z.mul_comm. apply Z.mod_mul. lia. }
    rewrite H1 in HM. unfold em_of in HM. cbn [num] in HM.
    pose proof (num_range (ps ++ 0 :: msg)) as NR.
    assert (bytes (ps ++ 0 :: msg)) by (apply Forall_app; split; [exact Hps|constructor; [lia|exact Hms]]).
    specialize (NR H2). pose proof (Z.pow_pos_nonneg 256 (zlen (ps ++ 0 :: msg)) ltac:(lia) ltac:(unfold zlen; lia)). nia. }
  apply num_inj; auto.
  - apply i2osp_bytes.
  - pose proof (cipher_len k ps msg Hk). unfold zlen in *. lia.
  - rewrite cipher_num by auto. rewrite HM. unfold m. rewrite dec_enc; auto. pose proof (num_range ct Hb). lia.
Qed.
