(** Lemmas about CBC, triple DES, base64, hexadecimal text and hashing. *)
From Coq Require Import ZArith List Bool Lia.
From Coq Require Import ZifyBool ZifyNat.
From Verif Require Import GoBase GoLists SortSliceModel CryptoModel CryptoSpec QueueProofs CryptoProofs.
Import ListNotations.
Ltac Zify.zify_post_hook ::= Z.div_mod_to_equations.
Open Scope Z_scope.

(** ** Exclusive or *)
Lemma lxor_byte a b : 0 <= a < 256 -> 0 <= b < 256 -> 0 <= Z.lxor a b < 256.
Proof.
  intros Ha Hb. assert (N : 0 <= Z.lxor a b) by (apply Z.lxor_nonneg; lia).
  split; auto. destruct (Z.eq_dec (Z.lxor a b) 0) as [->|n]; [lia|].
  change 256 with (2 ^ 8). apply Z.log2_lt_pow2; [lia|].
  eapply Z.le_lt_trans; [apply Z.log2_lxor; lia|]. apply Z.max_lub_lt.
  - destruct (Z.eq_dec a 0) as [->|]; [cbn; lia|]. apply Z.log2_lt_pow2; lia.
  - destruct (Z.eq_dec b 0) as [->|]; [cbn; lia|]. apply Z.log2_lt_pow2; lia.
Qed.

Lemma xor_length a b : length (xor_bytes a b) = Nat.min (length a) (length b).
Proof. unfold xor_bytes. rewrite map_length, combine_length. reflexivity. Qed.

Lemma xor_cons x a y b : xor_bytes (x :: a) (y :: b) = Z.lxor x y :: xor_bytes a b.
Proof. reflexivity. Qed.

Lemma xor_bytes_bytes a : forall b, bytes a -> bytes b -> bytes (xor_bytes a b).
Proof.
  induction a as [|x a IH]; intros [|y b] Ha Hb; try (constructor; fail).
  inversion Ha; inversion Hb; subst. rewrite xor_cons. constructor; [apply lxor_byte; auto|]. apply IH; auto.
Qed.

Lemma xor_cancel a : forall b, length a = length b -> xor_bytes (xor_bytes a b) b = a.
Proof.
  induction a as [|x a IH]; intros [|y b] H; try discriminate; [reflexivity|].
  rewrite !xor_cons, Z.lxor_assoc, Z.lxor_nilpotent, Z.lxor_0_r. f_equal. apply IH. now injection H.
Qed.

Lemma xor_inj a : forall b c, length a = length b -> length a = length c ->
  xor_bytes a b = xor_bytes a c -> b = c.
Proof.
  induction a as [|x a IH]; intros [|y b] [|z c] H1 H2 E; try discriminate; [reflexivity|].
  rewrite !xor_cons in E. injection E as E1 E2. injection H1 as H1. injection H2 as H2. f_equal; [|eauto].
  apply (f_equal (Z.lxor x)) in E1. rewrite <- !Z.lxor_assoc, Z.lxor_nilpotent, !Z.lxor_0_l in E1. exact E1.
Qed.

Lemma xor_other a b c : length a = length b -> length a = length c ->
  (xor_bytes (xor_bytes a b) c = a <-> b = c).
Proof.
  intros H1 H2. split.
  - intros E. apply (xor_inj a); auto.
    apply (f_equal (fun l => xor_bytes l c)) in E. rewrite xor_cancel in E; auto.
    rewrite xor_length. lia.
  - intros <-. apply xor_cancel. exact H1.
Qed.

Lemma bytes_firstn n b : bytes b -> bytes (firstn n b).
Proof. intros H. rewrite <- (firstn_skipn n b) in H. apply bytes_app in H. tauto. Qed.
Lemma bytes_skipn n b : bytes b -> bytes (skipn n b).
Proof. intros H. rewrite <- (firstn_skipn n b) in H. apply bytes_app in H. tauto. Qed.

Lemma firstn_app_le {A} (l r : list A) n : (n <= length l)%nat -> firstn n (l ++ r) = firstn n l.
Proof. intros. rewrite firstn_app. replace (n - length l)%nat with O by lia. cbn. now rewrite app_nil_r. Qed.
Lemma skipn_app_le {A} (l r : list A) n : (n <= length l)%nat -> skipn n (l ++ r) = skipn n l ++ r.
Proof. intros. rewrite skipn_app. replace (n - length l)%nat with O by lia. reflexivity. Qed.

Lemma zlen_repeat (v : Z) p : 0 <= p -> zlen (repeat v (Z.to_nat p)) = p.
Proof. intros. unfold zlen. rewrite repeat_length. lia. Qed.

(** ** CBC *)
Lemma cbc_roundtrip E D : undone_by 16 E D -> forall n iv src,
  length src = (16 * n)%nat -> bytes src -> length iv = 16%nat -> bytes iv ->
  let (c, iv') := cbc_encrypt E n iv src in
  length c = (16 * n)%nat /\ bytes c /\ length iv' = 16%nat /\ bytes iv' /\ cbc_decrypt D n iv c = (src, iv').
Proof.
  intros HE. induction n as [|n IH]; intros iv src Ls Bs Li Bi; cbn [cbc_encrypt cbc_decrypt].
  - destruct src; [|discriminate]. repeat split; auto.
  - assert (LF : length (firstn 16 src) = 16%nat) by (apply firstn_length_le; lia).
    destruct (HE (xor_bytes (firstn 16 src) iv)) as (B1 & L1 & R1).
    { apply xor_bytes_bytes; auto. now apply bytes_firstn. }
    { rewrite xor_length. lia. }
    set (c0 := E (xor_bytes (firstn 16 src) iv)) in *.
    specialize (IH c0 (skipn 16 src)). rewrite skipn_length in IH.
    specialize (IH ltac:(lia) (bytes_skipn _ _ Bs) L1 B1).
    destruct (cbc_encrypt E n c0 (skipn 16 src)) as [out iv'].
    destruct IH as (Lo & Bo & Li' & Bi' & Hd).
    repeat split; auto.
    + rewrite app_length. lia.
    + apply bytes_app. auto.
    + rewrite firstn_app, L1, Nat.sub_diag, firstn_all2 by lia. cbn [firstn]. rewrite app_nil_r.
      rewrite skipn_app, L1, Nat.sub_diag, skipn_all2 by lia. cbn [skipn app].
      rewrite Hd, R1, xor_cancel by lia. rewrite firstn_skipn. reflexivity.
Qed.

(** Decrypting with another chaining value changes the first block only. *)
Lemma cbc_other_iv D n iv iv2 c : (1 <= n)%nat -> length (D (firstn 16 c)) = 16%nat -> length iv = 16%nat -> length iv2 = 16%nat ->
  forall src iv', cbc_decrypt D n iv c = (src, iv') ->
  cbc_decrypt D n iv2 c = (xor_bytes (xor_bytes (firstn 16 src) iv) iv2 ++ skipn 16 src, iv').
Proof.
  intros Hn LD Li Li2 src iv'. destruct n as [|n]; [lia|]. cbn [cbc_decrypt].
  destruct (cbc_decrypt D n (firstn 16 c) (skipn 16 c)) as [out iv1]. intros E. injection E as <- <-.
  assert (LX : length (xor_bytes (D (firstn 16 c)) iv) = 16%nat) by (rewrite xor_length; lia).
  set (x := xor_bytes (D (firstn 16 c)) iv) in *.
  rewrite (firstn_app_le x) by lia. rewrite (skipn_app_le x) by lia.
  rewrite (firstn_all2 x), (skipn_all2 x) by lia. cbn [app]. unfold x.
  rewrite xor_cancel by lia. reflexivity.
Qed.

(** ** AES helper *)
Definition key_ok (k : list Z) : Prop := bytes k /\ aes_key_ok k = true.
Definition mode_ok (m : aes_mode) : Prop := length (am_iv m) = 16%nat /\ bytes (am_iv m).

Lemma aes_new_ok k m : bytes k -> aes_new k = Some m -> am_key m = k /\ aes_key_ok k = true /\ mode_ok m.
Proof.
  unfold aes_new. destruct (aes_key_ok k) eqn:E; [|discriminate]. intros B H.
  assert (m = AesMode k (firstn 16 k)) as -> by congruence.
  split; [reflexivity|]. split; [reflexivity|]. split; cbn [am_iv].
  - unfold aes_key_ok, zlen in E. rewrite firstn_length. lia.
  - now apply bytes_firstn.
Qed.

Lemma aes_encrypt_spec E D m b : undone_by 16 (E (am_key m)) (D (am_key m)) -> mode_ok m -> bytes b ->
  exists n c iv', aes_encrypt E m b = Ok (AesMode (am_key m) iv', c) /\ (1 <= n)%nat /\ length c = (16 * n)%nat /\ bytes c /\
    zlen c = zlen b + padlen b 16 /\
    length iv' = 16%nat /\ bytes iv' /\
    cbc_decrypt (D (am_key m)) n (am_iv m) c = (b ++ repeat (padlen b 16) (Z.to_nat (padlen b 16)), iv').
Proof.
  intros HE [Li Bi] Bb. unfold aes_encrypt. rewrite pkcs7_padding_ok by lia. cbn [bind].
  pose proof (padlen_range b 16 ltac:(lia)) as Hp. pose proof (padlen_div b 16 ltac:(lia)) as Hd.
  set (p := padlen b 16) in *.
  assert (TB : to_byte p = p) by (unfold to_byte, wrap; change (2 ^ 8) with 256; apply Z.mod_small; lia).
  rewrite TB. set (src := b ++ repeat p (Z.to_nat p)).
  assert (LS : zlen src = zlen b + p) by (unfold src; rewrite zlen_app; rewrite zlen_repeat; lia).
  unfold crypt_blocks. destruct Hd as [q Hq]. pose proof (zlen_nonneg b).
  rewrite LS, Hq, Z.mod_mul by lia. rewrite Z.eqb_refl. cbn [bind]. rewrite Z.div_mul by lia.
  assert (LN : length src = (16 * Z.to_nat q)%nat) by (unfold zlen in *; lia).
  pose proof (cbc_roundtrip _ _ HE (Z.to_nat q) (am_iv m) src LN) as R.
  assert (BS : bytes src) by (apply bytes_app; split; auto; apply bytes_repeat; lia).
  specialize (R BS Li Bi). destruct (cbc_encrypt (E (am_key m)) (Z.to_nat q) (am_iv m) src) as [c iv'].
  destruct R as (Lc & Bc & Li' & Bi' & Hc).
  exists (Z.to_nat q), c, iv'. repeat split; auto; try lia. unfold zlen in *. lia.
Qed.

Lemma unpad_p b : bytes b -> pkcs7_unpadding (b ++ repeat (padlen b 16) (Z.to_nat (padlen b 16))) = Ok b.
Proof.
  intros Hb. pose proof (padlen_range b 16 ltac:(lia)) as Hp.
  pose proof (proj2 (unpad_roundtrip b 16 ltac:(lia) Hb) ltac:(lia)) as R.
  unfold to_byte, wrap in R. change (2 ^ 8) with 256 in R. rewrite (Z.mod_small (padlen b 16)) in R by lia.
  rewrite unpad_eq. exact R.
Qed.

Lemma aes_decrypt_with D m n c b iv' : length c = (16 * n)%nat -> 
  cbc_decrypt (D (am_key m)) n (am_iv m) c = (b, iv') ->
  aes_decrypt D m c = (r <- pkcs7_unpadding b ;; Ok (AesMode (am_key m) iv', r)).
Proof.
  intros L H. unfold aes_decrypt, crypt_blocks.
  replace (zlen c mod 16) with 0 by (unfold zlen; lia). cbn [Z.eqb bind].
  replace (Z.to_nat (zlen c / 16)) with n by (unfold zlen; lia). rewrite H. reflexivity.
Qed.

Lemma aes_roundtrip E D m b : undone_by 16 (E (am_key m)) (D (am_key m)) -> mode_ok m -> bytes b ->
  exists m' c, aes_encrypt E m b = Ok (m', c) /\ aes_decrypt D m c = Ok (m', b) /\
    am_key m' = am_key m /\ mode_ok m' /\ bytes c /\ (16 | zlen c) /\ zlen b < zlen c <= zlen b + 16.
Proof.
  intros HE Hm Bb. destruct (aes_encrypt_spec E D m b HE Hm Bb) as (n & c & iv' & H & Hn & Lc & Bc & Lz & Li & Bi & Hc).
  exists (AesMode (am_key m) iv'), c. rewrite H. split; [reflexivity|].
  rewrite (aes_decrypt_with D m n c _ iv' Lc Hc), unpad_p by auto. cbn [bind].
  pose proof (padlen_range b 16 ltac:(lia)).
  repeat split; auto; try lia. exists (Z.of_nat n). unfold zlen. lia.
Qed.

Lemma aes_sequence E D : forall ms m, undone_by 16 (E (am_key m)) (D (am_key m)) -> mode_ok m -> Forall bytes ms ->
  exists m' cs, encrypt_all E m ms = Ok (m', cs) /\ decrypt_all D m cs = Ok (m', ms) /\
    Forall2 (fun b c => bytes c /\ (16 | zlen c) /\ zlen b < zlen c <= zlen b + 16) ms cs.
Proof.
  induction ms as [|b ms IH]; intros m HE Hm HB; cbn [encrypt_all decrypt_all].
  - exists m, []. repeat split; auto.
  - inversion HB as [|? ? B1 B2]; subst.
    destruct (aes_roundtrip E D m b HE Hm B1) as (m1 & c & H1 & H2 & H3 & H4 & H5 & H6 & H7).
    destruct (IH m1 ltac:(rewrite H3; auto) H4 B2) as (m' & cs & G1 & G2 & G3).
    exists m', (c :: cs). rewrite H1. cbn [bind]. rewrite G1. cbn [bind decrypt_all]. rewrite H2. cbn [bind].
    rewrite G2. cbn [bind]. repeat split; auto.
Qed.

(** Decrypting in another state. *)
Lemma unpad_keep b d : bytes b -> bytes d -> length d = length b -> 
  pkcs7_unpadding (d ++ repeat (padlen b 16) (Z.to_nat (padlen b 16))) = Ok d.
Proof.
  intros Hb Hd L. replace (padlen b 16) with (padlen d 16) by (unfold padlen, zlen; now rewrite L).
  now apply unpad_p.
Qed.

Lemma aes_other_state E D m iv2 b : undone_by 16 (E (am_key m)) (D (am_key m)) -> undone_by 16 (D (am_key m)) (E (am_key m)) ->
  mode_ok m -> mode_ok (AesMode (am_key m) iv2) -> bytes b -> 16 <= zlen b ->
  exists m' c r, aes_encrypt E m b = Ok (m', c) /\ aes_decrypt D (AesMode (am_key m) iv2) c = Ok (m', r) /\
    length r = length b /\ skipn 16 r = skipn 16 b /\
    firstn 16 r = xor_bytes (xor_bytes (firstn 16 b) (am_iv m)) iv2 /\
    (r = b <-> am_iv m = iv2).
Proof.
  intros HE HD Hm [Li2 Bi2] Bb L16. cbn [am_iv] in Li2, Bi2.
  destruct (aes_encrypt_spec E D m b HE Hm Bb) as (n & c & iv' & H & Hn & Lc & Bc & Lz & Li & Bi & Hc).
  destruct Hm as [Lm Bm].
  assert (LD : length (D (am_key m) (firstn 16 c)) = 16%nat).
  { apply HD; [now apply bytes_firstn|]. apply firstn_length_le. lia. }
  pose proof (cbc_other_iv (D (am_key m)) n (am_iv m) iv2 c Hn LD Lm Li2 _ _ Hc) as H2.
  assert (LB : (16 <= length b)%nat) by (unfold zlen in L16; lia).
  rewrite firstn_app_le, skipn_app_le, app_assoc in H2 by lia.
  set (x := xor_bytes (xor_bytes (firstn 16 b) (am_iv m)) iv2) in *.
  assert (LF : length (firstn 16 b) = 16%nat) by (apply firstn_length_le; lia).
  assert (LX : length x = 16%nat) by (unfold x; rewrite !xor_length; lia).
  assert (BX : bytes x).
  { unfold x. apply xor_bytes_bytes; auto. apply xor_bytes_bytes; auto. now apply bytes_firstn. }
  exists (AesMode (am_key m) iv'), c, (x ++ skipn 16 b). rewrite H. split; [reflexivity|].
  rewrite (aes_decrypt_with D (AesMode (am_key m) iv2) n c _ iv' Lc H2).
  rewrite unpad_keep; auto.
  2:{ apply bytes_app. split; auto. now apply bytes_skipn. }
  2:{ rewrite app_length, skipn_length. lia. }
  cbn [bind am_key].
  assert (F : firstn 16 (x ++ skipn 16 b) = x) by (rewrite firstn_app_le by lia; apply firstn_all2; lia).
  repeat split; auto.
  - rewrite app_length, skipn_length. lia.
  - rewrite skipn_app_le by lia. rewrite skipn_all2 by lia. reflexivity.
  - intros Er. rewrite Er in F. symmetry in F. unfold x in F. apply xor_other in F; auto; lia.
  - intros Ei. unfold x. rewrite <- Ei, xor_cancel by lia. apply firstn_skipn.
Qed.

(** ** Triple DES *)
Lemma ecb_loop_spec f g : undone_by 8 f g -> forall n src, length src = (8 * n)%nat -> bytes src ->
  length (ecb_loop f n src) = (8 * n)%nat /\ bytes (ecb_loop f n src) /\ ecb_loop g n (ecb_loop f n src) = src.
Proof.
  intros H. induction n as [|n IH]; intros src L B; cbn [ecb_loop].
  - destruct src; [|discriminate]. repeat split; auto.
  - assert (LF : length (firstn 8 src) = 8%nat) by (apply firstn_length_le; lia).
    destruct (H _ (bytes_firstn 8 _ B) LF) as (B1 & L1 & R1).
    destruct (IH (skipn 8 src)) as (L2 & B2 & R2); [rewrite skipn_length; lia|now apply bytes_skipn|].
    repeat split.
    + rewrite app_length. lia.
    + apply bytes_app. auto.
    + rewrite firstn_app_le, firstn_all2 by lia. rewrite skipn_app_le, skipn_all2 by lia. cbn [app].
      rewrite R1, R2. apply firstn_skipn.
Qed.

Lemma des_ecb_ok f data key n : length key = 8%nat -> length data = (8 * n)%nat -> (1 <= n)%nat ->
  des_ecb f data key = Some (ecb_loop (f key) n data).
Proof.
  intros Lk Ld Hn. unfold des_ecb.
  replace (zlen data <? 1) with false by (unfold zlen; lia).
  replace (zlen key <? 1) with false by (unfold zlen; lia).
  replace (zlen key =? 8) with true by (unfold zlen; lia).
  replace (zlen data mod 8 =? 0) with true by (unfold zlen; lia). cbn [orb negb].
  replace (Z.to_nat (zlen data / 8)) with n by (unfold zlen; lia). reflexivity.
Qed.

Lemma des_ecb_err f data key : length key = 8%nat -> data = [] \/ zlen data mod 8 <> 0 -> des_ecb f data key = None.
Proof.
  intros Lk H. unfold des_ecb. destruct (Z.ltb_spec (zlen data) 1); [reflexivity|].
  replace (zlen key <? 1) with false by (unfold zlen; lia).
  replace (zlen key =? 8) with true by (unfold zlen; lia). cbn [orb negb].
  destruct (Z.eqb_spec (zlen data mod 8) 0); [|reflexivity].
  destruct H as [->|H]; [|lia]. cbn in *. lia.
Qed.

Lemma tkey_eq key : tkey key = firstn 24 (key ++ repeat 0 24).
Proof.
  unfold tkey, gocopy. cbn [fst]. rewrite repeat_length.
  rewrite firstn_app. destruct (Nat.le_ge_cases 24 (length key)).
  - rewrite Nat.min_l by lia. rewrite skipn_all2 by (rewrite repeat_length; lia).
    replace (24 - length key)%nat with O by lia. reflexivity.
  - rewrite Nat.min_r by lia. rewrite firstn_all, firstn_all2 by lia. f_equal.
    replace 24%nat with (length key + (24 - length key))%nat at 1 by lia.
    rewrite repeat_app, skipn_app, repeat_length, Nat.sub_diag, skipn_all2 by (rewrite repeat_length; lia).
    cbn [skipn app]. 
    replace 24%nat with ((24 - length key) + length key)%nat at 3 by lia.
    rewrite repeat_app, firstn_app_le by (rewrite repeat_length; lia).
    rewrite firstn_all2 by (rewrite repeat_length; lia). reflexivity.
Qed.

Lemma tkey_len key : length (tkey key) = 24%nat.
Proof. rewrite tkey_eq, firstn_length, app_length, repeat_length. lia. Qed.
Lemma tkey_bytes key : bytes key -> bytes (tkey key).
Proof. intros. rewrite tkey_eq. apply bytes_firstn, bytes_app. split; auto. apply bytes_repeat. lia. Qed.

Definition des_key (k : list Z) : Prop := bytes k /\ length k = 8%nat.

Lemma tkey_parts key : bytes key ->
  des_key (firstn 8 (tkey key)) /\ des_key (firstn 8 (skipn 8 (tkey key))) /\ des_key (skipn 16 (tkey key)).
Proof.
  intros B. apply tkey_bytes in B. pose proof (tkey_len key) as L.
  split; [|split]; split; rewrite ?firstn_length, ?skipn_length; try lia;
    auto using bytes_firstn, bytes_skipn.
Qed.

Lemma tdes_spec E D data key : block_cipher 8 des_key E D -> bytes data -> bytes key ->
  exists c, tdes_encrypt E D data key = Ok (Some c) /\ bytes c /\ (8 | zlen c) /\ zlen data < zlen c <= zlen data + 8 /\
    tdes_decrypt E D c key = Some (zero_unpadding data).
Proof.
  intros HB Bd Bk. destruct (tkey_parts key Bk) as (K1 & K2 & K3).
  unfold tdes_encrypt, tdes_decrypt. rewrite zero_padding_ok by lia. cbn [bind].
  set (k1 := firstn 8 (tkey key)) in *. set (k2 := firstn 8 (skipn 8 (tkey key))) in *. set (k3 := skipn 16 (tkey key)) in *.
  pose proof (padlen_range data 8 ltac:(lia)) as Hp. destruct (padlen_div data 8 ltac:(lia)) as [q Hq].
  set (p := data ++ repeat 0 (Z.to_nat (padlen data 8))).
  assert (LZ : zlen p = zlen data + padlen data 8) by (unfold p; rewrite zlen_app; rewrite zlen_repeat; lia).
  pose proof (zlen_nonneg data).
  assert (LP : length p = (8 * Z.to_nat q)%nat) by (unfold zlen in *; lia).
  assert (BP : bytes p) by (apply bytes_app; split; auto; apply bytes_repeat; lia).
  set (n := Z.to_nat q) in *. assert (Hn : (1 <= n)%nat) by lia.
  destruct (ecb_loop_spec _ _ (proj1 (HB k1 K1)) n p LP BP) as (L1 & B1 & R1). set (b1 := ecb_loop (E k1) n p) in *.
  destruct (ecb_loop_spec _ _ (proj2 (HB k2 K2)) n b1 L1 B1) as (L2 & B2 & R2). set (b2 := ecb_loop (D k2) n b1) in *.
  destruct (ecb_loop_spec _ _ (proj1 (HB k3 K3)) n b2 L2 B2) as (L3 & B3 & R3). set (b3 := ecb_loop (E k3) n b2) in *.
  rewrite (des_ecb_ok E p k1 n (proj2 K1) LP Hn). fold b1.
  rewrite (des_ecb_ok D b1 k2 n (proj2 K2) L1 Hn). fold b2.
  rewrite (des_ecb_ok E b2 k3 n (proj2 K3) L2 Hn). fold b3.
  exists b3. split; [reflexivity|]. split; [exact B3|]. split; [exists (Z.of_nat n); unfold zlen; lia|].
  split; [unfold zlen in *; lia|].
  rewrite (des_ecb_ok D b3 k3 n (proj2 K3) L3 Hn), R3.
  rewrite (des_ecb_ok E b2 k2 n (proj2 K2) L2 Hn), R2.
  rewrite (des_ecb_ok D b1 k1 n (proj2 K1) L1 Hn), R1.
  unfold p. rewrite zero_unpadding_pad. reflexivity.
Qed.

Lemma tdes_decrypt_total E D c key : block_cipher 8 des_key E D -> bytes c -> bytes key ->
  (tdes_decrypt E D c key = None <-> c = [] \/ zlen c mod 8 <> 0).
Proof.
  intros HB Bc Bk. destruct (tkey_parts key Bk) as (K1 & K2 & K3). unfold tdes_decrypt.
  set (k1 := firstn 8 (tkey key)) in *. set (k2 := firstn 8 (skipn 8 (tkey key))) in *. set (k3 := skipn 16 (tkey key)) in *.
  split.
  - intros H. destruct (Z.eq_dec (zlen c mod 8) 0) as [M|]; [|auto].
    destruct c as [|x t]; [auto|exfalso]. set (c := x :: t) in *.
    set (n := Z.to_nat (zlen c / 8)). assert (LC : length c = (8 * n)%nat) by (unfold n, zlen in *; lia).
    assert (Hn : (1 <= n)%nat) by (cbn in LC; lia).
    rewrite (des_ecb_ok D c k3 n (proj2 K3) LC Hn) in H.
    destruct (ecb_loop_spec _ _ (proj2 (HB k3 K3)) n c LC Bc) as (L1 & B1 & _).
    rewrite (des_ecb_ok E _ k2 n (proj2 K2) L1 Hn) in H.
    destruct (ecb_loop_spec _ _ (proj1 (HB k2 K2)) n _ L1 B1) as (L2 & B2 & _).
    rewrite (des_ecb_ok D _ k1 n (proj2 K1) L2 Hn) in H. discriminate.
  - intros H. rewrite (des_ecb_err D c k3 (proj2 K3) H). reflexivity.
Qed.

Lemma tdes_key_prefix E D data k1 k2 : firstn 24 (k1 ++ repeat 0 24) = firstn 24 (k2 ++ repeat 0 24) ->
  tdes_encrypt E D data k1 = tdes_encrypt E D data k2 /\ tdes_decrypt E D data k1 = tdes_decrypt E D data k2.
Proof. intros H. unfold tdes_encrypt, tdes_decrypt. rewrite !tkey_eq, H. auto. Qed.

(** ** Base64 *)
Lemma b64_char_value x : 0 <= x < 64 -> b64_value (b64_char x) = Some x.
Proof.
  intros H. unfold b64_char. repeat match goal with |- context [if ?b then _ else _] => destruct b eqn:? end;
    unfold b64_value; repeat match goal with |- context [if ?b then _ else _] => destruct b eqn:? end;
    try lia; f_equal; lia.
Qed.
Lemma b64_char_ok x : 0 <= x < 64 -> is_b64 (b64_char x) /\ b64_char x <> 61 /\ b64_char x <> 10 /\ b64_char x <> 13.
Proof.
  intros H. unfold is_b64, b64_char. repeat match goal with |- context [if ?b then _ else _] => destruct b eqn:? end; lia.
Qed.

Lemma list_ind3 {A} (P : list A -> Prop) : P [] -> (forall x, P [x]) -> (forall x y, P [x; y]) ->
  (forall x y z t, P t -> P (x :: y :: z :: t)) -> forall l, P l.
Proof.
  intros H0 H1 H2 H3. fix IH 1. intros [|x [|y [|z t]]]; [exact H0|apply H1|apply H2|apply H3, IH].
Qed.

Lemma b64_encode_chars b : bytes b -> Forall is_b64 (b64_encode b).
Proof.
  induction b as [|x|x y|x y z t IH] using list_ind3; intros B; cbn [b64_encode].
  - constructor.
  - inversion B; subst. repeat apply Forall_cons; try apply Forall_nil; try (apply b64_char_ok; lia); unfold is_b64; lia.
  - inversion B as [|? ? Hx B1]; inversion B1; subst. repeat apply Forall_cons; try apply Forall_nil; try (apply b64_char_ok; lia); unfold is_b64; lia.
  - inversion B as [|? ? Hx B1]; inversion B1 as [|? ? Hy B2]; inversion B2 as [|? ? Hz B3]; subst.
    repeat apply Forall_cons; try (apply b64_char_ok; lia). auto.
Qed.

Lemma b64_no_eol l : Forall is_b64 l -> filter (fun c => negb ((c =? 10) || (c =? 13))) l = l.
Proof.
  induction l as [|c l IH]; intros H; [reflexivity|]. inversion H as [|? ? Hc Hl]; subst. cbn [filter].
  replace (negb ((c =? 10) || (c =? 13))) with true by (unfold is_b64 in Hc; lia). f_equal. auto.
Qed.

Lemma b64_eq61 x : 0 <= x < 64 -> (b64_char x =? 61) = false.
Proof. intros. apply Z.eqb_neq. now apply b64_char_ok. Qed.

Lemma b64_groups_encode b : bytes b -> b64_groups (b64_encode b) = Some b.
Proof.
  induction b as [|x|x y|x y z t IH] using list_ind3; intros B; cbn [b64_encode b64_groups].
  - reflexivity.
  - inversion B; subst. rewrite !b64_char_value by lia. cbn. f_equal. f_equal. lia.
  - inversion B as [|? ? Hx B1]; inversion B1; subst. rewrite !b64_char_value, !b64_eq61 by lia. cbn [andb].
    change (61 =? 61) with true. apply f_equal. apply f_equal2; [lia|]. apply f_equal2; [lia|reflexivity].
  - inversion B as [|? ? Hx B1]; inversion B1 as [|? ? Hy B2]; inversion B2 as [|? ? Hz B3]; subst.
    rewrite !b64_char_value, !b64_eq61 by lia. cbn [andb]. rewrite IH by auto.
    apply f_equal. apply f_equal2; [lia|]. apply f_equal2; [lia|]. apply f_equal2; [lia|reflexivity].
Qed.

Lemma b64_roundtrip b : bytes b -> b64_decode (b64_encode b) = Some b.
Proof.
  intros B. unfold b64_decode. rewrite b64_no_eol by now apply b64_encode_chars. now apply b64_groups_encode.
Qed.

Lemma b64_nonempty b : b <> [] -> b64_encode b <> [].
Proof. destruct b as [|x [|y [|z t]]]; intros H; cbn; congruence. Qed.

Lemma code_key_bytes : bytes code_key.
Proof. unfold code_key. repeat constructor; lia. Qed.

Lemma code_roundtrip E D src : block_cipher 8 des_key E D -> bytes src ->
  exists t, code_encode E D src = Ok t /\ Forall is_b64 t /\ t <> [] /\ code_decode E D t = zero_unpadding src.
Proof.
  intros HB Bs. destruct (tdes_spec E D src code_key HB Bs code_key_bytes) as (c & H1 & Bc & _ & Lc & H2).
  exists (b64_encode c). unfold code_encode, code_decode. rewrite H1. cbn [bind]. split; [reflexivity|].
  split; [now apply b64_encode_chars|]. split.
  - apply b64_nonempty. intros ->. pose proof (zlen_nonneg src). cbn in Lc. lia.
  - rewrite b64_roundtrip by auto. rewrite H2. reflexivity.
Qed.

(** ** Hexadecimal text *)
Lemma hex_char_value x : 0 <= x < 16 -> hex_value (hex_char x) = Some x.
Proof.
  intros H. unfold hex_char. destruct (Z.ltb_spec x 10);
    unfold hex_value; repeat match goal with |- context [if ?b then _ else _] => destruct b eqn:? end; try lia; f_equal; lia.
Qed.
Lemma hex_char_ok x : 0 <= x < 16 -> is_lower_hex (hex_char x).
Proof. intros. unfold is_lower_hex, hex_char. destruct (Z.ltb_spec x 10); lia. Qed.
Lemma hex_value_iff c : is_hex c <-> exists v, hex_value c = Some v.
Proof.
  unfold hex_value, is_hex, is_lower_hex.
  repeat match goal with |- context [if ?b then _ else _] => destruct b eqn:? end; split; intros H; eauto; try lia.
  destruct H; discriminate.
Qed.
Lemma hex_value_range c v : hex_value c = Some v -> 0 <= v < 16.
Proof.
  unfold hex_value. repeat match goal with |- context [if ?b then _ else _] => destruct b eqn:? end; intros H; try discriminate; injection H as <-; lia.
Qed.

Lemma hex_spec b : bytes b ->
  hex_to_bytes (bytes_to_hex b) = Some b /\ Forall is_lower_hex (bytes_to_hex b) /\ length (bytes_to_hex b) = (2 * length b)%nat.
Proof.
  induction b as [|x t IH]; intros B; cbn [bytes_to_hex hex_to_bytes].
  - repeat split; constructor.
  - inversion B as [|? ? Hx Bt]; subst. destruct (IH Bt) as (G1 & G2 & G3). rewrite !hex_char_value by lia. rewrite G1.
    repeat split.
    + f_equal. f_equal. lia.
    + repeat apply Forall_cons; auto; apply hex_char_ok; lia.
    + cbn. lia.
Qed.

Lemma list_ind2 {A} (P : list A -> Prop) : P [] -> (forall x, P [x]) -> (forall x y t, P t -> P (x :: y :: t)) -> forall l, P l.
Proof. intros H0 H1 H2. fix IH 1. intros [|x [|y t]]; [exact H0|apply H1|apply H2, IH]. Qed.

Lemma hex_to_bytes_iff s : (exists b, hex_to_bytes s = Some b) <-> Nat.even (length s) = true /\ Forall is_hex s.
Proof.
  induction s as [|x|x y t IH] using list_ind2; cbn [hex_to_bytes length Nat.even].
  - split; eauto.
  - split; [intros [b H]; discriminate|intros [H _]; discriminate].
  - split.
    + intros [b H]. destruct (hex_value x) as [v|] eqn:Ex; [|discriminate]. destruct (hex_value y) as [w|] eqn:Ey; [|discriminate].
      destruct (hex_to_bytes t) as [r|] eqn:Er; [|discriminate]. destruct (proj1 IH) as [G1 G2]; [eauto|].
      split; auto. repeat apply Forall_cons; auto; apply hex_value_iff; eauto.
    + intros [G1 G2]. inversion G2 as [|? ? Hx G3]; inversion G3 as [|? ? Hy G4]; subst.
      apply hex_value_iff in Hx. apply hex_value_iff in Hy. destruct Hx as [v Hx]. destruct Hy as [w Hy]. rewrite Hx, Hy.
      destruct (proj2 IH) as [r Hr]; auto. rewrite Hr. eauto.
Qed.

Lemma hex_to_bytes_bytes s : forall b, hex_to_bytes s = Some b -> bytes b /\ (2 * length b = length s)%nat.
Proof.
  induction s as [|x|x y t IH] using list_ind2; cbn [hex_to_bytes]; intros b H.
  - injection H as <-. split; [constructor|reflexivity].
  - discriminate.
  - destruct (hex_value x) as [v|] eqn:Ex; [|discriminate]. destruct (hex_value y) as [w|] eqn:Ey; [|discriminate].
    destruct (hex_to_bytes t) as [r|] eqn:Er; [|discriminate]. injection H as <-.
    apply hex_value_range in Ex. apply hex_value_range in Ey. destruct (IH r eq_refl) as [G1 G2].
    split; [constructor; [lia|auto]|cbn; lia].
Qed.

(** Conversion back to text is the text with its capitals in lower case. *)
Definition lower (c : Z) : Z := if (65 <=? c) && (c <=? 70) then c + 32 else c.
Lemma hex_text_back s : forall b, hex_to_bytes s = Some b -> bytes_to_hex b = map lower s.
Proof.
  induction s as [|x|x y t IH] using list_ind2; cbn [hex_to_bytes]; intros b H.
  - injection H as <-. reflexivity.
  - discriminate.
  - destruct (hex_value x) as [v|] eqn:Ex; [|discriminate]. destruct (hex_value y) as [w|] eqn:Ey; [|discriminate].
    destruct (hex_to_bytes t) as [r|] eqn:Er; [|discriminate]. injection H as <-.
    assert (L : forall c u, hex_value c = Some u -> hex_char u = lower c).
    { clear. intros c u. unfold hex_value, hex_char, lower.
      repeat match goal with |- context [if ?b then _ else _] => destruct b eqn:? end; intros H; try discriminate; injection H as <-; lia. }
    pose proof (hex_value_range _ _ Ex). pose proof (hex_value_range _ _ Ey).
    cbn [bytes_to_hex map]. rewrite (IH r eq_refl).
    replace ((v * 16 + w) / 16) with v by lia. replace ((v * 16 + w) mod 16) with w by lia.
    rewrite (L x v Ex), (L y w Ey). reflexivity.
Qed.

(** ** Hash *)
Lemma hash_input_len n src : length (hash_input n src) = (n * (48 + length src))%nat.
Proof.
  induction n; cbn [hash_input]; [reflexivity|]. rewrite !app_length, IHn.
  change (length code_key) with 24%nat. lia.
Qed.
Lemma app_inj_len {A} (a b c d : list A) : length a = length c -> a ++ b = c ++ d -> a = c /\ b = d.
Proof.
  revert c. induction a as [|x a IH]; intros [|y c] L E; try discriminate; [auto|].
  cbn in *. injection E as -> E. destruct (IH c); auto. subst. auto.
Qed.
Lemma hash_input_inj s1 s2 : hash_input 5 s1 = hash_input 5 s2 -> s1 = s2.
Proof.
  intros H. pose proof (f_equal (@length Z) H) as L. rewrite !hash_input_len in L.
  assert (LL : length s1 = length s2) by lia.
  change (hash_input 5 s1) with (code_key ++ s1 ++ code_key ++ hash_input 4 s1) in H.
  change (hash_input 5 s2) with (code_key ++ s2 ++ code_key ++ hash_input 4 s2) in H.
  apply app_inv_head in H. now apply app_inj_len in H.
Qed.

Lemma bytes_to_hex_inj a b : bytes a -> bytes b -> bytes_to_hex a = bytes_to_hex b -> a = b.
Proof.
  intros Ha Hb E. pose proof (proj1 (hex_spec a Ha)) as H1. pose proof (proj1 (hex_spec b Hb)) as H2.
  rewrite E in H1. congruence.
Qed.
