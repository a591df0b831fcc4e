(** The helper of crypto/aes with AES itself: proofs for AesProps. *)
From Coq Require Import ZArith List Bool Lia.
From Coq Require Import ZifyBool ZifyNat.
From Verif Require Import GoBase CryptoModel CryptoSpec QueueProofs CryptoProofs CryptoCipher CryptoMain AesModel AesSpec AesProofs.
Import ListNotations.
Open Scope Z_scope.

Lemma cbc_app : forall E iv ps qs iv1, cbc E iv ps qs iv1 -> forall ps' qs' iv2, cbc E iv1 ps' qs' iv2 -> cbc E iv (ps ++ ps') (qs ++ qs') iv2.
Proof. intros E iv ps qs iv1 H. induction H; intros ps' qs' iv2 H'; cbn; [exact H'|]. econstructor; eauto. Qed.
Lemma cbc_chain : forall E D, undone_by 16 E D -> forall n iv src out iv', length src = (16 * n)%nat -> bytes src -> bytes iv -> length iv = 16%nat ->
  cbc_encrypt E n iv src = (out, iv') ->
  bytes iv' /\ length iv' = 16%nat /\
  exists ps qs, concat ps = src /\ concat qs = out /\ cbc E iv ps qs iv' /\ Forall (fun q => length q = 16%nat) qs.
Proof.
  intros E D U. induction n as [|n IH]; intros iv src out iv' L B Bi Li H.
  - destruct src; [|discriminate]. cbn in H. inversion H; subst. repeat split; auto. exists [], []. repeat split; constructor.
  - cbn [cbc_encrypt] in H.
    assert (LF : length (firstn 16 src) = 16%nat) by (apply firstn_length_le; lia).
    assert (LX : length (xor_bytes (firstn 16 src) iv) = 16%nat) by (rewrite xor_length; lia).
    destruct (U (xor_bytes (firstn 16 src) iv) (xor_bytes_bytes _ _ (bytes_firstn _ _ B) Bi) LX) as (U1 & U2 & _).
    set (c := E (xor_bytes (firstn 16 src) iv)) in *.
    destruct (cbc_encrypt E n c (skipn 16 src)) as [o i] eqn:R. inversion H; subst.
    destruct (IH c (skipn 16 src) o iv') as (G1 & G2 & ps & qs & P1 & P2 & P3 & P4); auto.
    { rewrite skipn_length. lia. }
    { now apply bytes_skipn. }
    split; [exact G1|]. split; [exact G2|]. exists (firstn 16 src :: ps), (c :: qs). cbn [concat]. rewrite P1, P2.
    split; [apply firstn_skipn|]. split; [reflexivity|]. split; [|now constructor].
    now apply cbc_cons.
Qed.

Lemma encrypt_chain : forall E D ms m m' cs, undone_by 16 (E (am_key m)) (D (am_key m)) -> mode_ok m -> Forall bytes ms ->
  encrypt_all E m ms = Ok (m', cs) ->
  exists ps qs, concat ps = concat (map padded ms) /\ concat qs = concat cs /\ cbc (E (am_key m)) (am_iv m) ps qs (am_iv m') /\
    Forall (fun q => length q = 16%nat) qs.
Proof.
  intros E D ms m m' cs U. revert m m' cs U. induction ms as [|b ms IH]; intros m m' cs U [Li Bi] HB H; cbn [encrypt_all] in H.
  - inversion H; subst. exists [], []. repeat split; constructor.
  - apply Forall_cons_iff in HB. destruct HB as [Bb HB].
    unfold aes_encrypt in H. rewrite pkcs7_padding_ok in H by lia. cbn [bind] in H.
    pose proof (padlen_range b 16 ltac:(lia)) as Hp. pose proof (padlen_div b 16 ltac:(lia)) as Hd.
    assert (TB : to_byte (padlen b 16) = padlen b 16) by (unfold to_byte, wrap; change (2 ^ 8) with 256; apply Z.mod_small; lia).
    assert (PE : padded b = b ++ repeat (padlen b 16) (Z.to_nat (padlen b 16))) by reflexivity.
    rewrite TB in H. change (b ++ repeat (padlen b 16) (Z.to_nat (padlen b 16))) with (padded b) in H.
    assert (LS : zlen (padded b) = zlen b + padlen b 16) by (rewrite PE, zlen_app, zlen_repeat; lia).
    assert (BS : bytes (padded b)) by (rewrite PE; apply bytes_app; split; auto; apply bytes_repeat; lia).
    unfold crypt_blocks in H. destruct Hd as [q Hq]. pose proof (zlen_nonneg b).
    rewrite LS, Hq, Z.mod_mul in H by lia. rewrite Z.eqb_refl in H. cbn [bind] in H. rewrite Z.div_mul in H by lia.
    assert (LN : length (padded b) = (16 * Z.to_nat q)%nat) by (unfold zlen in *; lia).
    destruct (cbc_encrypt (E (am_key m)) (Z.to_nat q) (am_iv m) (padded b)) as [out iv'] eqn:R. cbn [bind] in H.
    destruct (cbc_chain _ _ U _ _ _ _ _ LN BS Bi Li R) as (Bi' & Li' & ps & qs & P1 & P2 & P3 & P4).
    destruct (encrypt_all E (AesMode (am_key m) iv') ms) as [[m2 cs']| |] eqn:R2; try discriminate. cbn [bind] in H.
    inversion H; subst m2 cs. destruct (IH (AesMode (am_key m) iv') m' cs' U (conj Li' Bi') HB R2) as (ps' & qs' & Q1 & Q2 & Q3 & Q4).
    exists (ps ++ ps'), (qs ++ qs'). cbn [map concat]. rewrite !concat_app, P1, P2, Q1, Q2.
    split; [reflexivity|]. split; [reflexivity|]. split; [|apply Forall_app; now split].
    eapply cbc_app; eauto.
Qed.

Lemma aes_helper : forall key ms, bytes key -> zlen key = 16 \/ zlen key = 24 \/ zlen key = 32 -> Forall bytes ms ->
  exists m m' cs ps qs, aes_new key = Some m /\ encrypt_all aes_E m ms = Ok (m', cs) /\ decrypt_all aes_D m cs = Ok (m', ms) /\
    concat ps = concat (map padded ms) /\ concat qs = concat cs /\ cbc (aes_E key) (firstn 16 key) ps qs (am_iv m') /\
    Forall (fun q => length q = 16%nat) qs.
Proof.
  intros key ms Hk L Hm. destruct (aes_main aes_E aes_D key ms aes_cipher Hk Hm) as [H _].
  destruct (H L) as (m & m' & cs & N & En & De & _).
  destruct (aes_new_ok key m Hk N) as (K & _ & MO).
  assert (am_iv m = firstn 16 key) as IV.
  { unfold aes_new in N. destruct (aes_key_ok key); [|discriminate]. now inversion N. }
  destruct (encrypt_chain aes_E aes_D ms m m' cs) as (ps & qs & P1 & P2 & P3 & P4); auto.
  { rewrite K. apply aes_cipher. now split. }
  rewrite K, IV in P3. exists m, m', cs, ps, qs. repeat split; assumption.
Qed.

Lemma aes_tables :
  (forall x, byte x -> exists y, byte y /\ (x = 0 /\ y = 0 \/ field_mul x y = 1) /\
     byte (sub_byte x) /\ forall i, 0 <= i < 8 -> Z.testbit (sub_byte x) i = affine_bit y i) /\
  (forall c x, In c [1; 2; 3; 9; 11; 13; 14] -> byte x -> gmul c x = field_mul c x).
Proof.
  split.
  - intros x Hx.
    pose (ok := fun x y => ((x =? 0) && (y =? 0) || (field_mul x y =? 1)) && forallb (fun i => Bool.eqb (Z.testbit (sub_byte x) i) (affine_bit y i)) [0; 1; 2; 3; 4; 5; 6; 7]).
    assert (A : forallb (fun x => existsb (ok x) all_bytes) all_bytes = true) by (vm_compute; reflexivity).
    pose proof (all_byte _ A x Hx) as H. cbv beta in H. apply existsb_exists in H. destruct H as (y & Hy & H).
    exists y. unfold ok in H. apply andb_true_iff in H. destruct H as [H1 H2]. split; [|split; [|split]].
    + unfold all_bytes in Hy. apply in_map_iff in Hy. destruct Hy as (k & <- & Hk). apply in_seq in Hk. unfold byte. lia.
    + apply orb_true_iff in H1. destruct H1 as [H1|H1]; [left|right; now apply Z.eqb_eq].
      apply andb_true_iff in H1. rewrite !Z.eqb_eq in H1. exact H1.
    + apply (sub_ok x Hx).
    + intros i Hi. rewrite forallb_forall in H2. apply eqb_prop. apply H2. cbn. lia.
  - intros c x Hc Hx.
    pose proof (all_byte (fun x => forallb (fun c => gmul c x =? field_mul c x) consts) ltac:(vm_compute; reflexivity) x Hx) as H.
    cbv beta in H. rewrite forallb_forall in H. apply Z.eqb_eq. now apply H.
Qed.
