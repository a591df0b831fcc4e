(** Proofs of the crypto properties from the lemmas. *)
From Coq Require Import ZArith List Bool Lia.
From Coq Require Import ZifyBool ZifyNat.
From Verif Require Import GoBase GoLists SortSliceModel CryptoModel CryptoSpec QueueProofs CryptoProofs CryptoCipher.
Import ListNotations.
Ltac Zify.zify_post_hook ::= Z.div_mod_to_equations.
Open Scope Z_scope.

Lemma padding_partial d bs : bytes d ->
  (1 <= bs -> exists z p,
     zero_padding d bs = Ok z /\ pkcs5_padding d bs = Ok p /\ pkcs7_padding d bs = Ok p /\
     pads bs d z /\ pads bs d p /\ bytes z /\ bytes p /\
     without_trailing_zeros d (zero_unpadding z) /\ (zero_unpadding z = d <-> d = [] \/ last d 0 <> 0) /\
     pkcs7_unpadding p = pkcs5_unpadding p /\
     (pkcs5_unpadding p = Ok d <-> zlen p - zlen d < 256)) /\
  (bs <= 0 -> zero_padding d bs = Panic /\ pkcs5_padding d bs = Panic /\ pkcs7_padding d bs = Panic).
Proof.
  intros Bd. split.
  - intros H. pose proof (padlen_range d bs H). eexists _, _.
    split; [apply zero_padding_ok; auto|]. split; [apply pkcs5_padding_ok; auto|]. split; [apply pkcs7_padding_ok; auto|].
    split; [now apply pad_is_pads|]. split; [now apply pad_is_pads|].
    split; [apply bytes_app; split; auto; apply bytes_repeat; lia|].
    split; [apply bytes_app; split; auto; apply bytes_repeat, to_byte_range|].
    rewrite zero_unpadding_pad. split; [apply zero_unpadding_spec|]. split.
    { rewrite <- stripped_self. split.
      - intros E. pose proof (zero_unpadding_spec d) as S. now rewrite E in S.
      - intros S. symmetry. eapply stripped_unique; [exact S|apply zero_unpadding_spec]. }
    split; [reflexivity|]. rewrite unpad_roundtrip by auto. rewrite zlen_app, zlen_repeat by lia. lia.
  - intros H. auto using zero_padding_panic, pkcs5_padding_panic, pkcs7_padding_panic.
Qed.

Lemma padding_refuted :
  (exists d bs z, 1 <= bs /\ bytes d /\ zero_padding d bs = Ok z /\ zero_unpadding z <> d) /\
  (exists d bs p, 1 <= bs /\ bytes d /\ pkcs5_padding d bs = Ok p /\ pkcs7_padding d bs = Ok p /\ pkcs5_unpadding p <> Ok d /\ pkcs7_unpadding p <> Ok d) /\
  (exists d bs, bytes d /\ zero_padding d bs = Panic).
Proof.
  split; [|split].
  - exists [1; 0], 8, [1; 0; 0; 0; 0; 0; 0; 0]. split; [lia|]. split; [repeat constructor; lia|]. split; [reflexivity|discriminate].
  - exists [], 256, ([] ++ repeat (to_byte (padlen [] 256)) (Z.to_nat (padlen [] 256))).
    assert (B : bytes []) by constructor.
    assert (N : pkcs5_unpadding ([] ++ repeat (to_byte (padlen [] 256)) (Z.to_nat (padlen [] 256))) <> Ok []).
    { intros E. apply (unpad_roundtrip [] 256) in E; auto; [|lia]. unfold padlen in E. cbn in E. lia. }
    split; [lia|]. split; [exact B|]. split; [apply pkcs5_padding_ok; lia|]. split; [apply pkcs7_padding_ok; lia|]. split; exact N.
  - exists [], 0. split; [constructor|reflexivity].
Qed.

Lemma unpadding_exact b : bytes b ->
  pkcs7_unpadding b = pkcs5_unpadding b /\
  pkcs5_unpadding b =
    match b with
    | [] => Panic
    | _ => if last b 0 <=? zlen b then Ok (firstn (Z.to_nat (zlen b - last b 0)) b) else Panic
    end.
Proof. intros B. split; [reflexivity|now apply unpad_exact]. Qed.

Lemma aes_key_ok_iff k : aes_key_ok k = true <-> zlen k = 16 \/ zlen k = 24 \/ zlen k = 32.
Proof. unfold aes_key_ok. lia. Qed.

Lemma aes_main E D key ms :
  block_cipher 16 (fun k => bytes k /\ (zlen k = 16 \/ zlen k = 24 \/ zlen k = 32)) E D -> bytes key -> Forall bytes ms ->
  (zlen key = 16 \/ zlen key = 24 \/ zlen key = 32 ->
   exists m m' cs, aes_new key = Some m /\ encrypt_all E m ms = Ok (m', cs) /\ decrypt_all D m cs = Ok (m', ms) /\
     Forall2 (fun b c => bytes c /\ (16 | zlen c) /\ zlen b < zlen c <= zlen b + 16) ms cs) /\
  (aes_new key = None <-> ~ (zlen key = 16 \/ zlen key = 24 \/ zlen key = 32)).
Proof.
  intros HB Bk Bm. split.
  - intros Hk. assert (N : aes_new key = Some (AesMode key (firstn 16 key))).
    { unfold aes_new. now rewrite (proj2 (aes_key_ok_iff key) Hk). }
    destruct (aes_new_ok _ _ Bk N) as (_ & _ & Hm).
    destruct (aes_sequence E D ms (AesMode key (firstn 16 key))) as (m' & cs & H1 & H2 & H3); auto.
    { apply HB. auto. }
    exists (AesMode key (firstn 16 key)), m', cs. auto.
  - rewrite <- aes_key_ok_iff. unfold aes_new. destruct (aes_key_ok key); split; intros H; congruence.
Qed.

Lemma aes_order E D m iv2 b :
  block_cipher 16 (fun k => bytes k /\ (zlen k = 16 \/ zlen k = 24 \/ zlen k = 32)) E D ->
  bytes (am_key m) -> (zlen (am_key m) = 16 \/ zlen (am_key m) = 24 \/ zlen (am_key m) = 32) ->
  bytes (am_iv m) -> length (am_iv m) = 16%nat -> bytes iv2 -> length iv2 = 16%nat -> bytes b -> 16 <= zlen b ->
  exists m' c r, aes_encrypt E m b = Ok (m', c) /\ aes_decrypt D (AesMode (am_key m) iv2) c = Ok (m', r) /\
    length r = length b /\ skipn 16 r = skipn 16 b /\
    firstn 16 r = xor_bytes (xor_bytes (firstn 16 b) (am_iv m)) iv2 /\
    (r = b <-> am_iv m = iv2).
Proof.
  intros HB Bk Hk Bi Li Bi2 Li2 Bb Lb. destruct (HB (am_key m)) as [H1 H2]; auto.
  apply aes_other_state; auto; split; auto.
Qed.

Lemma tdes_partial E D key m :
  block_cipher 8 (fun k => bytes k /\ length k = 8%nat) E D -> bytes key -> bytes m ->
  (exists c r, tdes_encrypt E D m key = Ok (Some c) /\ (8 | zlen c) /\ zlen m < zlen c <= zlen m + 8 /\
     tdes_decrypt E D c key = Some r /\ without_trailing_zeros m r /\ (r = m <-> m = [] \/ last m 0 <> 0)) /\
  (tdes_decrypt E D m key = None <-> m = [] \/ zlen m mod 8 <> 0).
Proof.
  intros HB Bk Bm. split.
  - destruct (tdes_spec E D m key HB Bm Bk) as (c & H1 & H2 & H3 & H4 & H5).
    exists c, (zero_unpadding m). repeat split; auto; try lia; try apply zero_unpadding_spec.
    + intros E0. pose proof (zero_unpadding_spec m) as S. rewrite E0 in S. apply S.
    + intros S. apply (stripped_unique m); [apply zero_unpadding_spec|now apply stripped_self].
  - now apply tdes_decrypt_total.
Qed.

Lemma tdes_refuted : exists m, bytes m /\ forall E D key,
  block_cipher 8 (fun k => bytes k /\ length k = 8%nat) E D -> bytes key ->
  exists c r, tdes_encrypt E D m key = Ok (Some c) /\ tdes_decrypt E D c key = Some r /\ r <> m.
Proof.
  exists [1; 0]. assert (B : bytes [1; 0]) by (repeat constructor; lia). split; auto.
  intros E D key HB Bk. destruct (tdes_spec E D [1; 0] key HB B Bk) as (c & H1 & _ & _ & _ & H5).
  exists c, [1]. repeat split; auto. discriminate.
Qed.

Lemma b64_len b : (4 | zlen (b64_encode b)).
Proof.
  induction b as [|x|x y|x y z t [k IH]] using list_ind3; cbn [b64_encode].
  - now exists 0.
  - now exists 1.
  - now exists 1.
  - exists (k + 1). unfold zlen in *. cbn [length]. lia.
Qed.

Lemma encode_decode E D src :
  block_cipher 8 (fun k => bytes k /\ length k = 8%nat) E D -> bytes src ->
  exists t r, code_encode E D src = Ok t /\ Forall is_b64 t /\ t <> [] /\ (4 | zlen t) /\
    code_decode E D t = r /\ without_trailing_zeros src r.
Proof.
  intros HB Bs. destruct (tdes_spec E D src code_key HB Bs code_key_bytes) as (c & H1 & _).
  destruct (code_roundtrip E D src HB Bs) as (t & G1 & G2 & G3 & G4).
  exists t, (zero_unpadding src). repeat split; auto; try apply zero_unpadding_spec.
  unfold code_encode in G1. rewrite H1 in G1. cbn [bind] in G1. injection G1 as <-. apply b64_len.
Qed.

Lemma hex_main : 
  (forall b, bytes b -> hex_to_bytes (bytes_to_hex b) = Some b /\ Forall is_lower_hex (bytes_to_hex b) /\
     length (bytes_to_hex b) = (2 * length b)%nat) /\
  (forall s, (exists b, hex_to_bytes s = Some b) <-> Nat.even (length s) = true /\ Forall is_hex s) /\
  (forall s b, hex_to_bytes s = Some b -> bytes b /\ 
     bytes_to_hex b = map (fun c => if (65 <=? c) && (c <=? 70) then c + 32 else c) s).
Proof.
  split; [exact hex_spec|]. split; [exact hex_to_bytes_iff|]. intros s b H. split.
  - now apply (hex_to_bytes_bytes s).
  - exact (hex_text_back s b H).
Qed.

Lemma hash_salt H s1 s2 :
  (code_hash H s1 = code_hash H s2 -> s1 = s2 \/ exists x y, x <> y /\ H x = H y) /\
  ((forall x, bytes (H x)) -> code_hash_string H s1 = code_hash_string H s2 -> s1 = s2 \/ exists x y, x <> y /\ H x = H y) /\
  code_hash_string H s1 = bytes_to_hex (code_hash H s1) /\
  (exists x, code_hash H s1 = H x /\ zlen x = 5 * (zlen s1 + 48)).
Proof.
  assert (G : code_hash H s1 = code_hash H s2 -> s1 = s2 \/ exists x y, x <> y /\ H x = H y).
  { intros E. destruct (list_eq_dec Z.eq_dec s1 s2) as [->|n]; auto. right.
    exists (hash_input 5 s1), (hash_input 5 s2). split; auto. intros F. apply n. now apply hash_input_inj. }
  split; [exact G|]. split; [|split; [reflexivity|]].
  - intros B E. apply G. apply bytes_to_hex_inj in E; auto.
  - exists (hash_input 5 s1). split; [reflexivity|]. unfold zlen. rewrite hash_input_len. lia.
Qed.

Lemma toy_cipher n ok : block_cipher n ok toy_E toy_D.
Proof.
  intros k _. unfold toy_E, toy_D. generalize (hd 0 k). intros h.
  split; intros b B L; (split; [apply Forall_forall; intros x Hx; apply in_map_iff in Hx; destruct Hx as (y & <- & _); lia|]);
    rewrite map_length, map_map; (split; [exact L|]);
    (transitivity (map (fun x : Z => x) b); [|apply map_id]; apply map_ext_in; intros x Hx;
     unfold bytes in B; rewrite Forall_forall in B; specialize (B x Hx); lia).
Qed.
