From Coq Require Import ZArith List Bool Lia Znumtheory Zpow_facts ZifyBool ZifyNat Arith.
From Verif Require Import GoBase RsaModel RsaSpec RsaProofs RsaMore RsaSign CryptoSpec.
Import ListNotations.
Local Open Scope Z_scope.

Lemma gen_ok : forall S k, std_ok S -> rsa_key k -> exists private public,
  gen_rsa_keys S (Some k) = Val (private, public) /\
  new_client S public = Ok (Val (Some (sk_pub k))) /\ new_server S private = Ok (Val (Some k)) /\
  must_new_client S public = Ok (Some (sk_pub k)) /\ must_new_server S private = Ok (Some k).
Proof.
  intros S k (H1 & H2 & H3 & _) Hk. destruct (H3 k Hk) as (der & M & P).
  unfold gen_rsa_keys. rewrite M. do 2 eexists. split; [reflexivity|].
  unfold must_new_client, must_new_server, new_client, new_server. rewrite !H1, P, H2 by auto. auto.
Qed.

Lemma pair_key : forall S bits c s, std_ok S -> pair_of S bits c s ->
  exists k, rsa_key k /\ has_bits k bits /\ c = Some (sk_pub k) /\ s = Some k.
Proof.
  intros S bits c s HS (pr & pu & (k & Hk & Hb & G) & C & D). exists k. split; auto. split; auto.
  destruct (gen_ok S k HS Hk) as (pr' & pu' & G' & C' & D' & _).
  assert (pr' = pr /\ pu' = pu) as [-> ->].
  { rewrite G in G'. split; congruence. }
  split; congruence.
Qed.

Lemma generated_works : forall S bits private public, std_ok S -> generated S bits private public ->
  exists c s, new_client S public = Ok (Val c) /\ new_server S private = Ok (Val s) /\
    must_new_client S public = Ok c /\ must_new_server S private = Ok s /\
    forall rs msg ct, bytes rs -> bytes msg -> encrypt c rs msg = Ok (Val ct) -> decrypt S s ct = Ok (Val msg).
Proof.
  intros S bits pr pu HS (k & Hk & Hb & G). destruct (gen_ok S k HS Hk) as (pr' & pu' & G' & C & D & C' & D').
  assert (pr' = pr /\ pu' = pu) as [-> ->].
  { rewrite G in G'. split; congruence. }
  exists (Some (sk_pub k)), (Some k). repeat split; auto. intros rs msg ct Hr Hm E. cbn [encrypt] in E.
  assert (E' : encrypt_pkcs1 (sk_pub k) rs msg = Val ct) by congruence.
  apply encrypt_val in E'; auto. destruct E' as (ps & B & N & _ & L8 & L & ->). cbn [decrypt].
  f_equal. apply decrypt_cipher; auto.
Qed.

Lemma gen_returns : forall S k, std_ok S -> rsa_key k -> exists private public, gen_rsa_keys S (Some k) = Val (private, public).
Proof. intros S k HS Hk. destruct (gen_ok S k HS Hk) as (a & b & G & _). eauto. Qed.

Lemma encrypt_limit : forall S bits c s rs msg, std_ok S -> pair_of S bits c s -> bytes rs ->
  bytes msg ->
  (byte_len bits - 11 < zlen msg -> encrypt c rs msg = Ok (Err ETooLong)) /\
  (zlen msg <= byte_len bits - 11 ->
     encrypt c rs msg = Ok (Err ERandom) \/ exists ct, encrypt c rs msg = Ok (Val ct) /\ bytes ct /\ zlen ct = byte_len bits) /\
  (zlen msg <= byte_len bits - 11 -> Forall (fun x => x <> 0) rs -> byte_len bits - 3 <= zlen rs + zlen msg ->
     exists ct, encrypt c rs msg = Ok (Val ct)).
Proof.
  intros S bits c s rs msg HS HP Hr Hm. destruct (pair_key S bits c s HS HP) as (k & Hk & Hb & -> & ->).
  pose proof (size_bits k bits Hk Hb) as HZ. cbn [encrypt].
  assert (E0 : byte_len bits - 11 < zlen msg -> encrypt_pkcs1 (sk_pub k) rs msg = Err ETooLong).
  { intro H. unfold encrypt_pkcs1. rewrite check_pub_ok by auto. cbn [negb]. rewrite HZ.
    destruct (Z.ltb_spec (byte_len bits - 11) (zlen msg)); [reflexivity|lia]. }
  assert (E1 : zlen msg <= byte_len bits - 11 -> encrypt_pkcs1 (sk_pub k) rs msg =
    match nonzero_random (byte_len bits - zlen msg - 3) rs with None => Err ERandom | Some ps => Val (cipher_of k ps msg) end).
  { intro H. unfold encrypt_pkcs1. rewrite check_pub_ok by auto. cbn [negb]. rewrite HZ.
    destruct (Z.ltb_spec (byte_len bits - 11) (zlen msg)); [lia|].
    destruct (nonzero_random _ rs); [|reflexivity]. unfold cipher_of. rewrite <- os2ip_num, HZ. reflexivity. }
  split; [|split].
  - intro H. rewrite E0 by auto. reflexivity.
  - intro H. rewrite E1 by auto. destruct (nonzero_random _ rs); [right|left; reflexivity].
    eexists. split; [reflexivity|]. split; [apply i2osp_bytes|]. rewrite cipher_len; auto.
  - intros H Hz HL. rewrite E1 by auto. rewrite nonzero_random_id; auto; [|lia]. eauto.
Qed.

Lemma decrypt_exact : forall S bits c s ct msg, std_ok S -> pair_of S bits c s -> bytes ct -> zlen ct = byte_len bits ->
  (decrypt S s ct = Ok (Val msg) <-> bytes msg /\ exists rs, bytes rs /\ encrypt c rs msg = Ok (Val ct)).
Proof.
  intros S bits c s ct msg HS HP Hc HL. destruct (pair_key S bits c s HS HP) as (k & Hk & Hb & -> & ->).
  pose proof (size_bits k bits Hk Hb) as HZ. cbn [encrypt decrypt]. split.
  - intro E. assert (E' : decrypt_pkcs1 (strict S) k ct = Val msg) by congruence.
    apply decrypt_val in E'; auto; [|lia]. destruct E' as (ps & Bp & Bm & N & L8 & L & ->).
    split; auto. exists ps. split; auto. rewrite encrypt_cipher; auto.
  - intros (Bm & rs & Br & E). assert (E' : encrypt_pkcs1 (sk_pub k) rs msg = Val ct) by congruence.
    apply encrypt_val in E'; auto. destruct E' as (ps & B & N & _ & L8 & L & ->). f_equal. apply decrypt_cipher; auto.
Qed.

Lemma decrypt_never_panics : forall S bits c s ct, std_ok S -> pair_of S bits c s ->
  (exists msg, decrypt S s ct = Ok (Val msg)) \/ decrypt S s ct = Ok (Err EDecryption).
Proof.
  intros S bits c s ct HS HP. destruct (pair_key S bits c s HS HP) as (k & Hk & Hb & -> & ->). cbn [decrypt].
  unfold decrypt_pkcs1. rewrite check_pub_ok by auto. cbn [negb].
  destruct (_ <? 11); [right; reflexivity|]. destruct (strict S && _); [right; reflexivity|].
  destruct (_ <? os2ip ct); [right; reflexivity|].
  repeat match goal with
  | |- context [match ?x with _ => _ end] => is_var x; destruct x; try (right; reflexivity)
  | |- context [match i2osp ?a ?b with _ => _ end] => destruct (i2osp a b); try (right; reflexivity)
  | |- context [match index_zero ?a with _ => _ end] => destruct (index_zero a); try (right; reflexivity)
  | |- context [if ?c then _ else _] => destruct c; try (right; reflexivity)
  end.
  left. eauto.
Qed.

Lemma em_of_inj : forall ps msg ps' msg', nonzero ps -> nonzero ps' -> em_of ps msg = em_of ps' msg' -> ps = ps' /\ msg = msg'.
Proof.
  intros ps msg ps' msg' H H' E. unfold em_of in E. assert (E' : ps ++ 0 :: msg = ps' ++ 0 :: msg') by congruence. clear E.
  revert ps' H' E'. induction H as [|x ps Hx Hp IH]; intros [|y ps'] H' E; cbn [app] in E.
  - split; congruence.
  - inversion H'; subst. congruence.
  - congruence.
  - inversion H'; subst. destruct (IH ps') as [-> ->]; auto; [congruence|]. split; [f_equal; congruence|reflexivity].
Qed.

Lemma cipher_inj : forall k ps msg ps' msg', rsa_key k -> bytes ps -> bytes ps' -> bytes msg -> bytes msg' ->
  nonzero ps -> nonzero ps' -> zlen (em_of ps msg) = key_size (sk_pub k) -> zlen (em_of ps' msg') = key_size (sk_pub k) ->
  cipher_of k ps msg = cipher_of k ps' msg' -> ps = ps' /\ msg = msg'.
Proof.
  intros k ps msg ps' msg' Hk B1 B2 B3 B4 N N' L L' E. apply em_of_inj; auto.
  apply (f_equal num) in E. rewrite !cipher_num in E by auto.
  apply (f_equal (fun x => Zpow_mod x (sk_d k) (pk_n (sk_pub k)))) in E.
  rewrite !enc_dec in E by (auto; apply em_range; auto).
  apply num_inj; auto; try (apply em_bytes; auto). unfold zlen in *. lia.
Qed.

Lemma encrypt_distinct : forall S bits c s rs msg rs' msg' ct, std_ok S -> pair_of S bits c s ->
  bytes rs -> bytes rs' -> bytes msg -> bytes msg' ->
  Forall (fun x => x <> 0) rs -> Forall (fun x => x <> 0) rs' ->
  encrypt c rs msg = Ok (Val ct) -> encrypt c rs' msg' = Ok (Val ct) ->
  msg = msg' /\ firstn (Z.to_nat (byte_len bits - zlen msg - 3)) rs = firstn (Z.to_nat (byte_len bits - zlen msg - 3)) rs'.
Proof.
  intros S bits c s rs msg rs' msg' ct HS HP Hr Hr' Hm Hm' Z Z' E E'.
  destruct (pair_key S bits c s HS HP) as (k & Hk & Hb & -> & ->).
  pose proof (size_bits k bits Hk Hb) as HZ. cbn [encrypt] in *.
  assert (F : encrypt_pkcs1 (sk_pub k) rs msg = Val ct) by congruence.
  assert (F' : encrypt_pkcs1 (sk_pub k) rs' msg' = Val ct) by congruence.
  apply encrypt_val in F; auto. apply encrypt_val in F'; auto.
  destruct F as (ps & B & N & R & L8 & L & C). destruct F' as (ps' & B' & N' & R' & L8' & L' & C').
  rewrite C in C'. apply cipher_inj in C'; auto. destruct C' as [-> ->]. split; auto.
  assert (G : forall rs, Forall (fun x => x <> 0) rs -> nonzero_random (key_size (sk_pub k) - zlen msg' - 3) rs = Some ps' ->
    firstn (Z.to_nat (byte_len bits - zlen msg' - 3)) rs = ps').
  { intros r Zr Rr. rewrite <- HZ. destruct (Z.leb_spec (key_size (sk_pub k) - zlen msg' - 3) (zlen r)).
    - rewrite nonzero_random_id in Rr by auto. congruence.
    - exfalso. unfold nonzero_random in Rr. destruct (Z.leb_spec (key_size (sk_pub k) - zlen msg' - 3) (zlen r)); [lia|discriminate]. }
  rewrite (G rs Z R), (G rs' Z' R'). reflexivity.
Qed.

(** * Signatures *)
Lemma sign_verify : forall S bits c s src h sig, std_ok S -> pair_of S bits c s ->
  sign S s src h = Ok (Val sig) -> bytes sig /\ zlen sig = byte_len bits /\ verify S c src sig h = Ok None.
Proof.
  intros S bits c s src h sig HS HP E. destruct (pair_key S bits c s HS HP) as (k & Hk & Hb & -> & ->).
  pose proof (size_bits k bits Hk Hb) as HZ. unfold sign in E. unfold verify.
  destruct (hash_of S h) as [H|] eqn:EH; [|discriminate]. destruct HS as (_ & _ & _ & HH & _).
  destruct (HH h H EH src) as [Bd Ld].
  assert (E' : sign_pkcs1 k h (H src) = Val sig) by congruence. rewrite sign_eq in E' by auto.
  destruct (hash_info h (zlen (H src))) as [p|] eqn:I; [|discriminate].
  destruct (Z.ltb_spec (key_size (sk_pub k)) (zlen (p ++ H src) + 11)); [discriminate|].
  assert (SE : sig = signature_of k (p ++ H src)) by congruence. subst sig.
  split; [apply i2osp_bytes|]. split; [rewrite signature_len; auto|].
  f_equal. apply verify_none; auto. exists p. split; auto. split; auto.
  pose proof (key_n_pos k Hk).
  assert (0 <= num (signature_of k (p ++ H src)) < pk_n (sk_pub k)).
  { rewrite signature_num by auto. apply zpm_range. lia. }
  split; [apply Z.mod_small; auto|]. intros _. rewrite signature_len by auto. split; [reflexivity|lia].
Qed.

Lemma verify_sign : forall S bits c s src h sig, std_ok S -> pair_of S bits c s -> bytes sig ->
  verify S c src sig h = Ok None ->
  exists sig', sign S s src h = Ok (Val sig') /\ (strict S = true -> sig = sig') /\
    (forall k, s = Some k -> (pk_n (sk_pub k) | num sig - num sig')).
Proof.
  intros S bits c s src h sig HS HP Bs E. destruct (pair_key S bits c s HS HP) as (k & Hk & Hb & -> & ->).
  unfold verify in E. unfold sign. destruct (hash_of S h) as [H|] eqn:EH; [|discriminate].
  destruct HS as (_ & _ & _ & HH & _). destruct (HH h H EH src) as [Bd Ld].
  assert (E' : verify_pkcs1 (strict S) (sk_pub k) h (H src) sig = None) by congruence.
  apply verify_none in E'; auto. destruct E' as (p & I & L & M & Q).
  exists (signature_of k (p ++ H src)). pose proof (key_n_pos k Hk).
  split; [|split].
  - rewrite sign_eq by auto. rewrite I. destruct (Z.ltb_spec (key_size (sk_pub k)) (zlen (p ++ H src) + 11)); [lia|reflexivity].
  - intro Q0. destruct (Q Q0) as [Q1 Q2]. apply num_inj; auto.
    + apply i2osp_bytes.
    + pose proof (signature_len k (p ++ H src) Hk). unfold zlen in *. lia.
    + rewrite <- M. symmetry. apply Z.mod_small. pose proof (num_range sig Bs). lia.
  - intros k' K. assert (k' = k) by congruence. subst k'. rewrite <- M. apply Z.mod_divide; [lia|].
    rewrite Zminus_mod, Zmod_mod, Z.sub_diag. apply Z.mod_0_l. lia.
Qed.

Lemma no_transfer : forall S bits c s src h H src' h' H' sig, std_ok S -> pair_of S bits c s ->
  hash_of S h = Some H -> hash_of S h' = Some H' ->
  verify S c src sig h = Ok None -> verify S c src' sig h' = Ok None -> h = h' /\ H src = H' src'.
Proof.
  intros S bits c s src h H src' h' H' sig HS HP EH EH' E E'.
  destruct (pair_key S bits c s HS HP) as (k & Hk & Hb & -> & ->).
  unfold verify in E, E'. rewrite EH in E. rewrite EH' in E'.
  destruct HS as (_ & _ & _ & HH & _). destruct (HH h H EH src) as [Bd Ld]. destruct (HH h' H' EH' src') as [Bd' Ld'].
  assert (F : verify_pkcs1 (strict S) (sk_pub k) h (H src) sig = None) by congruence.
  assert (F' : verify_pkcs1 (strict S) (sk_pub k) h' (H' src') sig = None) by congruence.
  apply verify_none in F; auto. apply verify_none in F'; auto.
  destruct F as (p & I & L & M & _). destruct F' as (p' & I' & L' & M' & _).
  apply hash_info_some in I. apply hash_info_some in I'. destruct I as [I0 I]. destruct I' as [I0' I'].
  assert (bytes (p ++ H src)) by (apply Forall_app; split; auto; eapply prefix_bytes; eauto).
  assert (bytes (p' ++ H' src')) by (apply Forall_app; split; auto; eapply prefix_bytes; eauto).
  eapply prefix_unique; eauto. apply signature_inj with k; auto. congruence.
Qed.

(** Which calls of Sign succeed. *)
Lemma sign_exact : forall S bits c s src h H, std_ok S -> pair_of S bits c s -> hash_of S h = Some H ->
  sign S s src h =
  match hash_prefix h with
  | None => Ok (Err EHash)
  | Some p => if byte_len bits <? zlen p + digest_size h + 11 then Ok (Err ETooLong) else sign S s src h
  end /\
  (forall p, hash_prefix h = Some p -> zlen p + digest_size h + 11 <= byte_len bits -> exists sig, sign S s src h = Ok (Val sig)).
Proof.
  intros S bits c s src h H HS HP EH. destruct (pair_key S bits c s HS HP) as (k & Hk & Hb & -> & ->).
  pose proof (size_bits k bits Hk Hb) as HZ. destruct HS as (_ & _ & _ & HH & _). destruct (HH h H EH src) as [Bd Ld].
  unfold sign. rewrite EH. rewrite sign_eq by auto. unfold hash_info. rewrite Ld, Z.eqb_refl.
  destruct (hash_prefix h) as [p|].
  - rewrite zlen_app, Ld, HZ. split.
    + destruct (Z.ltb_spec (byte_len bits) (zlen p + digest_size h + 11)); reflexivity.
    + intros p' E L. assert (p' = p) by congruence. subst.
      destruct (Z.ltb_spec (byte_len bits) (zlen p + digest_size h + 11)); [lia|]. eauto.
  - split; [reflexivity|]. intros; discriminate.
Qed.

Lemma sign_default_exact : forall S bits c s src, std_ok S -> pair_of S bits c s ->
  (745 <= bits -> exists sig, sign_default S s src = Ok (Val sig) /\ verify_default S c src sig = Ok None) /\
  (bits < 745 -> sign_default S s src = Ok (Err ETooLong) /\ forall sig, verify_default S c src sig = Ok (Some EVerification)).
Proof.
  intros S bits c s src HS HP. assert (HS' := HS). destruct HS' as (_ & _ & _ & HH & H7).
  unfold sign_default, verify_default, default_hash.
  destruct (hash_of S 7) as [H|] eqn:EH; [|congruence].
  destruct (sign_exact S bits c s src 7 H HS HP EH) as [A B].
  change (hash_prefix 7) with (Some [48; 81; 48; 13; 6; 9; 96; 134; 72; 1; 101; 3; 4; 2; 3; 5; 0; 4; 64]) in *.
  cbv iota in A. change (digest_size 7) with 64 in *. split; intro HB.
  - destruct (B _ eq_refl) as [sig Hsig].
    { change (zlen _) with 19. unfold byte_len. apply Z.div_le_lower_bound; lia. }
    exists sig. split; auto. eapply sign_verify; eauto.
  - change (zlen _) with 19 in A.
    assert (HL : byte_len bits < 94) by (unfold byte_len; apply Z.div_lt_upper_bound; lia).
    destruct (Z.ltb_spec (byte_len bits) (19 + 64 + 11)); [|lia]. split; auto.
    intro sig. destruct (pair_key S bits c s HS HP) as (k & Hk & Hb & -> & ->).
    pose proof (size_bits k bits Hk Hb) as HZ. destruct (HH 7 H EH src) as [Bd Ld].
    unfold verify. rewrite EH. unfold verify_pkcs1, hash_info. rewrite Ld, Z.eqb_refl.
    change (hash_prefix 7) with (Some [48; 81; 48; 13; 6; 9; 96; 134; 72; 1; 101; 3; 4; 2; 3; 5; 0; 4; 64]). cbv iota zeta.
    rewrite zlen_app, Ld, HZ. change (digest_size 7) with 64. change (zlen (48 :: _)) with 19.
    destruct (Z.ltb_spec (byte_len bits) (19 + 64 + 11)); [reflexivity|lia].
Qed.

(** * Bad keys *)
Lemma new_client_exact : forall S pem,
  (new_client S pem = Panic <-> exists der, pem_decode S pem = Some der /\ parse_pub S der = Some KOther) /\
  (forall c, new_client S pem = Ok (Val c) <-> exists der p, pem_decode S pem = Some der /\ parse_pub S der = Some (KRsa p) /\ c = Some p) /\
  (must_new_client S pem = Panic <-> forall c, new_client S pem <> Ok (Val c)).
Proof.
  intros S pem. unfold must_new_client, new_client. destruct (pem_decode S pem) as [der|].
  - destruct (parse_pub S der) as [[p|]|] eqn:P; cbn [bind]; repeat split; intros; try discriminate; try congruence.
    + destruct H as (d & E & Q). congruence.
    + exists der, p. repeat split; congruence.
    + destruct H as (d & q & E & Q & ->). first [congruence | assert (q = p) by congruence; subst; reflexivity].
    + exfalso. apply (H (Some p)). reflexivity.
    + eauto.
    + destruct H as (d & q & E & Q & ->). first [congruence | assert (q = p) by congruence; subst; reflexivity].
    + destruct H as (d & E & Q). congruence.
    + destruct H as (d & q & E & Q & ->). first [congruence | assert (q = p) by congruence; subst; reflexivity].
  - cbn [bind]; repeat split; intros; try discriminate; try congruence.
    + destruct H as (d & E & _). discriminate.
    + destruct H as (d & q & E & _). discriminate.
Qed.
Lemma new_server_exact : forall S pem,
  new_server S pem <> Panic /\
  (forall s, new_server S pem = Ok (Val s) <-> exists der k, pem_decode S pem = Some der /\ parse_priv S der = Some k /\ s = Some k) /\
  (must_new_server S pem = Panic <-> forall c, new_server S pem <> Ok (Val c)).
Proof.
  intros S pem. unfold must_new_server, new_server. destruct (pem_decode S pem) as [der|].
  - destruct (parse_priv S der) as [p|] eqn:P; cbn [bind]; repeat split; intros; try discriminate; try congruence.
    + exists der, p. repeat split; congruence.
    + destruct H as (d & q & E & Q & ->). first [congruence | assert (q = p) by congruence; subst; reflexivity].
    + exfalso. apply (H (Some p)). reflexivity.
    + destruct H as (d & q & E & Q & ->). first [congruence | assert (q = p) by congruence; subst; reflexivity].
  - cbn [bind]; repeat split; intros; try discriminate; try congruence.
    destruct H as (d & q & E & _). discriminate.
Qed.

(** * The toy library *)
Lemma toy_hash_ok : forall n b, bytes (toy_hash n b) /\ zlen (toy_hash n b) = Z.of_nat n.
Proof.
  intros n b. split; [|apply zlen_repeat]. apply Forall_forall. intros x Hx. apply repeat_spec in Hx. subst.
  apply Z.mod_pos_bound. lia.
Qed.
Lemma toy_ok : forall st, std_ok (toy_std st).
Proof.
  intro st. unfold std_ok. split; [|split; [|split; [|split]]].
  - intros t b. reflexivity.
  - intros [[n e] d] _. reflexivity.
  - intros [[n e] d] _. exists [n; e]. split; reflexivity.
  - intros h H E b. unfold toy_std in E. cbn [hash_of] in E. destruct (Z.eqb_spec h 7) as [->|].
    + injection E as <-. apply (toy_hash_ok 64).
    + destruct (Z.eqb_spec h 14) as [->|]; [|discriminate]. injection E as <-. apply (toy_hash_ok 28).
  - discriminate.
Qed.
