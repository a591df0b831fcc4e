From Coq Require Import ZArith List Bool Lia Znumtheory Zpow_facts ZifyBool ZifyNat Arith.
From Verif Require Import GoBase RsaModel RsaSpec RsaProofs RsaMore RsaSign RsaApi RsaKeys CryptoSpec.
Import ListNotations.
Local Open Scope Z_scope.

Lemma prefix_der h arcs d : hash_oid h arcs -> zlen d = digest_size h ->
  exists p, hash_info h (zlen d) = Some p /\ p ++ d = der 48 (der 48 (oid arcs ++ der 5 []) ++ der 4 d).
Proof.
  intros Ho L. unfold hash_info. rewrite L, Z.eqb_refl.
  unfold hash_oid in Ho. decompose [or] Ho; clear Ho;
  match goal with H : _ = _ |- _ => assert (h = fst (h, arcs)) as E1 by reflexivity; assert (arcs = snd (h, arcs)) as E2 by reflexivity;
    rewrite H in E1, E2; cbn [fst snd] in E1, E2; clear H; subst h arcs end;
  (eexists; split; [reflexivity|]); cbn [digest_size nth Z.to_nat Pos.to_nat Pos.iter_op Nat.add] in L;
  match type of L with zlen d = ?x => let y := eval vm_compute in x in change x with y in L end;
  unfold der; rewrite !zlen_app, !zlen_cons, L; cbn [app]; reflexivity.
Qed.

Lemma emsa_em k arcs h d em p : hash_oid h arcs -> hash_info h (zlen d) = Some p -> zlen d = digest_size h ->
  emsa k arcs d em <-> em = sign_em k (p ++ d) /\ zlen (p ++ d) + 11 <= k.
Proof.
  intros Ho I L. destruct (prefix_der h arcs d Ho L) as (p' & I' & E). assert (p' = p) by congruence. subst p'. rewrite E. split.
  - intros (ps & -> & F & H8 & K). rewrite !zlen_cons, zlen_app, zlen_cons in K. split; [|lia].
    unfold sign_em. do 3 f_equal. replace (Z.to_nat _) with (length ps) by (unfold zlen in *; lia).
    clear K H8. induction ps as [|x ps IH]; [reflexivity|]. inversion F; subst. cbn [repeat length]. f_equal. now apply IH.
  - intros [-> K]. exists (repeat 255 (Z.to_nat (k - zlen (der 48 (der 48 (oid arcs ++ der 5 []) ++ der 4 d)) - 3))).
    split; [reflexivity|]. split; [apply Forall_forall; intros x Hx; now apply repeat_spec in Hx|].
    split; [rewrite zlen_repeat; lia|]. apply sign_em_len. lia.
Qed.

Lemma sign_standard S bits c k src h H arcs sig : std_ok S -> pair_of S bits c (Some k) -> hash_of S h = Some H -> hash_oid h arcs ->
  sign S (Some k) src h = Ok (Val sig) ->
  exists em, emsa (byte_len bits) arcs (H src) em /\ num sig ^ pk_e (sk_pub k) mod pk_n (sk_pub k) = num em.
Proof.
  intros HS HP EH Ho E. destruct (pair_key S bits c (Some k) HS HP) as (k' & Hk & Hb & -> & Ek).
  injection Ek as <-. pose proof (size_bits k bits Hk Hb) as HZ. destruct HS as (_ & _ & _ & HH & _).
  destruct (HH h H EH src) as [Bd Ld]. unfold sign in E. rewrite EH in E.
  assert (E' : sign_pkcs1 k h (H src) = Val sig) by congruence. rewrite sign_eq in E' by auto.
  destruct (hash_info h (zlen (H src))) as [p|] eqn:I; [|discriminate].
  destruct (Z.ltb_spec (key_size (sk_pub k)) (zlen (p ++ H src) + 11)); [discriminate|].
  assert (SE : sig = signature_of k (p ++ H src)) by congruence. subst sig. rewrite <- HZ.
  exists (sign_em (key_size (sk_pub k)) (p ++ H src)). split.
  - apply (emsa_em _ arcs h (H src) _ p Ho I Ld). split; auto.
  - pose proof (key_n_pos k Hk). rewrite <- Zpow_mod_correct by lia. rewrite signature_num by auto. apply dec_enc; auto.
    apply sign_em_range; auto. apply hash_info_some in I. destruct I as [_ I]. apply prefix_bytes in I. apply Forall_app. auto.
Qed.

Lemma verify_standard S bits c k src h H arcs sig em : std_ok S -> pair_of S bits c (Some k) -> hash_of S h = Some H -> hash_oid h arcs ->
  bytes sig -> zlen sig = byte_len bits -> num sig < pk_n (sk_pub k) ->
  emsa (byte_len bits) arcs (H src) em -> num sig ^ pk_e (sk_pub k) mod pk_n (sk_pub k) = num em ->
  verify S c src sig h = Ok None.
Proof.
  intros HS HP EH Ho Bs Ls Hn Hem E. destruct (pair_key S bits c (Some k) HS HP) as (k' & Hk & Hb & -> & Ek).
  injection Ek as <-. pose proof (size_bits k bits Hk Hb) as HZ. destruct HS as (_ & _ & _ & HH & _).
  destruct (HH h H EH src) as [Bd Ld]. unfold verify. rewrite EH. f_equal. apply verify_none; auto.
  destruct (prefix_der h arcs (H src) Ho Ld) as (p & I & _). exists p. split; [exact I|].
  apply (emsa_em _ arcs h (H src) em p Ho I Ld) in Hem. destruct Hem as [-> L]. split; [lia|].
  pose proof (key_n_pos k Hk). pose proof (num_range sig Bs). split; [|intros _; split; lia].
  rewrite Z.mod_small by lia. rewrite signature_num by auto. rewrite HZ, <- E, <- Zpow_mod_correct by lia. symmetry.
  apply enc_dec; auto. lia.
Qed.

Lemma encrypt_standard S bits c k rs msg ct : std_ok S -> pair_of S bits c (Some k) -> bytes rs -> bytes msg ->
  encrypt c rs msg = Ok (Val ct) ->
  exists em, eme (byte_len bits) msg em /\ num ct = num em ^ pk_e (sk_pub k) mod pk_n (sk_pub k).
Proof.
  intros HS HP Br Bm E. destruct (pair_key S bits c (Some k) HS HP) as (k' & Hk & Hb & -> & Ek).
  injection Ek as <-. pose proof (size_bits k bits Hk Hb) as HZ. cbn [encrypt] in E.
  assert (E' : encrypt_pkcs1 (sk_pub k) rs msg = Val ct) by congruence.
  apply encrypt_val in E'; auto. destruct E' as (ps & B & N & _ & L8 & L & ->).
  exists (em_of ps msg). split.
  - exists ps. split; [reflexivity|]. split; [|split; [exact L8|congruence]].
    apply Forall_forall. intros x Hx. pose proof (proj1 (Forall_forall _ _) B x Hx). pose proof (proj1 (Forall_forall _ _) N x Hx). cbv beta in *. lia.
  - pose proof (key_n_pos k Hk). rewrite cipher_num by auto. apply Zpow_mod_correct. lia.
Qed.

Lemma decrypt_standard S bits c k msg em ct : std_ok S -> pair_of S bits c (Some k) -> bytes ct -> zlen ct = byte_len bits ->
  bytes msg -> eme (byte_len bits) msg em -> num ct = num em ^ pk_e (sk_pub k) mod pk_n (sk_pub k) ->
  decrypt S (Some k) ct = Ok (Val msg).
Proof.
  intros HS HP Bc Lc Bm (ps & -> & F & L8 & L) E. destruct (pair_key S bits c (Some k) HS HP) as (k' & Hk & Hb & -> & Ek).
  injection Ek as <-. pose proof (size_bits k bits Hk Hb) as HZ. pose proof (key_n_pos k Hk).
  assert (ct = cipher_of k ps msg) as ->.
  { apply num_inj; [exact Bc|apply i2osp_bytes| |].
    - pose proof (cipher_len k ps msg Hk). unfold zlen in *. lia.
    - rewrite cipher_num by auto. rewrite E. symmetry. apply Zpow_mod_correct. lia. }
  cbn [decrypt]. f_equal. apply decrypt_cipher; auto; try (eapply Forall_impl; [|exact F]; cbv beta; intros; lia).
  unfold em_of. lia.
Qed.

Lemma standard_witness :
  encrypt (Some (sk_pub key101)) [1; 2; 3; 4; 5; 6; 7; 8] [1; 2] =
    Ok (Val (i2osp 13 (num [0; 2; 1; 2; 3; 4; 5; 6; 7; 8; 0; 1; 2] ^ pk_e (sk_pub key101) mod pk_n (sk_pub key101)))) /\
  firstn 20 (der 48 (der 48 (oid [2; 16; 840; 1; 101; 3; 4; 2; 1] ++ der 5 []) ++ der 4 (repeat 7 32))) =
    [48; 49; 48; 13; 6; 9; 96; 134; 72; 1; 101; 3; 4; 2; 1; 5; 0; 4; 32; 7] /\
  (exists em, emsa 94 [2; 16; 840; 1; 101; 3; 4; 2; 3] (toy_hash 64 [104; 105]) em /\ length em = 94%nat).
Proof.
  split; [|split; [vm_compute; reflexivity|]].
  - rewrite <- Zpow_mod_correct by (vm_compute; discriminate). vm_compute. reflexivity.
  - eexists. split; [|shelve]. exists (repeat 255 8). split; [reflexivity|]. split; [apply Forall_forall; intros x Hx; now apply repeat_spec in Hx|].
    split; vm_compute; [discriminate|reflexivity].
    Unshelve. vm_compute. reflexivity.
Qed.
