From Coq Require Import ZArith List Bool Lia Znumtheory Zpow_facts ZifyBool ZifyNat Arith.
From Verif Require Import GoBase RsaModel RsaSpec RsaProofs RsaMore CryptoSpec.
Import ListNotations.
Local Open Scope Z_scope.

Lemma zlen_repeat : forall (x : Z) n, zlen (repeat x n) = Z.of_nat n.
Proof. intros. unfold zlen. rewrite repeat_length. reflexivity. Qed.

Lemma sign_em_len : forall k t, zlen t + 3 <= k -> zlen (sign_em k t) = k.
Proof. intros k t H. unfold sign_em. rewrite !zlen_cons, zlen_app, zlen_cons, zlen_repeat. lia. Qed.
Lemma sign_em_bytes : forall k t, bytes t -> bytes (sign_em k t).
Proof.
  intros k t Ht. unfold sign_em, bytes. constructor; [lia|]. constructor; [lia|]. apply Forall_app. split.
  - apply Forall_forall. intros x Hx. apply repeat_spec in Hx. lia.
  - constructor; [lia|exact Ht].
Qed.
Lemma repeat_inj : forall a b (t u : list Z), repeat 255 a ++ 0 :: t = repeat 255 b ++ 0 :: u -> t = u.
Proof.
  induction a as [|a IH]; intros [|b] t u E; cbn [repeat app] in E; try discriminate.
  - congruence.
  - apply IH with b. congruence.
Qed.
Lemma sign_em_inj : forall k t u, sign_em k t = sign_em k u -> t = u.
Proof. intros k t u E. unfold sign_em in E. eapply repeat_inj. injection E as E. exact E. Qed.

Lemma sign_em_range : forall k t, rsa_key k -> bytes t -> zlen t + 11 <= key_size (sk_pub k) ->
  0 <= num (sign_em (key_size (sk_pub k)) t) < pk_n (sk_pub k).
Proof.
  intros k t Hk Ht HL. pose proof (sign_em_len (key_size (sk_pub k)) t ltac:(lia)) as E.
  pose proof (sign_em_bytes (key_size (sk_pub k)) t Ht) as HB. unfold sign_em in *.
  apply em_small; auto; [exact (Forall_inv_tail HB)|]. rewrite zlen_cons in E. lia.
Qed.

Lemma prefix_bytes : forall h p, hash_prefix h = Some p -> bytes p.
Proof.
  intros h p E. unfold hash_prefix in E.
  repeat match type of E with (if ?c then _ else _) = _ => destruct c end; try discriminate;
  apply (f_equal (fun o => match o with Some x => x | None => [] end)) in E; cbv beta iota in E; subst p; repeat constructor; lia.
Qed.
Lemma hash_info_some : forall h len p, hash_info h len = Some p -> len = digest_size h /\ hash_prefix h = Some p.
Proof. intros h len p E. unfold hash_info in E. destruct (Z.eqb_spec len (digest_size h)); [auto|discriminate]. Qed.

Definition signature_of (k : privkey) (t : list Z) : list Z :=
  i2osp (Z.to_nat (key_size (sk_pub k))) (Zpow_mod (num (sign_em (key_size (sk_pub k)) t)) (sk_d k) (pk_n (sk_pub k))).
Lemma signature_num : forall k t, rsa_key k ->
  num (signature_of k t) = Zpow_mod (num (sign_em (key_size (sk_pub k)) t)) (sk_d k) (pk_n (sk_pub k)).
Proof.
  intros. unfold signature_of. apply num_cipher; auto. apply zpm_range. pose proof (key_n_pos k H). lia.
Qed.
Lemma signature_len : forall k t, rsa_key k -> zlen (signature_of k t) = key_size (sk_pub k).
Proof. intros k t Hk. pose proof (size_of k Hk). unfold signature_of, zlen. rewrite i2osp_length. lia. Qed.

Lemma sign_eq : forall k h d, rsa_key k -> bytes d ->
  sign_pkcs1 k h d =
  match hash_info h (zlen d) with
  | None => Err EHash
  | Some p => if key_size (sk_pub k) <? zlen (p ++ d) + 11 then Err ETooLong else Val (signature_of k (p ++ d))
  end.
Proof.
  intros k h d Hk Hd. unfold sign_pkcs1. destruct (hash_info h (zlen d)) as [p|] eqn:I; [|reflexivity].
  apply hash_info_some in I. destruct I as [_ I]. apply prefix_bytes in I.
  destruct (Z.ltb_spec (key_size (sk_pub k)) (zlen (p ++ d) + 11)); [reflexivity|].
  assert (bytes (p ++ d)) by (apply Forall_app; split; assumption).
  rewrite os2ip_num. rewrite dec_enc; auto; [|apply sign_em_range; auto]. rewrite Z.eqb_refl. reflexivity.
Qed.

Lemma zpm_mod : forall c e n, 0 < n -> Zpow_mod (c mod n) e n = Zpow_mod c e n.
Proof. intros c e n Hn. rewrite !Zpow_mod_correct by lia. symmetry. apply Zpower_mod. lia. Qed.

Lemma verify_none : forall st k h d sig, rsa_key k -> bytes d ->
  verify_pkcs1 st (sk_pub k) h d sig = None <->
  exists p, hash_info h (zlen d) = Some p /\ zlen (p ++ d) + 11 <= key_size (sk_pub k) /\
    num sig mod pk_n (sk_pub k) = num (signature_of k (p ++ d)) /\
    (st = true -> zlen sig = key_size (sk_pub k) /\ num sig < pk_n (sk_pub k)).
Proof.
  intros st k h d sig Hk Hd. unfold verify_pkcs1. pose proof (key_n_pos k Hk) as Hn.
  destruct (hash_info h (zlen d)) as [p|] eqn:I.
  2:{ split; [discriminate|]. intros (p & E & _). discriminate. }
  apply hash_info_some in I. destruct I as [_ I]. apply prefix_bytes in I.
  assert (HB : bytes (p ++ d)) by (apply Forall_app; split; assumption).
  destruct (Z.ltb_spec (key_size (sk_pub k)) (zlen (p ++ d) + 11)) as [HS|HS].
  { split; [discriminate|]. intros (p' & E & L & _). injection E as <-. lia. }
  rewrite os2ip_num. destruct (st && _) eqn:G.
  { split; [discriminate|]. intros (p' & E & L & M & Q).
    destruct st; [|discriminate]. destruct (Q eq_refl). cbn [andb] in G. lia. }
  pose proof (sign_em_range k (p ++ d) Hk HB HS) as HR.
  pose proof (zpm_range (num sig) (pk_e (sk_pub k)) (pk_n (sk_pub k)) ltac:(lia)) as HZ.
  destruct (list_eq_dec Z.eq_dec _ _) as [E|E].
  - split; [intros _|reflexivity]. exists p. repeat split; auto; try lia.
    + rewrite signature_num by auto. rewrite <- E. rewrite num_cipher by auto.
      rewrite <- (zpm_mod (num sig) (pk_e (sk_pub k))) by lia. rewrite enc_dec; auto. apply Z.mod_pos_bound; lia.
  - split; [discriminate|]. intros (p' & E' & L & M & Q). injection E' as <-. exfalso. apply E.
    apply num_inj.
    + apply i2osp_bytes.
    + apply sign_em_bytes; auto.
    + rewrite i2osp_length. pose proof (sign_em_len (key_size (sk_pub k)) (p ++ d) ltac:(lia)). unfold zlen in *. lia.
    + rewrite num_cipher by auto. rewrite <- (zpm_mod (num sig) (pk_e (sk_pub k))) by lia. rewrite M, signature_num by auto. apply dec_enc; auto.
Qed.

Lemma signature_inj : forall k t u, rsa_key k -> bytes t -> bytes u ->
  zlen t + 11 <= key_size (sk_pub k) -> zlen u + 11 <= key_size (sk_pub k) ->
  num (signature_of k t) = num (signature_of k u) -> t = u.
Proof.
  intros k t u Hk Ht Hu Lt Lu E. rewrite !signature_num in E by auto.
  apply (f_equal (fun x => Zpow_mod x (pk_e (sk_pub k)) (pk_n (sk_pub k)))) in E.
  rewrite !dec_enc in E by (auto; apply sign_em_range; auto).
  apply (sign_em_inj (key_size (sk_pub k))). apply num_inj; auto; try (apply sign_em_bytes; auto).
  pose proof (sign_em_len (key_size (sk_pub k)) t ltac:(lia)). pose proof (sign_em_len (key_size (sk_pub k)) u ltac:(lia)).
  unfold zlen in *. lia.
Qed.

Lemma prefix_cases : forall h p, hash_prefix h = Some p -> In h [2; 3; 4; 5; 6; 7; 8; 9].
Proof.
  intros h p E. unfold hash_prefix in E.
  repeat match type of E with (if ?c =? ?d then _ else _) = _ => destruct (Z.eqb_spec c d); [subst; cbn; tauto|] end. discriminate.
Qed.
Definition tlen (h : Z) : Z := match hash_prefix h with Some p => zlen p + digest_size h | None => 0 end.

Lemma prefix_unique : forall h h' p p' d d', hash_prefix h = Some p -> hash_prefix h' = Some p' ->
  zlen d = digest_size h -> zlen d' = digest_size h' -> p ++ d = p' ++ d' -> h = h' /\ d = d'.
Proof.
  intros h h' p p' d d' E E' L L' A.
  assert (HL : tlen h = tlen h').
  { unfold tlen. rewrite E, E'. rewrite <- L, <- L'. rewrite <- !zlen_app. rewrite A. reflexivity. }
  pose proof (prefix_cases h p E) as C. pose proof (prefix_cases h' p' E') as C'.
  assert (HH : h = h' \/ (h = 2 /\ h' = 9) \/ (h = 9 /\ h' = 2)).
  { cbn [In] in C, C'.
    repeat match type of C with _ \/ _ => destruct C as [C|C] end; try contradiction;
    repeat match type of C' with _ \/ _ => destruct C' as [C'|C'] end; try contradiction; subst h h'; auto;
    vm_compute in HL; discriminate. }
  destruct HH as [->|[[-> ->]|[-> ->]]].
  - split; auto. assert (p = p') by congruence. subst p'. apply app_inv_head in A. exact A.
  - exfalso. cbn in E, E'. injection E as <-. injection E' as <-. discriminate.
  - exfalso. cbn in E, E'. injection E as <-. injection E' as <-. discriminate.
Qed.
