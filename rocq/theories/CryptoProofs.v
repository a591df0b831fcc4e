(** Lemmas about padding, CBC, ECB, base64 and hexadecimal text. *)
From Coq Require Import ZArith List Bool Lia.
From Coq Require Import ZifyBool ZifyNat.
From Verif Require Import GoBase GoLists SortSliceModel CryptoModel CryptoSpec QueueProofs.
Import ListNotations.
Ltac Zify.zify_post_hook ::= Z.div_mod_to_equations.
Open Scope Z_scope.

Lemma nth_repeat_in {A} (v d : A) n i : (i < n)%nat -> nth i (repeat v n) d = v.
Proof. revert i. induction n; intros i H; [lia|]. destruct i; cbn; [reflexivity|apply IHn; lia]. Qed.

Lemma nth_last_eq (b : list Z) : nth (length b - 1) b 0 = last b 0.
Proof.
  destruct b as [|x t] using rev_ind; [reflexivity|].
  rewrite app_length, last_last, app_nth2 by (cbn; lia). cbn [length].
  replace (length t + 1 - 1 - length t)%nat with O by lia. reflexivity.
Qed.

(** ** Padding *)
Definition padlen (b : list Z) (bs : Z) : Z := bs - zlen b mod bs.

Lemma padlen_range (b : list Z) bs : 1 <= bs -> 1 <= padlen b bs <= bs.
Proof. intros. unfold padlen. pose proof (Z.mod_pos_bound (zlen b) bs). lia. Qed.

Lemma rem_mod (b : list Z) bs : 1 <= bs -> Z.rem (zlen b) bs = zlen b mod bs.
Proof. intros. apply Z.rem_mod_nonneg; [apply zlen_nonneg|lia]. Qed.

Lemma padlen_div (b : list Z) bs : 1 <= bs -> (bs | zlen b + padlen b bs).
Proof.
  intros. unfold padlen. exists (zlen b / bs + 1).
  pose proof (Z.div_mod (zlen b) bs ltac:(lia)). lia.
Qed.

Lemma neg_pad (b : list Z) bs : bs < 0 -> bs - Z.rem (zlen b) bs < 0.
Proof.
  intros. pose proof (Z.rem_nonneg (zlen b) bs ltac:(lia) (zlen_nonneg b)). lia.
Qed.

Lemma zero_padding_ok (b : list Z) bs : 1 <= bs -> zero_padding b bs = Ok (b ++ repeat 0 (Z.to_nat (padlen b bs))).
Proof.
  intros H. unfold zero_padding. destruct (Z.eqb_spec bs 0); [lia|]. rewrite rem_mod by lia.
  pose proof (padlen_range b bs H). unfold padlen in *.
  destruct (Z.ltb_spec (bs - zlen b mod bs) 0); [lia|reflexivity].
Qed.
Lemma zero_padding_panic (b : list Z) bs : bs <= 0 -> zero_padding b bs = Panic.
Proof.
  intros H. unfold zero_padding. destruct (Z.eqb_spec bs 0); auto.
  rewrite (proj2 (Z.ltb_lt _ _)); auto. apply neg_pad. lia.
Qed.
Lemma pkcs5_padding_ok (b : list Z) bs : 1 <= bs ->
  pkcs5_padding b bs = Ok (b ++ repeat (to_byte (padlen b bs)) (Z.to_nat (padlen b bs))).
Proof.
  intros H. unfold pkcs5_padding. destruct (Z.eqb_spec bs 0); [lia|]. rewrite rem_mod by lia.
  pose proof (padlen_range b bs H). unfold padlen in *.
  destruct (Z.ltb_spec (bs - zlen b mod bs) 0); [lia|reflexivity].
Qed.
Lemma pkcs5_padding_panic (b : list Z) bs : bs <= 0 -> pkcs5_padding b bs = Panic.
Proof.
  intros H. unfold pkcs5_padding. destruct (Z.eqb_spec bs 0); auto.
  rewrite (proj2 (Z.ltb_lt _ _)); auto. apply neg_pad. lia.
Qed.

Lemma upd_app_mid {A} (l r : list A) x v : upd (l ++ x :: r) (length l) v = l ++ v :: r.
Proof. induction l; cbn; [reflexivity|f_equal; auto]. Qed.

Lemma pad_loop_spec n : forall pre v,
  pad_loop n (pre ++ repeat 0 n) (zlen pre) v = Ok (pre ++ repeat v n).
Proof.
  induction n as [|n IH]; intros pre v; cbn [pad_loop repeat]; [reflexivity|].
  rewrite zset_Ok by (unfold zlen; rewrite app_length; cbn; lia). cbn [bind].
  replace (Z.to_nat (zlen pre)) with (length pre) by (unfold zlen; lia).
  rewrite upd_app_mid.
  replace (pre ++ v :: repeat 0 n) with ((pre ++ [v]) ++ repeat 0 n) by (rewrite <- app_assoc; reflexivity).
  replace (zlen pre + 1) with (zlen (pre ++ [v])) by (unfold zlen; rewrite app_length; cbn; lia).
  rewrite IH. rewrite <- app_assoc. reflexivity.
Qed.

Lemma pkcs7_padding_ok (b : list Z) bs : 1 <= bs ->
  pkcs7_padding b bs = Ok (b ++ repeat (to_byte (padlen b bs)) (Z.to_nat (padlen b bs))).
Proof.
  intros H. unfold pkcs7_padding. destruct (Z.eqb_spec bs 0); [lia|]. rewrite rem_mod by lia.
  fold (padlen b bs). pose proof (padlen_range b bs H). pose proof (zlen_nonneg b).
  destruct (Z.ltb_spec (zlen b + padlen b bs) 0); [lia|].
  set (p := padlen b bs) in *.
  assert (L : length (repeat 0 (Z.to_nat (zlen b + p))) = (length b + Z.to_nat p)%nat).
  { rewrite repeat_length. unfold zlen. lia. }
  rewrite zslice_Ok by (unfold zlen in *; lia). cbn [bind].
  replace (Z.to_nat (zlen b - 0)) with (length b) by (unfold zlen; lia).
  change (Z.to_nat 0) with O. cbn [skipn].
  replace (repeat 0 (Z.to_nat (zlen b + p))) with (repeat 0 (length b) ++ repeat 0 (Z.to_nat p)).
  2:{ rewrite <- repeat_app. f_equal. unfold zlen. lia. }
  rewrite firstn_app, skipn_app, repeat_length, Nat.sub_diag. cbn [firstn skipn].
  rewrite firstn_all2 by (rewrite repeat_length; lia).
  rewrite (skipn_all2 (repeat 0 (length b))) by (rewrite repeat_length; lia).
  rewrite app_nil_r. cbn [app].
  unfold gocopy. cbn [fst]. rewrite repeat_length, Nat.min_id, firstn_all.
  rewrite skipn_all2 by (rewrite repeat_length; lia). rewrite app_nil_r.
  replace (Z.to_nat (zlen (b ++ repeat 0 (Z.to_nat p)) - zlen b)) with (Z.to_nat p).
  2:{ unfold zlen. rewrite app_length, repeat_length. lia. }
  apply pad_loop_spec.
Qed.

Lemma pkcs7_padding_panic (b : list Z) bs : bs <= 0 -> pkcs7_padding b bs = Panic.
Proof.
  intros H. unfold pkcs7_padding. destruct (Z.eqb_spec bs 0); auto.
  pose proof (neg_pad b bs ltac:(lia)). pose proof (zlen_nonneg b).
  set (p := bs - Z.rem (zlen b) bs) in *.
  destruct (Z.ltb_spec (zlen b + p) 0); auto.
  unfold zslice. destruct (Z.leb_spec (zlen b) (zlen (repeat 0 (Z.to_nat (zlen b + p))))) as [L|L].
  - unfold zlen in L at 2. rewrite repeat_length in L. lia.
  - rewrite !andb_false_r. reflexivity.
Qed.

Lemma pad_is_pads (b : list Z) bs v : 1 <= bs -> pads bs b (b ++ repeat v (Z.to_nat (padlen b bs))).
Proof.
  intros H. pose proof (padlen_range b bs H). split.
  - exists (repeat v (Z.to_nat (padlen b bs))). split; auto. unfold zlen. rewrite repeat_length. lia.
  - replace (zlen (b ++ repeat v (Z.to_nat (padlen b bs)))) with (zlen b + padlen b bs).
    + now apply padlen_div.
    + rewrite zlen_app. unfold zlen at 3. rewrite repeat_length. lia.
Qed.

Lemma unpad_eq (b : list Z) : pkcs7_unpadding b = pkcs5_unpadding b.
Proof. reflexivity. Qed.

(** Unpadding of any data. *)
Lemma unpad_exact (b : list Z) : bytes b ->
  pkcs5_unpadding b =
  match b with
  | [] => Panic
  | _ => if last b 0 <=? zlen b then Ok (firstn (Z.to_nat (zlen b - last b 0)) b) else Panic
  end.
Proof.
  intros Hb. unfold pkcs5_unpadding. destruct b as [|x t]; [reflexivity|].
  set (b := x :: t) in *.
  assert (L : (0 < length b)%nat) by (cbn; lia).
  rewrite (zget_Ok _ _ 0) by (unfold zlen; lia). cbn [bind].
  replace (Z.to_nat (zlen b - 1)) with (length b - 1)%nat by (unfold zlen; lia).
  assert (E : nth (length b - 1) b 0 = last b 0).
  { apply nth_last_eq. }
  rewrite E.
  assert (B : 0 <= last b 0 < 256).
  { rewrite <- E. unfold bytes in Hb. rewrite Forall_forall in Hb. apply Hb. apply nth_In. lia. }
  destruct (Z.leb_spec (last b 0) (zlen b)) as [Hl|Hl].
  - rewrite zslice_Ok by lia. rewrite Z.sub_0_r. reflexivity.
  - unfold zslice. destruct (Z.leb_spec 0 (zlen b - last b 0)); [lia|]. rewrite andb_false_r. reflexivity.
Qed.

Lemma last_app_repeat (d : list Z) v n : (0 < n)%nat -> last (d ++ repeat v n) 0 = v.
Proof.
  intros H. destruct n; [lia|]. replace (repeat v (S n)) with (repeat v n ++ [v]).
  - rewrite app_assoc. apply last_last.
  - clear. induction n; cbn in *; [reflexivity|f_equal; auto].
Qed.

Lemma to_byte_range x : 0 <= to_byte x < 256.
Proof. unfold to_byte, wrap. change (2 ^ 8) with 256. lia. Qed.

Lemma bytes_app a b : bytes (a ++ b) <-> bytes a /\ bytes b.
Proof. apply Forall_app. Qed.
Lemma bytes_repeat v n : 0 <= v < 256 -> bytes (repeat v n).
Proof. intros. apply Forall_forall. intros x Hx. apply repeat_spec in Hx. subst. auto. Qed.

Lemma unpad_padded (b : list Z) bs : 1 <= bs -> bytes b ->
  pkcs5_unpadding (b ++ repeat (to_byte (padlen b bs)) (Z.to_nat (padlen b bs)))
  = Ok (firstn (Z.to_nat (zlen b + padlen b bs - padlen b bs mod 256)) (b ++ repeat (to_byte (padlen b bs)) (Z.to_nat (padlen b bs)))).
Proof.
  intros H Hb. pose proof (padlen_range b bs H). set (p := padlen b bs) in *.
  rewrite unpad_exact.
  2:{ apply bytes_app. split; auto. apply bytes_repeat, to_byte_range. }
  pose proof (zlen_nonneg b).
  assert (L : zlen (b ++ repeat (to_byte p) (Z.to_nat p)) = zlen b + p).
  { unfold zlen. rewrite app_length, repeat_length. lia. }
  rewrite last_app_repeat by lia.
  destruct (b ++ repeat (to_byte p) (Z.to_nat p)) as [|y u] eqn:E.
  { cbn in L. lia. }
  rewrite L. unfold to_byte, wrap. change (2 ^ 8) with 256.
  destruct (Z.leb_spec (p mod 256) (zlen b + p)) as [Hl|Hl]; [reflexivity|lia].
Qed.

Lemma unpad_roundtrip (b : list Z) bs : 1 <= bs -> bytes b ->
  (pkcs5_unpadding (b ++ repeat (to_byte (padlen b bs)) (Z.to_nat (padlen b bs))) = Ok b <-> padlen b bs < 256).
Proof.
  intros H Hb. rewrite unpad_padded by auto. pose proof (padlen_range b bs H). set (p := padlen b bs) in *.
  pose proof (zlen_nonneg b). split.
  - intros E. injection E as E. apply (f_equal (@length Z)) in E.
    rewrite firstn_length_le in E by (rewrite app_length, repeat_length; unfold zlen in *; lia).
    unfold zlen in *. lia.
  - intros Hp. rewrite (Z.mod_small p) by lia.
    replace (Z.to_nat (zlen b + p - p)) with (length b) by (unfold zlen; lia).
    rewrite firstn_app, firstn_all, Nat.sub_diag. cbn. now rewrite app_nil_r.
Qed.

(** Zero padding. *)
Lemma drop_zeros_spec (b : list Z) : exists k, b = repeat 0 k ++ drop_zeros b /\ hd 1 (drop_zeros b) <> 0.
Proof.
  induction b as [|x t (k & E & H)]; cbn [drop_zeros].
  - exists O. split; [reflexivity|cbn; lia].
  - destruct (Z.eqb_spec x 0) as [->|n].
    + exists (S k). split; auto. cbn. now f_equal.
    + exists O. split; [reflexivity|auto].
Qed.

Lemma rev_repeat {A} (v : A) n : rev (repeat v n) = repeat v n.
Proof.
  induction n; cbn; [reflexivity|]. rewrite IHn.
  clear. induction n; cbn in *; [reflexivity|f_equal; auto].
Qed.

Lemma zero_unpadding_spec (b : list Z) : without_trailing_zeros b (zero_unpadding b).
Proof.
  unfold zero_unpadding, without_trailing_zeros. destruct (drop_zeros_spec (rev b)) as (k & E & H). split.
  - exists k. apply (f_equal (@rev Z)) in E. rewrite rev_involutive, rev_app_distr, rev_repeat in E. exact E.
  - destruct (drop_zeros (rev b)) as [|x t]; cbn in *; auto. right. now rewrite last_last.
Qed.

Lemma drop_zeros_repeat n b : drop_zeros (repeat 0 n ++ b) = drop_zeros b.
Proof. induction n; cbn; auto. Qed.

Lemma zero_unpadding_pad (b : list Z) n : zero_unpadding (b ++ repeat 0 n) = zero_unpadding b.
Proof. unfold zero_unpadding. now rewrite rev_app_distr, rev_repeat, drop_zeros_repeat. Qed.

Lemma stripped_unique m r r' : without_trailing_zeros m r -> without_trailing_zeros m r' -> r = r'.
Proof.
  intros [(k & E) H] [(k' & E') H'].
  assert (G : forall k k' r r', (k <= k')%nat -> r ++ repeat 0 k = r' ++ repeat 0 k' -> (r = [] \/ last r 0 <> 0) -> r = r' :> list Z).
  { clear. intros k k' r r' L E H.
    replace k' with ((k' - k) + k)%nat in E by lia. rewrite repeat_app, app_assoc in E.
    apply app_inv_tail in E. subst r. destruct (k' - k)%nat as [|j] eqn:Ej.
    - now rewrite app_nil_r.
    - exfalso. destruct H as [H|H].
      + apply app_eq_nil in H. destruct H as [_ H]. discriminate.
      + apply H. apply last_app_repeat. lia. }
  rewrite E in E'. destruct (Nat.le_ge_cases k k').
  - eapply G; eauto.
  - symmetry. eapply G; eauto.
Qed.

Lemma stripped_self m : without_trailing_zeros m m <-> m = [] \/ last m 0 <> 0.
Proof.
  split; [intros [_ H]; exact H|]. intros H. split; auto. exists O. cbn. now rewrite app_nil_r.
Qed.

(** ** Caller's memory *)
Lemma pad_append_spec grow (s : gslice Z) fill padding : (glen s <= length (garr s))%nat -> 0 <= padding ->
  let (r, s') := pad_append grow s fill padding in
  visible r = visible s ++ repeat fill (Z.to_nat padding) /\
  visible s' = visible s /\ glen s' = glen s /\
  (forall i, nth i (garr s') 0 =
     if (glen s <=? i)%nat && (i <? glen s + Z.to_nat padding)%nat && (glen s + Z.to_nat padding <=? length (garr s))%nat
     then fill else nth i (garr s) 0).
Proof.
  intros Hl Hp. unfold pad_append. set (n := Z.to_nat padding) in *.
  unfold gappend. rewrite repeat_length.
  destruct (Nat.leb_spec (glen s + n) (length (garr s))) as [L|L]; cbn [garr glen visible].
  - assert (LL : length (firstn (glen s) (garr s)) = glen s) by (apply firstn_length_le; lia).
    repeat split.
    + unfold visible; cbn [garr glen]. rewrite app_assoc, firstn_app.
      rewrite firstn_all2 by (rewrite app_length, repeat_length; lia).
      rewrite app_length, repeat_length, LL, Nat.sub_diag. cbn. now rewrite app_nil_r.
    + unfold visible; cbn [garr glen]. rewrite firstn_app, LL, Nat.sub_diag. cbn.
      rewrite app_nil_r. rewrite firstn_all2; auto. lia.
    + intros i. rewrite andb_true_r.
      destruct (Nat.leb_spec (glen s) i); cbn [andb].
      * rewrite app_nth2 by lia. rewrite LL.
        destruct (Nat.ltb_spec i (glen s + n)).
        -- rewrite app_nth1 by (rewrite repeat_length; lia). apply nth_repeat_in. lia.
        -- rewrite app_nth2 by (rewrite repeat_length; lia). rewrite repeat_length, nth_skipn. f_equal. lia.
      * rewrite app_nth1 by lia. rewrite <- (firstn_skipn (glen s) (garr s)) at 2.
        rewrite app_nth1 by lia. reflexivity.
  - repeat split.
    + unfold visible; cbn [garr glen]. rewrite app_assoc, firstn_app.
      assert (LL : length (firstn (glen s) (garr s)) = glen s) by (apply firstn_length_le; lia).
      rewrite firstn_all2 by (rewrite app_length, repeat_length; lia).
      rewrite app_length, repeat_length, LL, Nat.sub_diag. cbn. now rewrite app_nil_r.
    + intros i. rewrite andb_false_r. reflexivity.
Qed.
