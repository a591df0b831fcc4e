(** DES is a block cipher: proofs for DesProps. *)
From Coq Require Import ZArith List Bool Lia.
From Coq Require Import ZifyBool ZifyNat.
From Verif Require Import GoBase CryptoSpec DesModel.
Import ListNotations.

(** ** Bits and bytes *)
Definition all_bytes : list Z := map Z.of_nat (seq 0 256).
Lemma all_byte : forall f, forallb f all_bytes = true -> forall x, (0 <= x < 256)%Z -> f x = true.
Proof.
  intros f H x Hx. apply (proj1 (forallb_forall f all_bytes) H). unfold all_bytes. apply in_map_iff. exists (Z.to_nat x).
  split; [lia|]. apply in_seq. lia.
Qed.
Lemma byte_bits : forall x, (0 <= x < 256)%Z -> byte_of_bits (bits_of_byte x) = x.
Proof.
  intros x Hx. apply Z.eqb_eq. exact (all_byte (fun x => Z.eqb (byte_of_bits (bits_of_byte x)) x) ltac:(vm_compute; reflexivity) x Hx).
Qed.
Lemma bits_byte : forall a b c d e f g h, let x := byte_of_bits [a; b; c; d; e; f; g; h] in
  (0 <= x < 256)%Z /\ bits_of_byte x = [a; b; c; d; e; f; g; h].
Proof. intros [] [] [] [] [] [] [] []; vm_compute; repeat split; discriminate. Qed.
Lemma bits_of_cons : forall x b, bits_of (x :: b) = bits_of_byte x ++ bits_of b.
Proof. reflexivity. Qed.
Lemma bits_of_length : forall b, length (bits_of b) = (8 * length b)%nat.
Proof. induction b as [|x b IH]; [reflexivity|]. rewrite bits_of_cons, app_length, IH. cbn [length bits_of_byte map]. lia. Qed.
Lemma bytes_bits : forall b, bytes b -> bytes_of (bits_of b) = b.
Proof.
  induction b as [|x b IH]; intro H; [reflexivity|]. apply Forall_cons_iff in H. destruct H as [Hx H]. rewrite bits_of_cons.
  transitivity (byte_of_bits (bits_of_byte x) :: bytes_of (bits_of b)); [reflexivity|]. now rewrite byte_bits, IH.
Qed.
Lemma bits_bytes : forall n l, length l = (8 * n)%nat -> bytes (bytes_of l) /\ length (bytes_of l) = n /\ bits_of (bytes_of l) = l.
Proof.
  induction n as [|n IH]; intros l L.
  - destruct l; [|discriminate]. repeat split. constructor.
  - replace (8 * S n)%nat with (S (S (S (S (S (S (S (S (8 * n))))))))) in L by lia.
    do 8 (destruct l as [|? l]; [discriminate|]).
    destruct (IH l) as (A & B & C); [cbn in L; lia|].
    destruct (bits_byte b b0 b1 b2 b3 b4 b5 b6) as [X Y].
    change (bytes_of (b :: b0 :: b1 :: b2 :: b3 :: b4 :: b5 :: b6 :: l)) with (byte_of_bits [b; b0; b1; b2; b3; b4; b5; b6] :: bytes_of l).
    set (x := byte_of_bits [b; b0; b1; b2; b3; b4; b5; b6]) in *. split; [|split].
    + constructor; auto.
    + cbn [length]. now rewrite B.
    + rewrite bits_of_cons, Y, C. reflexivity.
Qed.

(** ** Selections *)
Lemma sel_length : forall t l, length (sel t l) = length t.
Proof. intros. apply map_length. Qed.
Lemma sel_sel : forall t1 t2 l, forallb (fun i => (1 <=? i) && (i <=? length t2))%nat t1 = true ->
  sel t1 (sel t2 l) = sel (map (fun i => nth (i - 1) t2 0%nat) t1) l.
Proof.
  intros t1 t2 l H. unfold sel. rewrite map_map. apply map_ext_in. intros i Hi. rewrite forallb_forall in H.
  specialize (H i Hi). apply andb_true_iff in H. destruct H as [H1 H2]. apply Nat.leb_le in H1, H2.
  rewrite (nth_indep _ false (nth (0 - 1)%nat l false)) by (rewrite map_length; lia).
  now rewrite (map_nth (fun i => nth (i - 1) l false)).
Qed.
Lemma sel_id : forall l, sel (seq 1 (length l)) l = l.
Proof.
  induction l as [|x l IH]; [reflexivity|]. cbn [length seq sel map]. f_equal.
  rewrite <- IH at 2. unfold sel. rewrite <- (seq_shift (length l) 1), map_map. apply map_ext_in.
  intros i Hi. apply in_seq in Hi. replace (S i - 1)%nat with (S (i - 1)) by lia. reflexivity.
Qed.
Lemma fp_ip : forall l, length l = 64%nat -> sel des_FP (sel des_IP l) = l.
Proof.
  intros l L. rewrite sel_sel by reflexivity. rewrite <- (sel_id l) at 2. rewrite L. f_equal.
Qed.
Lemma ip_fp : forall l, length l = 64%nat -> sel des_IP (sel des_FP l) = l.
Proof.
  intros l L. rewrite sel_sel by reflexivity. rewrite <- (sel_id l) at 2. rewrite L. f_equal.
Qed.

(** ** Rounds *)
Lemma xor_bits_length : forall a b, length a = length b -> length (xor_bits a b) = length a.
Proof. intros a b H. unfold xor_bits. rewrite map_length, combine_length. lia. Qed.
Lemma xor_bits_undo : forall a b, length a = length b -> xor_bits (xor_bits a b) b = a.
Proof.
  induction a as [|x a IH]; intros [|y b] H; try discriminate; [reflexivity|].
  change (xor_bits (xor_bits (x :: a) (y :: b)) (y :: b)) with (xorb (xorb x y) y :: xor_bits (xor_bits a b) b).
  rewrite IH by (cbn in H; lia). f_equal. destruct x, y; reflexivity.
Qed.
Lemma des_f_length : forall r k, length (des_f r k) = 32%nat.
Proof. intros. unfold des_f. now rewrite sel_length. Qed.
Fixpoint rounds (ks : list (list bool)) (l r : list bool) : list bool * list bool :=
  match ks with
  | [] => (l, r)
  | k :: ks => rounds ks r (xor_bits l (des_f r k))
  end.
Lemma feistel_rounds : forall ks l r, feistel ks l r = snd (rounds ks l r) ++ fst (rounds ks l r).
Proof. induction ks as [|k ks IH]; intros l r; [reflexivity|]. apply IH. Qed.
Lemma rounds_app : forall ks k l r, rounds (ks ++ k) l r = rounds k (fst (rounds ks l r)) (snd (rounds ks l r)).
Proof. induction ks as [|k0 ks IH]; intros k l r; [reflexivity|]. cbn [app rounds]. apply IH. Qed.
Lemma rounds_length : forall ks l r, length l = 32%nat -> length r = 32%nat ->
  length (fst (rounds ks l r)) = 32%nat /\ length (snd (rounds ks l r)) = 32%nat.
Proof.
  induction ks as [|k ks IH]; intros l r Hl Hr; [now split|]. cbn [rounds]. apply IH; auto.
  rewrite xor_bits_length; [assumption|now rewrite des_f_length].
Qed.
Lemma rounds_undo : forall ks l r, length l = 32%nat -> length r = 32%nat ->
  rounds (rev ks) (snd (rounds ks l r)) (fst (rounds ks l r)) = (r, l).
Proof.
  induction ks as [|k ks IH]; intros l r Hl Hr; [reflexivity|]. cbn [rounds rev].
  rewrite rounds_app, IH; auto.
  - cbn [fst snd rounds]. rewrite xor_bits_undo; [reflexivity|now rewrite des_f_length].
  - rewrite xor_bits_length; [assumption|now rewrite des_f_length].
Qed.

Lemma firstn_exact : forall (a b : list bool) n, length a = n -> firstn n (a ++ b) = a.
Proof. intros a b n <-. rewrite firstn_app, Nat.sub_diag, firstn_all. cbn. apply app_nil_r. Qed.
Lemma skipn_exact : forall (a b : list bool) n, length a = n -> skipn n (a ++ b) = b.
Proof. intros a b n <-. rewrite skipn_app, Nat.sub_diag, skipn_all. reflexivity. Qed.

Lemma block_undo : forall ks, undone_by 8 (des_block ks) (des_block (rev ks)).
Proof.
  intros ks b Hb L. unfold des_block.
  assert (LB : length (bits_of b) = 64%nat) by (rewrite bits_of_length; lia).
  set (p := sel des_IP (bits_of b)). assert (LP : length p = 64%nat) by (unfold p; now rewrite sel_length).
  assert (L1 : length (firstn 32 p) = 32%nat) by (apply firstn_length_le; lia).
  assert (L2 : length (skipn 32 p) = 32%nat) by (rewrite skipn_length; lia).
  destruct (rounds_length ks _ _ L1 L2) as [R1 R2]. pose proof (rounds_undo ks _ _ L1 L2) as U.
  rewrite feistel_rounds. set (l' := fst (rounds ks (firstn 32 p) (skipn 32 p))) in *. set (r' := snd (rounds ks (firstn 32 p) (skipn 32 p))) in *.
  destruct (bits_bytes 8 (sel des_FP (r' ++ l'))) as (B1 & B2 & B3); [now rewrite sel_length|].
  split; [exact B1|]. split; [exact B2|]. rewrite B3, ip_fp by (rewrite app_length; lia).
  rewrite (firstn_exact r' l' 32 R2), (skipn_exact r' l' 32 R2), feistel_rounds, U. cbn [fst snd].
  rewrite firstn_skipn. unfold p. rewrite fp_ip by exact LB. now apply bytes_bits.
Qed.
Lemma des_cipher : block_cipher 8 (fun k => bytes k /\ length k = 8%nat) des_E des_D.
Proof.
  intros k _. split; [apply block_undo|]. unfold des_D, des_E.
  pose proof (block_undo (rev (des_keys k))) as H. now rewrite rev_involutive in H.
Qed.
