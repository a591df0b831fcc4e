(** Triple DES with DES itself, and what texts show of the messages: proofs for DesProps. *)
From Coq Require Import ZArith List Bool Lia.
From Coq Require Import ZifyBool ZifyNat.
From Verif Require Import GoBase GoLists CryptoModel CryptoSpec QueueProofs CryptoProofs CryptoCipher CryptoMain AesSpec AesChain DesModel DesSpec DesProofs.
Import ListNotations.
Ltac Zify.zify_post_hook ::= Z.div_mod_to_equations.
Open Scope Z_scope.

(** ** Blocks *)
Lemma blocks_exist : forall n k l, length l = (n * k)%nat -> exists bs, blocks_of n l bs /\ length bs = k.
Proof.
  intros n. induction k as [|k IH]; intros l L.
  - exists []. split; [|reflexivity]. split; [|constructor]. destruct l; [reflexivity|cbn in L; lia].
  - destruct (IH (skipn n l)) as (bs & [B1 B2] & B3); [rewrite skipn_length; lia|].
    exists (firstn n l :: bs). split; [|cbn; lia]. split; [cbn [concat]; rewrite B1; apply firstn_skipn|].
    constructor; [apply firstn_length_le; lia|exact B2].
Qed.
Lemma ecb_concat : forall f bs, Forall (fun b => length b = 8%nat) bs -> ecb_loop f (length bs) (concat bs) = concat (map f bs).
Proof.
  intros f bs H. induction H as [|b bs L H IH]; [reflexivity|]. cbn [length concat map ecb_loop].
  rewrite firstn_app_le, firstn_all2 by lia. rewrite skipn_app_le, skipn_all2 by lia. cbn [app]. now rewrite IH.
Qed.
Lemma map_undone : forall n f g bs, undone_by n f g -> Forall (fun b => bytes b /\ length b = n) bs ->
  Forall (fun b => bytes b /\ length b = n) (map f bs).
Proof. intros n f g bs U H. induction H as [|b bs [B L] H IH]; constructor; auto. destruct (U b B L) as (X & Y & _). now split. Qed.
Lemma blocks_bytes : forall n bs, bytes (concat bs) -> Forall (fun b => length b = n) bs -> Forall (fun b => bytes b /\ length b = n) bs.
Proof.
  intros n bs B H. induction H as [|b bs L H IH]; constructor; cbn [concat] in B; apply bytes_app in B; [split; tauto|tauto].
Qed.
Lemma lengths : forall n bs, Forall (fun b => bytes b /\ length b = n) bs -> Forall (fun b => length b = n) bs.
Proof. intros n bs H. eapply Forall_impl; [|exact H]. cbn. tauto. Qed.

Lemma part_eq : forall key, 
  firstn 8 (tkey key) = key_part 0 key /\ firstn 8 (skipn 8 (tkey key)) = key_part 1 key /\ skipn 16 (tkey key) = key_part 2 key.
Proof.
  intro key. rewrite tkey_eq. unfold key_part. set (l := key ++ repeat 0 24).
  change (8 * 0)%nat with 0%nat. change (8 * 1)%nat with 8%nat. change (8 * 2)%nat with 16%nat. change (skipn 0 l) with l.
  rewrite !skipn_firstn_comm, !firstn_firstn. repeat split.
Qed.

Lemma zpad_facts : forall m, bytes m -> zero_padding m 8 = Ok (zpadded m) /\ bytes (zpadded m) /\
  exists n, length (zpadded m) = (8 * n)%nat /\ (1 <= n)%nat.
Proof.
  intros m Bm. assert (E : zpadded m = m ++ repeat 0 (Z.to_nat (padlen m 8))) by reflexivity.
  split; [rewrite E; now apply zero_padding_ok|]. split; [rewrite E; apply bytes_app; split; auto; apply bytes_repeat; lia|].
  pose proof (padlen_range m 8 ltac:(lia)) as Hp. destruct (padlen_div m 8 ltac:(lia)) as [q Hq].
  exists (Z.to_nat q). rewrite E, app_length, repeat_length. unfold zlen in Hq. lia.
Qed.

Lemma tdes_blocks : forall E D key m, block_cipher 8 (fun k => bytes k /\ length k = 8%nat) E D -> bytes key -> bytes m ->
  exists bs, blocks_of 8 (zpadded m) bs /\ Forall (fun b => bytes b /\ length b = 8%nat) bs /\
    tdes_encrypt E D m key = Ok (Some (concat (map (fun b => E (key_part 2 key) (D (key_part 1 key) (E (key_part 0 key) b))) bs))).
Proof.
  intros E D key m HB Bk Bm. destruct (tkey_parts key Bk) as (K1 & K2 & K3). destruct (part_eq key) as (P1 & P2 & P3).
  destruct (zpad_facts m Bm) as (Z1 & Z2 & n & Ln & Hn).
  destruct (blocks_exist 8 n (zpadded m) Ln) as (bs & [C1 C2] & C3).
  exists bs. split; [now split|]. rewrite <- C1 in Z2. pose proof (blocks_bytes 8 bs Z2 C2) as G0. split; [exact G0|].
  unfold tdes_encrypt. rewrite Z1. cbn [bind]. rewrite P1, P2, P3 in *.
  pose proof (map_undone 8 _ _ bs (proj1 (HB _ K1)) G0) as G1.
  pose proof (map_undone 8 _ _ _ (proj2 (HB _ K2)) G1) as G2.
  assert (LC : forall l : list (list Z), Forall (fun b => bytes b /\ length b = 8%nat) l -> length (concat l) = (8 * length l)%nat).
  { intros l Hl. induction Hl as [|b l [_ Lb] Hl IHl]; [reflexivity|]. cbn [concat length]. rewrite app_length, IHl. lia. }
  rewrite (des_ecb_ok E (zpadded m) _ n (proj2 K1) Ln Hn), <- C1, <- C3, (ecb_concat _ _ C2).
  rewrite (des_ecb_ok D _ _ n (proj2 K2)); [|rewrite (LC _ G1), map_length; lia|exact Hn].
  rewrite <- C3. rewrite <- (map_length (E (key_part 0 key)) bs) at 1. rewrite (ecb_concat _ _ (lengths _ _ G1)).
  rewrite (des_ecb_ok E _ _ n (proj2 K3)); [|rewrite (LC _ G2), !map_length; lia|exact Hn].
  rewrite <- C3. rewrite <- (map_length (E (key_part 0 key)) bs) at 1. rewrite <- (map_length (D (key_part 1 key)) (map (E (key_part 0 key)) bs)) at 1.
  rewrite (ecb_concat _ _ (lengths _ _ G2)). rewrite !map_map. reflexivity.
Qed.

Lemma tdes_concrete : forall key m, bytes key -> bytes m ->
  exists bs r, blocks_of 8 (zpadded m) bs /\
    let c := concat (map (fun b => des_E (key_part 2 key) (des_D (key_part 1 key) (des_E (key_part 0 key) b))) bs) in
    tdes_encrypt des_E des_D m key = Ok (Some c) /\ tdes_decrypt des_E des_D c key = Some r /\ without_trailing_zeros m r.
Proof.
  intros key m Bk Bm. destruct (tdes_blocks des_E des_D key m des_cipher Bk Bm) as (bs & B1 & _ & B2).
  destruct (tdes_partial des_E des_D key m des_cipher Bk Bm) as [(c & r & T1 & _ & _ & T2 & T3 & _) _].
  assert (c = concat (map (fun b => des_E (key_part 2 key) (des_D (key_part 1 key) (des_E (key_part 0 key) b))) bs)) as -> by congruence.
  exists bs, r. split; [exact B1|]. cbv zeta. split; [exact T1|]. split; assumption.
Qed.
Lemma encode_concrete : forall src, bytes src ->
  exists t r, code_encode des_E des_D src = Ok t /\ Forall is_b64 t /\ t <> [] /\ (4 | zlen t) /\
    code_decode des_E des_D t = r /\ without_trailing_zeros src r.
Proof. intros src B. exact (encode_decode des_E des_D src des_cipher B). Qed.

(** ** Parity *)
Lemma parity_bit : forall x y i, x / 2 = y / 2 -> 1 <= i -> Z.testbit x i = Z.testbit y i.
Proof.
  intros x y i H Hi. replace i with (i - 1 + 1) by lia.
  rewrite <- (Z.div_pow2_bits x 1 (i - 1)), <- (Z.div_pow2_bits y 1 (i - 1)) by lia. change (2 ^ 1) with 2. now rewrite H.
Qed.
Lemma parity_nth : forall k1 k2, same_but_parity k1 k2 -> forall i, (i mod 8 <> 7)%nat ->
  nth i (bits_of k1) false = nth i (bits_of k2) false.
Proof.
  intros k1 k2 H. induction H as [|x y k1 k2 Hxy H IH]; intros i Hi; [reflexivity|].
  rewrite !bits_of_cons. destruct (Nat.lt_ge_cases i 8) as [L|L].
  - rewrite !app_nth1 by (cbn; lia).
    unfold bits_of_byte. do 7 (destruct i as [|i]; [cbn [nth map]; apply parity_bit; [exact Hxy|lia]|]).
    destruct i; [cbn in Hi; lia|lia].
  - rewrite !app_nth2 by (cbn; lia). apply IH. cbn [length bits_of_byte map].
    replace i with (i - 8 + 1 * 8)%nat in Hi by lia. rewrite Nat.mod_add in Hi by lia. exact Hi.
Qed.
Lemma parity_length : forall k1 k2, same_but_parity k1 k2 -> length k1 = length k2.
Proof. intros k1 k2 H. induction H; cbn; congruence. Qed.
Lemma parity_keys : forall k1 k2, same_but_parity k1 k2 -> des_keys k1 = des_keys k2.
Proof.
  intros k1 k2 H. unfold des_keys. assert (E : sel des_PC1 (bits_of k1) = sel des_PC1 (bits_of k2)).
  { unfold sel. apply map_ext_in. intros i Hi. apply parity_nth; auto.
    assert (A : forallb (fun i => negb ((i - 1) mod 8 =? 7)%nat) des_PC1 = true) by reflexivity.
    rewrite forallb_forall in A. specialize (A i Hi). apply negb_true_iff, Nat.eqb_neq in A. exact A. }
  now rewrite E.
Qed.
Lemma parity_parts : forall k1 k2, same_but_parity k1 k2 -> forall a b, same_but_parity (firstn a (skipn b k1)) (firstn a (skipn b k2)).
Proof.
  assert (S : forall b k1 k2, same_but_parity k1 k2 -> same_but_parity (skipn b k1) (skipn b k2)).
  { induction b as [|b IH]; intros k1 k2 H; [exact H|]. destruct H; [constructor|]. now apply IH. }
  assert (F : forall a k1 k2, same_but_parity k1 k2 -> same_but_parity (firstn a k1) (firstn a k2)).
  { induction a as [|a IH]; intros k1 k2 H; [constructor|]. destruct H; [constructor|]. constructor; auto. now apply IH. }
  intros k1 k2 H a b. now apply F, S.
Qed.
Lemma des_ecb_ext : forall f data k1 k2, length k1 = length k2 -> (forall b, f k1 b = f k2 b) -> des_ecb f data k1 = des_ecb f data k2.
Proof.
  intros f data k1 k2 L H. unfold des_ecb, zlen. rewrite L.
  assert (E : forall n src, ecb_loop (f k1) n src = ecb_loop (f k2) n src).
  { induction n as [|n IH]; intro src; [reflexivity|]. cbn [ecb_loop]. now rewrite H, IH. }
  now rewrite E.
Qed.
Lemma tdes_parity : forall data k1 k2, same_but_parity k1 k2 ->
  tdes_encrypt des_E des_D data k1 = tdes_encrypt des_E des_D data k2 /\
  tdes_decrypt des_E des_D data k1 = tdes_decrypt des_E des_D data k2.
Proof.
  intros data k1 k2 H. unfold tdes_encrypt, tdes_decrypt.
  destruct (part_eq k1) as (P1 & P2 & P3). destruct (part_eq k2) as (Q1 & Q2 & Q3). rewrite P1, P2, P3, Q1, Q2, Q3.
  assert (HA : same_but_parity (k1 ++ repeat 0 24) (k2 ++ repeat 0 24)).
  { unfold same_but_parity in *. apply Forall2_app; [exact H|]. generalize 24%nat. induction n; constructor; auto. }
  assert (K : forall i, length (key_part i k1) = length (key_part i k2) /\
    (forall b, des_E (key_part i k1) b = des_E (key_part i k2) b) /\ (forall b, des_D (key_part i k1) b = des_D (key_part i k2) b)).
  { intro i. pose proof (parity_parts _ _ HA 8 (8 * i)) as P. split; [exact (parity_length _ _ P)|].
    unfold des_E, des_D. pose proof (parity_keys _ _ P) as R. change (des_keys (key_part i k1) = des_keys (key_part i k2)) in R. rewrite R. split; reflexivity. }
  assert (KE : forall i d, des_ecb des_E d (key_part i k1) = des_ecb des_E d (key_part i k2)) by (intros i d; exact (des_ecb_ext des_E d _ _ (proj1 (K i)) (proj1 (proj2 (K i))))).
  assert (KD : forall i d, des_ecb des_D d (key_part i k1) = des_ecb des_D d (key_part i k2)) by (intros i d; exact (des_ecb_ext des_D d _ _ (proj1 (K i)) (proj2 (proj2 (K i))))).
  split.
  - destruct (zero_padding data 8) as [p| |]; [|reflexivity|reflexivity]. cbn [bind].
    rewrite KE. destruct (des_ecb des_E p (key_part 0 k2)) as [l|]; [|reflexivity].
    rewrite KD. destruct (des_ecb des_D l (key_part 1 k2)) as [l'|]; [|reflexivity]. rewrite KE. reflexivity.
  - rewrite KD. destruct (des_ecb des_D data (key_part 2 k2)) as [l|]; [|reflexivity].
    rewrite KE. destruct (des_ecb des_E l (key_part 1 k2)) as [l'|]; [|reflexivity]. rewrite KD. reflexivity.
Qed.

(** ** Short keys *)
Lemma short_part : forall key i, (length key <= 8 * i)%nat -> (i < 3)%nat -> key_part i key = repeat 0 8.
Proof.
  intros key i L Hi. unfold key_part. rewrite skipn_app, skipn_all2 by lia. cbn [app].
  replace 24%nat with ((8 * i - length key) + (24 - (8 * i - length key)))%nat at 1 by lia. rewrite repeat_app, skipn_app, repeat_length.
  rewrite Nat.sub_diag, skipn_all2 by (rewrite repeat_length; lia). cbn [skipn app].
  replace (24 - (8 * i - length key))%nat with (8 + (16 - (8 * i - length key)))%nat by lia.
  rewrite repeat_app, firstn_app_le by (rewrite repeat_length; lia). apply firstn_all2. rewrite repeat_length. lia.
Qed.
Lemma tdes_short : forall E D key m, block_cipher 8 (fun k => bytes k /\ length k = 8%nat) E D -> bytes key -> bytes m -> (length key <= 8)%nat ->
  exists bs, blocks_of 8 (zpadded m) bs /\ tdes_encrypt E D m key = Ok (Some (concat (map (E (key_part 0 key)) bs))).
Proof.
  intros E D key m HB Bk Bm L. destruct (tdes_blocks E D key m HB Bk Bm) as (bs & B1 & B2 & B3).
  exists bs. split; [exact B1|]. rewrite B3. do 3 f_equal. rewrite (short_part key 1), (short_part key 2) by lia.
  apply map_ext_in. intros b Hb. rewrite Forall_forall in B2. destruct (B2 b Hb) as [Bb Lb].
  destruct (tkey_parts key Bk) as (K1 & _ & _). rewrite (proj1 (part_eq key)) in K1.
  destruct (proj1 (HB _ K1) b Bb Lb) as (X1 & X2 & _).
  assert (Z0 : bytes (repeat 0 8) /\ length (repeat 0 8) = 8%nat) by (split; [apply bytes_repeat; lia|reflexivity]).
  apply (proj2 (HB _ Z0) _ X1 X2).
Qed.

(** ** What texts show *)
Lemma block_nth : forall n bs i, Forall (fun b => length b = n) bs -> (i < length bs)%nat -> block n i (concat bs) = nth i bs [].
Proof.
  intros n bs i H. revert i. induction H as [|b bs L H IH]; intros i Hi; [cbn in Hi; lia|]. unfold block in *. destruct i as [|i].
  - rewrite Nat.mul_0_r. cbn [skipn concat nth]. rewrite firstn_app_le, firstn_all2 by lia. reflexivity.
  - cbn [concat nth]. rewrite skipn_app, skipn_all2 by lia. cbn [app].
    replace (n * S i - length b)%nat with (n * i)%nat by lia. apply IH. cbn in Hi. lia.
Qed.
Lemma concat_len : forall n bs, Forall (fun b : list Z => length b = n) bs -> length (concat bs) = (n * length bs)%nat.
Proof. intros n bs H. induction H as [|b bs L H IH]; [cbn; lia|]. cbn [concat length]. rewrite app_length, IH. lia. Qed.

Lemma tdes_pattern : forall E D key m1 m2 c1 c2 i j, block_cipher 8 (fun k => bytes k /\ length k = 8%nat) E D ->
  bytes key -> bytes m1 -> bytes m2 ->
  tdes_encrypt E D m1 key = Ok (Some c1) -> tdes_encrypt E D m2 key = Ok (Some c2) ->
  (8 * i < length c1)%nat -> (8 * j < length c2)%nat ->
  (block 8 i c1 = block 8 j c2 <-> block 8 i (zpadded m1) = block 8 j (zpadded m2)).
Proof.
  intros E D key m1 m2 c1 c2 i j HB Bk B1 B2 E1 E2 Hi Hj.
  destruct (tdes_blocks E D key m1 HB Bk B1) as (bs1 & [P1 P1'] & G1 & R1).
  destruct (tdes_blocks E D key m2 HB Bk B2) as (bs2 & [P2 P2'] & G2 & R2).
  set (f := fun b => E (key_part 2 key) (D (key_part 1 key) (E (key_part 0 key) b))) in *.
  assert (c1 = concat (map f bs1)) as -> by congruence. assert (c2 = concat (map f bs2)) as -> by congruence.
  destruct (tkey_parts key Bk) as (K1 & K2 & K3). destruct (part_eq key) as (Q1 & Q2 & Q3). rewrite Q1 in K1. rewrite Q2 in K2. rewrite Q3 in K3.
  set (g := fun b => D (key_part 0 key) (E (key_part 1 key) (D (key_part 2 key) b))).
  assert (U : undone_by 8 f g).
  { intros b Bb Lb. unfold f, g. destruct (proj1 (HB _ K1) b Bb Lb) as (X1 & X2 & X3).
    destruct (proj2 (HB _ K2) _ X1 X2) as (Y1 & Y2 & Y3). destruct (proj1 (HB _ K3) _ Y1 Y2) as (W1 & W2 & W3).
    split; [exact W1|]. split; [exact W2|]. now rewrite W3, Y3, X3. }
  pose proof (lengths _ _ (map_undone 8 f g bs1 U G1)) as L1. pose proof (lengths _ _ (map_undone 8 f g bs2 U G2)) as L2.
  rewrite (concat_len 8 _ L1), map_length in Hi. rewrite (concat_len 8 _ L2), map_length in Hj.
  assert (Hi' : (i < length bs1)%nat) by lia. assert (Hj' : (j < length bs2)%nat) by lia.
  rewrite <- P1, <- P2. rewrite !block_nth by (rewrite ?map_length; auto).
  rewrite (nth_indep (map f bs1) [] (f [])), (nth_indep (map f bs2) [] (f [])) by (rewrite map_length; lia). rewrite !map_nth.
  rewrite Forall_forall in G1, G2. pose proof (G1 _ (nth_In bs1 [] Hi')) as [X1 X2]. pose proof (G2 _ (nth_In bs2 [] Hj')) as [Y1 Y2].
  split; [|now intros ->]. intro H. destruct (U _ X1 X2) as (_ & _ & U1). destruct (U _ Y1 Y2) as (_ & _ & U2). rewrite <- U1, <- U2. now rewrite H.
Qed.

(** ** Common beginnings of CBC texts *)
Lemma concat_firstn : forall n k bs, Forall (fun b : list Z => length b = n) bs -> firstn (n * k) (concat bs) = concat (firstn k bs).
Proof.
  intros n k. induction k as [|k IH]; intros bs H; [rewrite Nat.mul_0_r; reflexivity|].
  destruct H as [|b bs L H]; [cbn; now rewrite firstn_nil|]. cbn [concat firstn]. rewrite firstn_app, firstn_all2 by lia.
  f_equal. replace (n * S k - length b)%nat with (n * k)%nat by lia. now apply IH.
Qed.
Lemma concat_inj : forall n bs1 bs2, (0 < n)%nat -> Forall (fun b : list Z => length b = n) bs1 -> Forall (fun b : list Z => length b = n) bs2 ->
  concat bs1 = concat bs2 -> bs1 = bs2.
Proof.
  intros n bs1 bs2 Hn H1. revert bs2. induction H1 as [|b bs1 L1 H1 IH]; intros bs2 H2 E.
  - destruct H2 as [|b bs2 L2 H2]; [reflexivity|]. apply (f_equal (@length Z)) in E. cbn [concat length] in E. rewrite app_length in E. cbn in E. lia.
  - destruct H2 as [|b' bs2 L2 H2]; [apply (f_equal (@length Z)) in E; cbn [concat length] in E; rewrite app_length in E; cbn in E; lia|].
    cbn [concat] in E. assert (b = b') as ->.
    { apply (f_equal (firstn n)) in E. rewrite (firstn_app_le b), (firstn_app_le b') in E by lia. now rewrite !firstn_all2 in E by lia. }
    apply app_inv_head in E. f_equal. auto.
Qed.
Lemma Forall_firstn' : forall {A} (P : A -> Prop) k l, Forall P l -> Forall P (firstn k l).
Proof. intros A P k. induction k as [|k IH]; intros l H; [constructor|]. destruct H; constructor; auto. Qed.
Lemma cbc_lengths : forall E iv ps qs iv', cbc E iv ps qs iv' -> length ps = length qs /\ Forall (fun p => length p = 16%nat) ps.
Proof. intros E iv ps qs iv' H. induction H as [|iv p ps c cs iv' L Ec H [I1 I2]]; [split; constructor|]. split; [cbn; now rewrite I1|now constructor]. Qed.
Lemma cbc_inv : forall E iv ps qs iv', cbc E iv ps qs iv' -> (ps = [] /\ qs = []) \/
  exists p ps' c qs', ps = p :: ps' /\ qs = c :: qs' /\ length p = 16%nat /\ c = E (xor_bytes p iv) /\ cbc E c ps' qs' iv'.
Proof. intros E iv ps qs iv' H. destruct H; [now left|right]. exists p, ps, c, cs. repeat split; assumption. Qed.
Lemma cbc_prefix : forall E D, undone_by 16 E D -> forall k iv ps1 qs1 i1 ps2 qs2 i2, bytes iv -> length iv = 16%nat ->
  cbc E iv ps1 qs1 i1 -> cbc E iv ps2 qs2 i2 -> Forall bytes ps1 -> Forall bytes ps2 ->
  (firstn k qs1 = firstn k qs2 <-> firstn k ps1 = firstn k ps2).
Proof.
  intros E D U. induction k as [|k IH]; intros iv ps1 qs1 i1 ps2 qs2 i2 Bi Li H1 H2 B1 B2; [cbn; tauto|].
  destruct (cbc_inv _ _ _ _ _ H1) as [[-> ->]|(p1 & ps1' & c1 & cs1 & -> & -> & L1 & E1 & H1')];
  destruct (cbc_inv _ _ _ _ _ H2) as [[-> ->]|(p2 & ps2' & c2 & cs2 & -> & -> & L2 & E2 & H2')]; try (cbn; split; (tauto || discriminate)).
  apply Forall_cons_iff in B1, B2. destruct B1 as [Bp1 B1], B2 as [Bp2 B2].
    assert (X1 : length (xor_bytes p1 iv) = 16%nat) by (rewrite xor_length; lia).
    assert (X2 : length (xor_bytes p2 iv) = 16%nat) by (rewrite xor_length; lia).
    destruct (U _ (xor_bytes_bytes p1 iv Bp1 Bi) X1) as (V1 & V2 & V3). destruct (U _ (xor_bytes_bytes p2 iv Bp2 Bi) X2) as (W1 & W2 & W3).
    assert (P : c1 = c2 <-> p1 = p2).
    { split; [|intros ->; congruence]. intro E0. rewrite E1, E2 in E0. rewrite <- (xor_cancel p1 iv), <- (xor_cancel p2 iv) by lia.
      rewrite <- V3, <- W3. now rewrite E0. }
    assert (Bc : bytes c1) by (rewrite E1; exact V1). assert (Lc : length c1 = 16%nat) by (rewrite E1; exact V2). clear E1 E2.
    cbn [firstn]. split; intro H.
    + assert (C : c1 = c2) by congruence. assert (C' : p1 = p2) by tauto. rewrite <- C in *. rewrite <- C'. f_equal.
      apply (IH c1 ps1' cs1 i1 ps2' cs2 i2); auto. congruence.
    + assert (C' : p1 = p2) by congruence. assert (C : c1 = c2) by tauto. rewrite <- C in *. f_equal.
      apply (IH c1 ps1' cs1 i1 ps2' cs2 i2); auto. congruence.
Qed.

Lemma aes_prefix : forall E D key m m1 m2 s1 s2 c1 c2 n,
  block_cipher 16 (fun k => bytes k /\ (zlen k = 16 \/ zlen k = 24 \/ zlen k = 32)) E D ->
  bytes key -> aes_new key = Some m -> bytes m1 -> bytes m2 ->
  aes_encrypt E m m1 = Ok (s1, c1) -> aes_encrypt E m m2 = Ok (s2, c2) ->
  (firstn (16 * n) c1 = firstn (16 * n) c2 <-> firstn (16 * n) (padded m1) = firstn (16 * n) (padded m2)).
Proof.
  intros E D key m m1 m2 s1 s2 c1 c2 n HB Bk N B1 B2 E1 E2.
  destruct (aes_new_ok key m Bk N) as (K & KO & [Li Bi]).
  assert (KB : bytes key /\ (zlen key = 16 \/ zlen key = 24 \/ zlen key = 32)) by (split; auto; unfold aes_key_ok in KO; lia).
  destruct (HB key KB) as [U _]. rewrite <- K in U.
  destruct (encrypt_chain E D [m1] m s1 [c1] U (conj Li Bi)) as (ps1 & qs1 & P1 & Q1 & C1 & F1); [now repeat constructor|cbn [encrypt_all]; rewrite E1; reflexivity|].
  destruct (encrypt_chain E D [m2] m s2 [c2] U (conj Li Bi)) as (ps2 & qs2 & P2 & Q2 & C2 & F2); [now repeat constructor|cbn [encrypt_all]; rewrite E2; reflexivity|].
  cbn [map concat] in *. rewrite app_nil_r in P1, P2, Q1, Q2.
  destruct (cbc_lengths _ _ _ _ _ C1) as [L1 G1]. destruct (cbc_lengths _ _ _ _ _ C2) as [L2 G2].
  assert (BP : forall b, bytes b -> bytes (padded b)).
  { intros b Hb. unfold padded. cbv zeta. apply bytes_app. split; auto. apply bytes_repeat. fold (zlen b). lia. }
  assert (FB : forall ps, Forall (fun p => length p = 16%nat) ps -> bytes (concat ps) -> Forall bytes ps).
  { intros ps HF HBy. pose proof (blocks_bytes 16 ps HBy HF) as Q. eapply Forall_impl; [|exact Q]. cbn. tauto. }
  pose proof (cbc_prefix _ _ U n _ _ _ _ _ _ _ Bi Li C1 C2 (FB _ G1 ltac:(rewrite P1; auto)) (FB _ G2 ltac:(rewrite P2; auto))) as X.
  rewrite <- P1, <- P2, <- Q1, <- Q2. rewrite !(concat_firstn 16) by auto. split; intro H.
  - f_equal. apply X. apply (concat_inj 16); auto using Forall_firstn'. lia.
  - f_equal. apply X. apply (concat_inj 16); auto using Forall_firstn'. lia.
Qed.
