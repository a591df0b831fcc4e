(** AES is a block cipher: proofs for AesProps. *)
From Coq Require Import ZArith List Bool Lia Btauto.
From Verif Require Import GoBase CryptoSpec AesModel AesSpec.
Import ListNotations.
Open Scope Z_scope.

(** ** Bytes *)
Definition all_bytes : list Z := map Z.of_nat (seq 0 256).
Lemma all_byte : forall f, forallb f all_bytes = true -> forall x, byte x -> f x = true.
Proof.
  intros f H x Hx. apply (proj1 (forallb_forall f all_bytes) H). unfold all_bytes. apply in_map_iff. exists (Z.to_nat x).
  unfold byte in Hx. split; [lia|]. apply in_seq. lia.
Qed.
Lemma all_byte2 : forall f, forallb (fun x => forallb (f x) all_bytes) all_bytes = true ->
  forall x y, byte x -> byte y -> f x y = true.
Proof. intros f H x y Hx Hy. apply (all_byte (f x)); auto. exact (all_byte (fun x => forallb (f x) all_bytes) H x Hx). Qed.

Lemma lxor_byte : forall x y, byte x -> byte y -> byte (Z.lxor x y).
Proof.
  intros x y [A B] [C D]. assert (0 <= Z.lxor x y) by (apply Z.lxor_nonneg; lia). split; [auto|].
  destruct (Z.eq_dec (Z.lxor x y) 0) as [->|N]; [lia|].
  assert (L : Z.log2 (Z.lxor x y) < 8).
  { pose proof (Z.log2_lxor x y ltac:(lia) ltac:(lia)).
    assert (forall z, 0 <= z < 256 -> Z.log2 z < 8).
    { intros z Hz. destruct (Z.eq_dec z 0) as [->|]; [cbn; lia|]. apply Z.log2_lt_pow2; lia. }
    pose proof (H1 x ltac:(lia)). pose proof (H1 y ltac:(lia)). lia. }
  apply Z.log2_lt_pow2 in L; lia.
Qed.
Lemma bbyte : forall x, byte x <-> (0 <=? x) && (x <? 256) = true.
Proof. intro x. unfold byte. rewrite andb_true_iff, Z.leb_le, Z.ltb_lt. tauto. Qed.

Lemma sub_ok : forall x, byte x -> byte (sub_byte x) /\ inv_sub_byte (sub_byte x) = x.
Proof.
  intros x Hx. pose proof (all_byte (fun x => (0 <=? sub_byte x) && (sub_byte x <? 256) && (inv_sub_byte (sub_byte x) =? x)) ltac:(vm_compute; reflexivity) x Hx) as H.
  cbv beta in H. apply andb_true_iff in H. destruct H as [H1 H2]. split; [now apply bbyte|now apply Z.eqb_eq].
Qed.
Lemma inv_sub_ok : forall x, byte x -> byte (inv_sub_byte x) /\ sub_byte (inv_sub_byte x) = x.
Proof.
  intros x Hx. pose proof (all_byte (fun x => (0 <=? inv_sub_byte x) && (inv_sub_byte x <? 256) && (sub_byte (inv_sub_byte x) =? x)) ltac:(vm_compute; reflexivity) x Hx) as H.
  cbv beta in H. apply andb_true_iff in H. destruct H as [H1 H2]. split; [now apply bbyte|now apply Z.eqb_eq].
Qed.
Lemma xtime_byte : forall x, byte x -> byte (xtime x).
Proof.
  intros x Hx. apply bbyte. exact (all_byte (fun x => (0 <=? xtime x) && (xtime x <? 256)) ltac:(vm_compute; reflexivity) x Hx).
Qed.

(** ** Multiplication by the constants *)
Definition consts : list Z := [1; 2; 3; 9; 11; 13; 14].
Lemma gmul_byte : forall c x, In c consts -> byte x -> byte (gmul c x).
Proof.
  intros c x Hc Hx. apply bbyte.
  pose proof (all_byte (fun x => forallb (fun c => (0 <=? gmul c x) && (gmul c x <? 256)) consts) ltac:(vm_compute; reflexivity) x Hx) as H.
  cbv beta in H. rewrite forallb_forall in H. now apply H.
Qed.
Lemma gmul_lin : forall c x y, In c consts -> byte x -> byte y -> gmul c (Z.lxor x y) = Z.lxor (gmul c x) (gmul c y).
Proof.
  intros c x y Hc Hx Hy.
  pose proof (all_byte2 (fun x y => forallb (fun c => gmul c (Z.lxor x y) =? Z.lxor (gmul c x) (gmul c y)) consts) ltac:(vm_compute; reflexivity) x y Hx Hy) as H.
  cbv beta in H. rewrite forallb_forall in H. apply Z.eqb_eq. now apply H.
Qed.

Lemma transpose : forall a0 a1 a2 a3 b0 b1 b2 b3 c0 c1 c2 c3 d0 d1 d2 d3,
  Z.lxor (Z.lxor a0 (Z.lxor b0 (Z.lxor c0 d0))) (Z.lxor (Z.lxor a1 (Z.lxor b1 (Z.lxor c1 d1)))
    (Z.lxor (Z.lxor a2 (Z.lxor b2 (Z.lxor c2 d2))) (Z.lxor a3 (Z.lxor b3 (Z.lxor c3 d3))))) =
  Z.lxor (Z.lxor a0 (Z.lxor a1 (Z.lxor a2 a3))) (Z.lxor (Z.lxor b0 (Z.lxor b1 (Z.lxor b2 b3)))
    (Z.lxor (Z.lxor c0 (Z.lxor c1 (Z.lxor c2 c3))) (Z.lxor d0 (Z.lxor d1 (Z.lxor d2 d3))))).
Proof. intros. apply Z.bits_inj. intro n. rewrite !Z.lxor_spec. btauto. Qed.

(** Row [a b c d] times the columns of the circulant matrix of [a' b' c' d']. *)
Definition row (a b c d a' b' c' d' x : Z) : Z :=
  Z.lxor (gmul a (gmul a' x)) (Z.lxor (gmul b (gmul b' x)) (Z.lxor (gmul c (gmul c' x)) (gmul d (gmul d' x)))).
Definition row_ok (a b c d a' b' c' d' : Z) (one : bool) : bool :=
  forallb (fun x => row a b c d a' b' c' d' x =? (if one then x else 0)) all_bytes.
(** The product of the two matrices is the unit matrix. *)
Definition unit_ok (a b c d a' b' c' d' : Z) : bool :=
  row_ok a b c d a' d' c' b' true && row_ok a b c d b' a' d' c' false && row_ok a b c d c' b' a' d' false && row_ok a b c d d' c' b' a' false &&
  (row_ok d a b c a' d' c' b' false && row_ok d a b c b' a' d' c' true && row_ok d a b c c' b' a' d' false && row_ok d a b c d' c' b' a' false) &&
  (row_ok c d a b a' d' c' b' false && row_ok c d a b b' a' d' c' false && row_ok c d a b c' b' a' d' true && row_ok c d a b d' c' b' a' false) &&
  (row_ok b c d a a' d' c' b' false && row_ok b c d a b' a' d' c' false && row_ok b c d a c' b' a' d' false && row_ok b c d a d' c' b' a' true).

Lemma sum_byte : forall a b c d s0 s1 s2 s3, In a consts -> In b consts -> In c consts -> In d consts ->
  byte s0 -> byte s1 -> byte s2 -> byte s3 ->
  byte (Z.lxor (gmul a s0) (Z.lxor (gmul b s1) (Z.lxor (gmul c s2) (gmul d s3)))).
Proof. intros. apply lxor_byte; [|apply lxor_byte; [|apply lxor_byte]]; apply gmul_byte; auto. Qed.
Lemma row_true : forall a b c d a' b' c' d' one x, row_ok a b c d a' b' c' d' one = true -> byte x ->
  Z.lxor (gmul a (gmul a' x)) (Z.lxor (gmul b (gmul b' x)) (Z.lxor (gmul c (gmul c' x)) (gmul d (gmul d' x)))) = if one then x else 0.
Proof.
  intros a b c d a' b' c' d' one x H Hx. apply Z.eqb_eq.
  exact (all_byte (fun x => row a b c d a' b' c' d' x =? (if one then x else 0)) H x Hx).
Qed.
Lemma gmul_lin4 : forall e w x y z, In e consts -> byte w -> byte x -> byte y -> byte z ->
  gmul e (Z.lxor w (Z.lxor x (Z.lxor y z))) = Z.lxor (gmul e w) (Z.lxor (gmul e x) (Z.lxor (gmul e y) (gmul e z))).
Proof.
  intros e w x y z He Hw Hx Hy Hz. pose proof (lxor_byte y z Hy Hz) as H1. pose proof (lxor_byte x _ Hx H1) as H2.
  rewrite (gmul_lin e w _ He Hw H2), (gmul_lin e x _ He Hx H1), (gmul_lin e y z He Hy Hz). reflexivity.
Qed.
Lemma gmul_sum : forall e a b c d s0 s1 s2 s3, In e consts -> In a consts -> In b consts -> In c consts -> In d consts ->
  byte s0 -> byte s1 -> byte s2 -> byte s3 ->
  gmul e (Z.lxor (gmul a s0) (Z.lxor (gmul b s1) (Z.lxor (gmul c s2) (gmul d s3)))) =
  Z.lxor (gmul e (gmul a s0)) (Z.lxor (gmul e (gmul b s1)) (Z.lxor (gmul e (gmul c s2)) (gmul e (gmul d s3)))).
Proof.
  intros. apply gmul_lin4; auto; now apply gmul_byte.
Qed.

Lemma mix_inverse_column : forall a b c d a' b' c' d' s0 s1 s2 s3,
  In a consts -> In b consts -> In c consts -> In d consts -> In a' consts -> In b' consts -> In c' consts -> In d' consts ->
  unit_ok a b c d a' b' c' d' = true -> byte s0 -> byte s1 -> byte s2 -> byte s3 ->
  exists t0 t1 t2 t3, mix_column a' b' c' d' s0 s1 s2 s3 = [t0; t1; t2; t3] /\ byte t0 /\ byte t1 /\ byte t2 /\ byte t3 /\
  mix_column a b c d t0 t1 t2 t3 = [s0; s1; s2; s3].
Proof.
  intros. unfold mix_column at 1. do 4 eexists. split; [reflexivity|].
  do 4 (split; [now apply sum_byte|]).
  unfold unit_ok in *. repeat match goal with H : _ && _ = true |- _ => apply andb_true_iff in H; destruct H end.
  unfold mix_column.
  repeat apply f_equal2; try reflexivity; rewrite !gmul_sum by assumption; rewrite transpose;
  repeat match goal with H : row_ok ?a ?b ?c ?d ?a' ?b' ?c' ?d' ?o = true |- context [Z.lxor (gmul ?a (gmul ?a' ?x)) (Z.lxor (gmul ?b (gmul ?b' ?x)) (Z.lxor (gmul ?c (gmul ?c' ?x)) (gmul ?d (gmul ?d' ?x))))] =>
    rewrite (row_true a b c d a' b' c' d' o x H) by assumption end;
  rewrite ?Z.lxor_0_l, ?Z.lxor_0_r; reflexivity.
Qed.

(** ** States of 16 bytes *)
Definition good (n : nat) (s : list Z) : Prop := bytes s /\ length s = n.
Lemma bytes_byte : forall s, bytes s <-> Forall byte s.
Proof. intro s. unfold bytes, byte. tauto. Qed.
Lemma in16 : forall s, good 16 s -> exists a b c d e f g h i j k l m n o p,
  s = [a; b; c; d; e; f; g; h; i; j; k; l; m; n; o; p].
Proof.
  intros s [_ H]. do 16 (destruct s as [|? s]; [discriminate|]). destruct s; [|discriminate].
  do 16 eexists. reflexivity.
Qed.
Ltac bytes_of H := repeat match type of H with Forall _ (_ :: _) => let A := fresh "B" in apply Forall_cons_iff in H; destruct H as [A H] end.

Lemma shift_good : forall s, good 16 s -> good 16 (shift_rows s) /\ inv_shift_rows (shift_rows s) = s.
Proof.
  intros s H. destruct (in16 s H) as (a & b & c & d & e & f & g & h & i & j & k & l & m & n & o & p & ->).
  destruct H as [H _]. unfold bytes in H. bytes_of H. cbn. split; [|reflexivity]. split; [|reflexivity].
  repeat (apply Forall_cons; [assumption|]). constructor.
Qed.
Lemma inv_shift_good : forall s, good 16 s -> good 16 (inv_shift_rows s) /\ shift_rows (inv_shift_rows s) = s.
Proof.
  intros s H. destruct (in16 s H) as (a & b & c & d & e & f & g & h & i & j & k & l & m & n & o & p & ->).
  destruct H as [H _]. unfold bytes in H. bytes_of H. cbn. split; [|reflexivity]. split; [|reflexivity].
  repeat (apply Forall_cons; [assumption|]). constructor.
Qed.
Lemma map_good : forall (f : Z -> Z) n s, (forall x, byte x -> byte (f x)) -> good n s -> good n (map f s).
Proof.
  intros f n s Hf [H L]. split; [|now rewrite map_length]. apply bytes_byte. apply bytes_byte in H. clear L.
  induction H; cbn; constructor; auto.
Qed.
Lemma map_undo : forall (f g : Z -> Z) n s, (forall x, byte x -> g (f x) = x) -> good n s -> map g (map f s) = s.
Proof.
  intros f g n s Hf [H _]. apply bytes_byte in H. induction H; cbn; [reflexivity|]. now rewrite Hf, IHForall.
Qed.
Lemma mix_undo : forall a b c d a' b' c' d', 
  In a consts -> In b consts -> In c consts -> In d consts -> In a' consts -> In b' consts -> In c' consts -> In d' consts ->
  unit_ok a b c d a' b' c' d' = true -> forall k s, good (4 * k) s ->
  good (4 * k) (mix_all a' b' c' d' s) /\ mix_all a b c d (mix_all a' b' c' d' s) = s.
Proof.
  intros a b c d a' b' c' d' Ha Hb Hc Hd Ha' Hb' Hc' Hd' Hu. induction k as [|k IH]; intros s [H L].
  - destruct s; [|discriminate]. repeat split. constructor.
  - replace (4 * S k)%nat with (S (S (S (S (4 * k))))) in * by lia.
    do 4 (destruct s as [|? s]; [discriminate|]). unfold bytes in H.
    apply Forall_cons_iff in H. destruct H as [H0 H]. apply Forall_cons_iff in H. destruct H as [H1 H].
    apply Forall_cons_iff in H. destruct H as [H2 H]. apply Forall_cons_iff in H. destruct H as [H3 H].
    destruct (mix_inverse_column a b c d a' b' c' d' z z0 z1 z2) as (t0 & t1 & t2 & t3 & E & B0 & B1 & B2 & B3 & E'); auto.
    destruct (IH s) as [[G1 G2] G3]; [split; [exact H|cbn in L; lia]|].
    cbn [mix_all]. rewrite E. cbn [app mix_all]. rewrite E', G3. split; [split|reflexivity].
    + repeat (apply Forall_cons; [assumption|]). exact G1.
    + cbn [length]. now rewrite G2.
Qed.
Ltac inc := match goal with |- In _ _ => cbn; tauto end.
Lemma mix_good : forall s, good 16 s -> good 16 (mix_columns s) /\ inv_mix_columns (mix_columns s) = s.
Proof.
  intros s H. unfold mix_columns, inv_mix_columns. apply (mix_undo 14 11 13 9 2 3 1 1) with (k := 4%nat); try inc; [vm_compute; reflexivity|exact H].
Qed.
Lemma inv_mix_good : forall s, good 16 s -> good 16 (inv_mix_columns s) /\ mix_columns (inv_mix_columns s) = s.
Proof.
  intros s H. unfold mix_columns, inv_mix_columns. apply (mix_undo 2 3 1 1 14 11 13 9) with (k := 4%nat); try inc; [vm_compute; reflexivity|exact H].
Qed.
Lemma add_good : forall n s k, good n s -> good n k -> good n (add_key s k) /\ add_key (add_key s k) k = s.
Proof.
  unfold good, add_key. induction n as [|n IH]; intros s k [Hs Ls] [Hk Lk].
  - destruct s; [|discriminate]. destruct k; [|discriminate]. cbn. repeat split. constructor.
  - destruct s as [|x s]; [discriminate|]. destruct k as [|y k]; [discriminate|].
    apply Forall_cons_iff in Hs. destruct Hs as [Hx Hs]. apply Forall_cons_iff in Hk. destruct Hk as [Hy Hk].
    destruct (IH s k) as [[G1 G2] G3]; [split; [exact Hs|now inversion Ls]|split; [exact Hk|now inversion Lk]|].
    cbn [combine map fst snd]. split; [split|].
    + constructor; [now apply lxor_byte|exact G1].
    + cbn [length]. now rewrite G2.
    + rewrite G3. f_equal. rewrite Z.lxor_assoc, Z.lxor_nilpotent. apply Z.lxor_0_r.
Qed.

(** ** Rounds *)
Definition sr (s : list Z) : list Z := shift_rows (map sub_byte s).
Definition isr (s : list Z) : list Z := map inv_sub_byte (inv_shift_rows s).
Lemma sr_good : forall s, good 16 s -> good 16 (sr s) /\ isr (sr s) = s.
Proof.
  intros s H. unfold sr, isr. assert (G : good 16 (map sub_byte s)) by (apply map_good; auto; intros x Hx; apply (sub_ok x Hx)).
  destruct (shift_good _ G) as [G1 G2]. split; [exact G1|]. rewrite G2.
  apply map_undo with (n := 16%nat); auto. intros x Hx. apply (sub_ok x Hx).
Qed.
Lemma isr_good : forall s, good 16 s -> good 16 (isr s) /\ sr (isr s) = s.
Proof.
  intros s H. unfold sr, isr. destruct (inv_shift_good s H) as [G1 G2]. split.
  - apply map_good; auto. intros x Hx. apply (inv_sub_ok x Hx).
  - rewrite map_undo with (n := 16%nat); auto. intros x Hx. apply (inv_sub_ok x Hx).
Qed.
Definition rnd (s k : list Z) : list Z := add_key (mix_columns (sr s)) k.
Definition irnd (s k : list Z) : list Z := inv_mix_columns (add_key (isr s) k).
Lemma rnd_good : forall s k, good 16 s -> good 16 k -> good 16 (rnd s k).
Proof. intros s k Hs Hk. apply add_good; auto. apply mix_good. now apply sr_good. Qed.
Lemma irnd_good : forall s k, good 16 s -> good 16 k -> good 16 (irnd s k).
Proof. intros s k Hs Hk. apply inv_mix_good. apply add_good; auto. now apply isr_good. Qed.
Lemma rnds_good : forall ms s, Forall (good 16) ms -> good 16 s -> good 16 (fold_left rnd ms s).
Proof. induction ms as [|k ms IH]; intros s H Hs; cbn; auto. inversion_clear H. apply IH; auto. now apply rnd_good. Qed.
Lemma irnds_good : forall ms s, Forall (good 16) ms -> good 16 s -> good 16 (fold_left irnd ms s).
Proof. induction ms as [|k ms IH]; intros s H Hs; cbn; auto. inversion_clear H. apply IH; auto. now apply irnd_good. Qed.
Lemma cipher_rounds_eq : forall ms k s, cipher_rounds (ms ++ [k]) s = add_key (sr (fold_left rnd ms s)) k.
Proof.
  induction ms as [|m ms IH]; intros k s; [reflexivity|].
  change ((m :: ms) ++ [k]) with (m :: (ms ++ [k])).
  transitivity (cipher_rounds (ms ++ [k]) (rnd s m)); [destruct ms; reflexivity|apply IH].
Qed.
Lemma inv_rounds_eq : forall ms k s, inv_rounds (ms ++ [k]) s = add_key (isr (fold_left irnd ms s)) k.
Proof.
  induction ms as [|m ms IH]; intros k s; [reflexivity|].
  change ((m :: ms) ++ [k]) with (m :: (ms ++ [k])).
  transitivity (inv_rounds (ms ++ [k]) (irnd s m)); [destruct ms; reflexivity|apply IH].
Qed.
Lemma rnds_undo : forall ms s, Forall (good 16) ms -> good 16 s -> fold_left irnd (rev ms) (sr (fold_left rnd ms s)) = sr s.
Proof.
  induction ms as [|k ms IH] using rev_ind; intros s H Hs; [reflexivity|].
  apply Forall_app in H. destruct H as [H Hk]. apply Forall_inv in Hk.
  rewrite rev_app_distr, (fold_left_app rnd). cbn [rev app fold_left]. pose proof (rnds_good ms s H Hs) as Hy.
  rewrite <- (IH s H Hs). f_equal. set (y := fold_left rnd ms s) in *. unfold irnd.
  rewrite (proj2 (sr_good _ (rnd_good _ _ Hy Hk))). unfold rnd.
  rewrite (proj2 (add_good 16 _ k (proj1 (mix_good _ (proj1 (sr_good y Hy)))) Hk)).
  apply (mix_good _ (proj1 (sr_good y Hy))).
Qed.
Lemma irnds_undo : forall ms s, Forall (good 16) ms -> good 16 s -> fold_left rnd ms (isr (fold_left irnd (rev ms) s)) = isr s.
Proof.
  induction ms as [|k ms IH]; intros s H Hs; [reflexivity|]. inversion_clear H.
  cbn [rev]. rewrite fold_left_app. cbn [fold_left]. rewrite <- (IH s H1 Hs). f_equal.
  assert (Hw : good 16 (fold_left irnd (rev ms) s)) by (apply irnds_good; auto; now apply Forall_rev).
  set (w := fold_left irnd (rev ms) s) in *. unfold rnd.
  rewrite (proj2 (isr_good _ (irnd_good _ _ Hw H0))). unfold irnd.
  rewrite (proj2 (inv_mix_good _ (proj1 (add_good 16 _ k (proj1 (isr_good w Hw)) H0)))).
  apply (add_good 16 _ k (proj1 (isr_good w Hw)) H0).
Qed.

(** ** The key schedule *)
Lemma word_rot : forall w, good 4 w -> good 4 (tl w ++ firstn 1 w).
Proof.
  intros w [H L]. do 4 (destruct w as [|? w]; [discriminate|]). destruct w; [|discriminate].
  unfold bytes in H. bytes_of H. split; [|reflexivity]. cbn. repeat (apply Forall_cons; [assumption|]). constructor.
Qed.
Lemma sub_word : forall w, good 4 w -> good 4 (map sub_byte w).
Proof. intros w H. apply map_good; auto. intros x Hx. apply (sub_ok x Hx). Qed.
Lemma nth_good : forall ws i, Forall (good 4) ws -> (i < length ws)%nat -> good 4 (nth i ws []).
Proof. intros ws i H Hi. rewrite Forall_forall in H. apply H. now apply nth_In. Qed.
Lemma expand_good : forall n i nk rc ws, byte rc -> Forall (good 4) ws -> (0 < nk <= length ws)%nat ->
  Forall (good 4) (expand n i nk rc ws) /\ length (expand n i nk rc ws) = (n + length ws)%nat.
Proof.
  induction n as [|n IH]; intros i nk rc ws Hrc Hws Hnk.
  - cbn. split; [now apply Forall_rev|apply rev_length].
  - assert (Ht : good 4 (hd [] ws)) by (destruct ws; [cbn in Hnk; lia|now inversion Hws]).
    pose proof (nth_good ws (nk - 1) Hws ltac:(lia)) as Ho.
    assert (K : forall rc w, byte rc -> good 4 w -> Forall (good 4) (expand n (S i) nk rc (add_key (nth (nk - 1) ws []) w :: ws)) /\
      length (expand n (S i) nk rc (add_key (nth (nk - 1) ws []) w :: ws)) = (S n + length ws)%nat).
    { intros rc' w Hr Hw. destruct (IH (S i) nk rc' (add_key (nth (nk - 1) ws []) w :: ws)) as [G1 G2]; auto.
      - constructor; auto. now apply add_good.
      - cbn [length]. lia.
      - split; [exact G1|]. rewrite G2. cbn [length]. lia. }
    cbn [expand]. cbv zeta. destruct (i mod nk =? 0)%nat; [|destruct ((6 <? nk) && (i mod nk =? 4))%nat%bool].
    + apply K; [now apply xtime_byte|]. pose proof (sub_word _ (word_rot _ Ht)) as G.
      destruct (map sub_byte (tl (hd [] ws) ++ firstn 1 (hd [] ws))) as [|x r]; [exact G|].
      destruct G as [G1 G2]. apply Forall_cons_iff in G1. destruct G1 as [Gx Gr]. split; [|exact G2].
      constructor; [now apply lxor_byte|exact Gr].
    + apply K; auto. now apply sub_word.
    + apply K; auto.
Qed.
Lemma words_good : forall n k, bytes k -> length k = (4 * n)%nat -> Forall (good 4) (words k) /\ length (words k) = n.
Proof.
  induction n as [|n IH]; intros k H L.
  - destruct k; [|discriminate]. split; [constructor|reflexivity].
  - replace (4 * S n)%nat with (S (S (S (S (4 * n))))) in L by lia.
    do 4 (destruct k as [|? k]; [discriminate|]). unfold bytes in H. bytes_of H.
    destruct (IH k) as [G1 G2]; [exact H|cbn in L; lia|]. cbn [words length]. split; [|now rewrite G2].
    constructor; [|exact G1]. split; [|reflexivity]. repeat (apply Forall_cons; [assumption|]). constructor.
Qed.
Lemma round_keys_good : forall n ws, Forall (good 4) ws -> length ws = (4 * n)%nat ->
  Forall (good 16) (round_keys ws) /\ length (round_keys ws) = n.
Proof.
  induction n as [|n IH]; intros k H L.
  - destruct k; [|discriminate]. split; [constructor|reflexivity].
  - replace (4 * S n)%nat with (S (S (S (S (4 * n))))) in L by lia.
    do 4 (destruct k as [|? k]; [discriminate|]). bytes_of H.
    destruct (IH k) as [G1 G2]; [exact H|cbn in L; lia|]. cbn [round_keys length]. split; [|now rewrite G2].
    constructor; [|exact G1]. destruct B, B0, B1, B2. split.
    + unfold bytes in *. repeat (apply Forall_app; split); assumption.
    + rewrite !app_length. lia.
Qed.
Lemma schedule_good : forall n key, bytes key -> length key = (4 * n)%nat -> (0 < n)%nat ->
  Forall (good 16) (key_schedule key) /\ length (key_schedule key) = (n + 7)%nat.
Proof.
  intros n key H L Hn. unfold key_schedule. destruct (words_good n key H L) as [W1 W2]. cbv zeta. rewrite W2.
  destruct (expand_good (4 * (n + 7) - n) n n 1 (rev (words key))) as [E1 E2].
  - unfold byte. lia.
  - now apply Forall_rev.
  - rewrite rev_length. lia.
  - apply round_keys_good; auto. rewrite E2, rev_length. lia.
Qed.
Lemma schedule_shape : forall n key, bytes key -> length key = (4 * n)%nat -> (0 < n)%nat ->
  exists k0 ms kl, key_schedule key = k0 :: ms ++ [kl] /\ good 16 k0 /\ Forall (good 16) ms /\ good 16 kl.
Proof.
  intros n key H L Hn. destruct (schedule_good n key H L Hn) as [G1 G2].
  destruct (key_schedule key) as [|k0 r]; [cbn in G2; lia|].
  destruct (exists_last (l := r)) as (ms & kl & ->); [destruct r; [cbn in G2; lia|discriminate]|].
  apply Forall_cons_iff in G1. destruct G1 as [K0 G]. apply Forall_app in G. destruct G as [Gm Gl].
  exists k0, ms, kl. repeat split; try apply K0; try exact Gm; apply (Forall_inv Gl).
Qed.

(** ** The cipher *)
Lemma aes_cipher : block_cipher 16 (fun k => bytes k /\ (zlen k = 16 \/ zlen k = 24 \/ zlen k = 32)) aes_E aes_D.
Proof.
  intros key [Hk L]. 
  assert (exists n, length key = (4 * n)%nat /\ (0 < n)%nat) as (n & Ln & Hn).
  { unfold zlen in L. destruct L as [L|[L|L]]; [exists 4%nat|exists 6%nat|exists 8%nat]; lia. }
  destruct (schedule_shape n key Hk Ln Hn) as (k0 & ms & kl & E & G0 & Gm & Gl).
  assert (EE : forall b, aes_E key b = add_key (sr (fold_left rnd ms (add_key b k0))) kl).
  { intro b. unfold aes_E. rewrite E. apply cipher_rounds_eq. }
  assert (DD : forall b, aes_D key b = add_key (isr (fold_left irnd (rev ms) (add_key b kl))) k0).
  { intro b. unfold aes_D. rewrite E. cbn [rev]. rewrite rev_app_distr. cbn [rev app]. apply inv_rounds_eq. }
  split; intros b Hb Lb; assert (Gb : good 16 b) by (split; assumption).
  - pose proof (proj1 (add_good 16 b k0 Gb G0)) as B0. pose proof (rnds_good ms _ Gm B0) as B1.
    pose proof (proj1 (sr_good _ B1)) as B2. destruct (add_good 16 _ kl B2 Gl) as [[B3 B4] B5].
    rewrite DD, EE, B5. split; [exact B3|]. split; [exact B4|].
    rewrite (rnds_undo ms _ Gm B0), (proj2 (sr_good _ B0)). apply (add_good 16 b k0 Gb G0).
  - pose proof (proj1 (add_good 16 b kl Gb Gl)) as B0. pose proof (irnds_good (rev ms) _ (Forall_rev Gm) B0) as B1.
    pose proof (proj1 (isr_good _ B1)) as B2. destruct (add_good 16 _ k0 B2 G0) as [[B3 B4] B5].
    rewrite EE, DD, B5. split; [exact B3|]. split; [exact B4|].
    rewrite (irnds_undo ms _ Gm B0), (proj2 (isr_good _ B0)). apply (add_good 16 b kl Gb Gl).
Qed.
