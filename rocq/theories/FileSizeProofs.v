From Coq Require Import String ZArith List Bool Lia ZifyBool.
From Verif Require Import GoBase GoStrings MathModel MathSpec MathProofs FileSizeModel FileSizeSpec.
Import ListNotations.
Open Scope Z_scope.

Lemma rne_near a b : 0 < b -> 2 * Z.abs (rne a b * b - a) <= b.
Proof.
  intros Hb. unfold rne. pose proof (Z.div_mod a b ltac:(lia)) as E. pose proof (Z.mod_pos_bound a b Hb) as R.
  set (q := a / b) in *. set (r := a mod b) in *.
  destruct (Z.ltb_spec (2 * r) b); [|destruct (Z.ltb_spec b (2 * r)); [|destruct (Z.even q)]]; nia.
Qed.
Lemma rne_mono a a' b : 0 < b -> a <= a' -> rne a b <= rne a' b.
Proof.
  intros Hb H. unfold rne. pose proof (Z.div_mod a b ltac:(lia)) as E. pose proof (Z.mod_pos_bound a b Hb) as R.
  pose proof (Z.div_mod a' b ltac:(lia)) as E'. pose proof (Z.mod_pos_bound a' b Hb) as R'.
  pose proof (Z.div_le_mono a a' b Hb H) as Q.
  set (q := a / b) in *. set (r := a mod b) in *. set (q' := a' / b) in *. set (r' := a' mod b) in *.
  destruct (Z.eq_dec q q') as [Eq|Ne].
  - rewrite <- Eq in *. assert (r <= r') by lia.
    destruct (Z.ltb_spec (2 * r) b), (Z.ltb_spec b (2 * r)), (Z.ltb_spec (2 * r') b), (Z.ltb_spec b (2 * r')), (Z.even q); lia.
  - assert (q + 1 <= q') by lia.
    destruct (Z.ltb_spec (2 * r) b), (Z.ltb_spec b (2 * r)), (Z.ltb_spec (2 * r') b), (Z.ltb_spec b (2 * r')), (Z.even q), (Z.even q'); lia.
Qed.
Lemma rne_exact k b : 0 < b -> rne (k * b) b = k.
Proof.
  intros Hb. unfold rne. rewrite Z.div_mul, Z.mod_mul by lia. destruct (Z.ltb_spec (2 * 0) b); lia.
Qed.
Lemma rne_nonneg a b : 0 < b -> 0 <= a -> 0 <= rne a b.
Proof. intros Hb Ha. rewrite <- (rne_exact 0 b Hb). apply rne_mono; lia. Qed.
Lemma rne_le a b k : 0 < b -> a <= k * b -> rne a b <= k.
Proof. intros Hb H. rewrite <- (rne_exact k b Hb). now apply rne_mono. Qed.
Lemma rne_ge a b k : 0 < b -> k * b <= a -> k <= rne a b.
Proof. intros Hb H. rewrite <- (rne_exact k b Hb) at 1. now apply rne_mono. Qed.

(** ** The conversion to float64 *)
Lemma f64_near m : 2 ^ 53 <= m -> 2 * Z.abs (f64_of m - m) <= 2 ^ (Z.log2 m - 52).
Proof.
  intros H. unfold f64_of. destruct (Z.ltb_spec m (2 ^ 53)); [lia|].
  assert (53 <= Z.log2 m) by (change 53 with (Z.log2 (2 ^ 53)); now apply Z.log2_le_mono).
  apply rne_near. apply Z.pow_pos_nonneg; lia.
Qed.
(** Powers of two bound the conversion. *)
Lemma f64_pow_le m k : 0 <= m -> 0 <= k -> m <= 2 ^ k -> f64_of m <= 2 ^ k.
Proof.
  intros H0 Hk H. unfold f64_of. destruct (Z.ltb_spec m (2 ^ 53)); [lia|].
  assert (L : 53 <= Z.log2 m) by (change 53 with (Z.log2 (2 ^ 53)); now apply Z.log2_le_mono).
  assert (Lk : Z.log2 m <= k) by (rewrite <- (Z.log2_pow2 k Hk); now apply Z.log2_le_mono).
  set (s := Z.log2 m - 52). replace (2 ^ k) with (2 ^ (k - s) * 2 ^ s) by (rewrite <- Z.pow_add_r by lia; f_equal; lia).
  apply Z.mul_le_mono_nonneg_r; [lia|]. apply rne_le; [lia|].
  rewrite <- Z.pow_add_r by lia. replace (k - s + s) with k by lia. auto.
Qed.
Lemma f64_pow_ge m k : 0 <= k -> 2 ^ k <= m -> 2 ^ k <= f64_of m.
Proof.
  intros Hk H. assert (0 < 2 ^ k) by lia. unfold f64_of. destruct (Z.ltb_spec m (2 ^ 53)); [lia|].
  assert (L : 53 <= Z.log2 m) by (change 53 with (Z.log2 (2 ^ 53)); now apply Z.log2_le_mono).
  pose proof (Z.log2_spec m ltac:(lia)) as [M1 M2].
  assert (Lk : k <= Z.log2 m) by (rewrite <- (Z.log2_pow2 k Hk); now apply Z.log2_le_mono).
  apply Z.le_trans with (2 ^ Z.log2 m); [apply Z.pow_le_mono_r; lia|].
  set (s := Z.log2 m - 52). replace (2 ^ Z.log2 m) with (2 ^ 52 * 2 ^ s) by (rewrite <- Z.pow_add_r by lia; f_equal; lia).
  apply Z.mul_le_mono_nonneg_r; [lia|]. apply rne_ge; [lia|].
  rewrite <- Z.pow_add_r by lia. replace (52 + s) with (Z.log2 m) by lia. auto.
Qed.
Lemma f64_mono m m' : 0 <= m -> m <= m' -> f64_of m <= f64_of m'.
Proof.
  intros H0 H.
  destruct (Z.le_gt_cases (2 ^ 53) m) as [Hb|Hs].
  - destruct (Z.eq_dec (Z.log2 m) (Z.log2 m')) as [E|Ne].
    + unfold f64_of. destruct (Z.ltb_spec m (2 ^ 53)), (Z.ltb_spec m' (2 ^ 53)); try lia.
      rewrite <- E. apply Z.mul_le_mono_nonneg_r; [lia|].
      assert (53 <= Z.log2 m) by (change 53 with (Z.log2 (2 ^ 53)); now apply Z.log2_le_mono).
      apply rne_mono; auto. apply Z.pow_pos_nonneg; lia.
    + pose proof (Z.log2_le_mono m m' H). pose proof (Z.log2_nonneg m).
      pose proof (Z.log2_spec m ltac:(lia)) as [M1 M2]. pose proof (Z.log2_spec m' ltac:(lia)) as [M1' M2'].
      apply Z.le_trans with (2 ^ (Z.log2 m + 1)).
      * apply f64_pow_le; lia.
      * apply f64_pow_ge; [lia|]. apply Z.le_trans with (2 ^ Z.log2 m'); auto. apply Z.pow_le_mono_r; lia.
  - destruct (Z.le_gt_cases (2 ^ 53) m') as [Hb'|Hs'].
    + apply Z.le_trans with (2 ^ 53); [|apply f64_pow_ge; lia]. unfold f64_of. destruct (Z.ltb_spec m (2 ^ 53)); lia.
    + unfold f64_of. destruct (Z.ltb_spec m (2 ^ 53)), (Z.ltb_spec m' (2 ^ 53)); lia.
Qed.

(** ** The unit *)
Lemma unit_loop_spec m : forall n i, exists j, unit_loop m n i (Z.of_nat i * 10) = (j, Z.of_nat j * 10) /\
  (i <= j <= i + n)%nat /\ ((j < i + n)%nat -> m / 2 ^ (Z.of_nat j * 10) < 1024) /\
  ((i < j)%nat -> 1024 <= m / 2 ^ ((Z.of_nat j - 1) * 10)).
Proof.
  induction n as [|n IH]; intros i; cbn [unit_loop].
  - exists i. split; [reflexivity|]. split; [lia|]. split; lia.
  - unfold kb, k_bits. rewrite Z.shiftr_div_pow2 by lia. destruct (Z.ltb_spec (m / 2 ^ (Z.of_nat i * 10)) 1024) as [L|L].
    + exists i. split; [reflexivity|]. split; [lia|]. split; [auto|lia].
    + destruct (IH (S i)) as (j & E & Hj & H1 & H2). replace (Z.of_nat i * 10 + 10) with (Z.of_nat (S i) * 10) by lia.
      exists j. split; [exact E|]. split; [lia|]. split; [intros; apply H1; lia|]. intros _.
      destruct (Nat.eq_dec j (S i)) as [->|N]; [|apply H2; lia]. replace (Z.of_nat (S i) - 1) with (Z.of_nat i) by lia. exact L.
Qed.
Lemma unit_ok m : 0 <= m < 2 ^ 64 ->
  exists i name u, unit_loop m (length bytes_names) 0 0 = (i, Z.of_nat i * 10) /\ nth_error bytes_names i = Some name /\
    In (name, u) units /\ u = 2 ^ (Z.of_nat i * 10) /\ (u = 1 \/ u <= m) /\ m < 1024 * u /\ (i <= 6)%nat.
Proof.
  intros H. destruct (unit_loop_spec m (length bytes_names) 0) as (i & E & Hi & H1 & H2). change (Z.of_nat 0 * 10) with 0 in E.
  cbn [length bytes_names] in Hi, H1. 
  assert (B1 : (i <= 6)%nat).
  { destruct (Nat.le_gt_cases i 6) as [|L]; auto. assert (i = 7%nat) by lia. subst i. specialize (H2 ltac:(lia)).
    change ((Z.of_nat 7 - 1) * 10) with 60 in H2. assert (m / 2 ^ 60 < 1024); [|lia]. apply Z.div_lt_upper_bound; lia. }
  specialize (H1 ltac:(lia)).
  assert (B2 : m < 1024 * 2 ^ (Z.of_nat i * 10)).
  { pose proof (Z.mod_pos_bound m (2 ^ (Z.of_nat i * 10)) ltac:(lia)). pose proof (Z.div_mod m (2 ^ (Z.of_nat i * 10)) ltac:(lia)). nia. }
  assert (B3 : 2 ^ (Z.of_nat i * 10) = 1 \/ 2 ^ (Z.of_nat i * 10) <= m).
  { destruct i as [|i]; [left; reflexivity|right]. specialize (H2 ltac:(lia)). replace (Z.of_nat (S i) - 1) with (Z.of_nat i) in H2 by lia.
    replace (Z.of_nat (S i) * 10) with (10 + Z.of_nat i * 10) by lia. rewrite Z.pow_add_r by lia.
    set (p := 2 ^ (Z.of_nat i * 10)) in *. assert (0 < p) by (apply Z.pow_pos_nonneg; lia).
    pose proof (Z.mod_pos_bound m p ltac:(lia)). pose proof (Z.div_mod m p ltac:(lia)). change (2 ^ 10) with 1024. nia. }
  exists i, (nth i bytes_names []), (2 ^ (Z.of_nat i * 10)). split; [exact E|]. split.
  { do 7 (destruct i as [|i]; [reflexivity|]). lia. }
  split; [|auto]. clear - B1. do 7 (destruct i as [|i]; [cbn; tauto|]). lia.
Qed.

(** ** What is printed *)
Lemma size_exact m : 0 <= m < 2 ^ 64 -> exists text n b, size_string m = Ok text /\ shows text n (2 ^ b) /\
  n = rne (1000 * f64_of m) (2 ^ b) /\ (0 <= b <= 60 /\ exists i, b = 10 * i) /\ (2 ^ b = 1 \/ 2 ^ b <= m) /\ m < 1024 * 2 ^ b.
Proof.
  intros H. destruct (unit_ok m H) as (i & name & u & E & En & Hin & Eu & Hlo & Hhi & Hi).
  unfold size_string. rewrite E, En. rewrite Z.shiftl_mul_pow2, Z.mul_1_l by lia.
  set (b := Z.of_nat i * 10) in *. set (n := rne (1000 * f64_of m) (2 ^ b)).
  assert (F0 : 0 <= f64_of m).
  { unfold f64_of. destruct (Z.ltb_spec m (2 ^ 53)); [lia|]. apply Z.mul_nonneg_nonneg; [apply rne_nonneg; [|lia]|].
    - assert (53 <= Z.log2 m) by (change 53 with (Z.log2 (2 ^ 53)); now apply Z.log2_le_mono). apply Z.pow_pos_nonneg; lia.
    - apply Z.pow_nonneg; lia. }
  assert (N0 : 0 <= n) by (apply rne_nonneg; [apply Z.pow_pos_nonneg; lia|lia]).
  eexists _, n, b. split; [reflexivity|]. split; [|split; [reflexivity|]; split; [split; [lia|exists (Z.of_nat i); lia]|]; subst u; auto].
  pose proof (Z.mod_pos_bound n 1000 ltac:(lia)) as Rn. destruct (fmt_0d_spec (n mod 1000) Rn) as (L3 & D3 & V3).
  exists (fmt_d (n / 1000)), (fmt_0d 3 (n mod 1000)), name. split; [reflexivity|]. split; [apply fmt_d_spec; apply Z.div_pos; lia|].
  subst u. auto.
Qed.

(** The text determines the number and the unit. *)
Lemma shows_unique text n u n' u' : shows text n u -> shows text n' u' -> n = n' /\ u = u'.
Proof.
  intros (w & f & name & E & (_ & Dw & Vw & _) & Lf & Df & Vf & Hin) (w' & f' & name' & E' & (_ & Dw' & Vw' & _) & Lf' & Df' & Vf' & Hin').
  assert (S : w = w' /\ f ++ name = f' ++ name').
  { rewrite E in E'. clear - Dw Dw' E'. revert w' Dw' E'. induction Dw as [|c w Hc _ IH]; intros w' Dw' E'.
    - destruct Dw' as [|c' w' Hc' _]; cbn in E'; [injection E' as E'; auto|]. injection E' as <- _. unfold is_digit in Hc'. lia.
    - destruct Dw' as [|c' w' Hc' Dw']; cbn in E'; [injection E' as -> _; unfold is_digit in Hc; lia|].
      injection E' as <- E'. destruct (IH w' Dw' E') as [-> ->]. auto. }
  destruct S as [<- S2].
  assert (S3 : f = f' /\ name = name').
  { destruct f as [|a [|b [|c [|]]]]; try discriminate Lf. destruct f' as [|a' [|b' [|c' [|]]]]; try discriminate Lf'.
    cbn in S2. injection S2 as <- <- <- <-. auto. }
  destruct S3 as [<- <-]. split.
  - rewrite (Z.div_mod n 1000), (Z.div_mod n' 1000) by lia. rewrite <- Vw, <- Vw', <- Vf, <- Vf'. reflexivity.
  - assert (U : forall x y z, In (x, y) units -> In (x, z) units -> y = z).
    { clear. intros x y z H1 H2. vm_compute in H1, H2. intuition congruence. }
    eapply U; eauto.
Qed.

Lemma size_error m b : 0 <= m < 2 ^ 64 -> 0 <= b -> m < 1024 * 2 ^ b ->
  let n := rne (1000 * f64_of m) (2 ^ b) in
  (m < 2 ^ 53 -> 2 * Z.abs (n * 2 ^ b - 1000 * m) <= 2 ^ b) /\
  2 ^ 45 * Z.abs (n * 2 ^ b - 1000 * m) <= (2 ^ 44 + 2000) * 2 ^ b.
Proof.
  intros H Hb Hu n. assert (P : 0 < 2 ^ b) by (apply Z.pow_pos_nonneg; lia).
  pose proof (rne_near (1000 * f64_of m) (2 ^ b) P) as N. fold n in N.
  destruct (Z.le_gt_cases (2 ^ 53) m) as [Hb'|Hs].
  - split; [lia|]. pose proof (f64_near m Hb') as F.
    assert (L : 53 <= Z.log2 m) by (change 53 with (Z.log2 (2 ^ 53)); now apply Z.log2_le_mono).
    assert (L2 : Z.log2 m <= b + 9).
    { pose proof (Z.log2_spec m ltac:(lia)) as [M1 _]. assert (2 ^ Z.log2 m < 2 ^ (b + 10)).
      { rewrite Z.pow_add_r by lia. change (2 ^ 10) with 1024. lia. }
      apply Z.pow_lt_mono_r_iff in H0; lia. }
    assert (F2 : 2 ^ 43 * 2 ^ (Z.log2 m - 52) <= 2 ^ b).
    { rewrite <- Z.pow_add_r by lia. apply Z.pow_le_mono_r; lia. }
    change (2 ^ 45) with 35184372088832. change (2 ^ 44) with 17592186044416. change (2 ^ 43) with 8796093022208 in F2.
    set (e := 2 ^ (Z.log2 m - 52)) in *. set (u := 2 ^ b) in *. lia.
  - assert (F : f64_of m = m) by (unfold f64_of; destruct (Z.ltb_spec m (2 ^ 53)); lia). rewrite F in N. split; [auto|].
    change (2 ^ 45) with 35184372088832. change (2 ^ 44) with 17592186044416. set (u := 2 ^ b) in *. lia.
Qed.

Lemma size_spec : forall m, 0 <= m < 2 ^ 64 -> exists text n u, size_string m = Ok text /\ shows text n u /\
  (u = 1 \/ u <= m) /\ m < 1024 * u /\
  (m < 2 ^ 53 -> 2 * Z.abs (n * u - 1000 * m) <= u) /\
  2 ^ 45 * Z.abs (n * u - 1000 * m) <= (2 ^ 44 + 2000) * u.
Proof.
  intros m H. destruct (size_exact m H) as (text & n & b & E & S & En & (Hb & k & Ek) & Hlo & Hhi).
  exists text, n, (2 ^ b). pose proof (size_error m b H ltac:(lia) Hhi) as Q. cbv zeta in Q. rewrite <- En in Q. tauto.
Qed.

(** The order of the sizes is the order of what is printed. *)
Lemma size_mono : forall m m' t t' n u n' u', 0 <= m <= m' -> m' < 2 ^ 64 ->
  size_string m = Ok t -> size_string m' = Ok t' -> shows t n u -> shows t' n' u' -> n * u <= n' * u'.
Proof.
  intros m m' t t' n u n' u' H H' E E' S S'.
  destruct (size_exact m ltac:(lia)) as (t0 & n0 & b & E0 & S0 & En & (Hb & k & Ek) & Hlo & Hhi).
  destruct (size_exact m' ltac:(lia)) as (t0' & n0' & b' & E0' & S0' & En' & (Hb' & k' & Ek') & Hlo' & Hhi').
  assert (t = t0) by congruence. assert (t' = t0') by congruence. subst t0 t0'.
  destruct (shows_unique _ _ _ _ _ S S0) as [-> ->]. destruct (shows_unique _ _ _ _ _ S' S0') as [-> ->].
  assert (P : 0 < 2 ^ b) by (apply Z.pow_pos_nonneg; lia). assert (P' : 0 < 2 ^ b') by (apply Z.pow_pos_nonneg; lia).
  destruct (Z.lt_trichotomy b b') as [L|[->|L]].
  - assert (n0 <= 1024000).
    { subst n0. apply rne_le; auto. assert (f64_of m <= 2 ^ (b + 10)); [|rewrite Z.pow_add_r in * by lia; lia].
      apply f64_pow_le; [lia|lia|]. rewrite Z.pow_add_r by lia. lia. }
    assert (Q : 1024 * 2 ^ b <= 2 ^ b').
    { change 1024 with (2 ^ 10). rewrite <- Z.pow_add_r by lia. apply Z.pow_le_mono_r; lia. }
    assert (1000 <= n0').
    { subst n0'. apply rne_ge; auto. assert (2 ^ b' <= f64_of m'); [apply f64_pow_ge; [lia|]|lia].
      destruct Hlo' as [Hlo'|]; auto. rewrite Hlo' in Q. lia. }
    nia.
  - apply Z.mul_le_mono_nonneg_r; [lia|]. subst n0 n0'. apply rne_mono; auto. pose proof (f64_mono m m' ltac:(lia) ltac:(lia)). lia.
  - exfalso. assert (Q : 1024 * 2 ^ b' <= 2 ^ b).
    { change 1024 with (2 ^ 10). rewrite <- Z.pow_add_r by lia. apply Z.pow_le_mono_r; lia. }
    destruct Hlo as [Hlo|]; [rewrite Hlo in Q|]; lia.
Qed.

Lemma size_half_wrong : exists m text n u, 0 <= m < 2 ^ 64 /\ size_string m = Ok text /\ shows text n u /\
  u < 2 * Z.abs (n * u - 1000 * m).
Proof.
  exists (145 * 2 ^ 46 + 1), (bytes_of "9.062PB"), 9062, (2 ^ 50). split; [lia|]. split; [reflexivity|]. split; [|lia].
  exists (bytes_of "9"), (bytes_of "062"), (bytes_of "PB"). split; [reflexivity|]. split; [|split; [reflexivity|split; [|split; [reflexivity|cbn; tauto]]]].
  - split; [discriminate|]. split; [repeat constructor; discriminate|]. split; [reflexivity|discriminate].
  - repeat constructor; discriminate.
Qed.
Lemma size_1024 : forall m text n u, 0 <= m < 2 ^ 64 -> size_string m = Ok text -> shows text n u ->
  n <= 1024000 /\ (u <> 1 -> 1000 <= n).
Proof.
  intros m t n u H E S. destruct (size_exact m H) as (t0 & n0 & b & E0 & S0 & En & (Hb & k & Ek) & Hlo & Hhi).
  assert (t = t0) by congruence. subst t0. destruct (shows_unique _ _ _ _ _ S S0) as [-> ->].
  assert (P : 0 < 2 ^ b) by (apply Z.pow_pos_nonneg; lia). split.
  - subst n0. apply rne_le; auto. assert (f64_of m <= 2 ^ (b + 10)); [|rewrite Z.pow_add_r in * by lia; lia].
    apply f64_pow_le; [lia|lia|]. rewrite Z.pow_add_r by lia. lia.
  - intros N. subst n0. apply rne_ge; auto. assert (2 ^ b <= f64_of m); [apply f64_pow_ge; [lia|]|lia]. tauto.
Qed.
