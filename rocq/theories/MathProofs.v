(** Lemmas about the math models. *)
From Coq Require Import ZArith List Bool Lia ZifyBool ZifyNat.
From Verif Require Import GoBase GoLists MathModel MathSpec.
Import ListNotations.
Open Scope Z_scope.

(** ** Bit fields *)
Lemma land_shifted_ones v i n : 0 <= v -> 0 <= i -> 0 <= n ->
  Z.shiftr (Z.land v (Z.shiftl (Z.ones n) i)) i = bit_field v i n.
Proof.
  intros Hv Hi Hn. unfold bit_field.
  rewrite Z.shiftr_land. rewrite Z.shiftr_shiftl_l by lia. rewrite Z.sub_diag, Z.shiftl_0_r.
  rewrite Z.land_ones by lia. rewrite Z.shiftr_div_pow2 by lia. reflexivity.
Qed.

Lemma ones_small n i : 0 <= n -> 0 <= i -> n + i <= 32 ->
  wrap 32 (Z.shiftl (Z.ones n) i) = Z.shiftl (Z.ones n) i.
Proof.
  intros Hn Hi H. unfold wrap. apply Z.mod_small.
  rewrite Z.shiftl_mul_pow2, Z.ones_equiv by lia.
  assert (0 < 2 ^ n) by (apply Z.pow_pos_nonneg; lia).
  assert (0 < 2 ^ i) by (apply Z.pow_pos_nonneg; lia).
  assert (2 ^ n * 2 ^ i <= 2 ^ 32).
  { rewrite <- Z.pow_add_r by lia. apply Z.pow_le_mono_r; lia. }
  nia.
Qed.

Lemma get_bit_spec v idx : 0 <= v < 2 ^ 32 -> 0 <= idx ->
  get_bit v idx = if idx <? 32 then Some (bit_field v idx 1) else None.
Proof.
  intros Hv Hi. unfold get_bit, check_bit. destruct (Z.leb_spec 0 idx); [|lia]. cbn [andb].
  destruct (Z.ltb_spec idx 32); auto. f_equal.
  pose proof (ones_small 1 idx) as E. change (Z.ones 1) with 1 in E. rewrite E by lia.
  apply (land_shifted_ones v idx 1); lia.
Qed.

Lemma get_byte_spec v idx : 0 <= v < 2 ^ 32 -> 0 <= idx ->
  get_byte v idx = if idx <? 4 then Some (bit_field v (8 * idx) 8) else None.
Proof.
  intros Hv Hi. unfold get_byte, check_byte. destruct (Z.leb_spec 0 idx); [|lia]. cbn [andb].
  destruct (Z.ltb_spec idx 4); auto. cbv zeta.
  replace (wrap 32 (idx * 8)) with (8 * idx) by (unfold wrap; rewrite Z.mod_small; lia).
  f_equal. change 255 with (Z.ones 8). rewrite ones_small by lia. apply land_shifted_ones; lia.
Qed.

Lemma get_word_spec v idx : 0 <= v < 2 ^ 32 -> 0 <= idx ->
  get_word v idx = if idx <? 2 then Some (bit_field v (16 * idx) 16) else None.
Proof.
  intros Hv Hi. unfold get_word, check_word. destruct (Z.leb_spec 0 idx); [|lia]. cbn [andb].
  destruct (Z.ltb_spec idx 2); auto. cbv zeta.
  replace (wrap 32 (idx * 16)) with (16 * idx) by (unfold wrap; rewrite Z.mod_small; lia).
  f_equal. change 65535 with (Z.ones 16). rewrite ones_small by lia. apply land_shifted_ones; lia.
Qed.

Lemma reassemble v : 0 <= v < 2 ^ 32 ->
  v = bit_field v 0 8 + 2 ^ 8 * bit_field v 8 8 + 2 ^ 16 * bit_field v 16 8 + 2 ^ 24 * bit_field v 24 8 /\
  v = bit_field v 0 16 + 2 ^ 16 * bit_field v 16 16.
Proof.
  intros H. unfold bit_field.
  change (2 ^ 0) with 1. change (2 ^ 8) with 256. change (2 ^ 16) with 65536.
  change (2 ^ 24) with 16777216. change (2 ^ 32) with 4294967296 in H.
  Z.div_mod_to_equations. lia.
Qed.

Lemma bits_spec v idx : 0 <= v < 2 ^ 32 -> 0 <= idx < 2 ^ 32 ->
  get_bit v idx = (if idx <? 32 then Some (bit_field v idx 1) else None) /\
  get_byte v idx = (if idx <? 4 then Some (bit_field v (8 * idx) 8) else None) /\
  get_word v idx = (if idx <? 2 then Some (bit_field v (16 * idx) 16) else None).
Proof.
  intros Hv Hi. split; [|split];
  [apply get_bit_spec|apply get_byte_spec|apply get_word_spec]; lia.
Qed.

Lemma bytes_words_reassemble v : 0 <= v < 2 ^ 32 ->
  (exists b0 b1 b2 b3, get_byte v 0 = Some b0 /\ get_byte v 1 = Some b1 /\
     get_byte v 2 = Some b2 /\ get_byte v 3 = Some b3 /\
     v = b0 + 2 ^ 8 * b1 + 2 ^ 16 * b2 + 2 ^ 24 * b3) /\
  (exists w0 w1, get_word v 0 = Some w0 /\ get_word v 1 = Some w1 /\ v = w0 + 2 ^ 16 * w1).
Proof.
  intros H. destruct (reassemble v H) as [E1 E2]. split.
  - exists (bit_field v 0 8), (bit_field v 8 8), (bit_field v 16 8), (bit_field v 24 8).
    repeat split; try (rewrite get_byte_spec by lia; reflexivity). exact E1.
  - exists (bit_field v 0 16), (bit_field v 16 16).
    repeat split; try (rewrite get_word_spec by lia; reflexivity). exact E2.
Qed.

(** ** Decimal writing *)
Lemma digits_value_app s c : digits_value (s ++ [c]) = 10 * digits_value s + (c - 48).
Proof. unfold digits_value. rewrite fold_left_app. reflexivity. Qed.

Lemma digits_value_from s a : fold_left (fun a c => 10 * a + (c - 48)) s a
  = a * 10 ^ zlen s + digits_value s.
Proof.
  revert a; induction s as [|c s IH]; intros a; cbn [fold_left].
  - unfold digits_value, zlen. cbn. lia.
  - unfold digits_value. cbn [fold_left]. rewrite IH, (IH (10 * 0 + (c - 48))).
    unfold zlen. cbn [length]. rewrite Nat2Z.inj_succ, Z.pow_succ_r by lia. ring.
Qed.

Lemma digits_value_app2 s t : digits_value (s ++ t) = digits_value s * 10 ^ zlen t + digits_value t.
Proof. unfold digits_value at 1. rewrite fold_left_app. apply digits_value_from. Qed.

Lemma dec_loop_spec fuel : forall v, 0 <= v < 2 ^ Z.of_nat fuel -> (0 < fuel)%nat ->
  is_decimal v (dec_loop fuel v) /\ (v < 10 -> length (dec_loop fuel v) = 1%nat).
Proof.
  induction fuel as [|f IH]; intros v Hv Hf; [lia|]. cbn [dec_loop].
  destruct (Z.ltb_spec v 10) as [H|H].
  - split; [|auto]. unfold is_decimal, digits_value, chr_0. cbn [hd fold_left]. split; [discriminate|].
    split; [constructor; [unfold is_digit; lia|constructor]|]. split; [lia|].
    intros E. f_equal. lia.
  - split; [|lia]. rewrite Nat2Z.inj_succ, Z.pow_succ_r in Hv by lia.
    assert (Hq : 0 <= v / 10 < 2 ^ Z.of_nat f).
    { split; [apply Z.div_pos; lia|]. apply Z.div_lt_upper_bound; lia. }
    destruct f as [|f].
    { change (2 ^ Z.of_nat 0) with 1 in *. lia. }
    destruct (IH (v / 10) Hq ltac:(lia)) as [(Hne & Hd & Hval & Hz) _].
    pose proof (Z.mod_pos_bound v 10 ltac:(lia)) as Hm.
    set (s := dec_loop (S f) (v / 10)) in *. clearbody s.
    split; [destruct s; discriminate|]. split; [|split].
    + apply Forall_app. split; auto. constructor; [unfold is_digit, chr_0; lia|constructor].
    + rewrite digits_value_app, Hval. unfold chr_0. pose proof (Z.div_mod v 10 ltac:(lia)). lia.
    + intros E. exfalso. destruct s as [|c s]; [congruence|]. cbn in *.
      specialize (Hz E). injection Hz as -> ->. cbn in Hval.
      pose proof (Z.div_mod v 10 ltac:(lia)). lia.
Qed.

Lemma fmt_d_spec v : 0 <= v -> is_decimal v (fmt_d v).
Proof.
  intros Hv. unfold fmt_d. apply dec_loop_spec; [|lia]. split; auto.
  destruct (Z.eq_dec v 0) as [->|]; [reflexivity|].
  pose proof (Z.log2_spec v ltac:(lia)). pose proof (Z.log2_nonneg v).
  rewrite Nat2Z.inj_succ, Z2Nat.id by lia. lia.
Qed.

Lemma decimal_length_pow s v : is_decimal v s -> v < 10 ^ zlen s /\ (1 < zlen s -> 10 ^ (zlen s - 1) <= v).
Proof.
  intros (Hne & Hd & Hv & Hz).
  assert (U : forall t, Forall is_digit t -> 0 <= digits_value t < 10 ^ zlen t).
  { intros t. induction t as [|c t IH] using rev_ind; intros Ht.
    - unfold digits_value, zlen. cbn. lia.
    - apply Forall_app in Ht as [Ht Hc]. specialize (IH Ht). inversion Hc as [|? ? Hc' _]; subst.
      rewrite digits_value_app. unfold zlen in *. rewrite app_length, Nat2Z.inj_add.
      change (Z.of_nat (length [c])) with 1. rewrite Z.pow_add_r by lia.
      unfold is_digit in Hc'. lia. }
  split; [rewrite <- Hv; now apply U|]. intros Hl.
  destruct s as [|c s]; [congruence|]. inversion Hd as [|? ? Hc Hs]; subst.
  change (c :: s) with ([c] ++ s). rewrite digits_value_app2. pose proof (U s Hs).
  assert (E : zlen ([c] ++ s) - 1 = zlen s) by (unfold zlen; cbn [app length]; lia).
  rewrite E.
  assert (c <> 48).
  { intros ->. specialize (Hz eq_refl). injection Hz as ->. unfold zlen in Hl. cbn in Hl. lia. }
  unfold is_digit in Hc. unfold digits_value at 1. cbn [fold_left].
  assert (0 < 10 ^ zlen s) by (apply Z.pow_pos_nonneg; unfold zlen; lia). nia.
Qed.

Lemma fmt_d_len v : 0 <= v < 1000 -> (1 <= length (fmt_d v) <= 3)%nat.
Proof.
  intros H. pose proof (fmt_d_spec v ltac:(lia)) as Hd.
  pose proof (decimal_length_pow _ _ Hd) as [_ Hp].
  assert (fmt_d v <> []) by apply Hd. destruct (fmt_d v) as [|c s] eqn:E; [congruence|].
  split; [cbn; lia|]. destruct (le_lt_dec (length (c :: s)) 3); auto. exfalso.
  assert (10 ^ 3 <= 10 ^ (zlen (c :: s) - 1)) by (apply Z.pow_le_mono_r; unfold zlen; lia).
  specialize (Hp ltac:(unfold zlen; lia)). lia.
Qed.

Lemma digits_value_zeros n s : digits_value (repeat 48 n ++ s) = digits_value s.
Proof.
  induction n as [|n IH]; cbn [repeat app]; [reflexivity|].
  unfold digits_value in *. cbn [fold_left]. exact IH.
Qed.

Lemma fmt_0d_spec v : 0 <= v < 1000 ->
  length (fmt_0d 3 v) = 3%nat /\ Forall is_digit (fmt_0d 3 v) /\ digits_value (fmt_0d 3 v) = v.
Proof.
  intros H. pose proof (fmt_d_len v H) as Hl. pose proof (fmt_d_spec v ltac:(lia)) as (_ & Hd & Hv & _).
  unfold fmt_0d. split; [rewrite app_length, repeat_length; lia|]. split.
  - apply Forall_app. split; auto. apply Forall_forall. intros c Hc. apply repeat_spec in Hc. subst.
    unfold is_digit, chr_0. lia.
  - unfold chr_0. now rewrite digits_value_zeros.
Qed.

(** the tail built so far: groups of three digits after commas *)
Definition tail_ok (gs : list (list Z)) : Prop :=
  Forall (fun h => length h = 3%nat /\ Forall is_digit h) gs.

Lemma strip_digits s : Forall is_digit s -> strip_commas s = s.
Proof.
  unfold strip_commas. induction 1 as [|c s Hc _ IH]; cbn; auto.
  unfold is_digit in Hc. destruct (Z.eqb_spec c 44); cbn; [lia|]. now rewrite IH.
Qed.

Lemma strip_app s t : strip_commas (s ++ t) = strip_commas s ++ strip_commas t.
Proof. apply filter_app. Qed.

Lemma strip_groups gs : tail_ok gs -> strip_commas (flat_map (fun h => 44 :: h) gs) = concat gs.
Proof.
  induction 1 as [|h gs [Hl Hd] _ IH]; [reflexivity|]. cbn [flat_map concat app].
  change (strip_commas (44 :: (h ++ flat_map (fun h0 => 44 :: h0) gs)))
    with (strip_commas (h ++ flat_map (fun h0 => 44 :: h0) gs)).
  rewrite strip_app, IH, strip_digits by auto. reflexivity.
Qed.

Lemma tail_digits gs : tail_ok gs -> Forall is_digit (concat gs).
Proof. induction 1 as [|h gs [Hl Hd] _ IH]; cbn; [constructor|]. apply Forall_app. auto. Qed.

Lemma comma_loop_spec fuel : forall l gs, 0 <= l < 2 ^ (Z.of_nat fuel + 1) -> tail_ok gs ->
  (gs = [] \/ 0 < l) ->
  exists g gs', comma_loop fuel l (flat_map (fun h => 44 :: h) gs)
      = Ok (g ++ flat_map (fun h => 44 :: h) gs') /\
    tail_ok gs' /\ (1 <= length g <= 3)%nat /\ Forall is_digit g /\
    digits_value (g ++ concat gs') = l * 10 ^ zlen (concat gs) + digits_value (concat gs) /\
    (hd 48 g = 48 -> g = [48] /\ gs' = []).
Proof.
  induction fuel as [|f IH]; intros l gs Hl Hg H0; cbn [comma_loop].
  - assert (l < 1000) by (change (2 ^ (Z.of_nat 0 + 1)) with 2 in Hl; lia).
    destruct (Z.leb_spec 1000 l); [lia|].
    pose proof (fmt_d_spec l ltac:(lia)) as (Hne & Hd & Hv & Hz).
    exists (fmt_d l), gs. repeat split; auto; try (apply fmt_d_len; lia).
    + rewrite digits_value_app2, Hv. reflexivity.
    + destruct H0; auto. exfalso. rewrite Hz in Hv by assumption. cbn in Hv. lia.
  - destruct (Z.leb_spec 1000 l) as [Hk|Hk].
    + pose proof (Z.mod_pos_bound l 1000 ltac:(lia)) as Hm.
      destruct (fmt_0d_spec (l mod 1000) ltac:(lia)) as (L3 & D3 & V3).
      assert (Hq : 0 < l / 1000) by (apply Z.div_str_pos; lia).
      destruct (IH (l / 1000) (fmt_0d 3 (l mod 1000) :: gs)) as (g & gs' & E & Hg' & Hlen & Hd & Hv & Hz).
      * split; [lia|]. apply Z.div_lt_upper_bound; [lia|].
        replace (Z.of_nat (S f) + 1) with (1 + (Z.of_nat f + 1)) in Hl by lia.
        rewrite Z.pow_add_r in Hl by lia. change (2 ^ 1) with 2 in Hl. lia.
      * constructor; auto.
      * auto.
      * exists g, gs'. split; [exact E|]. repeat split; auto; try apply Hlen; try (apply Hz; auto).
        rewrite Hv. cbn [concat]. rewrite digits_value_app2, V3.
        unfold zlen. rewrite app_length, Nat2Z.inj_add, L3. rewrite Z.pow_add_r by lia.
        change (10 ^ Z.of_nat 3) with 1000. fold (zlen (concat gs)).
        rewrite (Z.div_mod l 1000) at 3 by lia. ring.
    + pose proof (fmt_d_spec l ltac:(lia)) as (Hne & Hd & Hv & Hz).
      exists (fmt_d l), gs. repeat split; auto; try (apply fmt_d_len; lia).
      * rewrite digits_value_app2, Hv. reflexivity.
      * destruct H0; auto. exfalso. rewrite Hz in Hv by assumption. cbn in Hv. lia.
Qed.

Lemma comma_string_spec v : 0 <= v < 2 ^ 64 ->
  exists s, comma_string v = Ok s /\ is_decimal v (strip_commas s) /\ grouped s.
Proof.
  intros Hv. unfold comma_string.
  destruct (comma_loop_spec (Z.to_nat (Z.log2 v)) v []) as (g & gs & E & Hg & Hlen & Hd & Hval & Hz).
  - split; [lia|]. destruct (Z.eq_dec v 0) as [->|]; [reflexivity|].
    pose proof (Z.log2_spec v ltac:(lia)). pose proof (Z.log2_nonneg v).
    rewrite Z2Nat.id by lia. lia.
  - constructor.
  - auto.
  - exists (g ++ flat_map (fun h => 44 :: h) gs). split; [exact E|].
    assert (Es : strip_commas (g ++ flat_map (fun h => 44 :: h) gs) = g ++ concat gs).
    { rewrite strip_app, strip_groups, strip_digits; auto. }
    rewrite Es. split.
    + split; [destruct g; [cbn in Hlen; lia|discriminate]|]. split; [|split].
      * apply Forall_app. split; auto. now apply tail_digits.
      * rewrite Hval. unfold zlen, digits_value. cbn. lia.
      * intros Eh. destruct g as [|c g]; [cbn in Hlen; lia|]. cbn in Eh.
        destruct (Hz Eh) as [Eg Egs]. rewrite Egs, Eg. reflexivity.
    + exists g, gs. split; auto. split; [lia|].
      assert (Nc : forall h, Forall is_digit h -> ~ In 44 h).
      { intros h Hh Hin. rewrite Forall_forall in Hh. specialize (Hh _ Hin). unfold is_digit in Hh. lia. }
      split.
      * eapply Forall_impl; [|exact Hg]. cbn. tauto.
      * constructor; [now apply Nc|]. eapply Forall_impl; [|exact Hg]. cbn. intros h [_ Hh]. now apply Nc.
Qed.

(** ** Counters *)
Lemma range_verify_true r v : range_verify r v = true.
Proof. unfold range_verify. now destruct (negb _). Qed.

Lemma range_exact w ops : forall v mn mx,
  exists v', spec_ops (range_step w) (Range v mn mx) ops
    = (Range v' mn mx, snd (spec_ops (modular_step w) (v, mn, mx) ops)) /\
    fst (spec_ops (modular_step w) (v, mn, mx) ops) = (v', mn, mx).
Proof.
  induction ops as [|op ops IH]; intros v mn mx.
  - exists v. auto.
  - assert (Hs : exists v1 o, range_step w (Range v mn mx) op = (Range v1 mn mx, o) /\
       modular_step w (v, mn, mx) op = ((v1, mn, mx), o)).
    { destruct op; unfold range_step, range_inc, range_dec, range_set, range_add, range_sub, range_mul;
      rewrite ?range_verify_true; do 2 eexists; split; reflexivity. }
    destruct Hs as (v1 & o & E1 & E2). destruct (IH v1 mn mx) as (v' & E3 & E4).
    exists v'. cbn [spec_ops]. rewrite E1, E2, E3.
    destruct (spec_ops (modular_step w) (v1, mn, mx) ops) as [s os]. cbn in *. subst. auto.
Qed.

Lemma range_careful w ops : 0 < w -> forall v mn mx, 0 <= mn -> mx < 2 ^ w -> mn <= v <= mx ->
  careful v mn mx ops ->
  let r := fst (spec_ops (range_step w) (Range v mn mx) ops) in
  rmin r = mn /\ rmax r = mx /\ mn <= rval r <= mx.
Proof.
  intros Hw. induction ops as [|op ops IH]; intros v mn mx H0 H1 Hv Hc; [cbn; auto|].
  cbn [spec_ops].
  assert (Hs : exists v1 o, range_step w (Range v mn mx) op = (Range v1 mn mx, o) /\
     mn <= v1 <= mx /\ careful v1 mn mx ops).
  { destruct op; cbn in Hc |- *; unfold range_inc, range_dec, range_set, range_add, range_sub, range_mul;
    rewrite ?range_verify_true; unfold wrap; cbn.
    1-3: now eauto.
    - destruct Hc. eauto.
    - destruct Hc. do 2 eexists; split; [reflexivity|]. rewrite !Z.mod_small by lia. split; [lia|auto].
    - destruct Hc. do 2 eexists; split; [reflexivity|]. rewrite !Z.mod_small by lia. split; [lia|auto].
    - exists mn, RUnit. split; [reflexivity|]. split; [lia|auto].
    - exists mx, RUnit. split; [reflexivity|]. split; [lia|auto].
    - eauto.
    - eauto.
    - eauto. }
  destruct Hs as (v1 & o & E & Hv1 & Hc1). rewrite E.
  specialize (IH v1 mn mx H0 H1 Hv1 Hc1). cbv zeta in *.
  destruct (spec_ops (range_step w) (Range v1 mn mx) ops). exact IH.
Qed.

Lemma range_div_mod r x : 0 <= rval r -> 0 <= x ->
  range_div r x = (if x =? 0 then Panic else Ok (rval r / x, true)) /\
  range64_mod r x = (if x =? 0 then Panic else Ok (rval r mod x, true)) /\
  range32_mod r x = (if x =? 0 then Ok (rmin r, false) else Ok (rval r mod x, true)).
Proof.
  intros _ _. unfold range_div, range64_mod, range32_mod, range_verify.
  destruct (x =? 0); auto.
  repeat match goal with |- context [if negb ?b then true else true] => destruct (negb b) end; auto.
Qed.
