(** Proofs about package hash. *)
From Coq Require Import String ZArith List Bool Lia ZifyBool.
From Verif Require Import GoBase GoStrings GoLists ConcBase MathModel MathSpec MathProofs FsModel HashProofs SumModel SumSpec.
Import ListNotations.
Open Scope Z_scope.

Lemma be_one v k : 0 <= k -> Z.land (Z.shiftr v (k * 8)) 255 = v / 256 ^ k mod 256.
Proof.
  intros H. change 255 with (Z.ones 8). rewrite Z.land_ones, Z.shiftr_div_pow2 by lia. rewrite Z.mul_comm, Z.pow_mul_r by lia. reflexivity.
Qed.
Lemma be_six v : be_bytes 6 v = six_bytes v.
Proof. cbn [be_bytes six_bytes map]. rewrite !be_one by lia. reflexivity. Qed.
Lemma land48 v : Z.land v (2 ^ 48 - 1) = v mod 2 ^ 48.
Proof. change (2 ^ 48 - 1) with (Z.ones 48). now rewrite Z.land_ones by lia. Qed.
Lemma six_mod v : six_bytes (v mod 2 ^ 48) = six_bytes v.
Proof.
  unfold six_bytes. cbn [map]. change (2 ^ 48) with (256 ^ 6).
  assert (R : forall k, 0 <= k <= 5 -> v mod 256 ^ 6 / 256 ^ k mod 256 = v / 256 ^ k mod 256).
  { intros k Hk. replace (256 ^ 6) with (256 ^ k * (256 * 256 ^ (5 - k))).
    2:{ rewrite <- Z.pow_succ_r by lia. rewrite <- Z.pow_add_r by lia. f_equal. lia. }
    assert (0 < 256 ^ k) by (apply Z.pow_pos_nonneg; lia). assert (0 < 256 ^ (5 - k)) by (apply Z.pow_pos_nonneg; lia).
    rewrite Z.rem_mul_r by lia. rewrite Z.mul_comm, Z.div_add, Z.div_small by (try apply Z.mod_pos_bound; lia).
    rewrite Z.add_0_l, Z.rem_mul_r by lia. rewrite Z.mul_comm, Z.mod_add, Z.mod_mod; lia. }
  now rewrite !R by lia.
Qed.
Lemma slice_part (l : list Z) a b : (a <= b)%nat -> (b <= length l)%nat -> zslice l (Z.of_nat a) (Z.of_nat b) = Ok (part a b l).
Proof.
  intros H L. unfold zslice. replace (0 <=? Z.of_nat a) with true by lia. replace (Z.of_nat a <=? Z.of_nat b) with true by lia.
  replace (Z.of_nat b <=? zlen l) with true by (unfold zlen; lia). cbn [andb]. f_equal.
  replace (Z.to_nat (Z.of_nat b - Z.of_nat a)) with (b - a)%nat by lia. rewrite Nat2Z.id. unfold part.
  assert (G : forall n a l, (a + n <= length l)%nat -> firstn n (skipn a l) = map (fun i => nth i l 0) (seq a n)); [|apply G; lia].
  clear. induction n as [|n IH]; intros a l L; [reflexivity|]. cbn [seq map]. rewrite <- IH by lia.
  clear IH. revert l L. induction a as [|a IH]; intros [|x l] L; cbn [length] in L; try lia; [reflexivity|].
  cbn [skipn nth]. rewrite IH by lia. destruct l; [cbn in L; lia|]. reflexivity.
Qed.
Lemma hex_same v : 0 <= v < 16 -> hex_digit v = nth (Z.to_nat v) (bytes_of "0123456789abcdef") 0.
Proof.
  intros H. assert (C : v = 0 \/ v = 1 \/ v = 2 \/ v = 3 \/ v = 4 \/ v = 5 \/ v = 6 \/ v = 7 \/ v = 8 \/ v = 9 \/ v = 10 \/ v = 11 \/ v = 12 \/ v = 13 \/ v = 14 \/ v = 15) by lia.
  repeat destruct C as [-> | C]; try reflexivity. subst v. reflexivity.
Qed.
Lemma hexs_same l : byte_list l -> hex_bytes l = hexs l.
Proof.
  unfold hex_bytes, hexs. intros H. induction H as [|b l B H IH]; [reflexivity|]. cbn [map concat flat_map].
  rewrite IH. rewrite !hex_same; [reflexivity| |]; [apply Z.mod_pos_bound; lia|]. split; [apply Z.div_pos; lia|apply Z.div_lt_upper_bound; lia].
Qed.
Lemma hexs_app a b : hexs (a ++ b) = hexs a ++ hexs b.
Proof. apply flat_map_app. Qed.
Lemma part_bytes a b l : byte_list l -> byte_list (part a b l).
Proof.
  intros H. unfold part, byte_list. rewrite Forall_map. apply Forall_forall. intros i _.
  destruct (nth_in_or_default i l 0) as [K| ->]; [|lia]. unfold byte_list in H. rewrite Forall_forall in H. auto.
Qed.
Lemma six_byte_list v : byte_list (six_bytes v).
Proof. unfold six_bytes, byte_list. rewrite Forall_map. apply Forall_forall. intros k _. apply Z.mod_pos_bound. lia. Qed.
Lemma hex_num_six v : 0 <= v < 2 ^ 48 -> hex_num 12 v = hexs (six_bytes v).
Proof.
  intros H. rewrite <- hexs_same by apply six_byte_list. unfold hex_bytes, six_bytes. cbn [map concat app hex_num].
  rewrite !Z.div_div by lia.
  assert (Q : forall k, 0 <= k -> v / 256 ^ k mod 256 / 16 = v / (256 ^ k * 16) mod 16 /\ (v / 256 ^ k mod 256) mod 16 = v / 256 ^ k mod 16).
  { intros k Hk. assert (0 < 256 ^ k) by (apply Z.pow_pos_nonneg; lia). rewrite <- Z.div_div by lia. set (w := v / 256 ^ k).
    change 256 with (16 * 16). rewrite Z.rem_mul_r by lia. rewrite Z.mul_comm, Z.div_add, Z.mod_add by lia.
    rewrite Z.div_small by (apply Z.mod_pos_bound; lia). rewrite Z.mod_mod by lia. split; [lia|reflexivity]. }
  assert (Qa : forall k, 0 <= k -> v / 256 ^ k mod 256 / 16 = v / (256 ^ k * 16) mod 16) by (intros; now apply Q).
  assert (Qb : forall k, 0 <= k -> (v / 256 ^ k mod 256) mod 16 = v / 256 ^ k mod 16) by (intros; now apply Q).
  rewrite !Qa, !Qb by lia. change (256 ^ 0) with 1. rewrite Z.div_1_r. reflexivity.
Qed.

Section Fp.
  Variables H1 H2 H3 : list Z -> list Z.
  Hypothesis R : real_hashes H1 H2 H3.
  Notation step := (fp_step H1 H2 H3).
  Definition fp_rel (s : fprint) (a : list Z * Z) : Prop := s = FPrint (fst a) (fst a) (fst a) (snd a).
  Lemma fp_refine s a op : fp_rel s a ->
    exists s', step s op = Ok (s', snd (print_step H1 H2 H3 a op)) /\ fp_rel s' (fst (print_step H1 H2 H3 a op)).
  Proof.
    intros ->. destruct a as [d n]. cbn [fst snd].
    destruct (R d) as ((L1 & B1) & (L2 & B2) & (L3 & B3)).
    assert (P1 : zslice (H1 d) 4 10 = Ok (part 4 10 (H1 d))) by (apply (slice_part _ 4 10); lia).
    assert (P2 : zslice (H2 d) 7 13 = Ok (part 7 13 (H2 d))) by (apply (slice_part _ 7 13); lia).
    assert (P3 : zslice (H3 d) 1 7 = Ok (part 1 7 (H3 d))) by (apply (slice_part _ 1 7); lia).
    destruct op; cbn [fp_step print_step fp_1 fp_2 fp_3 fp_size fst snd]; rewrite ?P1, ?P2, ?P3; cbn [bind];
      (eexists; split; [|reflexivity]); try reflexivity.
    - f_equal. f_equal. f_equal. unfold print_of, mixed. rewrite be_six, land48, six_mod. reflexivity.
    - do 3 f_equal. unfold text_of. rewrite land48, hex_num_six, six_mod by (apply Z.mod_pos_bound; lia).
      rewrite !hexs_same by now apply part_bytes. reflexivity.
  Qed.
  Lemma fp_exact ops : exists s, run_ops step fp_new ops = Ok (s, snd (spec_ops (print_step H1 H2 H3) ([], 0) ops)).
  Proof.
    destruct (run_ops_refine fp_rel step (print_step H1 H2 H3) fp_refine ops fp_new ([], 0) eq_refl) as (s & E & _). eauto.
  Qed.
  Lemma spec_writes : forall (ps : list (list Z)) d n, spec_ops (print_step H1 H2 H3) (d, n) (map FWrite ps) =
    ((d ++ concat ps, fold_left (fun a p => i64 (a + zlen p)) ps n), map (fun p => ONum (zlen p)) ps).
  Proof.
    induction ps as [|p ps IH]; intros d n; cbn [map spec_ops concat fold_left]; [now rewrite app_nil_r|].
    cbn [print_step]. rewrite IH. rewrite app_assoc. reflexivity.
  Qed.
  Lemma count_small : forall (ps : list (list Z)) n, 0 <= n -> n + zlen (concat ps) < 2 ^ 63 -> fold_left (fun a p => i64 (a + zlen p)) ps n = n + zlen (concat ps).
  Proof.
    induction ps as [|p ps IH]; intros n Hn H; cbn [fold_left concat] in *; [unfold zlen; cbn; lia|].
    assert (A : zlen (p ++ concat ps) = zlen p + zlen (concat ps)) by (unfold zlen; rewrite app_length; lia).
    assert (0 <= zlen p /\ 0 <= zlen (concat ps)) by (unfold zlen; lia).
    replace (i64 (n + zlen p)) with (n + zlen p); [rewrite IH; lia|]. unfold i64. rewrite Z.mod_small; lia.
  Qed.
  Lemma fp_chunks (ps : list (list Z)) : zlen (concat ps) < 2 ^ 63 ->
    exists s, run_ops step fp_new (map FWrite ps) = Ok (s, map (fun p => ONum (zlen p)) ps) /\
      step s (FSum []) = Ok (s, OBytes (print_of H1 H2 H3 (zlen (concat ps)) (concat ps))) /\
      length (print_of H1 H2 H3 (zlen (concat ps)) (concat ps)) = 24%nat.
  Proof.
    intros L. destruct (run_ops_refine fp_rel step (print_step H1 H2 H3) fp_refine (map FWrite ps) fp_new ([], 0) eq_refl) as (s & E & Q).
    rewrite spec_writes in E, Q. cbn [fst snd app] in E, Q. rewrite count_small in Q by lia. rewrite Z.add_0_l in Q.
    exists s. split; [exact E|]. split; [|reflexivity].
    destruct (fp_refine s _ (FSum []) Q) as (s' & E' & Q'). rewrite E'. cbn [print_step fst snd] in *. f_equal. f_equal. congruence.
  Qed.
  Lemma text_hex n d : no_dash (text_of H1 H2 H3 n d) = hexs (print_of H1 H2 H3 n d).
  Proof.
    destruct (R d) as ((L1 & B1) & (L2 & B2) & (L3 & B3)).
    assert (N : forall l, byte_list l -> no_dash (hexs l) = hexs l).
    { intros l H. rewrite <- hexs_same by auto. unfold no_dash, hex_bytes. induction H as [|b l B H IH]; [reflexivity|].
      cbn [map concat app filter]. rewrite IH.
      assert (K : forall v, 0 <= v < 16 -> negb (hex_digit v =? 45) = true) by (intros v Hv; unfold hex_digit; destruct (v <? 10) eqn:E; lia).
      rewrite !K; [reflexivity| |]; [apply Z.mod_pos_bound; lia|]. split; [apply Z.div_pos; lia|apply Z.div_lt_upper_bound; lia]. }
    unfold text_of, print_of, mixed. rewrite !hexs_app. unfold no_dash. rewrite !filter_app. fold (no_dash (hexs (six_bytes n))).
    fold (no_dash (hexs (part 4 10 (H1 d)))). fold (no_dash (hexs (part 7 13 (H2 d)))). fold (no_dash (hexs (part 1 7 (H3 d)))).
    rewrite !N by (apply part_bytes || apply six_byte_list; auto). reflexivity.
  Qed.
End Fp.

(** ** StringHash *)
Lemma fmt_0d_digits w v : 0 <= v -> Forall is_digit (fmt_0d w v) /\ digits_value (fmt_0d w v) = v /\ (w <= length (fmt_0d w v))%nat.
Proof.
  intros Hv. destruct (fmt_d_spec v Hv) as (_ & D & V & _). unfold fmt_0d. repeat split.
  - apply Forall_app. split; auto. apply Forall_forall. intros c Hc. apply repeat_spec in Hc. subst. unfold is_digit, chr_0. lia.
  - change chr_0 with 48. now rewrite digits_value_zeros.
  - rewrite app_length, repeat_length. lia.
Qed.
Lemma print_bytes H1 H2 H3 n d : real_hashes H1 H2 H3 -> byte_list (print_of H1 H2 H3 n d).
Proof.
  intros R. destruct (R d) as ((L1 & B1) & (L2 & B2) & (L3 & B3)). unfold print_of, mixed, byte_list. rewrite !Forall_app.
  split; [apply six_byte_list|]. split; [now apply part_bytes|]. split; now apply part_bytes.
Qed.
Section Strings.
  Variable H : Z -> list Z -> list Z.
  Hypothesis SH : std_hashes H.
  Lemma checksum_bytes m s : byte_list (checksum H m s).
  Proof. unfold checksum. destruct (m =? 7); [apply print_bytes, SH|apply SH]. Qed.
  Lemma obj_facts gid m s : 1 <= m <= 7 -> zlen s < 2 ^ 63 ->
    exists h h', hash_new gid m = Ok (gid, h) /\ hobj_write H h s = Ok (h', zlen s) /\ hobj_sum H h' = Ok (checksum H m s).
  Proof.
    intros Hm L. unfold hash_new, checksum. destruct (Z.eqb_spec m 7) as [->|N].
    - cbn [andb Z.leb Z.compare Pos.compare Pos.compare_cont Z.eqb Pos.eqb]. eexists; eexists; split; [reflexivity|].
      cbn [hobj_write fp_step bind]. split; [reflexivity|]. cbn [hobj_sum fp_new fp_1 fp_2 fp_3 fp_size app]. rewrite Z.add_0_l.
      destruct (fp_refine (H 1) (H 2) (H 6) (proj1 SH) (FPrint s s s (i64 (zlen s))) (s, i64 (zlen s)) (FSum []) eq_refl) as (s' & E & _).
      rewrite E. cbn [print_step fst snd bind]. replace (i64 (zlen s)) with (zlen s); [reflexivity|]. unfold i64.
      assert (0 <= zlen s) by (unfold zlen; lia). rewrite Z.mod_small; lia.
    - replace ((1 <=? m) && (m <=? 6)) with true by lia. exists (HStd m []), (HStd m s). split; [reflexivity|]. split; reflexivity.
  Qed.
  Lemma string_hash_eq gid m s : 1 <= m <= 7 -> zlen s < 2 ^ 63 -> string_hash H gid m s = Ok (gid, hexs (checksum H m s)) /\
    exists len, Forall is_digit len /\ digits_value len = zlen s /\ (10 <= length len)%nat /\
      string_hash_l H gid m s = Ok (gid, len ++ 45 :: hexs (checksum H m s)).
  Proof.
    intros Hm L. destruct (obj_facts gid m s Hm L) as (h & h' & E1 & E2 & E3). unfold string_hash, string_hash_l.
    rewrite E1. cbn [bind]. rewrite E2. cbn [bind fst snd]. rewrite E3. cbn [bind]. rewrite hexs_same by apply checksum_bytes. split; [reflexivity|].
    assert (0 <= zlen s) by (unfold zlen; lia). destruct (fmt_0d_digits 10 (zlen s) ltac:(lia)) as (D & V & W).
    exists (fmt_0d 10 (zlen s)). auto.
  Qed.
  Lemma hexs_inj : forall a b, byte_list a -> byte_list b -> hexs a = hexs b -> a = b.
  Proof.
    intros a b Ha Hb. rewrite <- !hexs_same by auto. unfold hex_bytes. revert b Hb. induction Ha as [|x a X Ha IH]; intros b Hb; destruct Hb as [|y b Y Hb]; cbn; try congruence.
    intros E. injection E as E1 E2 E3.
    assert (I : forall v w, 0 <= v < 16 -> 0 <= w < 16 -> hex_digit v = hex_digit w -> v = w).
    { intros v w. unfold hex_digit. destruct (v <? 10) eqn:E, (w <? 10) eqn:F; lia. }
    assert (D : forall z, 0 <= z < 256 -> 0 <= z / 16 < 16 /\ 0 <= z mod 16 < 16).
    { intros z Hz. split; [split; [apply Z.div_pos; lia|apply Z.div_lt_upper_bound; lia]|apply Z.mod_pos_bound; lia]. }
    apply I in E1; [|now apply D|now apply D]. apply I in E2; [|now apply D|now apply D].
    f_equal; [|now apply IH]. rewrite (Z.div_mod x 16), (Z.div_mod y 16) by lia. congruence.
  Qed.
  Lemma dash_split a b a' b' : Forall is_digit a -> Forall is_digit a' -> a ++ 45 :: b = a' ++ 45 :: b' -> a = a' /\ b = b'.
  Proof.
    intros Ha. revert a'. induction Ha as [|x a X Ha IH]; intros a' Ha'; destruct Ha' as [|y a' Y Ha']; cbn; intros E; injection E; intros; subst; auto;
      unfold is_digit in *; try lia. destruct (IH a' Ha') as [-> ->]; auto.
  Qed.
  Lemma string_hash_inj gid gid' m s s' t g g' : 1 <= m <= 7 -> zlen s < 2 ^ 63 -> zlen s' < 2 ^ 63 ->
    (string_hash H gid m s = Ok (g, t) -> string_hash H gid' m s' = Ok (g', t) -> checksum H m s = checksum H m s') /\
    (string_hash_l H gid m s = Ok (g, t) -> string_hash_l H gid' m s' = Ok (g', t) -> zlen s = zlen s' /\ checksum H m s = checksum H m s').
  Proof.
    intros Hm L L'. destruct (string_hash_eq gid m s Hm L) as (E & len & D & V & _ & El).
    destruct (string_hash_eq gid' m s' Hm L') as (E' & len' & D' & V' & _ & El'). rewrite E, E', El, El'. split; intros Q Q'.
    - injection Q as _ Q. injection Q' as _ Q'. apply hexs_inj; try apply checksum_bytes. congruence.
    - injection Q as _ Q. injection Q' as _ Q'. rewrite <- Q' in Q. apply dash_split in Q as [-> Q]; auto.
      split; [congruence|]. apply hexs_inj; auto; apply checksum_bytes.
  Qed.
  Lemma be_four v : be_bytes 4 v = four_bytes v.
  Proof. cbn [be_bytes four_bytes map]. rewrite !be_one by lia. reflexivity. Qed.
  Lemma four_bytes_ok v : byte_list (four_bytes v).
  Proof. unfold four_bytes, byte_list. rewrite Forall_map. apply Forall_forall. intros k _. apply Z.mod_pos_bound. lia. Qed.
  Lemma string_hash_none gid s : string_hash H gid 0 s = Ok ((gid + 1) mod 2 ^ 32, hexs (four_bytes ((gid + 1) mod 2 ^ 32))) /\
    string_hash_l H gid 0 s = Ok ((gid + 1) mod 2 ^ 32, repeat 48 10 ++ 45 :: hexs (four_bytes ((gid + 1) mod 2 ^ 32))).
  Proof.
    unfold string_hash, string_hash_l. cbn [hash_new hobj_write hobj_sum bind andb Z.leb Z.compare Z.eqb fst snd].
    rewrite be_four, hexs_same by apply four_bytes_ok. split; reflexivity.
  Qed.
  Lemma string_hash_unknown gid m s : m < 0 \/ 7 < m -> string_hash H gid m s = Panic /\ string_hash_l H gid m s = Panic.
  Proof.
    intros Hm. unfold string_hash, string_hash_l, hash_new. replace ((1 <=? m) && (m <=? 6)) with false by lia.
    replace (m =? 7) with false by lia. replace (m =? 0) with false by lia. split; reflexivity.
  Qed.
  Lemma four_inj a b : 0 <= a < 2 ^ 32 -> 0 <= b < 2 ^ 32 -> four_bytes a = four_bytes b -> a = b.
  Proof.
    unfold four_bytes. cbn [map]. change (256 ^ 3) with 16777216. change (256 ^ 2) with 65536. change (256 ^ 1) with 256. change (256 ^ 0) with 1.
    intros Ha Hb E. injection E as E3 E2 E1 E0. rewrite !Z.div_1_r in E0.
    assert (D : forall v, 0 <= v < 2 ^ 32 -> v = ((v / 16777216 mod 256) * 256 + v / 65536 mod 256) * 65536 + (v / 256 mod 256) * 256 + v mod 256).
    { intros v Hv. change 16777216 with (65536 * 256). change 65536 with (256 * 256). rewrite <- !Z.div_div by lia.
      set (x := v / 256). set (y := x / 256). set (z := y / 256).
      pose proof (Z.div_mod v 256 ltac:(lia)) as M0. fold x in M0. pose proof (Z.div_mod x 256 ltac:(lia)) as M1. fold y in M1.
      pose proof (Z.div_mod y 256 ltac:(lia)) as M2. fold z in M2.
      assert (z = z mod 256).
      { symmetry. apply Z.mod_small. unfold z, y, x. rewrite !Z.div_div by lia. split; [apply Z.div_pos; lia|apply Z.div_lt_upper_bound; lia]. }
      lia. }
    rewrite (D a Ha), (D b Hb). congruence.
  Qed.
  Lemma none_run : forall (ss : list (list Z)) gid, exists g, run_ops (fun g s => string_hash H g 0 s) gid ss =
    Ok (g, map (fun k => hexs (four_bytes ((gid + Z.of_nat k) mod 2 ^ 32))) (seq 1 (length ss))).
  Proof.
    induction ss as [|s ss IH]; intros gid; [eexists; reflexivity|]. cbn [run_ops]. rewrite (proj1 (string_hash_none gid s)). cbn [bind].
    destruct (IH ((gid + 1) mod 2 ^ 32)) as [g E]. rewrite E. exists g. cbn [bind length seq map]. f_equal. f_equal. f_equal.
    rewrite <- (seq_shift (length ss) 1), map_map. apply map_ext. intros k. rewrite Zplus_mod_idemp_l. f_equal. f_equal. f_equal. lia.
  Qed.
  Lemma none_unique gid ss : Z.of_nat (length ss) <= 2 ^ 32 -> exists g l, run_ops (fun g s => string_hash H g 0 s) gid ss = Ok (g, l) /\ NoDup l.
  Proof.
    intros L. destruct (none_run ss gid) as [g E]. eexists; eexists. split; [exact E|].
    assert (G : forall n a, Z.of_nat n <= 2 ^ 32 -> NoDup (map (fun k => hexs (four_bytes ((gid + Z.of_nat k) mod 2 ^ 32))) (seq a n))); [|now apply G].
    induction n as [|n IH]; intros a Hn; cbn [seq map]; constructor; [|apply IH; lia].
    intros Hin. apply in_map_iff in Hin as (k & Ek & Hk). apply in_seq in Hk. apply hexs_inj in Ek; try apply four_bytes_ok.
    apply four_inj in Ek; try (apply Z.mod_pos_bound; lia). 
    pose proof (Z.div_mod (gid + Z.of_nat k) (2 ^ 32) ltac:(lia)) as M0. pose proof (Z.div_mod (gid + Z.of_nat a) (2 ^ 32) ltac:(lia)) as M1.
    set (q := (gid + Z.of_nat k) / 2 ^ 32) in *. set (p := (gid + Z.of_nat a) / 2 ^ 32) in *. rewrite Ek in M0.
    assert (Z.of_nat k - Z.of_nat a = 2 ^ 32 * (q - p)) by lia. assert (0 < Z.of_nat k - Z.of_nat a < 2 ^ 32) by lia.
    assert (0 < q - p < 1) by lia. lia.
  Qed.
End Strings.
Lemma none_race : exists sched id, let h := snd (crun nh_step nh_init sched) in In (Ret 1%nat tt id) h /\ In (Ret 2%nat tt id) h.
Proof.
  exists (map (fun t => (t, tt)) [1; 2; 1; 1; 2; 2; 1; 2; 1; 2]%nat), 2. vm_compute. auto 10.
Qed.

(** Functions for the examples. *)
Definition ex_h1 (d : list Z) : list Z := map (fun i => (fold_right Z.add 0 d + Z.of_nat i) mod 256) (seq 0 16).
Definition ex_h2 (d : list Z) : list Z := map (fun i => (zlen d + Z.of_nat i) mod 256) (seq 0 20).
Definition ex_h3 (d : list Z) : list Z := [1; 2; 3; 4; 5; 6; 7; 8].

Definition ex_H (m : Z) (d : list Z) : list Z := if m =? 1 then ex_h1 d else if m =? 2 then ex_h2 d else if m =? 6 then ex_h3 d else [zlen d mod 256].
Lemma mods l f : byte_list (map (fun i : nat => f i mod 256) l).
Proof. unfold byte_list. rewrite Forall_map. apply Forall_forall. intros i _. apply Z.mod_pos_bound. lia. Qed.
Lemma ex_hashes : real_hashes ex_h1 ex_h2 ex_h3.
Proof.
  intros d. unfold ex_h1, ex_h2, ex_h3. rewrite !map_length, !seq_length. repeat split; try apply mods. repeat constructor; lia.
Qed.
Lemma ex_std_hashes : std_hashes ex_H.
Proof.
  split; [exact ex_hashes|]. intros m s. unfold ex_H. destruct (ex_hashes s) as ((_ & A) & (_ & B) & (_ & C)).
  destruct (m =? 1); auto. destruct (m =? 2); auto. destruct (m =? 6); auto. repeat constructor; apply Z.mod_pos_bound; lia.
Qed.
Lemma sum_ignores H1 H2 H3 : real_hashes H1 H2 H3 -> forall s b, b <> [] -> forall d n, s = FPrint d d d n ->
  exists r, fp_step H1 H2 H3 s (FSum []) = Ok (s, OBytes r) /\ fp_step H1 H2 H3 s (FSum b) = Ok (s, OBytes r) /\ r <> b ++ r.
Proof.
  intros R s b Hb d n E. destruct (fp_refine H1 H2 H3 R s (d, n) (FSum []) E) as (s1 & E1 & Q1).
  destruct (fp_refine H1 H2 H3 R s (d, n) (FSum b) E) as (s2 & E2 & Q2). cbn [print_step fst snd] in *.
  unfold fp_rel in Q1, Q2. cbn [fst snd] in Q1, Q2. rewrite <- E in Q1, Q2. subst s1 s2.
  exists (print_of H1 H2 H3 n d). split; [exact E1|]. split; [exact E2|]. intros F. apply (f_equal (@length Z)) in F. rewrite app_length in F.
  destruct b; [congruence|cbn [length] in F; lia].
Qed.
Lemma size_wrong : exists ops s r, run_ops (fp_step ex_h1 ex_h2 ex_h3) fp_new ops = Ok (s, [ONum 1; ONum 1; OBytes r]) /\
  ops = [FWrite [7]; FSize; FSum []] /\ zlen r <> 1.
Proof.
  exists [FWrite [7]; FSize; FSum []], (FPrint [7] [7] [7] 1), (print_of ex_h1 ex_h2 ex_h3 1 [7]).
  split; [vm_compute; reflexivity|]. split; [reflexivity|]. vm_compute. discriminate.
Qed.
Lemma six_inj a b : 0 <= a < 2 ^ 48 -> 0 <= b < 2 ^ 48 -> six_bytes a = six_bytes b -> a = b.
Proof.
  unfold six_bytes. cbn [map]. intros Ha Hb E. injection E as E5 E4 E3 E2 E1 E0.
  assert (D : forall k, 0 <= k -> a / 256 ^ (k + 1) = b / 256 ^ (k + 1) -> a / 256 ^ k mod 256 = b / 256 ^ k mod 256 -> a / 256 ^ k = b / 256 ^ k).
  { intros k Hk. assert (0 < 256 ^ k) by (apply Z.pow_pos_nonneg; lia). rewrite Z.pow_add_r by lia. rewrite <- !Z.div_div by lia. intros F G.
    rewrite (Z.div_mod (a / 256 ^ k) 256), (Z.div_mod (b / 256 ^ k) 256) by lia. change (256 ^ 1) with 256 in F. rewrite F, G. reflexivity. }
  assert (T : a / 256 ^ (5 + 1) = b / 256 ^ (5 + 1)) by (rewrite !Z.div_small; auto).
  apply D in T; [|lia|exact E5]. apply (D 4) in T; [|lia|exact E4]. apply (D 3) in T; [|lia|exact E3]. apply (D 2) in T; [|lia|exact E2].
  apply (D 1) in T; [|lia|exact E1]. apply (D 0) in T; [|lia|exact E0]. now rewrite !Z.div_1_r in T.
Qed.
Lemma reset_keeps H1 H2 H3 : real_hashes H1 H2 H3 -> forall p, 0 < zlen p < 2 ^ 48 ->
  exists s a b, run_ops (fp_step H1 H2 H3) fp_new [FWrite p; FSum []; FReset; FWrite p; FSum []] =
    Ok (s, [ONum (zlen p); OBytes a; ONone; ONum (zlen p); OBytes b]) /\ a <> b.
Proof.
  intros R p L. destruct (fp_exact H1 H2 H3 R [FWrite p; FSum []; FReset; FWrite p; FSum []]) as [s E].
  cbn [spec_ops print_step snd app] in E. exists s. eexists. eexists. split; [exact E|]. unfold print_of. intros F.
  apply (f_equal (firstn 6)) in F. cbn [six_bytes map app firstn] in F. change (six_bytes (i64 (0 + zlen p)) = six_bytes (i64 (i64 (0 + zlen p) + zlen p))) in F.
  replace (i64 (0 + zlen p)) with (zlen p) in F by (unfold i64; rewrite Z.mod_small; lia).
  replace (i64 (zlen p + zlen p)) with (zlen p + zlen p) in F by (unfold i64; rewrite Z.mod_small; lia).
  rewrite <- (six_mod (zlen p + zlen p)) in F. apply six_inj in F; [|lia|apply Z.mod_pos_bound; lia].
  pose proof (Z.div_mod (zlen p + zlen p) (2 ^ 48) ltac:(lia)) as M. rewrite <- F in M. lia.
Qed.
Lemma string_sum H1 H2 H3 : real_hashes H1 H2 H3 -> forall d n, exists a b,
  fp_step H1 H2 H3 (FPrint d d d n) FString = Ok (FPrint d d d n, OBytes a) /\
  fp_step H1 H2 H3 (FPrint d d d n) (FSum []) = Ok (FPrint d d d n, OBytes b) /\ no_dash a = hexs b.
Proof.
  intros R d n. destruct (fp_refine H1 H2 H3 R (FPrint d d d n) (d, n) FString eq_refl) as (s1 & E1 & Q1).
  destruct (fp_refine H1 H2 H3 R (FPrint d d d n) (d, n) (FSum []) eq_refl) as (s2 & E2 & Q2). unfold fp_rel in Q1, Q2. cbn [print_step fst snd] in *. subst s1 s2.
  eexists; eexists. split; [exact E1|]. split; [exact E2|]. now apply text_hex.
Qed.
