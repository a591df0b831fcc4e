From Coq Require Import ZArith Bool Lia SpecFloat ZifyBool.
From Verif Require Import FloatModel FloatSpec.
Open Scope Z_scope.

Lemma pow_split : forall a b, 0 <= a -> 0 <= b -> 2 ^ (a + b) = 2 ^ a * 2 ^ b.
Proof. intros; apply Z.pow_add_r; lia. Qed.

Lemma pow_pos : forall a, 0 <= a -> 0 < 2 ^ a.
Proof. intros; apply Z.pow_pos_nonneg; lia. Qed.

Lemma digits_bounds : forall p,
  2 ^ (Zpos (digits2_pos p) - 1) <= Zpos p < 2 ^ Zpos (digits2_pos p).
Proof.
  induction p; cbn [digits2_pos].
  - rewrite Pos2Z.inj_succ. replace (Z.succ (Z.pos (digits2_pos p)) - 1) with ((Z.pos (digits2_pos p) - 1) + 1) by lia.
    replace (Z.succ (Z.pos (digits2_pos p))) with (Z.pos (digits2_pos p) + 1) by lia.
    rewrite !pow_split by lia. change (2^1) with 2. lia.
  - rewrite Pos2Z.inj_succ. replace (Z.succ (Z.pos (digits2_pos p)) - 1) with ((Z.pos (digits2_pos p) - 1) + 1) by lia.
    replace (Z.succ (Z.pos (digits2_pos p))) with (Z.pos (digits2_pos p) + 1) by lia.
    rewrite !pow_split by lia. change (2^1) with 2. lia.
  - cbn. lia.
Qed.

Lemma digits_unique : forall p d, 0 < d -> 2 ^ (d - 1) <= Zpos p < 2 ^ d ->
  Zpos (digits2_pos p) = d.
Proof.
  intros p d D H. pose proof (digits_bounds p) as B.
  assert (Z.pos (digits2_pos p) - 1 < d).
  { apply (Z.pow_lt_mono_r_iff 2); lia. }
  assert (d - 1 < Z.pos (digits2_pos p)).
  { apply (Z.pow_lt_mono_r_iff 2); lia. }
  lia.
Qed.

(** ** Shifting right with a guard and a sticky bit *)
Definition shinv (v k : Z) (x : shr_record) : Prop :=
  exists rem, 0 <= shr_m x /\ v = 2 ^ k * shr_m x + rem /\ 0 <= rem < 2 ^ k /\
    match shr_r x, shr_s x with
    | false, false => rem = 0
    | false, true => 0 < 2 * rem < 2 ^ k
    | true, false => 2 * rem = 2 ^ k
    | true, true => 2 ^ k < 2 * rem
    end.

Lemma shr_1_inv : forall v k x, 0 <= k -> shinv v k x -> shinv v (k + 1) (shr_1 x).
Proof.
  intros v k [m r s] K (rem & M & V & R & C). cbn [shr_m shr_r shr_s] in *.
  pose proof (pow_pos k K) as P.
  assert (P2: 2 ^ (k + 1) = 2 * 2 ^ k) by (rewrite pow_split by lia; change (2^1) with 2; lia).
  unfold shinv. rewrite P2.
  destruct m as [|p|p]; [| |lia].
  - exists rem. cbn [shr_1 shr_m shr_r shr_s]. repeat split; try lia.
    destruct r, s; cbn [orb]; lia.
  - destruct p as [p|p|]; cbn [shr_1 shr_m shr_r shr_s].
    + exists (rem + 2 ^ k). repeat split; try lia. destruct r, s; cbn [orb]; lia.
    + exists rem. repeat split; try lia. destruct r, s; cbn [orb]; lia.
    + exists (rem + 2 ^ k). repeat split; try lia. destruct r, s; cbn [orb]; lia.
Qed.

Lemma iter_shr_inv : forall p v k x, 0 <= k -> shinv v k x ->
  shinv v (k + Zpos p) (iter_pos shr_1 p x).
Proof.
  induction p; intros v k x K H; cbn [iter_pos].
  - replace (k + Zpos p~1) with (k + 1 + Zpos p + Zpos p) by lia.
    apply IHp; [lia|]. apply IHp; [lia|]. apply shr_1_inv; auto.
  - replace (k + Zpos p~0) with (k + Zpos p + Zpos p) by lia.
    apply IHp; [lia|]. apply IHp; auto.
  - apply shr_1_inv; auto.
Qed.

Lemma round_even_spec : forall v k x, 0 <= k -> shinv v k x ->
  exists rem, v = 2 ^ k * shr_m x + rem /\ 0 <= rem < 2 ^ k /\ 0 <= shr_m x /\
    ((round_nearest_even (shr_m x) (loc_of_shr_record x) = shr_m x /\
      (2 * rem < 2 ^ k \/ 2 * rem = 2 ^ k /\ Z.even (shr_m x) = true)) \/
     (round_nearest_even (shr_m x) (loc_of_shr_record x) = shr_m x + 1 /\
      (2 ^ k < 2 * rem \/ 2 * rem = 2 ^ k /\ Z.even (shr_m x) = false))).
Proof.
  intros v k [m r s] K (rem & M & V & R & C). cbn [shr_m shr_r shr_s] in *.
  exists rem. split; [auto|]. split; [auto|]. split; [auto|].
  destruct r, s; cbn [loc_of_shr_record round_nearest_even].
  - right. auto.
  - destruct (Z.even m); [left|right]; auto.
  - left. split; auto. lia.
  - left. split; auto. left. lia.
Qed.

(** ** Rounding of m 2^e *)
Local Notation fexp' := (fexp 53 1024).

Lemma fexp_eq : forall k, fexp' k = Z.max (k - 53) (-1074).
Proof. intros. unfold fexp, emin. reflexivity. Qed.

Definition pack (s : bool) (m : positive) (e : Z) : spec_float :=
  if e <=? 971 then S754_finite s m e else S754_infinity s.

Lemma shr_fexp_id : forall m e, fexp' (Zpos (digits2_pos m) + e) = e ->
  shr_fexp 53 1024 (Zpos m) e loc_Exact = (Build_shr_record (Zpos m) false false, e).
Proof. intros m e H. unfold shr_fexp. cbn [Zdigits2]. rewrite H, Z.sub_diag. reflexivity. Qed.

Lemma shift_pos_eq : forall d m, Zpos (shift_pos d m) = Zpos m * 2 ^ Zpos d.
Proof. intros. rewrite shift_pos_correct. unfold Zpower_pos. rewrite Z.mul_comm.
  change (Z.pow_pos 2 d) with (2 ^ Zpos d). reflexivity. Qed.

Lemma shl_align_eq : forall m e e', e' <= e ->
  Zpos (fst (shl_align m e e')) = Zpos m * 2 ^ (e - e') /\ snd (shl_align m e e') = e'.
Proof.
  intros m e e' H. unfold shl_align. destruct (e' - e) as [|p|p] eqn:E; try lia; cbn [fst snd].
  - replace (e - e') with 0 by lia. split; lia.
  - rewrite shift_pos_eq. replace (e - e') with (Zpos p) by lia. auto.
Qed.

Lemma round_small : forall s m e f, f = fexp' (Zpos (digits2_pos m) + e) -> f <= e ->
  exists m', Zpos m' = Zpos m * 2 ^ (e - f) /\ Zpos (digits2_pos m') + f = Zpos (digits2_pos m) + e /\
    binary_round 53 1024 s m e = pack s m' f.
Proof.
  intros s m e f F L. unfold binary_round. rewrite <- F.
  destruct (shl_align_eq m e f L) as [A B].
  destruct (shl_align m e f) as [mz ez]. cbn [fst snd] in A, B. subst ez.
  exists mz. split; [exact A|].
  assert (D: Zpos (digits2_pos mz) + f = Zpos (digits2_pos m) + e).
  { assert (Zpos (digits2_pos mz) = Zpos (digits2_pos m) + (e - f)); [|lia].
    apply digits_unique; [lia|]. rewrite A. pose proof (digits_bounds m) as [B1 B2].
    pose proof (pow_pos (e - f) ltac:(lia)) as P.
    replace (Z.pos (digits2_pos m) + (e - f) - 1) with ((Z.pos (digits2_pos m) - 1) + (e - f)) by lia.
    rewrite !pow_split by lia. nia. }
  split; [exact D|].
  unfold binary_round_aux. rewrite shr_fexp_id by (rewrite D; auto).
  cbn [shr_m loc_of_shr_record round_nearest_even].
  rewrite shr_fexp_id by (rewrite D; auto). cbn [shr_m]. reflexivity.
Qed.

Lemma round_big : forall s m e f, f = fexp' (Zpos (digits2_pos m) + e) -> e < f -> -1074 <= e ->
  f = Zpos (digits2_pos m) + e - 53 /\
  exists q rem q' m' e', Zpos m = 2 ^ (f - e) * q + rem /\ 0 <= rem < 2 ^ (f - e) /\
    2 ^ 52 <= q < 2 ^ 53 /\
    ((q' = q /\ (2 * rem < 2 ^ (f - e) \/ 2 * rem = 2 ^ (f - e) /\ Z.even q = true)) \/
     (q' = q + 1 /\ (2 ^ (f - e) < 2 * rem \/ 2 * rem = 2 ^ (f - e) /\ Z.even q = false))) /\
    ((q' < 2 ^ 53 /\ Zpos m' = q' /\ e' = f) \/ (q' = 2 ^ 53 /\ Zpos m' = 2 ^ 52 /\ e' = f + 1)) /\
    binary_round 53 1024 s m e = pack s m' e'.
Proof.
  intros s m e f F L E.
  assert (FF: f = Zpos (digits2_pos m) + e - 53) by (pose proof F as F2; rewrite fexp_eq in F2; lia).
  split; [exact FF|].
  unfold binary_round. rewrite <- F.
  assert (SA: shl_align m e f = (m, e)).
  { unfold shl_align. destruct (f - e) eqn:Z0; try lia; reflexivity. }
  rewrite SA. unfold binary_round_aux. unfold shr_fexp at 1. cbn [Zdigits2 shr_record_of_loc].
  rewrite <- F. destruct (f - e) as [|p|p] eqn:N; try lia. cbn [shr].
  assert (I0: shinv (Zpos m) 0 (Build_shr_record (Zpos m) false false)).
  { exists 0. cbn [shr_m shr_r shr_s]. rewrite Z.pow_0_r. repeat split; lia. }
  pose proof (iter_shr_inv p (Zpos m) 0 _ ltac:(lia) I0) as I1. rewrite Z.add_0_l in I1.
  destruct (round_even_spec (Zpos m) (Zpos p) _ ltac:(lia) I1) as (rem & V & R & Q0 & RN).
  set (x := iter_pos shr_1 p {| shr_m := Z.pos m; shr_r := false; shr_s := false |}) in *.
  replace (e + Zpos p) with f by lia.
  pose proof (digits_bounds m) as [D1 D2].
  pose proof (pow_pos (Zpos p) ltac:(lia)) as P.
  assert (DD: Zpos (digits2_pos m) = Zpos p + 53) by lia.
  rewrite DD in D1, D2. replace (Zpos p + 53 - 1) with (Zpos p + 52) in D1 by lia.
  rewrite pow_split in D1, D2 by lia.
  assert (Q: 2 ^ 52 <= shr_m x < 2 ^ 53) by nia.
  set (q' := round_nearest_even (shr_m x) (loc_of_shr_record x)) in *.
  assert (Q': 2 ^ 52 <= q' <= 2 ^ 53) by lia.
  assert (T52: 2 ^ 52 = 4503599627370496) by reflexivity.
  assert (T53: 2 ^ 53 = 9007199254740992) by reflexivity.
  destruct q' as [|m'|m'] eqn:EQ; [lia| |lia].
  destruct (Z.eq_dec (Zpos m') (2 ^ 53)) as [T|T].
  - exists (shr_m x), rem, (Zpos m'), 4503599627370496%positive, (f + 1).
    split; [exact V|]. split; [exact R|]. split; [exact Q|]. split; [exact RN|].
    split; [right; split; [exact T|split; reflexivity]|].
    assert (m' = 9007199254740992%positive) as -> by lia.
    unfold shr_fexp. change (Zdigits2 9007199254740992) with 54.
    rewrite fexp_eq. replace (Z.max (54 + f - 53) (-1074) - f) with 1 by lia.
    cbn [shr]. cbn [iter_pos shr_record_of_loc shr_1 orb shr_m]. reflexivity.
  - exists (shr_m x), rem, (Zpos m'), m', f.
    split; [exact V|]. split; [exact R|]. split; [exact Q|]. split; [exact RN|].
    split; [left; split; [lia|split; reflexivity]|].
    assert (D: Zpos (digits2_pos m') = 53) by (apply digits_unique; [lia|change (53 - 1) with 52; lia]).
    rewrite shr_fexp_id by (rewrite D, fexp_eq; lia). cbn [shr_m]. reflexivity.
Qed.

Lemma ltb_pack : forall s m e,
  SFltb (SFabs (pack s m e)) epslon = true <->
  e < -72 \/ e = -72 /\ Zpos m < 4722366482869645.
Proof.
  intros s m e. unfold pack. destruct (Z.leb_spec e 971) as [E|E]; cbn [SFabs].
  - unfold SFltb, SFcompare, epslon.
    destruct (Z.compare_spec e (-72)) as [H|H|H].
    + rewrite Pos.compare_cont_spec. unfold Pos.switch_Eq.
      destruct (Pos.compare_spec m 4722366482869645) as [H0|H0|H0].
      * split; intro H1; [discriminate H1|exfalso; lia].
      * split; intro H1; [right; split; [exact H|exact (Pos2Z.pos_lt_pos _ _ H0)]|reflexivity].
      * split; intro H1; [discriminate H1|exfalso]. destruct H1 as [H1|[_ H1]]; [lia|].
        apply Pos2Z.pos_lt_pos in H0. exact (Z.lt_irrefl _ (Z.lt_trans _ _ _ H1 H0)).
    + split; intro H1; [left; exact H|reflexivity].
    + split; intro H1; [discriminate H1|exfalso]. clear -H H1. lia.
  - unfold SFltb, SFcompare, epslon. split; intro H1; [discriminate H1|exfalso]. clear -E H1. lia.
Qed.

Local Notation T1001 := (2 ^ 1001).

Lemma round_lt : forall s m e, -1074 <= e ->
  SFltb (SFabs (binary_round 53 1024 s m e)) epslon = true <->
  Zpos m * 2 ^ (e + 1074) <= 9444732965739289 * 2 ^ 1001.
Proof.
  intros s m e E. remember (fexp' (Zpos (digits2_pos m) + e)) as f eqn:F.
  pose proof (pow_pos 1001 ltac:(lia)) as PT.
  pose proof (pow_pos (e + 1074) ltac:(lia)) as PE.
  destruct (Z_le_gt_dec f e) as [L|L].
  - destruct (round_small s m e f F L) as (m' & M & D & ->). rewrite ltb_pack.
    assert (U: Zpos m * 2 ^ (e + 1074) = Zpos m' * 2 ^ (f + 1074)).
    { rewrite M. replace (e + 1074) with ((e - f) + (f + 1074)) by lia.
      rewrite fexp_eq in F. rewrite pow_split by lia. ring. }
    rewrite U. clear U. rewrite fexp_eq in F. rewrite <- D in F.
    pose proof (digits_bounds m') as [D1 D2].
    destruct (Z_lt_ge_dec f (-72)) as [C|C].
    + split; [intros _|auto].
      assert (Zpos m' < 2 ^ 53).
      { eapply Z.lt_le_trans; [exact D2|]. apply Z.pow_le_mono_r; lia. }
      assert (2 ^ (f + 1074) <= 2 ^ 1001) by (apply Z.pow_le_mono_r; lia).
      pose proof (pow_pos (f + 1074) ltac:(lia)).
      change (2 ^ 53) with 9007199254740992 in *. nia.
    + assert (DD: Zpos (digits2_pos m') = 53) by lia.
      rewrite DD in D1, D2. change (53 - 1) with 52 in D1.
      change (2 ^ 52) with 4503599627370496 in D1. change (2 ^ 53) with 9007199254740992 in D2.
      destruct (Z.eq_dec f (-72)) as [->|C2].
      * replace (-72 + 1074) with (1 + 1001) by lia. rewrite pow_split by lia.
        change (2 ^ 1) with 2. nia.
      * replace (f + 1074) with ((f + 71) + 2 + 1001) by lia. rewrite !pow_split by lia.
        pose proof (pow_pos (f + 71) ltac:(lia)). change (2 ^ 2) with 4.
        split; [lia|]. intros H1. exfalso.
        assert (18014398509481984 * 2 ^ 1001 <= Z.pos m' * (2 ^ (f + 71) * 4 * 2 ^ 1001)); [|lia].
        replace (Z.pos m' * (2 ^ (f + 71) * 4 * 2 ^ 1001)) with ((4 * Z.pos m' * 2 ^ (f + 71)) * 2 ^ 1001) by ring.
        apply Z.mul_le_mono_nonneg_r; nia.
  - destruct (round_big s m e f F ltac:(lia) E) as (FF & q & rem & q' & m' & e' & V & R & Q & RN & MM & ->).
    rewrite ltb_pack.
    remember (2 ^ (f - e)) as X eqn:HX.
    assert (XU: X * 2 ^ (e + 1074) = 2 ^ (f + 1074)).
    { subst X. rewrite <- pow_split by lia. f_equal. lia. }
    change (2 ^ 52) with 4503599627370496 in *. change (2 ^ 53) with 9007199254740992 in *.
    destruct (Z_lt_ge_dec f (-72)) as [C|C].
    + split; [intros _|intros _; lia].
      assert (2 ^ (f + 1074) <= 2 ^ 1001) by (apply Z.pow_le_mono_r; lia).
      assert (Zpos m * 2 ^ (e + 1074) <= 9007199254740992 * X * 2 ^ (e + 1074)) by
        (apply Z.mul_le_mono_nonneg_r; [lia|nia]). nia.
    + destruct (Z.eq_dec f (-72)) as [Cf|C2].
      * rewrite Cf in XU. change (2 ^ (-72 + 1074)) with (2 ^ (1 + 1001)) in XU.
        rewrite (pow_split 1 1001) in XU by lia. change (2 ^ 1) with 2 in XU.
        assert (EQ: Zpos m * 2 ^ (e + 1074) <= 9444732965739289 * 2 ^ 1001 <-> 2 * Zpos m <= 9444732965739289 * X).
        { split; intro H.
          - apply (Z.mul_le_mono_pos_r _ _ (2 ^ (e + 1074))); [lia|]. rewrite <- !Z.mul_assoc, XU. lia.
          - assert (2 * Zpos m * 2 ^ (e + 1074) <= 9444732965739289 * X * 2 ^ (e + 1074)) by
              (apply Z.mul_le_mono_nonneg_r; lia). rewrite <- !Z.mul_assoc, XU in H0. lia. }
        rewrite EQ. clear EQ XU PT PE HX.
        assert (QC: q < 4722366482869644 \/ q = 4722366482869644 \/ 4722366482869645 <= q) by lia.
        destruct QC as [QC|[QC|QC]].
        -- split; [intros _|intros _; lia]. nia.
        -- assert (Z.even q = true) by (rewrite QC; reflexivity).
           rewrite QC in V. split; intro H1.
           ++ assert (q' = q) by lia. destruct RN as [[_ RN]|[RN _]]; lia.
           ++ destruct RN as [[RN _]|[_ [RN|[_ RN]]]]; [lia|lia|congruence].
        -- split; intro H1; [lia|exfalso]. nia.
      * split; [lia|intro H1; exfalso].
        rewrite V in H1.
        assert (4503599627370496 * 2 ^ (f + 1074) <= (X * q + rem) * 2 ^ (e + 1074)).
        { rewrite <- XU. rewrite Z.mul_assoc. apply Z.mul_le_mono_nonneg_r; nia. }
        assert (PP: 2 ^ (f + 1074) = 2 ^ (f + 71) * 4 * 2 ^ 1001).
        { replace (f + 1074) with ((f + 71) + 2 + 1001) by lia. rewrite !pow_split by lia. reflexivity. }
        rewrite PP in H. pose proof (pow_pos (f + 71) ltac:(lia)).
        assert (18014398509481984 * 2 ^ 1001 <= 4503599627370496 * (2 ^ (f + 71) * 4 * 2 ^ 1001)); [|lia].
        replace (4503599627370496 * (2 ^ (f + 71) * 4 * 2 ^ 1001)) with ((18014398509481984 * 2 ^ (f + 71)) * 2 ^ 1001) by ring.
        apply Z.mul_le_mono_nonneg_r; nia.
Qed.

(** ** Differences *)
Lemma double_finite : forall s m e, double (S754_finite s m e) ->
  -1074 <= e <= 971 /\ e = Z.max (Zpos (digits2_pos m) + e - 53) (-1074).
Proof.
  intros s m e H. unfold double, valid_binary, bounded, canonical_mantissa in H.
  apply andb_prop in H as [H1 H2]. apply Zeq_bool_eq in H1. apply Zle_bool_imp_le in H2.
  rewrite fexp_eq in H1. lia.
Qed.

Lemma normalize_lt : forall d e, -1074 <= e ->
  SFltb (SFabs (binary_normalize 53 1024 d e false)) epslon = true <->
  Z.abs (d * 2 ^ (e + 1074)) <= 9444732965739289 * 2 ^ 1001.
Proof.
  intros d e E. destruct d as [|p|p]; cbn [binary_normalize].
  - rewrite Z.mul_0_l. split; intros _; [|reflexivity]. pose proof (pow_pos 1001 ltac:(lia)). lia.
  - rewrite round_lt by auto. rewrite Z.abs_mul, (Z.abs_eq (2 ^ _)) by (apply Z.pow_nonneg; lia). reflexivity.
  - rewrite round_lt by auto. rewrite Z.abs_mul, (Z.abs_eq (2 ^ _)) by (apply Z.pow_nonneg; lia). reflexivity.
Qed.

Lemma single_lt : forall s m e, double (S754_finite s m e) ->
  SFltb (SFabs (S754_finite s m e)) epslon = true <->
  Zpos m * 2 ^ (e + 1074) <= 9444732965739289 * 2 ^ 1001.
Proof.
  intros s m e D. destruct (double_finite _ _ _ D) as [E F].
  rewrite <- (round_lt s) by lia.
  destruct (round_small s m e e) as (m' & M & _ & ->); [rewrite fexp_eq; lia|lia|].
  rewrite Z.sub_diag, Z.pow_0_r, Z.mul_1_r in M. injection M as ->.
  unfold pack. destruct (e <=? 971) eqn:C; [reflexivity|lia].
Qed.

Lemma units_align : forall s m e z, -1074 <= z <= e ->
  units (S754_finite s m e) =
  cond_Zopp s (Zpos (fst (shl_align m e z))) * 2 ^ (z + 1074).
Proof.
  intros s m e z H. destruct (shl_align_eq m e z ltac:(lia)) as [-> _].
  cbn [units]. replace (e + 1074) with ((e - z) + (z + 1074)) by lia.
  rewrite pow_split by lia. destruct s; cbn [cond_Zopp]; ring.
Qed.

Lemma float_equal_iff : forall a b, double a -> double b ->
  float_equal a b = true <->
  finite a /\ finite b /\ dist a b <= 9444732965739289 * 2 ^ 1001.
Proof.
  intros a b Da Db. unfold float_equal, dist. pose proof (pow_pos 1001 ltac:(lia)) as PT.
  destruct a as [sa|sa| |sa ma ea].
  - destruct b as [sb|sb| |sb mb eb]; cbn [SFsub finite].
    + cbn [units]. split; intros _; [split; [exact Logic.I|split; [exact Logic.I|lia]]|destruct sa, sb; reflexivity].
    + destruct sb; (split; [intro H; discriminate H|tauto]).
    + split; [intro H; discriminate H|tauto].
    + assert (S: SFabs (S754_finite (negb sb) mb eb) = SFabs (S754_finite sb mb eb)) by reflexivity.
      rewrite S, single_lt by auto. cbn [units].
      assert (A: Z.abs (0 - (if sb then -1 else 1) * (Z.pos mb * 2 ^ (eb + 1074))) = Z.pos mb * 2 ^ (eb + 1074)).
      { destruct (double_finite _ _ _ Db). pose proof (pow_pos (eb + 1074) ltac:(lia)). destruct sb; nia. }
      rewrite A. tauto.
  - cbn [finite]. destruct b as [sb|sb| |sb mb eb]; cbn [SFsub];
      try (destruct sa; (split; [intro H; discriminate H|tauto]));
      try (split; [intro H; discriminate H|tauto]); try (destruct sa, sb; (split; [intro H; discriminate H|tauto])).
  - cbn [finite]. split; [intro H; discriminate H|tauto].
  - destruct b as [sb|sb| |sb mb eb]; cbn [SFsub finite].
    + rewrite single_lt by auto. cbn [units].
      assert (A: Z.abs ((if sa then -1 else 1) * (Z.pos ma * 2 ^ (ea + 1074)) - 0) = Z.pos ma * 2 ^ (ea + 1074)).
      { destruct (double_finite _ _ _ Da). pose proof (pow_pos (ea + 1074) ltac:(lia)). destruct sa; nia. }
      rewrite A. tauto.
    + split; [intro H; discriminate H|tauto].
    + split; [intro H; discriminate H|tauto].
    + destruct (double_finite _ _ _ Da) as [Ea _]. destruct (double_finite _ _ _ Db) as [Eb _].
      rewrite normalize_lt by lia.
      rewrite (units_align sa ma ea (Z.min ea eb)) by lia.
      rewrite (units_align sb mb eb (Z.min ea eb)) by lia.
      rewrite <- Z.mul_sub_distr_r. tauto.
Qed.

(** ** Consequences *)
Lemma dist_sym : forall a b, dist a b = dist b a.
Proof. intros. unfold dist. lia. Qed.

Lemma float_equal_sym : forall a b, double a -> double b -> float_equal a b = float_equal b a.
Proof.
  intros a b Da Db. pose proof (float_equal_iff a b Da Db) as H1.
  pose proof (float_equal_iff b a Db Da) as H2. rewrite dist_sym in H2.
  destruct (float_equal a b), (float_equal b a); try reflexivity.
  - symmetry. apply H2. tauto.
  - apply H1. tauto.
Qed.

Lemma float_equal_refl : forall a, double a -> float_equal a a = true <-> finite a.
Proof.
  intros a Da. rewrite float_equal_iff by auto. unfold dist. rewrite Z.sub_diag.
  pose proof (pow_pos 1001 ltac:(lia)). cbn [Z.abs]. split; [tauto|].
  intros F. split; [exact F|]. split; [exact F|]. lia.
Qed.

Lemma float_equal_below : forall a b, double a -> double b -> float_equal a b = true ->
  finite a /\ finite b /\ dist a b * 1000000 < 2 ^ 1074.
Proof.
  intros a b Da Db H. apply float_equal_iff in H as (Fa & Fb & H); auto.
  split; [exact Fa|]. split; [exact Fb|].
  assert (P: 2 ^ 1074 = 9444732965739290427392 * 2 ^ 1001) by reflexivity. rewrite P. clear P.
  pose proof (pow_pos 1001 ltac:(lia)). lia.
Qed.

Lemma float_equal_near : forall a b, double a -> double b -> finite a -> finite b ->
  dist a b * 10000000000000000000000 <= 9999999999999998 * 2 ^ 1074 -> float_equal a b = true.
Proof.
  intros a b Da Db Fa Fb H. apply float_equal_iff; auto.
  split; [exact Fa|]. split; [exact Fb|].
  assert (P: 2 ^ 1074 = 9444732965739290427392 * 2 ^ 1001) by reflexivity. rewrite P in H. clear P.
  pose proof (pow_pos 1001 ltac:(lia)). lia.
Qed.

Lemma units_multiple : forall s m e k, 0 <= k -> k <= e + 1074 ->
  exists z, units (S754_finite s m e) = z * 2 ^ k.
Proof.
  intros s m e k K H. exists ((if s then -1 else 1) * (Zpos m * 2 ^ (e + 1074 - k))).
  cbn [units]. replace (e + 1074) with ((e + 1074 - k) + k) at 1 by lia.
  rewrite pow_split by lia. ring.
Qed.

Lemma units_abs : forall s m e, -1074 <= e ->
  Z.abs (units (S754_finite s m e)) = Zpos m * 2 ^ (e + 1074).
Proof.
  intros. cbn [units]. pose proof (pow_pos (e + 1074) ltac:(lia)). destruct s; nia.
Qed.

Lemma large_exponent : forall s m e, double (S754_finite s m e) ->
  (-19 <= e) \/ Z.abs (units (S754_finite s m e)) <= 2 ^ 1107 - 2 ^ 1054.
Proof.
  intros s m e D. destruct (double_finite _ _ _ D) as [E F].
  destruct (Z_le_gt_dec (-19) e) as [L|L]; [left; exact L|right].
  rewrite units_abs by lia. pose proof (digits_bounds m) as [_ B].
  assert (Zpos m <= 2 ^ 53 - 1).
  { assert (2 ^ Zpos (digits2_pos m) <= 2 ^ 53) by (apply Z.pow_le_mono_r; lia). lia. }
  assert (2 ^ (e + 1074) <= 2 ^ 1054) by (apply Z.pow_le_mono_r; lia).
  pose proof (pow_pos (e + 1074) ltac:(lia)).
  assert (P: 2 ^ 1107 - 2 ^ 1054 = (2 ^ 53 - 1) * 2 ^ 1054) by reflexivity. rewrite P. clear P.
  apply Z.mul_le_mono_nonneg; lia.
Qed.

Lemma multiple_gap : forall x y k T, 0 < k -> T < k ->
  Z.abs (x * k - y * k) <= T -> x * k = y * k.
Proof. intros x y k T K L H. rewrite <- Z.mul_sub_distr_r in H.
  assert (x - y = 0) by nia. nia. Qed.

Lemma float_equal_large : forall a b, double a -> double b ->
  2 ^ 1107 < Z.abs (units a) ->
  float_equal a b = true <-> finite b /\ units a = units b.
Proof.
  intros a b Da Db L. rewrite float_equal_iff by auto.
  assert (TT: 9444732965739289 * 2 ^ 1001 < 2 ^ 1055) by reflexivity.
  assert (T0: 0 <= 9444732965739289 * 2 ^ 1001) by (vm_compute; discriminate).
  split.
  - intros (Fa & Fb & H). split; [exact Fb|].
    destruct a as [sa|sa| |sa ma ea]; try contradiction.
    { exfalso. cbn [units Z.abs] in L. pose proof (pow_pos 1107 ltac:(lia)). lia. }
    destruct (large_exponent _ _ _ Da) as [Ea|Ea].
    2:{ exfalso. pose proof (pow_pos 1054 ltac:(lia)). lia. }
    destruct (units_multiple sa ma ea 1055) as [za Za]; [lia|lia|].
    destruct b as [sb|sb| |sb mb eb]; try contradiction.
    { unfold dist in H. rewrite Za in *. replace (units (S754_zero sb)) with (0 * 2 ^ 1055) in * by reflexivity.
      eapply multiple_gap; [|exact TT|exact H]. apply pow_pos; lia. }
    destruct (large_exponent _ _ _ Db) as [Eb|Eb].
    + destruct (units_multiple sb mb eb 1055) as [zb Zb]; [lia|lia|].
      unfold dist in H. rewrite Za, Zb in *.
      eapply multiple_gap; [|exact TT|exact H]. apply pow_pos; lia.
    + exfalso. unfold dist in H.
      assert (LA: 2 ^ 1107 + 2 ^ 1055 <= Z.abs (units (S754_finite sa ma ea))).
      { rewrite Za in *. rewrite Z.abs_mul, (Z.abs_eq (2 ^ 1055)) in * by (apply Z.pow_nonneg; lia).
        assert (P: 2 ^ 1107 = 2 ^ 52 * 2 ^ 1055) by reflexivity. rewrite P in *. clear P.
        pose proof (pow_pos 1055 ltac:(lia)). nia. }
      pose proof (pow_pos 1054 ltac:(lia)). lia.
  - intros (Fb & U). unfold dist. rewrite U, Z.sub_diag. cbn [Z.abs].
    split; [|split; [exact Fb|exact T0]].
    destruct a as [sa|sa| |sa ma ea]; try exact Logic.I; exfalso; cbn [units Z.abs] in L;
      pose proof (pow_pos 1107 ltac:(lia)); lia.
Qed.
