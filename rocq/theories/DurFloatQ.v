(** The conversions of durations to float64 in terms of rational numbers. *)
From Coq Require Import ZArith Reals QArith Qabs Qreals Qpower Lra Lia List Bool SpecFloat.
From Flocq Require Import Core BinarySingleNaN Relative.
From Verif Require Import DurModel DurFloatModel DurFloatSpec DurFloatProofs.
Import ListNotations.
Open Scope Z_scope.
#[local] Existing Instance Hp.
#[local] Existing Instance Hm.

Lemma q2r_int z : Q2R (inject_Z z) = IZR z.
Proof. unfold Q2R; cbn. field. Qed.
Lemma q2r_pow_nat n : Q2R ((2 # 1) ^ Z.of_nat n) = bpow radix2 (Z.of_nat n).
Proof.
  induction n as [| n IH]; [unfold Q2R; cbn; field |].
  rewrite Nat2Z.inj_succ, <- Z.add_1_r.
  rewrite (Qeq_eqR _ _ (Qpower_plus (2 # 1) (Z.of_nat n) 1 ltac:(discriminate))).
  rewrite Q2R_mult, IH, bpow_plus. f_equal. unfold Q2R; cbn. field.
Qed.
Lemma pow_nonzero z : ~ ((2 # 1) ^ z == 0)%Q.
Proof. apply Qpower_not_0. discriminate. Qed.
Lemma q2r_pow z : Q2R ((2 # 1) ^ z) = bpow radix2 z.
Proof.
  destruct (Z_le_gt_dec 0 z) as [H | H].
  - rewrite <- (Z2Nat.id z H). apply q2r_pow_nat.
  - replace z with (- Z.of_nat (Z.to_nat (- z))) by lia. set (n := Z.to_nat (- z)).
    rewrite (Qeq_eqR _ _ (Qpower_opp (2 # 1) (Z.of_nat n))). rewrite Q2R_inv by apply pow_nonzero.
    rewrite q2r_pow_nat, bpow_opp. reflexivity.
Qed.
Lemma q2r_abs q : Q2R (Qabs q) = Rabs (Q2R q).
Proof.
  apply Qabs_case; intros H; apply Qle_Rle in H; replace (Q2R 0) with 0%R in H by (unfold Q2R; cbn; field).
  - now rewrite Rabs_pos_eq.
  - rewrite Rabs_left1, Q2R_opp by exact H. reflexivity.
Qed.
Lemma q2r_div d u : u <> 0 -> Q2R (inject_Z d / inject_Z u) = (IZR d / IZR u)%R.
Proof.
  intros H. rewrite Q2R_div, !q2r_int; [reflexivity |]. intros E. apply H. unfold Qeq in E. cbn in E. lia.
Qed.
Lemma number_fin f : is_number f <-> exists x, fin f x.
Proof.
  split.
  - intros (V & K). exists (B2R (SF2B f V)). exists (SF2B f V). rewrite B2SF_SF2B. split; [reflexivity |]. split; [| reflexivity].
    destruct f; try contradiction; reflexivity.
  - intros (x & b & -> & F & _). split; [apply valid_binary_B2SF |]. destruct b; try discriminate; exact Logic.I.
Qed.
Lemma fin_qval f x : fin f x -> Q2R (qval f) = x.
Proof.
  intros (b & -> & F & <-). destruct b as [s | s | | s m e He]; try discriminate; cbn [B2SF qval B2R].
  - unfold Q2R; cbn. field.
  - rewrite Q2R_mult, q2r_int, q2r_pow. unfold F2R. cbn [Fnum Fexp]. destruct s; reflexivity.
Qed.
Lemma conv_val f u d : In (f, u) conversions -> int64 d -> exists x, fin (f d) x /\
  (x = std_val u d \/ u mod 2 ^ 16 = 0 /\ x = quo_val u d /\ 86400000000000 <= u).
Proof.
  intros I Hd. pose proof (conv_cases f u I) as (Hu & _).
  assert (H1 : 10 ^ 9 <= u <= 2 ^ 53) by lia. assert (H2 : 1 <= u <= 2 ^ 53) by lia. cbn [conversions In] in I.
  repeat destruct I as [I | I]; try contradiction; injection I as <- <-.
  1-3: eexists; split; [exact (std_fin _ d H1 Hd) | now left].
  all: eexists; split; [exact (quo_fin _ d H2 Hd) | right; repeat split; lia].
Qed.
Theorem conv_accurate f u d : In (f, u) conversions -> int64 d ->
  is_number (f d) /\ (Qabs (qval (f d) - inject_Z d / inject_Z u) <= Qabs (inject_Z d / inject_Z u) * (1 # 2 ^ 52))%Q.
Proof.
  intros I Hd. pose proof (conv_cases f u I) as (Hu & _). destruct (conv_val f u d I Hd) as (x & F & C). split; [apply number_fin; now exists x |].
  apply Rle_Qle. rewrite Q2R_mult, !q2r_abs, Q2R_minus, q2r_div, (fin_qval _ _ F) by lia.
  replace (Q2R (1 # 2 ^ 52)) with (/ IZR (2 ^ 52))%R by (unfold Q2R; cbn; field).
  destruct C as [-> | (_ & -> & _)]; [apply std_err | apply quo_err]; lia.
Qed.
(** Rounded once: nearest. *)
Lemma rnd_nearest f q x : fin f x -> x = round radix2 (SpecFloat.fexp 53 1024) (round_mode mode_NE) (Q2R q) -> nearest q f.
Proof.
  intros F E. split; [apply number_fin; now exists x |]. intros g G. apply number_fin in G. destruct G as (y & G).
  apply Rle_Qle. rewrite !q2r_abs, !Q2R_minus, (fin_qval _ _ F), (fin_qval _ _ G).
  destruct G as (b & -> & Fb & <-).
  pose proof (round_N_pt radix2 (SpecFloat.fexp 53 1024) (fun z => negb (Z.even z)) (Q2R q)) as (_ & N).
  rewrite E. apply N. apply generic_format_B2R.
Qed.
Lemma rnd_idem x : rnd (rnd x) = rnd x.
Proof. apply rnd_gen. apply generic_format_round; auto with typeclass_instances. apply fexp_correct. exact Hp. Qed.
Theorem conv_nearest f u d : In (f, u) conversions -> int64 d ->
  Z.abs d < u \/ (86400000000000 <= u /\ Z.abs d <= 2 ^ 53) \/ (u | d) -> nearest (inject_Z d / inject_Z u) (f d).
Proof.
  intros I Hd H. pose proof (conv_cases f u I) as (Hu & _).
  destruct H as [H | [H | (k & ->)]].
  - destruct (conv_val f u d I Hd) as (x & F & C). apply (rnd_nearest _ _ _ F). rewrite q2r_div by lia.
    destruct C as [-> | (_ & -> & _)].
    + unfold std_val. 
      assert (Z.quot d u = 0) as -> by (apply (proj2 (Z.quot_small_iff d u ltac:(lia))); lia). assert (Z.rem d u = d) as -> by (apply (proj2 (Z.rem_small_iff d u ltac:(lia))); lia).
      rewrite Rplus_0_l. apply rnd_idem.
    + unfold quo_val. rewrite rnd_int by lia. reflexivity.
  - destruct H as (H1 & H2). assert (H3 : 1 <= u <= 2 ^ 53) by lia. pose proof (quo_fin u d H3 Hd) as F.
    assert (E : quo_val u d = rnd (Q2R (inject_Z d / inject_Z u))) by (rewrite q2r_div by lia; unfold quo_val; rewrite rnd_int by lia; reflexivity).
    cbn [conversions In] in I. repeat destruct I as [I | I]; try contradiction; injection I as <- <-; try lia.
    all: exact (rnd_nearest _ _ _ F E).
  - rewrite (conv_whole f u k I Hd). apply (rnd_nearest _ _ (IZR k)).
    + apply fin_exact. unfold int64 in Hd. nia.
    + rewrite q2r_div, mult_IZR by lia. replace (IZR k * IZR u / IZR u)%R with (IZR k) by (field; apply IZR_neq; lia).
      symmetry. apply rnd_int. unfold int64 in Hd. nia.
Qed.

Theorem conv_nearest_bad f u : In (f, u) conversions -> exists d, int64 d /\ ~ nearest (inject_Z d / inject_Z u) (f d).
Proof.
  intros I. cbn [conversions In] in I. repeat destruct I as [I | I]; try contradiction; injection I as <- <-.
  - exists 1046941389. split; [unfold int64; lia |]. intros (_ & N).
    specialize (N (S754_finite false 4715004849379149 (-52)) (conj eq_refl Logic.I)). vm_compute in N. apply N. reflexivity.
  - exists 67735180969. split; [unfold int64; lia |]. intros (_ & N).
    specialize (N (S754_finite false 5084202262864359 (-52)) (conj eq_refl Logic.I)). vm_compute in N. apply N. reflexivity.
  - exists 4190968639136. split; [unfold int64; lia |]. intros (_ & N).
    specialize (N (S754_finite false 5242901333759535 (-52)) (conj eq_refl Logic.I)). vm_compute in N. apply N. reflexivity.
  - exists 13588064453521495. split; [unfold int64; lia |]. intros (_ & N).
    specialize (N (S754_finite false 5533420320598749 (-45)) (conj eq_refl Logic.I)). vm_compute in N. apply N. reflexivity.
  - exists 16064404167428779. split; [unfold int64; lia |]. intros (_ & N).
    specialize (N (S754_finite false 7476401767357111 (-48)) (conj eq_refl Logic.I)). vm_compute in N. apply N. reflexivity.
Qed.
