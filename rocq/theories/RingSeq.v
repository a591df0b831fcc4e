(** Proofs about the ring buffer used by one goroutine. *)
From Coq Require Import ZArith List Bool Lia ZifyBool ZifyNat.
From Verif Require Import GoBase GoLists ConcBase QueueProofs RingModel RingSpec RingProofs.
Import ListNotations.
Open Scope Z_scope.

Lemma int64_small x : - 2 ^ 63 <= x < 2 ^ 63 -> int64 x = x.
Proof. intros H. unfold int64. rewrite Z.mod_small; lia. Qed.
Lemma int64_wrap x : - 2 ^ 63 <= x < 2 ^ 63 -> int64 (wrap 64 x) = x.
Proof.
  intros H. unfold int64, wrap. rewrite Z.add_mod_idemp_l by lia. rewrite Z.mod_small; lia.
Qed.

(** ** Init *)
Lemma rnd_loop_ends n : n <= 2 ^ 62 -> forall f j, 0 <= j <= 62 -> 62 <= j + Z.of_nat f -> rnd_loop f (2 ^ j) n = true.
Proof.
  intros Hn. induction f as [|f IH]; intros j Hj Hf; cbn [rnd_loop]; destruct (Z.ltb_spec (2 ^ j) n) as [L|]; auto.
  - replace j with 62 in L by lia. lia.
  - assert (j < 62) by (destruct (Z.eq_dec j 62) as [->|]; lia).
    assert (2 ^ (j + 1) = 2 ^ j * 2) by (rewrite Z.pow_add_r by lia; reflexivity).
    assert (2 ^ (j + 1) <= 2 ^ 62) by (apply Z.pow_le_mono_r; lia).
    assert (0 < 2 ^ j) by (apply Z.pow_pos_nonneg; lia).
    rewrite int64_small by lia. rewrite <- H0. apply IH; lia.
Qed.

Lemma rnd_loop_stuck n : 2 ^ 62 < n -> forall f i, (exists j, 0 <= j <= 62 /\ i = 2 ^ j) \/ i = - 2 ^ 63 \/ i = 0 ->
  rnd_loop f i n = false.
Proof.
  intros Hn. induction f as [|f IH]; intros i Hi; cbn [rnd_loop].
  - destruct (Z.ltb_spec i n); auto. destruct Hi as [(j & Hj & ->)|Hi]; [|lia].
    assert (2 ^ j <= 2 ^ 62) by (apply Z.pow_le_mono_r; lia). lia.
  - destruct (Z.ltb_spec i n).
    + apply IH. destruct Hi as [(j & Hj & ->)|[->| ->]]; auto.
      destruct (Z.eq_dec j 62) as [->|]; auto. left. exists (j + 1). split; [lia|].
      assert (2 ^ (j + 1) = 2 ^ j * 2) by (rewrite Z.pow_add_r by lia; reflexivity).
      assert (2 ^ (j + 1) <= 2 ^ 62) by (apply Z.pow_le_mono_r; lia).
      assert (0 < 2 ^ j) by (apply Z.pow_pos_nonneg; lia).
      rewrite int64_small; lia.
    + exfalso. destruct Hi as [(j & Hj & ->)|Hi]; [|lia].
      assert (2 ^ j <= 2 ^ 62) by (apply Z.pow_le_mono_r; lia). lia.
Qed.

Lemma init_one n : n <= 2 ^ 62 -> rb_step rb_zero (RInit n) = Ok (ring 0, ObsUnit).
Proof.
  intros H. unfold rb_step, rb_zero, rb_init. cbn [rb_d]. cbv zeta.
  rewrite (rnd_loop_ends (if n <=? 8 then 8 else n)) with (j := 0); [reflexivity| |lia|lia].
  destruct (n <=? 8); lia.
Qed.
Lemma init_hangs n : 2 ^ 62 < n -> rb_step rb_zero (RInit n) = Diverge.
Proof.
  intros H. unfold rb_step, rb_zero, rb_init. cbn [rb_d]. cbv zeta.
  destruct (Z.leb_spec n 8); [lia|]. rewrite rnd_loop_stuck; [reflexivity|exact H|]. left. exists 0. split; [lia|reflexivity].
Qed.

(** ** One slot *)
Definition one_rel (left : Z) (s : rb) (a : Z * Z) : Prop :=
  exists h t, s = RB h h t t 0 0 [fst a] /\ snd a = t - h /\ 0 <= h /\ 0 <= t /\ h + left < 2 ^ 63 /\ t + left < 2 ^ 63.

Lemma one_step_sim left s a op : 0 <= left -> one_rel (left + 1) s a -> sim_out (one_rel left) (rb_step s op) (one_step a op).
Proof.
  intros Hl (h & t & -> & En & Hh & Ht & B1 & B2). destruct a as [slot n]. cbn [fst snd] in *. subst n.
  assert (W1 : wrap 64 (t + 1) = t + 1) by (apply wrap_small; lia).
  assert (W2 : wrap 64 (t + 1 - 1) = t) by (rewrite wrap_small; lia).
  assert (W3 : wrap 64 (h + 1) = h + 1) by (apply wrap_small; lia).
  assert (W4 : wrap 64 (h + 1 - 1) = h) by (rewrite wrap_small; lia).
  assert (W5 : wrap 64 (h + 0) = h) by (rewrite wrap_small; lia).
  assert (W6 : int64 (wrap 64 (t - h)) = t - h) by (apply int64_wrap; lia).
  assert (E : forall v : Z, zset [slot] 0 v = Ok [v]) by reflexivity.
  assert (G : zget [slot] 0 = Ok slot) by reflexivity.
  unfold rb_step, one_step. destruct op as [m|v| |v| | | | |]; rewrite ?W1, ?W2, ?W3, ?W4, ?W5, ?W6, ?Z.land_0_r, ?E, ?G; cbn [bind].
  - cbn. split; auto. exists h, t. repeat split; auto; lia.
  - rewrite W3. destruct (Z.ltb_spec (h + 1) (t + 1)), (Z.ltb_spec 0 (t - h)); try lia; [exact I|].
    rewrite Z.eqb_refl. cbn. split; auto. exists h, (t + 1). repeat split; cbn; auto; lia.
  - destruct (Z.leb_spec t h), (Z.leb_spec (t - h) 0); try lia; [exact I|].
    rewrite Z.eqb_refl. cbn. split; auto. exists (h + 1), t. repeat split; cbn; auto; lia.
  - rewrite Z.eqb_refl. cbn. split; auto. exists h, (t + 1). repeat split; cbn; auto; lia.
  - rewrite Z.eqb_refl. cbn. split; auto. exists (h + 1), t. repeat split; cbn; auto; lia.
  - cbn. split; auto. exists h, t. repeat split; auto; lia.
  - cbn. split; auto. exists h, t. repeat split; auto; lia.
  - cbn. split; auto. exists h, t. repeat split; auto; lia.
  - cbn. split; auto. exists h, t. repeat split; auto; lia.
Qed.

Lemma one_run ops : forall s a, one_rel (zlen ops) s a -> obs_of (run_ops rb_step s ops) = obs_of (run_ops one_step a ops).
Proof.
  induction ops as [|op ops IH]; intros s a R; [reflexivity|]. cbn [run_ops].
  assert (Hl : zlen (op :: ops) = zlen ops + 1) by (unfold zlen; cbn [length]; lia). rewrite Hl in R.
  pose proof (one_step_sim (zlen ops) s a op (zlen_nonneg ops) R) as S.
  destruct (rb_step s op) as [[s1 o]| |], (one_step a op) as [[a1 o']| |]; cbn in S; try contradiction; auto.
  destruct S as [-> R1]. specialize (IH s1 a1 R1). cbn [bind].
  destruct (run_ops rb_step s1 ops) as [[s2 os]| |], (run_ops one_step a1 ops) as [[a2 os']| |]; cbn in *; congruence.
Qed.

Lemma ring_exact n ops : zlen ops < 2 ^ 63 ->
  (n <= 2 ^ 62 -> exists s, rb_step rb_zero (RInit n) = Ok (s, ObsUnit) /\ zlen (rb_d s) = 1 /\
     obs_of (run_ops rb_step s ops) = obs_of (run_ops one_step (0, 0) ops)) /\
  (2 ^ 62 < n -> rb_step rb_zero (RInit n) = Diverge).
Proof.
  intros Hl. split; [|apply init_hangs]. intros Hn. exists (ring 0). split; [now apply init_one|]. split; [reflexivity|].
  apply one_run. exists 0, 0. repeat split; lia.
Qed.

(** ** First in, first out while neither full nor empty *)
Section Fifo.
Variable k : nat.
Let cap := 2 ^ Z.of_nat k.
Definition fifo_rel (left : Z) (s : rb) (a : list Z) : Prop :=
  exists h t d, s = RB h h t t 0 (cap - 1) d /\ t = h + zlen a /\ zlen a <= cap /\ zlen d = cap /\
    0 <= h /\ t + left < 2 ^ 63 /\ (forall x, 0 <= x < zlen a -> zn d ((h + x + 1) mod cap) = zn a x).

Lemma fifo_run ops : (k < 32)%nat -> forall s a, fifo_rel (zlen ops) s a -> within cap a ops ->
  exists s' os, run_ops rb_step s ops = Ok (s', os) /\ agree ops os (snd (spec_ops (bq_step cap) a ops)) /\
    fifo_rel 0 s' (fst (spec_ops (bq_step cap) a ops)).
Proof.
  intros Hk. assert (Hc : 0 < cap) by (apply Z.pow_pos_nonneg; lia).
  assert (Hc2 : cap < 2 ^ 32) by (apply Z.pow_lt_mono_r; lia).
  assert (Mk : forall i, Z.land i (cap - 1) = i mod cap) by (intros; apply mask_mod).
  induction ops as [|op ops IH]; intros s a R Hw.
  - exists s, []. cbn. auto.
  - assert (Hl : zlen (op :: ops) = zlen ops + 1) by (unfold zlen; cbn [length]; lia). rewrite Hl in R.
    destruct R as (h & t & d & -> & Et & Ha & Hd & Hh & Hb & Hv). cbn [within] in Hw. destruct Hw as [Hop Hw].
    pose proof (zlen_nonneg a) as Hna. pose proof (zlen_nonneg ops) as Hno.
    assert (step : exists s' o, rb_step (RB h h t t 0 (cap - 1) d) op = Ok (s', o) /\
      match op with RPush _ => o = ObsBool false | _ => o = snd (bq_step cap a op) end /\
      fifo_rel (zlen ops) s' (fst (bq_step cap a op))).
    { destruct op as [m|v| |v| | | | |]; try contradiction; unfold rb_step.
      - assert (W1 : wrap 64 (t + 1) = t + 1) by (apply wrap_small; lia).
        assert (W2 : wrap 64 (t + 1 - 1) = t) by (rewrite wrap_small; lia).
        assert (Hm : 0 <= (t + 1) mod cap < zlen d) by (rewrite Hd; apply Z.mod_pos_bound; lia).
        rewrite W1, W2, Mk, zset_Ok by exact Hm. cbn [bind]. rewrite Z.eqb_refl.
        eexists _, _. split; [reflexivity|]. split; [reflexivity|]. cbn [bq_step].
        destruct (Z.ltb_spec (zlen a) cap); [|lia]. cbn [fst].
        exists h, (t + 1), (upd d (Z.to_nat ((t + 1) mod cap)) v). split; [reflexivity|].
        assert (Hla : zlen (a ++ [v]) = zlen a + 1) by (unfold zlen; rewrite app_length; cbn; lia).
        split; [lia|]. split; [lia|]. split; [unfold zlen; rewrite upd_length; exact Hd|]. split; [auto|]. split; [lia|].
        intros x Hx. rewrite Hla in Hx.
        assert (0 <= (h + x + 1) mod cap < zlen d) by (rewrite Hd; apply Z.mod_pos_bound; lia).
        rewrite zn_upd by lia. destruct (Z.eq_dec ((t + 1) mod cap) ((h + x + 1) mod cap)) as [Em|Nm].
        + apply (mod_inj cap) in Em; [|auto|lia]. replace x with (zlen a) by lia.
          rewrite zn_app2 by lia. now rewrite Z.sub_diag.
        + destruct (Z.eq_dec x (zlen a)) as [->|Nx]; [exfalso; apply Nm; f_equal; lia|].
          rewrite zn_app1 by lia. apply Hv. lia.
      - destruct a as [|v b]; [congruence|].
        assert (W1 : wrap 64 (h + 1) = h + 1) by (apply wrap_small; lia).
        assert (W2 : wrap 64 (h + 1 - 1) = h) by (rewrite wrap_small; lia).
        assert (Hm : 0 <= (h + 1) mod cap < zlen d) by (rewrite Hd; apply Z.mod_pos_bound; lia).
        assert (Hlb : zlen (v :: b) = zlen b + 1) by (unfold zlen; cbn [length]; lia).
        pose proof (zlen_nonneg b) as Hnb.
        rewrite W1, W2, Mk, (zget_Ok _ _ 0) by exact Hm. cbn [bind]. rewrite Z.eqb_refl.
        eexists _, _. split; [reflexivity|]. cbn [bq_step fst snd]. split.
        + f_equal. pose proof (Hv 0 ltac:(lia)) as H0. rewrite Z.add_0_r in H0. exact H0.
        + exists (h + 1), t, d. repeat split; auto; try lia.
          intros x Hx. specialize (Hv (x + 1) ltac:(lia)). rewrite zn_cons_S in Hv by lia.
          replace (x + 1 - 1) with x in Hv by lia. rewrite <- Hv. f_equal. f_equal. lia.
      - eexists _, _. split; [reflexivity|]. cbn [bq_step fst snd]. split.
        + f_equal. rewrite int64_wrap; lia.
        + exists h, t, d. repeat split; auto; lia.
      - eexists _, _. split; [reflexivity|]. cbn [bq_step fst snd]. split.
        + do 2 f_equal. rewrite int64_wrap; lia.
        + exists h, t, d. repeat split; auto; lia.
      - eexists _, _. split; [reflexivity|]. cbn [bq_step fst snd]. split.
        + f_equal. rewrite Hd. apply wrap_small. lia.
        + exists h, t, d. repeat split; auto; lia. }
    destruct step as (s1 & o & E1 & Eo & R1). destruct (IH s1 _ R1 Hw) as (s2 & os & E2 & A2 & R2).
    cbn [run_ops spec_ops]. rewrite E1. cbn [bind]. rewrite E2. cbn [bind].
    destruct (bq_step cap a op) as [a1 o1]. cbn [fst snd] in *.
    destruct (spec_ops (bq_step cap) a1 ops) as [a2 os2]. cbn [fst snd agree] in *.
    exists s2, (o :: os). auto.
Qed.
End Fifo.

Lemma ring_fifo k ops : (k < 32)%nat -> zlen ops < 2 ^ 63 -> within (2 ^ Z.of_nat k) [] ops ->
  exists s os, run_ops rb_step (ring k) ops = Ok (s, os) /\ agree ops os (snd (spec_ops (bq_step (2 ^ Z.of_nat k)) [] ops)).
Proof.
  intros Hk Hl Hw. destruct (fifo_run k ops Hk (ring k) []) as (s & os & E & A & _); auto; [|eauto].
  exists 0, 0, (repeat 0 (2 ^ k)). assert (0 < 2 ^ Z.of_nat k) by (apply Z.pow_pos_nonneg; lia).
  split; [reflexivity|]. change (zlen (@nil Z)) with 0. repeat split; try lia.
  unfold zlen. rewrite repeat_length. now rewrite Nat2Z.inj_pow.
Qed.

(** ** Blocking calls only *)
Section Blocking.
Variable k : nat.
Let cap := 2 ^ Z.of_nat k.
Definition block_rel (left : Z) (s : rb) (a : list Z) : Prop :=
  exists h t d, s = RB h h t t 0 (cap - 1) d /\ t = h + zlen a /\ zlen a <= cap /\ zlen d = cap /\
    0 <= h /\ t + left < 2 ^ 63 /\ (forall x, 0 <= x < zlen a -> zn d ((h + x) mod cap) = zn a x).

Lemma block_step left s a op : (k < 32)%nat -> 0 <= left -> blocking_op op -> block_rel (left + 1) s a ->
  sim_out (block_rel left) (rb_step s op) (blocking_step cap a op).
Proof.
  intros Hk Hleft Hop (h & t & d & -> & Et & Ha & Hd & Hh & Hb & Hv).
  assert (Hc : 0 < cap) by (apply Z.pow_pos_nonneg; lia).
  assert (Hc2 : cap < 2 ^ 32) by (apply Z.pow_lt_mono_r; lia).
  assert (Mk : forall i, Z.land i (cap - 1) = i mod cap) by (intros; apply mask_mod).
  pose proof (zlen_nonneg a) as Hna.
  destruct op as [m|v| |v| | | | |]; try contradiction; unfold rb_step; cbn [blocking_step].
  - assert (W1 : wrap 64 (t + 1) = t + 1) by (apply wrap_small; lia).
    assert (W2 : wrap 64 (t + 1 - 1) = t) by (rewrite wrap_small; lia).
    assert (W3 : wrap 64 (h + (cap - 1)) = h + cap - 1) by (rewrite wrap_small; lia).
    assert (W4 : wrap 64 (h + cap - 1 + 1) = h + cap) by (rewrite wrap_small; lia).
    rewrite W1, W2, W3, W4.
    destruct (Z.ltb_spec (h + cap) (t + 1)), (Z.ltb_spec (zlen a) cap); try lia; [exact I|].
    assert (Hm : 0 <= t mod cap < zlen d) by (rewrite Hd; apply Z.mod_pos_bound; lia).
    rewrite Mk, zset_Ok by exact Hm. cbn [bind]. rewrite Z.eqb_refl. cbn [sim_out]. split; [reflexivity|].
    exists h, (t + 1), (upd d (Z.to_nat (t mod cap)) v). split; [reflexivity|].
    assert (Hla : zlen (a ++ [v]) = zlen a + 1) by (unfold zlen; rewrite app_length; cbn; lia).
    split; [lia|]. split; [lia|]. split; [unfold zlen; rewrite upd_length; exact Hd|]. split; [auto|]. split; [lia|].
    intros x Hx. rewrite Hla in Hx.
    assert (0 <= (h + x) mod cap < zlen d) by (rewrite Hd; apply Z.mod_pos_bound; lia).
    rewrite zn_upd by lia. destruct (Z.eq_dec (t mod cap) ((h + x) mod cap)) as [Em|Nm].
    + apply (mod_inj cap) in Em; [|auto|lia]. replace x with (zlen a) by lia.
      rewrite zn_app2 by lia. now rewrite Z.sub_diag.
    + destruct (Z.eq_dec x (zlen a)) as [->|Nx]; [exfalso; apply Nm; f_equal; lia|].
      rewrite zn_app1 by lia. apply Hv. lia.
  - assert (W1 : wrap 64 (h + 1) = h + 1) by (apply wrap_small; lia).
    assert (W2 : wrap 64 (h + 1 - 1) = h) by (rewrite wrap_small; lia).
    rewrite W1, W2. destruct a as [|v b].
    + change (zlen (@nil Z)) with 0 in Et. destruct (Z.leb_spec t h); [exact I|lia].
    + assert (Hlb : zlen (v :: b) = zlen b + 1) by (unfold zlen; cbn [length]; lia).
      pose proof (zlen_nonneg b) as Hnb.
      destruct (Z.leb_spec t h); [lia|].
      assert (Hm : 0 <= h mod cap < zlen d) by (rewrite Hd; apply Z.mod_pos_bound; lia).
      rewrite Mk, (zget_Ok _ _ 0) by exact Hm. cbn [bind]. rewrite Z.eqb_refl. cbn [sim_out]. split.
      * f_equal. pose proof (Hv 0 ltac:(lia)) as H0. rewrite Z.add_0_r in H0. exact H0.
      * exists (h + 1), t, d. repeat split; auto; try lia.
        intros x Hx. specialize (Hv (x + 1) ltac:(lia)). rewrite zn_cons_S in Hv by lia.
        replace (x + 1 - 1) with x in Hv by lia. rewrite <- Hv. f_equal. f_equal. lia.
  - cbn [bq_step sim_out]. split.
    + f_equal. rewrite int64_wrap; lia.
    + exists h, t, d. repeat split; auto; lia.
  - cbn [bq_step sim_out]. split.
    + do 2 f_equal. rewrite int64_wrap; lia.
    + exists h, t, d. repeat split; auto; lia.
  - cbn [bq_step sim_out]. split.
    + f_equal. rewrite Hd. apply wrap_small. lia.
    + exists h, t, d. repeat split; auto; lia.
Qed.

Lemma block_run ops : (k < 32)%nat -> Forall blocking_op ops -> forall s a, block_rel (zlen ops) s a ->
  obs_of (run_ops rb_step s ops) = obs_of (run_ops (blocking_step cap) a ops).
Proof.
  intros Hk. induction ops as [|op ops IH]; intros Hf s a R; [reflexivity|]. cbn [run_ops].
  assert (Hl : zlen (op :: ops) = zlen ops + 1) by (unfold zlen; cbn [length]; lia). rewrite Hl in R.
  inversion Hf as [|? ? Hop Hrest]; subst.
  pose proof (block_step (zlen ops) s a op Hk (zlen_nonneg ops) Hop R) as S.
  destruct (rb_step s op) as [[s1 o]| |], (blocking_step cap a op) as [[a1 o']| |]; cbn in S; try contradiction; auto.
  destruct S as [-> R1]. specialize (IH Hrest s1 a1 R1). cbn [bind].
  destruct (run_ops rb_step s1 ops) as [[s2 os]| |], (run_ops (blocking_step cap) a1 ops) as [[a2 os']| |]; cbn in *; congruence.
Qed.
End Blocking.

Lemma ring_blocking k ops : (k < 32)%nat -> zlen ops < 2 ^ 62 -> Forall blocking_op ops ->
  obs_of (run_ops rb_step (ring k) ops) = obs_of (run_ops (blocking_step (2 ^ Z.of_nat k)) [] ops).
Proof.
  intros Hk Hl Hf. apply block_run; auto.
  exists 0, 0, (repeat 0 (2 ^ k)). assert (0 < 2 ^ Z.of_nat k) by (apply Z.pow_pos_nonneg; lia).
  split; [reflexivity|]. change (zlen (@nil Z)) with 0. repeat split; try lia.
  unfold zlen. rewrite repeat_length. now rewrite Nat2Z.inj_pow.
Qed.
