(** Proofs about the conversions of durations to float64, by way of the real numbers (library Flocq). *)
From Coq Require Import ZArith Reals QArith Qabs Qreals Qpower Lra Lia List Bool SpecFloat.
From Flocq Require Import Core BinarySingleNaN Relative.
From Verif Require Import DurModel DurFloatModel DurFloatSpec.
Import ListNotations.
Open Scope Z_scope.

Definition Hp : Prec_gt_0 53 := eq_refl.
Definition Hm : Prec_lt_emax 53 1024 := eq_refl.
#[local] Existing Instance Hp.
#[local] Existing Instance Hm.
Notation bf := (binary_float 53 1024).
Notation fx := (SpecFloat.fexp 53 1024).
Notation rnd := (round radix2 fx (round_mode mode_NE)).

Lemma ne_equiv s m l : round_nearest_even m l = choice_mode mode_NE s m l.
Proof. case l; [reflexivity | intro c]. case c; [| reflexivity..]. now simpl; unfold Round.cond_incr; case Z.even. Qed.
Lemma aux_equiv sx mx ex lx : SpecFloat.binary_round_aux 53 1024 sx mx ex lx = binary_round_aux 53 1024 mode_NE sx mx ex lx.
Proof.
  unfold SpecFloat.binary_round_aux, binary_round_aux.
  set (mrse' := shr_fexp _ _ _ _ _). case mrse'; intros mrs' e'; simpl. now rewrite (ne_equiv sx).
Qed.
Lemma round_equiv s m e : SpecFloat.binary_round 53 1024 s m e = binary_round 53 1024 mode_NE s m e.
Proof. unfold SpecFloat.binary_round, binary_round, shl_align_fexp. set (mez := shl_align _ _ _); case mez as [mz ez]. apply aux_equiv. Qed.
Lemma norm_equiv m e z : SpecFloat.binary_normalize 53 1024 m e z = B2SF (binary_normalize 53 1024 Hp Hm mode_NE m e z).
Proof. case m as [| p | p]; [now simpl | |]; simpl; rewrite B2SF_SF2B; apply round_equiv. Qed.
Lemma add_equiv (x y : bf) : SFadd 53 1024 (B2SF x) (B2SF y) = B2SF (Bplus mode_NE x y).
Proof.
  case x as [sx | sx | | sx mx ex Bx]; case y as [sy | sy | | sy my ey By]; [now (trivial || simpl; case Bool.eqb) .. |].
  apply norm_equiv.
Qed.
Lemma div_equiv (x y : bf) : SFdiv 53 1024 (B2SF x) (B2SF y) = B2SF (Bdiv mode_NE x y).
Proof.
  case x as [sx | sx | | sx mx ex Bx]; case y as [sy | sy | | sy my ey By]; [now (trivial || simpl; case Bool.eqb) .. |].
  simpl. rewrite B2SF_SF2B. set (melz := SFdiv_core_binary _ _ _ _ _ _). case melz as [[mz ez] lz]. apply aux_equiv.
Qed.

(** [f] is the finite float of value [x]. *)
Definition fin (f : spec_float) (x : R) : Prop := exists b : bf, f = B2SF b /\ is_finite b = true /\ B2R b = x.

Lemma rnd_le x y : (x <= y)%R -> (rnd x <= rnd y)%R.
Proof. apply round_le; auto with typeclass_instances. apply fexp_correct. exact Hp. Qed.
Lemma rnd_gen x : generic_format radix2 fx x -> rnd x = x.
Proof. apply round_generic; auto with typeclass_instances. Qed.
Lemma gen_Z n e : (Z.abs n <= 2 ^ 53) -> (0 <= e) -> generic_format radix2 fx (IZR n * bpow radix2 e).
Proof.
  intros Hn He. 
  apply generic_format_FLT with (emin := 3 - 1024 - 53).
  destruct (Z.eq_dec (Z.abs n) (2 ^ 53)) as [E | E].
  - exists (Float radix2 (Z.sgn n) (e + 53)); cbn [Fnum Fexp].
    + unfold F2R; cbn [Fnum Fexp]. rewrite bpow_plus. assert (En : n = 2 ^ 53 * Z.sgn n) by (rewrite <- E; symmetry; apply Z.abs_sgn).
      rewrite En at 1. rewrite mult_IZR. change (IZR (2 ^ 53)) with (bpow radix2 53). ring.
    + destruct n; cbn; lia.
    + lia.
  - exists (Float radix2 n e); cbn [Fnum Fexp]; [reflexivity | |]; change (radix2 ^ 53) with (2 ^ 53); lia.
Qed.
Lemma gen_int n : (Z.abs n <= 2 ^ 53) -> generic_format radix2 fx (IZR n).
Proof. intros H. replace (IZR n) with (IZR n * bpow radix2 0)%R by (cbn; ring). apply gen_Z; lia. Qed.
Lemma rnd_int n : (Z.abs n <= 2 ^ 53) -> rnd (IZR n) = IZR n.
Proof. intros H. apply rnd_gen, gen_int, H. Qed.
Lemma rnd_abs_le x k : (0 <= k) -> (Rabs x <= bpow radix2 k)%R -> (Rabs (rnd x) <= bpow radix2 k)%R.
Proof.
  intros Hk H. apply Rabs_le_inv in H. apply Rabs_le.
  assert (G : generic_format radix2 fx (bpow radix2 k)).
  { replace (bpow radix2 k) with (IZR 1 * bpow radix2 k)%R by ring. apply gen_Z; lia. }
  pose proof (rnd_gen _ G) as E. pose proof (rnd_gen _ (generic_format_opp _ _ _ G)) as E'.
  split; [rewrite <- E' | rewrite <- E]; apply rnd_le; lra.
Qed.
Lemma lt_max x k : (k < 1024) -> (Rabs x <= bpow radix2 k)%R -> Rlt_bool (Rabs x) (bpow radix2 1024) = true.
Proof. intros Hk H. apply Rlt_bool_true. eapply Rle_lt_trans; [exact H | apply bpow_lt; lia]. Qed.

Lemma fin_f64 n : Z.abs n <= 2 ^ 63 -> fin (f64 n) (rnd (IZR n)).
Proof.
  intros H. unfold fin, f64. rewrite norm_equiv. eexists. split; [reflexivity |].
  pose proof (binary_normalize_correct 53 1024 Hp Hm mode_NE n 0 false) as C. cbv zeta in C.
  replace (F2R (Float radix2 n 0)) with (IZR n) in C by (unfold F2R; cbn; ring).
  rewrite (lt_max _ 63) in C.
  - tauto.
  - lia.
  - apply rnd_abs_le; [lia |]. rewrite <- abs_IZR. change (bpow radix2 63) with (IZR (2 ^ 63)). now apply IZR_le.
Qed.
Lemma fin_div f g x y k : fin f x -> fin g y -> y <> 0%R -> 0 <= k < 1024 -> (Rabs (x / y) <= bpow radix2 k)%R -> fin (SFdiv 53 1024 f g) (rnd (x / y)).
Proof.
  intros (a & -> & Fa & Va) (b & -> & Fb & Vb) N Hk H. subst x y. unfold fin. rewrite div_equiv. eexists. split; [reflexivity |].
  pose proof (Bdiv_correct 53 1024 Hp Hm mode_NE a b N) as C. rewrite (lt_max _ k) in C.
  - destruct C as (C1 & C2 & _). split; [congruence | exact C1].
  - lia.
  - apply rnd_abs_le; [lia | exact H].
Qed.
Lemma fin_add f g x y k : fin f x -> fin g y -> 0 <= k < 1024 -> (Rabs (x + y) <= bpow radix2 k)%R -> fin (SFadd 53 1024 f g) (rnd (x + y)).
Proof.
  intros (a & -> & Fa & Va) (b & -> & Fb & Vb) Hk H. subst x y. unfold fin. rewrite add_equiv. eexists. split; [reflexivity |].
  pose proof (Bplus_correct 53 1024 Hp Hm mode_NE a b Fa Fb) as C. rewrite (lt_max _ k) in C.
  - destruct C as (C1 & C2 & _). split; [congruence | exact C1].
  - lia.
  - apply rnd_abs_le; [lia | exact H].
Qed.

(** The values. *)
Definition quo_val (u d : Z) : R := rnd (rnd (IZR d) / IZR u).
Definition std_val (u d : Z) : R := rnd (IZR (Z.quot d u) + rnd (IZR (Z.rem d u) / IZR u)).

Lemma fin_exact n : Z.abs n <= 2 ^ 53 -> fin (f64 n) (IZR n).
Proof. intros H. rewrite <- (rnd_int n H) at 1. apply fin_f64. lia. Qed.
Lemma div_abs_le x u k : 1 <= u -> (Rabs x <= bpow radix2 k)%R -> (Rabs (x / IZR u) <= bpow radix2 k)%R.
Proof.
  intros Hu H. assert (1 <= IZR u)%R by (apply (IZR_le 1); lia). unfold Rdiv. rewrite Rabs_mult, Rabs_inv, (Rabs_pos_eq (IZR u)) by lra.
  apply (Rmult_le_reg_r (IZR u)); [lra |]. rewrite Rmult_assoc, Rinv_l, Rmult_1_r by lra.
  pose proof (bpow_ge_0 radix2 k). nra.
Qed.
Lemma quo_fin u d : 1 <= u <= 2 ^ 53 -> int64 d -> fin (SFdiv 53 1024 (f64 d) (f64 u)) (quo_val u d).
Proof.
  intros Hu Hd. unfold quo_val, int64 in *. apply (fin_div _ _ _ _ 63).
  - apply fin_f64. lia.
  - apply fin_exact. lia.
  - apply IZR_neq. lia.
  - lia.
  - apply div_abs_le; [lia |]. apply rnd_abs_le; [lia |]. rewrite <- abs_IZR. change (bpow radix2 63) with (IZR (2 ^ 63)). apply IZR_le. lia.
Qed.
Lemma rem_div u d : 1 <= u -> (Rabs (IZR (Z.rem d u) / IZR u) <= 1)%R.
Proof.
  intros Hu. assert (1 <= IZR u)%R by (apply (IZR_le 1); lia). unfold Rdiv. rewrite Rabs_mult, Rabs_inv, (Rabs_pos_eq (IZR u)) by lra.
  apply (Rmult_le_reg_r (IZR u)); [lra |]. rewrite Rmult_assoc, Rinv_l, Rmult_1_r, Rmult_1_l by lra.
  rewrite <- abs_IZR. apply IZR_le. pose proof (Z.rem_bound_abs d u). lia.
Qed.
Lemma frac_le u d : 1 <= u -> (Rabs (rnd (IZR (Z.rem d u) / IZR u)) <= 1)%R.
Proof. intros Hu. apply (rnd_abs_le _ 0); [lia |]. now apply rem_div. Qed.
Lemma quot_le u d : 1 <= u -> Z.abs (Z.quot d u) <= Z.abs d.
Proof. intros Hu. rewrite <- Z.quot_abs by lia. rewrite Z.quot_div_nonneg by lia. apply Z.div_le_upper_bound; nia. Qed.
Lemma quot_small u d : 10 ^ 9 <= u -> int64 d -> Z.abs (Z.quot d u) <= 2 ^ 34.
Proof.
  intros Hu Hd. unfold int64 in Hd. rewrite <- Z.quot_abs by lia. rewrite Z.quot_div_nonneg by lia.
  assert (Z.abs d / Z.abs u < 2 ^ 34); [| lia]. apply Z.div_lt_upper_bound; lia.
Qed.
Lemma std_fin u d : 10 ^ 9 <= u <= 2 ^ 53 -> int64 d -> fin (std_float u d) (std_val u d).
Proof.
  intros Hu Hd. pose proof (quot_small u d ltac:(lia) Hd) as Hq. unfold std_float, std_val. apply (fin_add _ _ _ _ 64).
  - apply fin_exact. lia.
  - apply (fin_div _ _ _ _ 0).
    + apply fin_exact. pose proof (Z.rem_bound_abs d u). lia.
    + apply fin_exact. lia.
    + apply IZR_neq. lia.
    + lia.
    + apply rem_div. lia.
  - lia.
  - pose proof (frac_le u d ltac:(lia)). eapply Rle_trans; [apply Rabs_triang |].
    rewrite <- abs_IZR. apply IZR_le in Hq. change (bpow radix2 64) with (IZR (2 ^ 64)).
    assert (IZR (2 ^ 34) + 1 <= IZR (2 ^ 64))%R by (rewrite <- plus_IZR; apply IZR_le; lia). lra.
Qed.

(** Both kinds of conversion. *)
Lemma conv_cases f u : In (f, u) conversions ->
  10 ^ 9 <= u <= 10 ^ 15 /\ ((forall d, f d = std_float u d) \/ (u mod 2 ^ 16 = 0 /\ forall d, f d = SFdiv 53 1024 (f64 d) (f64 u))).
Proof.
  intros H. cbn [conversions In] in H.
  repeat destruct H as [H | H]; try contradiction; injection H as <- <-; (split; [lia |]).
  - left. reflexivity.
  - left. reflexivity.
  - left. reflexivity.
  - right. split; reflexivity.
  - right. split; reflexivity.
Qed.
Lemma fin_le f g x y : fin f x -> fin g y -> (x <= y)%R -> SFleb f g = true.
Proof.
  intros (a & -> & Fa & Va) (b & -> & Fb & Vb) H. subst. change (Bleb a b = true). rewrite Bleb_correct by assumption. now apply Rle_bool_true.
Qed.
Lemma quo_mono u d d' : 1 <= u -> d <= d' -> (quo_val u d <= quo_val u d')%R.
Proof.
  intros Hu H. apply rnd_le. assert (1 <= IZR u)%R by (apply (IZR_le 1); lia). apply Rmult_le_compat_r.
  - apply Rlt_le, Rinv_0_lt_compat. lra.
  - apply rnd_le, IZR_le, H.
Qed.
Lemma frac_mono u r r' : 1 <= u -> r <= r' -> (rnd (IZR r / IZR u) <= rnd (IZR r' / IZR u))%R.
Proof.
  intros Hu H. apply rnd_le. assert (1 <= IZR u)%R by (apply (IZR_le 1); lia). apply Rmult_le_compat_r.
  - apply Rlt_le, Rinv_0_lt_compat. lra.
  - apply IZR_le, H.
Qed.
Lemma frac_0 u : rnd (IZR 0 / IZR u) = 0%R.
Proof. unfold Rdiv. rewrite Rmult_0_l. apply (rnd_int 0). lia. Qed.
Lemma std_mono u d d' : 1 <= u -> d <= d' -> (std_val u d <= std_val u d')%R.
Proof.
  intros Hu H. apply rnd_le.
  pose proof (frac_le u d Hu) as A. pose proof (frac_le u d' Hu) as A'. apply Rabs_le_inv in A, A'.
  pose proof (Z.quot_rem d u ltac:(lia)) as E. pose proof (Z.quot_rem d' u ltac:(lia)) as E'.
  pose proof (Z.rem_bound_abs d u ltac:(lia)) as B. pose proof (Z.rem_bound_abs d' u ltac:(lia)) as B'.
  pose proof (Z.rem_sign_mul d u ltac:(lia)) as S. pose proof (Z.rem_sign_mul d' u ltac:(lia)) as S'.
  pose proof (Z.quot_le_mono d d' u ltac:(lia) H) as Q.
  set (q := Z.quot d u) in *. set (r := Z.rem d u) in *. set (q' := Z.quot d' u) in *. set (r' := Z.rem d' u) in *.
  destruct (Z.eq_dec q q') as [EQ | NE].
  - rewrite EQ. apply Rplus_le_compat_l, frac_mono; [lia |]. rewrite EQ in E. lia.
  - assert (Hq : (IZR q + 1 <= IZR q')%R) by (rewrite <- plus_IZR; apply IZR_le; lia).
    destruct (Z_le_gt_dec 0 r').
    + pose proof (frac_mono u 0 r' Hu ltac:(lia)) as P. rewrite frac_0 in P. lra.
    + assert (r <= 0).
      { assert (d' <= 0) by nia. assert (d' <> 0) by (intros ->; unfold r' in *; rewrite Z.rem_0_l in * by lia; lia).
        assert (d < 0) by lia. nia. }
      pose proof (frac_mono u r 0 Hu ltac:(lia)) as P. rewrite frac_0 in P. lra.
Qed.
Theorem conv_mono f u d d' : In (f, u) conversions -> int64 d -> int64 d' -> d <= d' -> SFleb (f d) (f d') = true.
Proof.
  intros I Hd Hd' H. destruct (conv_cases f u I) as (Hu & [E | (_ & E)]); rewrite !E.
  - exact (fin_le _ _ _ _ (std_fin u d ltac:(lia) Hd) (std_fin u d' ltac:(lia) Hd') (std_mono u d d' ltac:(lia) H)).
  - exact (fin_le _ _ _ _ (quo_fin u d ltac:(lia) Hd) (quo_fin u d' ltac:(lia) Hd') (quo_mono u d d' ltac:(lia) H)).
Qed.

(** Whole units. *)
Lemma fin_eq f g x : fin f x -> fin g x -> x <> 0%R -> f = g.
Proof.
  intros (a & -> & Fa & Va) (b & -> & Fb & Vb) N. f_equal. subst x. apply B2R_inj; [| | congruence].
  - destruct a; try discriminate; [elim N; reflexivity | reflexivity].
  - rewrite <- Vb in N. destruct b; try discriminate; [elim N; reflexivity | reflexivity].
Qed.
Lemma quo_whole u k : 10 ^ 9 <= u <= 10 ^ 15 -> u mod 2 ^ 16 = 0 -> int64 (k * u) -> quo_val u (k * u) = IZR k.
Proof.
  intros Hu Hm16 Hd. unfold quo_val, int64 in *.
  assert (N : IZR u <> 0%R) by (apply IZR_neq; lia).
  assert (Eu : u = u / 2 ^ 16 * 2 ^ 16) by (pose proof (Z.div_mod u (2 ^ 16)); lia).
  assert (rnd (IZR (k * u)) = IZR (k * u)) as ->.
  { apply rnd_gen. replace (IZR (k * u)) with (IZR (k * (u / 2 ^ 16)) * bpow radix2 16)%R.
    - apply gen_Z; [| lia]. assert (Z.abs (k * (u / 2 ^ 16)) * 2 ^ 16 <= 2 ^ 63); [| lia].
      replace (Z.abs (k * (u / 2 ^ 16)) * 2 ^ 16) with (Z.abs (k * u)); [lia |].
      rewrite Eu at 1. rewrite Z.mul_assoc, Z.abs_mul. reflexivity.
    - change (bpow radix2 16) with (IZR (2 ^ 16)). rewrite <- mult_IZR. f_equal. rewrite <- Z.mul_assoc, <- Eu. reflexivity. }
  rewrite mult_IZR. replace (IZR k * IZR u / IZR u)%R with (IZR k) by (field; exact N). apply rnd_int. nia.
Qed.
Lemma std_whole u k : 10 ^ 9 <= u <= 10 ^ 15 -> int64 (k * u) -> std_val u (k * u) = IZR k.
Proof.
  intros Hu Hd. unfold std_val, int64 in *. rewrite Z.quot_mul, Z.rem_mul by lia. rewrite frac_0, Rplus_0_r. apply rnd_int. nia.
Qed.
Theorem conv_whole f u k : In (f, u) conversions -> int64 (k * u) -> f (k * u) = f64 k.
Proof.
  intros I Hd. destruct (Z.eq_dec k 0) as [-> | N].
  { cbn [conversions In] in I. repeat destruct I as [I | I]; try contradiction; injection I as <- <-; reflexivity. }
  destruct (conv_cases f u I) as (Hu & E). 
  assert (Fk : fin (f64 k) (IZR k)) by (apply fin_exact; unfold int64 in Hd; nia).
  assert (NR : IZR k <> 0%R) by (apply IZR_neq; exact N).
  destruct E as [E | (M & E)]; rewrite E; refine (fin_eq _ _ _ _ Fk NR).
  - rewrite <- (std_whole u k Hu Hd). apply std_fin; [lia | exact Hd].
  - rewrite <- (quo_whole u k Hu M Hd). apply quo_fin; [lia | exact Hd].
Qed.

(** The other sign. *)
Lemma rnd_opp x : rnd (- x) = (- rnd x)%R.
Proof. apply round_NE_opp. Qed.
Lemma quo_opp u d : quo_val u (- d) = (- quo_val u d)%R.
Proof. unfold quo_val. rewrite opp_IZR, rnd_opp. replace (- rnd (IZR d) / IZR u)%R with (- (rnd (IZR d) / IZR u))%R by (unfold Rdiv; ring). apply rnd_opp. Qed.
Lemma std_opp u d : u <> 0 -> std_val u (- d) = (- std_val u d)%R.
Proof.
  intros Hu. unfold std_val. rewrite Z.quot_opp_l, Z.rem_opp_l by exact Hu. rewrite !opp_IZR, <- rnd_opp. f_equal.
  replace (- IZR (Z.rem d u) / IZR u)%R with (- (IZR (Z.rem d u) / IZR u))%R by (unfold Rdiv; ring). rewrite rnd_opp. ring.
Qed.
Lemma gen_bpow k : -1074 <= k -> generic_format radix2 fx (bpow radix2 k).
Proof. intros H. apply generic_format_bpow. cbv [SpecFloat.fexp SpecFloat.emin]. lia. Qed.
Lemma rnd_ge k x : -1074 <= k -> (bpow radix2 k <= Rabs x)%R -> (bpow radix2 k <= Rabs (rnd x))%R.
Proof.
  intros Hk H. apply abs_round_ge_generic; auto with typeclass_instances; [apply fexp_correct; exact Hp | now apply gen_bpow].
Qed.

(** Relative errors. *)
Definition ueps : R := (/ (IZR (2 ^ 53) + 1))%R.
Lemma rnd_rel x : x = 0%R \/ (bpow radix2 (-100) <= Rabs x)%R -> exists e, (Rabs e <= ueps)%R /\ rnd x = (x * (1 + e))%R.
Proof.
  intros [-> | H].
  - exists 0%R. rewrite Rabs_R0, (rnd_int 0) by lia. split; [| ring]. apply Rlt_le, Rinv_0_lt_compat. apply Rplus_lt_0_compat; [apply (IZR_lt 0); lia | lra].
  - destruct (relative_error_N_FLX'_ex radix2 53 eq_refl (fun x => negb (Z.even x)) x) as (e & He & E).
    exists e. split.
    + eapply Rle_trans; [exact He |]. unfold u_ro, ueps. replace (bpow radix2 (- (53) + 1)) with (/ IZR (2 ^ 52))%R by reflexivity.
      change (2 ^ 53) with (2 * 2 ^ 52). rewrite mult_IZR. assert (0 < IZR (2 ^ 52))%R by (apply (IZR_lt 0); lia).
      generalize dependent (IZR (2 ^ 52)). intros n Hn. apply Req_le. field. split; lra.
    + rewrite <- E. change fx with (FLT_exp (3 - 1024 - 53) 53). apply (round_FLT_FLX radix2 (3 - 1024 - 53) 53).
      eapply Rle_trans; [| exact H]. apply bpow_le. lia.
Qed.
Lemma ueps_2 : (0 <= ueps /\ 2 * ueps + ueps * ueps <= / IZR (2 ^ 52))%R.
Proof.
  unfold ueps. change (2 ^ 53) with (2 * 2 ^ 52). rewrite mult_IZR. assert (0 < IZR (2 ^ 52))%R by (apply (IZR_lt 0); lia).
  set (n := IZR (2 ^ 52)) in *. split; [apply Rlt_le, Rinv_0_lt_compat; lra |].
  apply (Rmult_le_reg_r (n * ((2 * n + 1) * (2 * n + 1)))); [nra |].
  replace ((2 * / (2 * n + 1) + / (2 * n + 1) * / (2 * n + 1)) * (n * ((2 * n + 1) * (2 * n + 1))))%R with (n * (4 * n + 3))%R by (field; lra).
  replace (/ n * (n * ((2 * n + 1) * (2 * n + 1))))%R with ((2 * n + 1) * (2 * n + 1))%R by (field; lra). nra.
Qed.
Lemma frac_cases n u : 1 <= u <= 10 ^ 15 -> IZR n = 0%R \/ (bpow radix2 (-60) <= Rabs (IZR n / IZR u))%R.
Proof.
  intros Hu. destruct (Z.eq_dec n 0) as [-> | N]; [now left | right].
  assert (1 <= IZR u)%R by (apply (IZR_le 1); lia). assert (IZR u <= IZR (2 ^ 60))%R by (apply IZR_le; lia).
  unfold Rdiv. rewrite Rabs_mult, Rabs_inv, (Rabs_pos_eq (IZR u)) by lra. rewrite <- abs_IZR.
  assert (1 <= IZR (Z.abs n))%R by (apply (IZR_le 1); lia).
  change (bpow radix2 (-60)) with (/ IZR (2 ^ 60))%R.
  assert (/ IZR (2 ^ 60) <= / IZR u)%R by (apply Rinv_le_contravar; lra).
  assert (0 < / IZR u)%R by (apply Rinv_0_lt_compat; lra). nra.
Qed.
Lemma small_100 x k : -100 <= k -> (bpow radix2 k <= Rabs x)%R -> (bpow radix2 (-100) <= Rabs x)%R.
Proof. intros Hk H. eapply Rle_trans; [| exact H]. now apply bpow_le. Qed.
Lemma frac_rel n u : 1 <= u <= 10 ^ 15 -> exists e, (Rabs e <= ueps)%R /\ rnd (IZR n / IZR u) = (IZR n / IZR u * (1 + e))%R.
Proof.
  intros Hu. apply rnd_rel. destruct (frac_cases n u Hu) as [E | H]; [left | right; now apply (small_100 _ (-60))].
  rewrite E. unfold Rdiv. ring.
Qed.
Lemma quo_err u d : 1 <= u <= 10 ^ 15 -> (Rabs (quo_val u d - IZR d / IZR u) <= Rabs (IZR d / IZR u) * / IZR (2 ^ 52))%R.
Proof.
  intros Hu. assert (1 <= IZR u)%R by (apply (IZR_le 1); lia).
  destruct (rnd_rel (IZR d)) as (e1 & H1 & E1).
  { destruct (Z.eq_dec d 0) as [-> | N]; [now left | right]. apply (small_100 _ 0); [lia |]. rewrite <- abs_IZR. apply (IZR_le 1). lia. }
  assert (exists e2, (Rabs e2 <= ueps)%R /\ quo_val u d = (rnd (IZR d) / IZR u * (1 + e2))%R) as (e2 & H2 & E2).
  { apply rnd_rel. destruct (frac_cases d u Hu) as [E | Hb].
    - left. rewrite E, (rnd_int 0) by lia. unfold Rdiv. ring.
    - right. rewrite E1. replace (IZR d * (1 + e1) / IZR u)%R with (IZR d / IZR u * (1 + e1))%R by (unfold Rdiv; ring).
      rewrite Rabs_mult. apply Rabs_le_inv in H1. pose proof ueps_2 as (P & Q).
      assert (/ IZR (2 ^ 52) <= / 4)%R by (apply Rinv_le_contravar; [lra | apply (IZR_le 4); lia]).
      assert (bpow radix2 (-100) * 2 <= bpow radix2 (-60))%R.
      { change 2%R with (bpow radix2 1). rewrite <- bpow_plus. apply bpow_le. lia. }
      assert (/ 2 <= Rabs (1 + e1))%R by (rewrite Rabs_pos_eq; nra).
      pose proof (bpow_ge_0 radix2 (-100)). nra. }
  rewrite E2, E1. set (x := (IZR d / IZR u)%R).
  replace (IZR d * (1 + e1) / IZR u * (1 + e2) - x)%R with (x * (e1 + e2 + e1 * e2))%R by (unfold x; field; lra).
  rewrite Rabs_mult. apply Rmult_le_compat_l; [apply Rabs_pos |]. pose proof ueps_2 as (P & Q).
  eapply Rle_trans; [apply Rabs_triang |]. eapply Rle_trans; [apply Rplus_le_compat_r, Rabs_triang |]. rewrite Rabs_mult.
  pose proof (Rabs_pos e1). pose proof (Rabs_pos e2). nra.
Qed.
Lemma std_err u d : 1 <= u <= 10 ^ 15 -> (Rabs (std_val u d - IZR d / IZR u) <= Rabs (IZR d / IZR u) * / IZR (2 ^ 52))%R.
Proof.
  intros Hu. assert (HU : (1 <= IZR u)%R) by (apply (IZR_le 1); lia).
  pose proof (Z.quot_rem d u ltac:(lia)) as E.
  assert (SG : Rabs (IZR d / IZR u) = (Rabs (IZR (Z.quot d u)) + Rabs (IZR (Z.rem d u) / IZR u))%R /\ (IZR d / IZR u = IZR (Z.quot d u) + IZR (Z.rem d u) / IZR u)%R).
  { assert (E' : (IZR d / IZR u = IZR (Z.quot d u) + IZR (Z.rem d u) / IZR u)%R).
    { rewrite E at 1. rewrite plus_IZR, mult_IZR. field. lra. }
    split; [| exact E']. rewrite E'.
    assert (HI : (0 < / IZR u)%R) by (apply Rinv_0_lt_compat; lra).
    destruct (Z_le_gt_dec 0 d).
    - assert (0 <= IZR (Z.quot d u))%R by (apply (IZR_le 0); apply Z.quot_pos; lia).
      assert (0 <= IZR (Z.rem d u) / IZR u)%R.
      { apply Rmult_le_pos; [| lra]. apply (IZR_le 0). apply Z.rem_nonneg; lia. }
      rewrite !Rabs_pos_eq by lra. reflexivity.
    - assert (IZR (Z.quot d u) <= 0)%R.
      { apply (IZR_le _ 0). replace d with (- - d) by lia. rewrite Z.quot_opp_l by lia. pose proof (Z.quot_pos (- d) u ltac:(lia) ltac:(lia)). lia. }
      assert (IZR (Z.rem d u) / IZR u <= 0)%R.
      { assert (IZR (Z.rem d u) <= 0)%R; [| unfold Rdiv; nra]. apply (IZR_le _ 0). apply Z.rem_nonpos; lia. }
      rewrite !Rabs_left1 by lra. ring. }
  destruct SG as (SA & SV). rewrite SA, SV.
  destruct (frac_rel (Z.rem d u) u Hu) as (e1 & H1 & E1). pose proof ueps_2 as (P & Q).
  assert (exists e2, (Rabs e2 <= ueps)%R /\ std_val u d = ((IZR (Z.quot d u) + rnd (IZR (Z.rem d u) / IZR u)) * (1 + e2))%R) as (e2 & H2 & E2).
  { apply rnd_rel. destruct (Z.eq_dec (Z.quot d u) 0) as [Z0 | NZ].
    - rewrite Z0, Rplus_0_l. destruct (frac_cases (Z.rem d u) u Hu) as [E0 | Hb].
      + left. rewrite E0. apply frac_0.
      + right. apply (small_100 _ (-60)); [lia |]. now apply rnd_ge; [lia |].
    - right. assert (HQ : (1 <= Rabs (IZR (Z.quot d u)))%R) by (rewrite <- abs_IZR; apply (IZR_le 1); lia).
      rewrite E1. set (q := IZR (Z.quot d u)) in *. set (r := (IZR (Z.rem d u) / IZR u)%R) in *.
      assert (HR : (Rabs (r * e1) <= / 4)%R).
      { rewrite Rabs_mult. assert (Rabs r <= 1)%R by (apply rem_div; lia).
        assert (/ IZR (2 ^ 52) <= / 4)%R by (apply Rinv_le_contravar; [lra | apply (IZR_le 4); lia]).
        pose proof (Rabs_pos r). pose proof (Rabs_pos e1). nra. }
      apply (small_100 _ (-1)); [lia |]. change (bpow radix2 (-1)) with (/ 2)%R.
      replace (q + r * (1 + e1))%R with ((q + r) - - (r * e1))%R by ring.
      assert (1 <= Rabs (q + r))%R by (rewrite <- SV, SA; pose proof (Rabs_pos r); lra).
      pose proof (Rabs_triang_inv (q + r) (- (r * e1))) as T. rewrite Rabs_Ropp in T. lra. }
  rewrite E2, E1. set (q := IZR (Z.quot d u)). set (r := (IZR (Z.rem d u) / IZR u)%R).
  replace ((q + r * (1 + e1)) * (1 + e2) - (q + r))%R with (q * e2 + r * (e1 + e2 + e1 * e2))%R by ring.
  eapply Rle_trans; [apply Rabs_triang |]. rewrite !Rabs_mult.
  assert (Rabs (e1 + e2 + e1 * e2) <= / IZR (2 ^ 52))%R.
  { eapply Rle_trans; [apply Rabs_triang |]. eapply Rle_trans; [apply Rplus_le_compat_r, Rabs_triang |]. rewrite Rabs_mult.
    pose proof (Rabs_pos e1). pose proof (Rabs_pos e2). nra. }
  pose proof (Rabs_pos q). pose proof (Rabs_pos r). nra.
Qed.

(** The opposite duration. *)
Lemma fin_opp f x : fin f x -> fin (SFopp f) (- x).
Proof.
  intros (b & -> & F & V). exists (Bopp b). split; [now destruct b |]. split; [now destruct b |]. rewrite B2R_Bopp. congruence.
Qed.
Lemma err_nonzero x y : (Rabs (x - y) <= Rabs y * / IZR (2 ^ 52))%R -> y <> 0%R -> x <> 0%R.
Proof.
  intros H N ->. rewrite Rminus_0_l, Rabs_Ropp in H. assert (0 < Rabs y)%R by now apply Rabs_pos_lt.
  assert (/ IZR (2 ^ 52) <= / 4)%R by (apply Rinv_le_contravar; [lra | apply (IZR_le 4); lia]). nra.
Qed.
Theorem conv_opp f u d : In (f, u) conversions -> int64 d -> int64 (- d) -> d <> 0 -> f (- d) = SFopp (f d).
Proof.
  intros I Hd Hd' N. destruct (conv_cases f u I) as (Hu & E).
  assert (HU : (1 <= IZR u)%R) by (apply (IZR_le 1); lia).
  assert (NR : (IZR d / IZR u)%R <> 0%R).
  { unfold Rdiv. apply Rmult_integral_contrapositive_currified; [apply IZR_neq; exact N | apply Rinv_neq_0_compat; lra]. }
  destruct E as [E | (_ & E)]; rewrite !E.
  - refine (fin_eq _ _ (- std_val u d) _ _ _).
    + rewrite <- std_opp by lia. apply std_fin; [lia | exact Hd'].
    + apply fin_opp, std_fin; [lia | exact Hd].
    + apply Ropp_neq_0_compat. exact (err_nonzero _ _ (std_err u d ltac:(lia)) NR).
  - refine (fin_eq _ _ (- quo_val u d) _ _ _).
    + rewrite <- quo_opp. apply quo_fin; [lia | exact Hd'].
    + apply fin_opp, quo_fin; [lia | exact Hd].
    + apply Ropp_neq_0_compat. exact (err_nonzero _ _ (quo_err u d ltac:(lia)) NR).
Qed.
