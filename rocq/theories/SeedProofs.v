From Coq Require Import ZArith List Bool Lia Znumtheory.
From Verif Require Import GoBase GoLists RandModel RandSpec RandProofs SeedModel SeedSpec.
Import ListNotations.
Open Scope Z_scope.

Definition word (g : gen) : Prop := g = gen32 \/ g = gen64.

Lemma word_div g : word g -> (2 ^ gw g | 2 ^ 64).
Proof. intros [->| ->]; cbn [gw gen32 gen64]; [exists (2 ^ 32); reflexivity|exists 1; reflexivity]. Qed.
Lemma word_pos g : word g -> 0 < gw g /\ 0 < 2 ^ gw g.
Proof. intros [->| ->]; cbn [gw gen32 gen64]; lia. Qed.
Lemma word_odd g : word g -> Z.odd (ga g) = true /\ Z.odd (gc g) = true.
Proof. intros [->| ->]; split; reflexivity. Qed.

Lemma rand_seed_closed t n r : rand_seed t n r = (4294967291 * (t + n + r) + 8615693) mod 2 ^ 64.
Proof.
  unfold rand_seed, wrap. set (M := 2 ^ 64). rewrite (Zplus_mod_idemp_r n), (Zplus_mod_idemp_l (t + n)), (Zmult_mod_idemp_l (t + n + r)), Zplus_mod_idemp_l.
  f_equal. ring.
Qed.
Lemma new_seed_closed g t n r : word g ->
  wrap (gw g) (rand_seed t n r) = (4294967291 * (t + n + r) + 8615693) mod 2 ^ gw g.
Proof.
  intros W. rewrite rand_seed_closed. unfold wrap. symmetry. apply Zmod_div_mod.
  - apply word_pos, W.
  - lia.
  - apply word_div, W.
Qed.

Lemma eq_mod_div m a b : 0 < m -> a mod m = b mod m <-> (m | a - b).
Proof.
  intros P. split; intros H.
  - exists (a / m - b / m). pose proof (Z.div_mod a m ltac:(lia)). pose proof (Z.div_mod b m ltac:(lia)). nia.
  - destruct H as [q H]. replace a with (b + q * m) by lia. apply Z.mod_add. lia.
Qed.
Lemma affine_inj w x y : 0 < w -> (4294967291 * x + 8615693) mod 2 ^ w = (4294967291 * y + 8615693) mod 2 ^ w <-> (2 ^ w | x - y).
Proof.
  intros P. rewrite eq_mod_div by (apply Z.pow_pos_nonneg; lia).
  replace (4294967291 * x + 8615693 - (4294967291 * y + 8615693)) with (4294967291 * (x - y)) by ring. split; intros H.
  - apply (pow2_gauss w 4294967291); [lia|reflexivity|exact H].
  - apply Z.divide_mul_r. exact H.
Qed.

(** The global generator. *)
Lemma rand_range_state g x a b x' r : rand_range g x a b = Ok (x', r) -> x' = lcg (gw g) (ga g) (gc g) 1 x.
Proof.
  unfold rand_range, rand. rewrite rand_next_lcg. cbn [lcg]. destruct (if b <? a then (b, a) else (a, b)) as [lo hi].
  destruct (_ =? 0); intros E; [discriminate|]. injection E as <- _. reflexivity.
Qed.
Lemma use_global s i f s' r : sd_use s i f = Ok (s', r) -> sd_global s' = sd_global s.
Proof.
  unfold sd_use. destruct (nth_error (sd_made s) i) as [x|]; [|discriminate].
  destruct (f x) as [[x' y]| |]; cbn [bind]; intros E; try discriminate. injection E as <- _. reflexivity.
Qed.
Lemma step_global g s op s' r : sd_step g s op = Ok (s', r) -> sd_global s' = lcg (gw g) (ga g) (gc g) (takes op) (sd_global s).
Proof.
  destruct op; cbn [sd_step takes]; intros E;
    try (apply use_global in E; rewrite E; reflexivity).
  - cbn [rand] in E. injection E as <- _. cbn [sd_global lcg]. apply rand_next_lcg.
  - injection E as <- _. reflexivity.
  - unfold sd_glob, rand in E. cbn [bind] in E. injection E as <- _. cbn [sd_global lcg]. apply rand_next_lcg.
  - unfold sd_glob in E. destruct (rand_range g (sd_global s) _ _) as [[x y]| |] eqn:R; cbn [bind] in E; try discriminate.
    injection E as <- _. apply rand_range_state in R. exact R.
  - unfold sd_glob, rand_max in E. destruct (rand_range g (sd_global s) _ _) as [[x y]| |] eqn:R; cbn [bind] in E; try discriminate.
    injection E as <- _. apply rand_range_state in R. exact R.
Qed.
Lemma taken_app l1 l2 : taken (l1 ++ l2) = (taken l1 + taken l2)%nat.
Proof. unfold taken. rewrite map_app, list_sum_app. reflexivity. Qed.
Lemma taken_cons op l : taken (op :: l) = (takes op + taken l)%nat.
Proof. reflexivity. Qed.
Lemma run_global g ops : forall s s' rs, run_ops (sd_step g) s ops = Ok (s', rs) ->
  sd_global s' = lcg (gw g) (ga g) (gc g) (taken ops) (sd_global s) /\ length rs = length ops.
Proof.
  induction ops as [|op ops IH]; intros s s' rs E; cbn [run_ops] in E.
  - injection E as <- <-. split; reflexivity.
  - destruct (sd_step g s op) as [[s1 r]| |] eqn:E1; cbn [bind] in E; try discriminate.
    destruct (run_ops (sd_step g) s1 ops) as [[s2 os]| |] eqn:E2; cbn [bind] in E; try discriminate.
    injection E as <- <-. destruct (IH _ _ _ E2) as [A B]. apply step_global in E1.
    split; [|cbn; congruence]. rewrite A, E1, <- lcg_add. f_equal. rewrite taken_cons. lia.
Qed.

(** A call of NewRand in the course of a run. *)
Lemma new_at g l1 t n l2 s s' rs : word g -> run_ops (sd_step g) s (l1 ++ SNew t n :: l2) = Ok (s', rs) ->
  nth (length l1) rs 0 = (4294967291 * (t + n + lcg (gw g) (ga g) (gc g) (taken l1 + 1) (sd_global s)) + 8615693) mod 2 ^ gw g.
Proof.
  intros W E. rewrite run_ops_app in E.
  destruct (run_ops (sd_step g) s l1) as [[s1 r1]| |] eqn:E1; cbn [bind] in E; try discriminate.
  destruct (run_global _ _ _ _ _ E1) as [G1 L1].
  cbn [run_ops sd_step rand] in E. cbn [bind] in E.
  destruct (run_ops (sd_step g) _ l2) as [[s2 r2]| |] in E; cbn [bind] in E; try discriminate.
  injection E as _ <-. rewrite <- L1, nth_middle. rewrite new_seed_closed by exact W. rewrite rand_next_lcg, G1.
  rewrite Nat.add_comm. reflexivity.
Qed.

Lemma seeds_exact g s l1 t1 n1 l2 t2 n2 s' rs : word g ->
  run_ops (sd_step g) s (l1 ++ SNew t1 n1 :: l2 ++ [SNew t2 n2]) = Ok (s', rs) ->
  nth (length l1) rs 0 = last rs 0 <->
  (2 ^ gw g | t1 + n1 + lcg (gw g) (ga g) (gc g) (taken l1 + 1) (sd_global s) -
              (t2 + n2 + lcg (gw g) (ga g) (gc g) (taken l1 + taken l2 + 2) (sd_global s))).
Proof.
  intros W E. pose proof (new_at g l1 t1 n1 _ s s' rs W E) as A.
  assert (EQ: l1 ++ SNew t1 n1 :: l2 ++ [SNew t2 n2] = (l1 ++ SNew t1 n1 :: l2) ++ SNew t2 n2 :: []) by (rewrite <- app_assoc; reflexivity).
  destruct (run_global _ _ _ _ _ E) as [_ L]. rewrite EQ in E. pose proof (new_at g _ t2 n2 _ s s' rs W E) as B.
  assert (LR: last rs 0 = nth (length (l1 ++ SNew t1 n1 :: l2)) rs 0).
  { rewrite EQ in L. destruct rs as [|r rs] using rev_ind; [rewrite app_length in L; cbn in L; lia|].
    rewrite last_last. rewrite !app_length in L. cbn [length] in L.
    replace (length (l1 ++ SNew t1 n1 :: l2)) with (length rs).
    - symmetry. apply nth_middle.
    - rewrite app_length. cbn [length]. lia. }
  rewrite LR, A, B. replace (taken (l1 ++ SNew t1 n1 :: l2) + 1)%nat with (taken l1 + taken l2 + 2)%nat.
  - apply affine_inj. apply word_pos, W.
  - rewrite taken_app, taken_cons. cbn [takes]. lia.
Qed.

Lemma init_range g t n : word g -> 0 <= sd_global (sd_init g t n) < 2 ^ gw g.
Proof. intros W. cbn [sd_init sd_global]. unfold wrap. apply Z.mod_pos_bound. apply word_pos, W. Qed.

(** The same clock. *)
Lemma period_word g (p : Z) : (g = gen32 /\ p = 2 ^ 31) \/ (g = gen64 /\ p = 2 ^ 64) -> forall x, 0 <= x < 2 ^ gw g -> forall i j,
  lcg (gw g) (ga g) (gc g) i x = lcg (gw g) (ga g) (gc g) j x <-> (p | Z.of_nat j - Z.of_nat i).
Proof. intros [[-> ->]|[-> ->]] x X i j; [apply period32|apply period64]; exact X. Qed.
Lemma lcg_in g n x : word g -> 0 <= x < 2 ^ gw g -> 0 <= lcg (gw g) (ga g) (gc g) n x < 2 ^ gw g.
Proof. intros W X. apply lcg_range; [apply word_pos, W|exact X]. Qed.
Lemma same_clock g p t0 n0 l1 t n l2 s' rs : (g = gen32 /\ p = 2 ^ 31) \/ (g = gen64 /\ p = 2 ^ 64) ->
  run_ops (sd_step g) (sd_init g t0 n0) (l1 ++ SNew t n :: l2 ++ [SNew t n]) = Ok (s', rs) ->
  nth (length l1) rs 0 = last rs 0 <-> (p | Z.of_nat (taken l2) + 1).
Proof.
  intros WP E. assert (W: word g) by (destruct WP as [[-> _]|[-> _]]; [left|right]; reflexivity).
  rewrite (seeds_exact _ _ _ _ _ _ _ _ _ _ W E).
  set (x := sd_global (sd_init g t0 n0)). pose proof (init_range g t0 n0 W) as X. fold x in X.
  set (i := (taken l1 + 1)%nat). set (j := (taken l1 + taken l2 + 2)%nat).
  replace (Z.of_nat (taken l2) + 1) with (Z.of_nat j - Z.of_nat i) by (unfold i, j; lia).
  rewrite <- (period_word g p WP x X i j).
  pose proof (lcg_in g i x W X) as A. pose proof (lcg_in g j x W X) as B.
  replace (t + n + lcg (gw g) (ga g) (gc g) i x - (t + n + lcg (gw g) (ga g) (gc g) j x))
    with (lcg (gw g) (ga g) (gc g) i x - lcg (gw g) (ga g) (gc g) j x) by ring.
  rewrite <- eq_mod_div by (apply word_pos, W). rewrite !Z.mod_small by assumption. reflexivity.
Qed.
Lemma same_clock_differ t0 n0 l1 t n l2 s' rs :
  (run_ops (sd_step gen64) (sd_init gen64 t0 n0) (l1 ++ SNew t n :: l2 ++ [SNew t n]) = Ok (s', rs) ->
   Z.of_nat (taken l2) < 2 ^ 64 - 1 -> nth (length l1) rs 0 <> last rs 0) /\
  (run_ops (sd_step gen32) (sd_init gen32 t0 n0) (l1 ++ SNew t n :: l2 ++ [SNew t n]) = Ok (s', rs) ->
   Z.of_nat (taken l2) < 2 ^ 31 - 1 -> nth (length l1) rs 0 <> last rs 0).
Proof.
  split; intros E L H.
  - apply (proj1 (same_clock gen64 (2 ^ 64) _ _ _ _ _ _ _ _ (or_intror (conj eq_refl eq_refl)) E)) in H. apply Z.divide_pos_le in H; lia.
  - apply (proj1 (same_clock gen32 (2 ^ 31) _ _ _ _ _ _ _ _ (or_introl (conj eq_refl eq_refl)) E)) in H. apply Z.divide_pos_le in H; lia.
Qed.
Lemma clock_moves : exists t0 t1 t2 n s' rs, 0 < t0 < t1 /\ t1 < t2 < 2 ^ 64 /\
  run_ops (sd_step gen64) (sd_init gen64 t0 n) [SNew t1 n; SNew t2 n] = Ok (s', rs) /\ nth 0 rs 0 = last rs 0.
Proof.
  exists 1000, 2000.
  exists ((2000 + lcg 64 (ga gen64) (gc gen64) 1 (sd_global (sd_init gen64 1000 1700000000)) -
                  lcg 64 (ga gen64) (gc gen64) 2 (sd_global (sd_init gen64 1000 1700000000))) mod 2 ^ 64).
  exists 1700000000. eexists _, _. split; [split; reflexivity|]. split; [split; reflexivity|]. split; vm_compute; reflexivity.
Qed.
