(** Generators do not disturb each other. *)
From Coq Require Import ZArith List Bool Lia Arith.
From Verif Require Import GoBase GoLists RandModel RandSpec SeedModel SeedSpec.
Import ListNotations.
Open Scope Z_scope.

Definition call (g : gen) (op : sd_op) (x : Z) : outcome (Z * Z) :=
  let W := wrap (gw g) in
  match op with
  | SRange _ a b => rand_range g x (W a) (W b)
  | SMax _ n => rand_max g x (W n)
  | SSrand _ y => Ok (W y, x)
  | SSeed _ => Ok (x, x)
  | _ => Ok (rand g x)
  end.
Lemma mine_step g s i op : mine i op = true -> sd_step g s op = sd_use s i (call g op) /\ forall t, sd_step g t (first_one op) = sd_use t 0 (call g op).
Proof. destruct op; cbn [mine]; try discriminate; intros E; apply Nat.eqb_eq in E; subst; split; reflexivity. Qed.
Lemma use_inv s i f s' r : sd_use s i f = Ok (s', r) -> exists x x', nth_error (sd_made s) i = Some x /\ f x = Ok (x', r) /\
  s' = Seeds (sd_global s) (firstn i (sd_made s) ++ x' :: skipn (S i) (sd_made s)).
Proof.
  unfold sd_use. destruct (nth_error (sd_made s) i) as [x|]; [|discriminate]. destruct (f x) as [[x' y]| |] eqn:E; cbn [bind]; intros H; try discriminate.
  injection H as <- <-. eauto.
Qed.
Lemma put_len (l : list Z) i x' : (i < length l)%nat -> length (firstn i l ++ x' :: skipn (S i) l) = length l.
Proof. intros H. rewrite app_length, firstn_length. cbn [length]. rewrite skipn_length. lia. Qed.
Lemma put_at (l : list Z) i x' : (i < length l)%nat -> nth_error (firstn i l ++ x' :: skipn (S i) l) i = Some x'.
Proof. intros H. rewrite nth_error_app2 by (rewrite firstn_length; lia). rewrite firstn_length. replace (i - min i (length l))%nat with 0%nat by lia. reflexivity. Qed.
Lemma put_else (l : list Z) i j x' : (i < length l)%nat -> i <> j -> nth_error (firstn i l ++ x' :: skipn (S i) l) j = nth_error l j.
Proof.
  intros H N. destruct (Nat.lt_ge_cases j i) as [L|L].
  - rewrite nth_error_app1 by (rewrite firstn_length; lia). transitivity (nth_error (firstn i l ++ skipn i l) j); [|now rewrite firstn_skipn]. rewrite nth_error_app1 by (rewrite firstn_length; lia). reflexivity.
  - rewrite nth_error_app2 by (rewrite firstn_length; lia). rewrite firstn_length.
    replace (j - min i (length l))%nat with (S (j - S i)) by lia. cbn [nth_error].
    transitivity (nth_error (firstn (S i) l ++ skipn (S i) l) j); [|now rewrite firstn_skipn].
    rewrite (nth_error_app2 (firstn (S i) l)) by (rewrite firstn_length; lia). rewrite firstn_length.
    replace (j - min (S i) (length l))%nat with (j - S i)%nat by lia. reflexivity.
Qed.
Lemma other_step g s i op s' r : mine i op = false -> sd_step g s op = Ok (s', r) -> forall x, nth_error (sd_made s) i = Some x -> nth_error (sd_made s') i = Some x.
Proof.
  intros M E x H. assert (L : (i < length (sd_made s))%nat) by (apply nth_error_Some; congruence).
  assert (U : forall j f, i <> j -> sd_use s j f = Ok (s', r) -> nth_error (sd_made s') i = Some x).
  { intros j f N K. apply use_inv in K as (y & y' & Hy & _ & ->). cbn [sd_made]. rewrite put_else; auto. apply nth_error_Some. congruence. }
  assert (G : forall f, sd_glob s f = Ok (s', r) -> nth_error (sd_made s') i = Some x).
  { intros f K. unfold sd_glob in K. destruct (f (sd_global s)) as [[a b]| |]; cbn [bind] in K; try discriminate. injection K as <- _. exact H. }
  destruct op; cbn [sd_step mine] in *; try (apply Nat.eqb_neq in M).
  1: destruct (rand g (sd_global s)) as [a b]; injection E as <- _; cbn [sd_made]; rewrite nth_error_app1 by lia; exact H.
  1: injection E as <- _; cbn [sd_made]; rewrite nth_error_app1 by lia; exact H.
  all: first [exact (G _ E) | exact (U _ _ M E)].
Qed.
Lemma alone_run g i : forall ops s s' rs x t, run_ops (sd_step g) s ops = Ok (s', rs) -> nth_error (sd_made s) i = Some x -> sd_made t = [x] ->
  exists t', run_ops (sd_step g) t (map first_one (filter (mine i) ops)) = Ok (t', picked (mine i) ops rs).
Proof.
  induction ops as [|op ops IH]; intros s s' rs x t E H T; [injection E as _ <-; eexists; reflexivity|]. cbn [run_ops] in E.
  destruct (sd_step g s op) as [[s1 r]| |] eqn:E1; cbn [bind] in E; try discriminate.
  destruct (run_ops (sd_step g) s1 ops) as [[s2 rs2]| |] eqn:E2; cbn [bind] in E; try discriminate. injection E as <- <-.
  unfold picked. cbn [filter combine fst]. destruct (mine i op) eqn:M.
  - destruct (mine_step g s i op M) as [Es Et]. rewrite Es in E1. apply use_inv in E1 as (y & y' & Hy & Ey & ->). rewrite H in Hy. injection Hy as <-.
    cbn [map run_ops]. rewrite Et. unfold sd_use. rewrite T. cbn [nth_error]. rewrite Ey. cbn [bind firstn skipn app].
    destruct (IH _ _ _ y' (Seeds (sd_global t) [y']) E2) as (t' & R); [cbn [sd_made]; apply put_at; apply nth_error_Some; congruence|reflexivity|].
    rewrite R. cbn [bind]. eexists. reflexivity.
  - apply (IH _ _ _ x t E2); auto. eapply other_step; eauto.
Qed.
Lemma made_len g s op s' r : sd_step g s op = Ok (s', r) -> length (sd_made s') = (length (sd_made s) + created [op])%nat.
Proof.
  assert (U : forall j f, sd_use s j f = Ok (s', r) -> length (sd_made s') = (length (sd_made s) + 0)%nat).
  { intros j f K. apply use_inv in K as (y & y' & Hy & _ & ->). cbn [sd_made]. rewrite put_len; [lia|]. apply nth_error_Some. congruence. }
  assert (G : forall f, sd_glob s f = Ok (s', r) -> length (sd_made s') = (length (sd_made s) + 0)%nat).
  { intros f K. unfold sd_glob in K. destruct (f (sd_global s)) as [[a b]| |]; cbn [bind] in K; try discriminate. injection K as <- _. cbn [sd_made]. lia. }
  intros E. destruct op; cbn [sd_step] in E.
  1: destruct (rand g (sd_global s)) as [a b]; injection E as <- _; cbn [sd_made]; rewrite app_length; reflexivity.
  1: injection E as <- _; cbn [sd_made]; rewrite app_length; reflexivity.
  all: first [exact (G _ E) | exact (U _ _ E)].
Qed.
Lemma made_run g : forall ops s s' rs, run_ops (sd_step g) s ops = Ok (s', rs) -> length (sd_made s') = (length (sd_made s) + created ops)%nat.
Proof.
  induction ops as [|op ops IH]; intros s s' rs E; [injection E as <- _; cbn; lia|]. cbn [run_ops] in E.
  destruct (sd_step g s op) as [[s1 r]| |] eqn:E1; cbn [bind] in E; try discriminate.
  destruct (run_ops (sd_step g) s1 ops) as [[s2 rs2]| |] eqn:E2; cbn [bind] in E; try discriminate. injection E as <- _.
  rewrite (IH _ _ _ E2), (made_len _ _ _ _ _ E1). unfold created. cbn [filter]. destruct op; cbn; lia.
Qed.
Lemma run_split g : forall l1 s l2 s' rs, run_ops (sd_step g) s (l1 ++ l2) = Ok (s', rs) ->
  exists s1 r1 r2, run_ops (sd_step g) s l1 = Ok (s1, r1) /\ run_ops (sd_step g) s1 l2 = Ok (s', r2) /\ rs = r1 ++ r2 /\ length r1 = length l1.
Proof.
  induction l1 as [|op l1 IH]; intros s l2 s' rs E; [exists s, [], rs; repeat split; auto|]. cbn [app run_ops] in E.
  destruct (sd_step g s op) as [[s1 r]| |] eqn:E1; cbn [bind] in E; try discriminate.
  destruct (run_ops (sd_step g) s1 (l1 ++ l2)) as [[s2 rs2]| |] eqn:E2; cbn [bind] in E; try discriminate. injection E as <- <-.
  destruct (IH _ _ _ _ E2) as (s3 & r1 & r2 & A & B & -> & L). exists s3, (r :: r1), r2. cbn [run_ops]. rewrite E1. cbn [bind]. rewrite A. cbn [bind].
  repeat split; auto. cbn [length]. lia.
Qed.
Lemma seeded_alone g t0 n0 l1 seed ops s' rs t1 n1 : run_ops (sd_step g) (sd_init g t0 n0) (l1 ++ SNewS seed :: ops) = Ok (s', rs) ->
  exists t', run_ops (sd_step g) (sd_init g t1 n1) (SNewS seed :: map first_one (filter (mine (created l1)) ops)) =
    Ok (t', wrap (gw g) seed :: picked (mine (created l1)) ops (skipn (S (length l1)) rs)).
Proof.
  intros E. apply run_split in E as (s1 & r1 & r2 & A & B & -> & L). pose proof (made_run _ _ _ _ _ A) as K. cbn [sd_init sd_made length Nat.add] in K.
  cbn [run_ops sd_step bind] in B. destruct (run_ops (sd_step g) (Seeds (sd_global s1) (sd_made s1 ++ [wrap (gw g) seed])) ops) as [[s2 rs2]| |] eqn:E2; cbn [bind] in B; try discriminate.
  injection B as <- <-. cbn [run_ops sd_step bind]. replace (S (length l1)) with (length (r1 ++ [wrap (gw g) seed])) by (rewrite app_length; cbn; lia).
  replace (r1 ++ wrap (gw g) seed :: rs2) with ((r1 ++ [wrap (gw g) seed]) ++ rs2) by (now rewrite <- app_assoc). rewrite skipn_app, skipn_all, Nat.sub_diag. cbn [app skipn].
  destruct (alone_run g (created l1) ops _ _ _ (wrap (gw g) seed) (Seeds (sd_global (sd_init g t1 n1)) ([] ++ [wrap (gw g) seed])) E2) as (t' & R).
  - cbn [sd_made]. rewrite nth_error_app2 by lia. rewrite K, Nat.sub_diag. reflexivity.
  - reflexivity.
  - cbn [sd_init sd_made sd_global app] in *. rewrite R. cbn [bind]. eauto.
Qed.
Lemma common_run g : forall ops s s' rs t, run_ops (sd_step g) s ops = Ok (s', rs) -> sd_global t = sd_global s ->
  exists t', run_ops (sd_step g) t (filter common_one ops) = Ok (t', picked common_one ops rs).
Proof.
  induction ops as [|op ops IH]; intros s s' rs t E T; [injection E as _ <-; eexists; reflexivity|]. cbn [run_ops] in E.
  destruct (sd_step g s op) as [[s1 r]| |] eqn:E1; cbn [bind] in E; try discriminate.
  destruct (run_ops (sd_step g) s1 ops) as [[s2 rs2]| |] eqn:E2; cbn [bind] in E; try discriminate. injection E as <- <-.
  assert (U : forall j f, sd_use s j f = Ok (s1, r) -> sd_global s1 = sd_global s) by (intros j f K; apply use_inv in K as (y & y' & _ & _ & ->); reflexivity).
  assert (C : common_one op = true -> exists t1, sd_step g t op = Ok (t1, r) /\ sd_global t1 = sd_global s1).
  { assert (G : forall f, sd_glob s f = Ok (s1, r) -> exists t1, sd_glob t f = Ok (t1, r) /\ sd_global t1 = sd_global s1).
    { intros f K. unfold sd_glob in *. rewrite T. destruct (f (sd_global s)) as [[a b]| |]; cbn [bind] in *; try discriminate. injection K as <- <-. eexists. split; reflexivity. }
    destruct op; cbn [common_one sd_step] in *; intros Q; try discriminate; try (now apply G).
    rewrite T. destruct (rand g (sd_global s)) as [a b]. injection E1 as <- <-. eexists. split; reflexivity. }
  unfold picked. cbn [filter combine fst]. destruct (common_one op) eqn:Q.
  - destruct (C eq_refl) as (t1 & Et & Gt). cbn [run_ops map snd]. rewrite Et. cbn [bind]. destruct (IH _ _ _ t1 E2 Gt) as (t' & R). rewrite R. cbn [bind]. eauto.
  - apply (IH _ _ _ t E2). rewrite T. destruct op; cbn [common_one sd_step] in *; try discriminate; first [symmetry; exact (U _ _ E1) | injection E1 as <- _; reflexivity].
Qed.

(** The numbers of a generator follow each other. *)
Lemma seeded_seq g : forall k x c, exists t', run_ops (sd_step g) (Seeds c [x]) (repeat (SRand 0) k) = Ok (t', map (fun i => rand_calls g i x) (seq 0 k)).
Proof.
  induction k as [|k IH]; intros x c; [eexists; reflexivity|]. cbn [repeat run_ops sd_step]. unfold sd_use. cbn [sd_made nth_error bind].
  cbn [seq map rand_calls]. destruct (rand g x) as [x' r] eqn:E. cbn [bind firstn skipn app sd_global]. destruct (IH x' c) as (t' & R). rewrite R. cbn [bind]. eexists. f_equal. f_equal. f_equal.
  rewrite <- seq_shift, map_map. apply map_ext. intros i. cbn [rand_calls]. now rewrite E.
Qed.
Lemma max_seq g n : forall k x c t' rs, run_ops (sd_step g) (Seeds c [x]) (repeat (SMax 0 n) k) = Ok (t', rs) ->
  map Ok rs = map (fun i => max_calls g (wrap (gw g) n) i x) (seq 0 k).
Proof.
  induction k as [|k IH]; intros x c t' rs E; [injection E as _ <-; reflexivity|]. cbn [repeat run_ops sd_step] in E. unfold sd_use in E. cbn [sd_made nth_error bind] in E.
  destruct (rand_max g x (wrap (gw g) n)) as [[x' r]| |] eqn:M; cbn [bind firstn skipn app sd_global] in E; try discriminate.
  destruct (run_ops (sd_step g) (Seeds c [x']) (repeat (SMax 0 n) k)) as [[t2 rs2]| |] eqn:R; cbn [bind] in E; try discriminate. injection E as _ <-.
  cbn [seq map max_calls]. rewrite M. cbn [bind]. f_equal. rewrite (IH _ _ _ _ R), <- seq_shift, map_map. apply map_ext. intros i. cbn [max_calls]. now rewrite M.
Qed.
Lemma seeded_sequence g t n seed k : 
  (exists s', run_ops (sd_step g) (sd_init g t n) (SNewS seed :: repeat (SRand 0) k) = Ok (s', wrap (gw g) seed :: map (fun i => rand_calls g i (wrap (gw g) seed)) (seq 0 k))) /\
  (forall m s' rs, run_ops (sd_step g) (sd_init g t n) (SNewS seed :: repeat (SMax 0 m) k) = Ok (s', rs) ->
     map Ok (tl rs) = map (fun i => max_calls g (wrap (gw g) m) i (wrap (gw g) seed)) (seq 0 k)).
Proof.
  cbn [run_ops sd_step bind sd_init sd_made sd_global app]. split.
  - destruct (seeded_seq g k (wrap (gw g) seed) (wrap (gw g) (rand_seed t n 0))) as (t' & R). rewrite R. cbn [bind]. eauto.
  - intros m s' rs E. destruct (run_ops (sd_step g) _ (repeat (SMax 0 m) k)) as [[t2 rs2]| |] eqn:R; cbn [bind] in E; try discriminate. injection E as _ <-. exact (max_seq _ _ _ _ _ _ _ R).
Qed.
