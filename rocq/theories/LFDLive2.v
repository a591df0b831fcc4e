From Coq Require Import ZArith List Bool Arith Lia ZifyBool ZifyNat.
From Verif Require Import GoBase GoLists ConcBase QueueProofs RingProofs SpinProofs LFDModel LFDSpec LFDProofs LFDConc ProgSpec ProgBase LFQLive2 LFDLiveSpec LFDLive.
Import ListNotations.
Local Open Scope nat_scope.

Definition reach (n : Z) (s : cd_state) : Prop := (0 < n < 2 ^ 31)%Z /\ exists sched, s = fst (crun cd_step (cd_init n) sched).
Lemma reach_step : forall n s t op, reach n s -> reach n (fst (cd_step s t op)).
Proof. intros n s t op (Hn & sched & ->). split; auto. exists (sched ++ [(t, op)]). rewrite crun_snoc. reflexivity. Qed.
Lemma reach_inv : forall n s, reach n s -> exists h k hist, shape n h k (fd_ht (cd_q s)) (fd_d (cd_q s)) /\
  forall t, pc_ok n (fd_d (cd_q s)) (pushed hist) (cd_pcs s t).
Proof.
  intros n s (Hn & sched & ->). destruct (members_exist sched) as [P HM].
  destruct (inv_run n P sched Hn HM) as (h & k & S & L & HP & _). exists h, k. eauto.
Qed.

Definition stale (s : cd_state) (pc : cd_pc) : bool :=
  match pc with
  | DPushWrite _ h t | DPushCas _ h t | DPopRead h t | DPopCas h t _ => negb (fd_ht (cd_q s) =? make_ht h t)%Z
  | _ => false
  end.
Definition left_of (s : cd_state) (pc : cd_pc) : nat :=
  match pc with
  | DIdle | DPanic => 0
  | DPushLoad _ | DPopLoad _ => 4
  | DPushFull _ => 3
  | DPushWrite _ _ _ | DPopRead _ _ => if stale s pc then 6 else 3
  | DPushCas _ _ _ | DPopCas _ _ _ => if stale s pc then 5 else 2
  | DSizeLoad => 2
  | DRet _ _ => 1
  end.
Definition changes (pc : cd_pc) : bool :=
  match pc with DIdle | DPanic | DSizeLoad | DRet _ _ => false | _ => true end.
Definition busy_pc (pc : cd_pc) : nat := match pc with DIdle | DPanic => 0 | _ => 1 end.
Definition moves (s : cd_state) (pc : cd_pc) : bool :=
  match pc with DPushCas _ h t | DPopCas h t _ => (fd_ht (cd_q s) =? make_ht h t)%Z | _ => false end.
Definition waiting (pc : cd_pc) : nat := match pc with DPushFull _ => 1 | _ => 0 end.

Lemma waits_app : forall a b s, waits s (a ++ b) = waits s a + waits (fst (crun cd_step s a)) b.
Proof.
  induction a as [|[t op] a IH]; intros b s; cbn [app waits crun]; auto.
  rewrite IH. destruct (cd_step s t op) as [s1 h1]. cbn [fst]. destruct (crun cd_step s1 a). cbn [fst]. lia.
Qed.

Lemma step_others : forall s t op u, u <> t -> cd_pcs (fst (cd_step s t op)) u = cd_pcs s u /\
  left_of (fst (cd_step s t op)) (cd_pcs s u) <= left_of s (cd_pcs s u) + (if moves s (cd_pcs s t) then 3 else 0).
Proof.
  intros s t op u N.
  assert (HP : cd_pcs (fst (cd_step s t op)) u = cd_pcs s u).
  { unfold cd_step. destruct (cd_pcs s t); try destruct (zset _ _ _); try destruct (zget _ _);
    try match goal with |- context [if (fd_ht _ =? ?x)%Z then _ else _] => destruct (fd_ht (cd_q s) =? x)%Z end;
    cbn [fst cd_pcs]; apply fupd_other; auto. }
  split; auto. destruct (moves s (cd_pcs s t)) eqn:M.
  - destruct (cd_pcs s u); cbn [left_of]; repeat match goal with |- context [if ?c then _ else _] => destruct c end; lia.
  - rewrite Nat.add_0_r. apply Nat.eq_le_incl.
    assert (HW : fd_ht (cd_q (fst (cd_step s t op))) = fd_ht (cd_q s)).
    { unfold cd_step. destruct (cd_pcs s t); cbn [moves] in M; try rewrite M; try destruct (zset _ _ _); try destruct (zget _ _); reflexivity. }
    destruct (cd_pcs s u); cbn [left_of stale]; rewrite ?HW; reflexivity.
Qed.

Lemma make_self : forall n h k w d, shape n h k w d -> make_ht (head_of w) (tail_of w) = w.
Proof.
  intros n h k w d S. destruct (shape_ends _ _ _ _ _ S) as (-> & -> & _). destruct S as (_ & _ & _ & _ & ->). reflexivity.
Qed.

Lemma step_self : forall n s t op, reach n s ->
  let s' := fst (cd_step s t op) in
  left_of s' (cd_pcs s' t) + 1 <= left_of s (cd_pcs s t) + 5 * length (invs (snd (cd_step s t op))) + 2 * waiting (cd_pcs s t) /\
  ((if changes (cd_pcs s' t) then 1 else 0) + (if moves s (cd_pcs s t) then 1 else 0) <=
   (if changes (cd_pcs s t) then 1 else 0) + length (invs (snd (cd_step s t op)))) /\
  busy_pc (cd_pcs s' t) + length (rets (snd (cd_step s t op))) = busy_pc (cd_pcs s t) + length (invs (snd (cd_step s t op))).
Proof.
  intros n s t op R. cbv zeta. destruct (reach_inv n s R) as (h & k & hist & S & HP). pose proof (HP t) as Hpc.
  pose proof S as (Hn & Hd & Hh & Hk & Hw).
  unfold cd_step. destruct (cd_pcs s t) as [|v|v|v h0 t0|v h0 t0|f|h0 t0|h0 t0 f| |op' r|] eqn:E; cbn [pc_ok] in Hpc; [| | | | | | | | | |contradiction].
  - cbn [fst snd cd_pcs]. rewrite fupd_same. destruct op; cbn; lia.
  - cbn [fst snd cd_pcs]. rewrite fupd_same. destruct (_ =? _)%Z; cbn [left_of stale cd_q fd_ht changes moves busy_pc invs rets length waiting].
    + lia.
    + rewrite (make_self _ _ _ _ _ S), Z.eqb_refl. cbn. lia.
  - cbn [fst snd cd_pcs]. rewrite fupd_same. cbn. lia.
  - destruct Hpc as (Hv & H0 & H1 & H2). rewrite zset_Ok by lia. cbn [fst snd cd_pcs]. rewrite fupd_same.
    cbn [left_of stale cd_q fd_ht changes moves busy_pc invs rets length waiting]. destruct (negb _); lia.
  - cbn [left_of stale cd_q fd_ht changes moves busy_pc invs rets length waiting].
    destruct (_ =? _)%Z eqn:EQ; cbn [fst snd cd_pcs]; rewrite fupd_same; cbn; lia.
  - cbn [fst snd cd_pcs]. rewrite fupd_same. destruct (_ =? _)%Z; cbn [left_of stale cd_q fd_ht changes moves busy_pc invs rets length waiting].
    + lia.
    + rewrite (make_self _ _ _ _ _ S), Z.eqb_refl. cbn. lia.
  - destruct Hpc as (H0 & H1 & H2 & H3). rewrite (zget_Ok _ _ 0%Z) by lia. cbn [fst snd cd_pcs]. rewrite fupd_same.
    cbn [left_of stale cd_q fd_ht changes moves busy_pc invs rets length waiting]. destruct (negb _); lia.
  - cbn [left_of stale cd_q fd_ht changes moves busy_pc invs rets length waiting].
    destruct (_ =? _)%Z eqn:EQ; cbn [fst snd cd_pcs]; rewrite fupd_same; cbn; lia.
  - cbn [fst snd cd_pcs]. rewrite fupd_same. cbn. lia.
  - cbn [fst snd cd_pcs]. rewrite fupd_same. cbn. lia.
Qed.

Section Live.
Variables (n : Z) (P : nat).
Definition weight (s : cd_state) (u : nat) : nat :=
  left_of s (cd_pcs s u) + (if changes (cd_pcs s u) then 3 * (P - 1) else 0).
Definition busy (s : cd_state) (u : nat) : nat := busy_pc (cd_pcs s u).

Lemma weight_step : forall s t op, reach n s -> t < P ->
  sumP P (weight (fst (cd_step s t op))) + 1 <=
  sumP P (weight s) + ((5 + 3 * (P - 1)) * length (invs (snd (cd_step s t op))) + 2 * waiting (cd_pcs s t)).
Proof.
  intros s t op R Ht.
  apply (sumP_step P t (weight s) (weight (fst (cd_step s t op))) (if moves s (cd_pcs s t) then 3 else 0)); auto.
  - intros u Hu N. destruct (step_others s t op u N) as [E L]. unfold weight. rewrite E. lia.
  - destruct (step_self n s t op R) as (L1 & L2 & _). unfold weight in *.
    set (i := length (invs (snd (cd_step s t op)))) in *.
    destruct (changes (cd_pcs (fst (cd_step s t op)) t)), (changes (cd_pcs s t)), (moves s (cd_pcs s t)); nia.
Qed.
Lemma busy_step : forall s t op, reach n s -> t < P -> reach n (fst (cd_step s t op)) /\
  sumP P (busy (fst (cd_step s t op))) + length (rets (snd (cd_step s t op))) = sumP P (busy s) + length (invs (snd (cd_step s t op))).
Proof.
  intros s t op R Ht. split; [apply reach_step; auto|].
  pose proof (sumP_upd P t (busy s) (busy (fst (cd_step s t op))) Ht) as U.
  destruct (step_self n s t op R) as (_ & _ & L3). unfold busy in *.
  specialize (U ltac:(intros u Hu N; destruct (step_others s t op u N) as [E _]; rewrite E; reflexivity)). lia.
Qed.
Lemma busy_max : forall s, sumP P (busy s) <= P.
Proof.
  intro s. rewrite <- (Nat.mul_1_r P) at 2. rewrite <- (sumP_const P 1). apply sumP_le. intros u _. unfold busy, busy_pc.
  destruct (cd_pcs s u); lia.
Qed.
Lemma weight_max : forall s, sumP P (weight s) <= P * (6 + 3 * (P - 1)).
Proof.
  intro s. rewrite <- sumP_const. apply sumP_le. intros u _. unfold weight, left_of.
  destruct (cd_pcs s u); cbn [changes]; repeat match goal with |- context [if ?c then _ else _] => destruct c end; lia.
Qed.

Lemma weight_run : forall sched s, reach n s -> members P sched ->
  reach n (fst (crun cd_step s sched)) /\
  sumP P (weight (fst (crun cd_step s sched))) + length sched <=
  sumP P (weight s) + (5 + 3 * (P - 1)) * length (invs (snd (crun cd_step s sched))) + 2 * waits s sched.
Proof.
  intros sched s R. induction sched as [|[t op] l IH] using rev_ind; intro HM.
  - cbn. split; auto. lia.
  - apply members_app in HM. destruct HM as [HM He]. inversion He as [|? ? Ht _]; subst. cbn [fst] in Ht.
    destruct (IH HM) as [R1 L1]. rewrite crun_snoc, waits_app, app_length. cbn [fst snd length].
    pose proof (weight_step (fst (crun cd_step s l)) t op R1 Ht) as W. split; [apply reach_step; auto|].
    rewrite invs_app, app_length. cbn [waits]. unfold waiting in W. rewrite Nat.add_0_r. lia.
Qed.

Lemma lfd_progress : forall before sched, (0 < n < 2 ^ 31)%Z -> members P sched ->
  let s := fst (crun cd_step (cd_init n) before) in
  length sched <= (3 * P + 3) * (length (rets (snd (crun cd_step s sched))) + 2 * P) + 2 * waits s sched.
Proof.
  intros before sched Hn HM s. assert (R : reach n s) by (split; auto; exists before; reflexivity).
  destruct (weight_run sched s R HM) as [_ A].
  pose proof (calls_bound cd_step (reach n) P busy busy_step sched s R HM) as B.
  pose proof (busy_max (fst (crun cd_step s sched))). pose proof (weight_max s). pose proof (busy_max s).
  set (i := length (invs (snd (crun cd_step s sched)))) in *. set (r := length (rets (snd (crun cd_step s sched)))) in *.
  set (w := waits s sched) in *.
  assert (i <= r + P) by lia. clearbody i r w s.
  destruct P as [|p]; [destruct sched; [cbn; lia|inversion HM; lia]|]. replace (S p - 1) with p in * by lia. nia.
Qed.
End Live.

(** The busy counter counts the waits. *)
Lemma busy_counts : forall sched s, fd_busy (cd_q (fst (crun cd_step s sched))) = wrap 64 (fd_busy (cd_q s) + Z.of_nat (waits s sched)) \/ waits s sched = 0.
Proof.
  intros sched s.
  assert (G : wrap 64 (fd_busy (cd_q (fst (crun cd_step s sched)))) = wrap 64 (fd_busy (cd_q s) + Z.of_nat (waits s sched)) /\
    (waits s sched <> 0 -> fd_busy (cd_q (fst (crun cd_step s sched))) = wrap 64 (fd_busy (cd_q (fst (crun cd_step s sched)))))).
  { induction sched as [|[t op] l [A B]] using rev_ind.
    - cbn. rewrite Z.add_0_r. split; [reflexivity|lia].
    - rewrite crun_snoc, waits_app. cbn [fst waits]. rewrite Nat.add_0_r. set (a := fst (crun cd_step s l)) in *.
      assert (HS : fd_busy (cd_q (fst (cd_step a t op))) = match cd_pcs a t with DPushFull _ => wrap 64 (fd_busy (cd_q a) + 1) | _ => fd_busy (cd_q a) end).
      { unfold cd_step. destruct (cd_pcs a t); try destruct (zset _ _ _); try destruct (zget _ _); cbn [fst cd_q fd_busy]; auto;
        match goal with |- context [if (fd_ht _ =? ?x)%Z then _ else _] => destruct (fd_ht (cd_q a) =? x)%Z end; reflexivity. }
      rewrite HS. destruct (cd_pcs a t); try (rewrite Nat.add_0_r; split; [exact A|exact B]).
      split.
      + unfold wrap in *. rewrite Zmod_mod. rewrite <- Zplus_mod_idemp_l, A, Zplus_mod_idemp_l. f_equal. lia.
      + intros _. unfold wrap. rewrite Zmod_mod. reflexivity. }
  destruct G as [A B]. destruct (Nat.eq_dec (waits s sched) 0); auto. left. rewrite B by auto. exact A.
Qed.

Lemma lfd_busy : forall n sched, (0 < n < 2 ^ 31)%Z ->
  fd_busy (cd_q (fst (crun cd_step (cd_init n) sched))) = wrap 64 (Z.of_nat (waits (cd_init n) sched)).
Proof.
  intros n sched Hn.
  assert (HB : fd_busy (cd_q (cd_init n)) = 0%Z) by (unfold cd_init, fd_init; cbn; destruct (n <=? 0)%Z; reflexivity).
  destruct (busy_counts sched (cd_init n)) as [E|E]; [rewrite E, HB; reflexivity|].
  rewrite E. revert E. induction sched as [|[t op] l IH] using rev_ind; intro E; [exact HB|].
  rewrite waits_app in E. cbn [waits] in E. rewrite Nat.add_0_r in E. rewrite crun_snoc. cbn [fst]. specialize (IH ltac:(lia)).
  set (a := fst (crun cd_step (cd_init n) l)) in *. unfold cd_step.
  destruct (cd_pcs a t); try lia; try destruct (zset _ _ _); try destruct (zget _ _); cbn [fst cd_q fd_busy]; auto;
  match goal with |- context [if (fd_ht _ =? ?x)%Z then _ else _] => destruct (fd_ht (cd_q a) =? x)%Z end; exact IH.
Qed.

(** ** A goroutine alone *)
Lemma lfd_solo : forall n before t op, (0 < n < 2 ^ 31)%Z ->
  let s := fst (crun cd_step (cd_init n) before) in cd_pcs s t = DIdle ->
  (match op with DPush _ => size_now s <> n - 1 | _ => True end)%Z ->
  exists m, m <= 5 /\ rets_of t (snd (crun cd_step s (repeat (t, op) m))) = 1.
Proof.
  intros n before t op Hn s Hi Hf. assert (R : reach n s) by (split; auto; exists before; reflexivity). clearbody s.
  destruct (reach_inv n s R) as (h & k & hist & S & _). pose proof (shape_size _ _ _ _ _ S) as HZ.
  pose proof (shape_ends _ _ _ _ _ S) as (Eh & Et & Hb). pose proof S as (_ & Hd & Hh & Hk & Hw).
  destruct s as [q pcs]. unfold size_now in Hf. cbn [cd_q cd_pcs] in *. rewrite HZ in Hf.
  assert (HR : forall (op : cd_op) (r : fd_res), rets_of t [Inv t op; Ret t op r] = 1) by (intros; unfold rets_of; cbn; rewrite Nat.eqb_refl; reflexivity).
  destruct op as [v| |].
  - exists 5. split; [lia|]. cbn [repeat crun].
    unfold cd_step at 1. cbn [cd_q cd_pcs]. rewrite Hi.
    unfold cd_step at 1. cbn [cd_q cd_pcs]. rewrite fupd_same. rewrite (shape_full _ _ _ _ _ S).
    destruct (Z.eqb_spec k (n - 1)); [congruence|].
    unfold cd_step at 1. cbn [cd_q cd_pcs]. rewrite fupd_same. rewrite zset_Ok by (rewrite Et; lia).
    unfold cd_step at 1. cbn [cd_q cd_pcs fd_ht]. rewrite fupd_same, (make_self _ _ _ _ _ S), Z.eqb_refl.
    unfold cd_step at 1. cbn [cd_q cd_pcs fd_ht]. rewrite fupd_same. cbn [snd app]. apply HR.
  - destruct (Z.eq_dec k 0) as [K|K].
    + exists 3. split; [lia|]. cbn [repeat crun].
      unfold cd_step at 1. cbn [cd_q cd_pcs]. rewrite Hi.
      unfold cd_step at 1. cbn [cd_q cd_pcs]. rewrite fupd_same. rewrite (shape_empty _ _ _ _ _ S).
      replace (k =? 0)%Z with true by lia.
      unfold cd_step at 1. cbn [cd_q cd_pcs fd_ht]. rewrite fupd_same. cbn [snd app]. apply HR.
    + exists 5. split; [lia|]. cbn [repeat crun].
      unfold cd_step at 1. cbn [cd_q cd_pcs]. rewrite Hi.
      unfold cd_step at 1. cbn [cd_q cd_pcs]. rewrite fupd_same. rewrite (shape_empty _ _ _ _ _ S).
      replace (k =? 0)%Z with false by lia.
      unfold cd_step at 1. cbn [cd_q cd_pcs]. rewrite fupd_same. rewrite (zget_Ok _ _ 0%Z) by (rewrite Eh; lia).
      unfold cd_step at 1. cbn [cd_q cd_pcs fd_ht]. rewrite fupd_same, (make_self _ _ _ _ _ S), Z.eqb_refl.
      unfold cd_step at 1. cbn [cd_q cd_pcs fd_ht]. rewrite fupd_same. cbn [snd app]. apply HR.
  - exists 3. split; [lia|]. cbn [repeat crun].
    unfold cd_step at 1. cbn [cd_q cd_pcs]. rewrite Hi.
    unfold cd_step at 1. cbn [cd_q cd_pcs]. rewrite fupd_same.
    unfold cd_step at 1. cbn [cd_q cd_pcs fd_ht]. rewrite fupd_same. cbn [snd app]. apply HR.
Qed.

(** A push into a full deque waits until another goroutine pops. *)
Lemma lfd_full : forall n before t v m, (0 < n < 2 ^ 31)%Z ->
  let s := fst (crun cd_step (cd_init n) before) in cd_pcs s t = DIdle -> (size_now s = n - 1)%Z ->
  rets (snd (crun cd_step s (repeat (t, DPush v) m))) = [] /\ size_now (fst (crun cd_step s (repeat (t, DPush v) m))) = (n - 1)%Z.
Proof.
  intros n before t v m Hn s Hi Hf. assert (R : reach n s) by (split; auto; exists before; reflexivity). clearbody s.
  destruct (reach_inv n s R) as (h & k & hist & S & _). pose proof (shape_size _ _ _ _ _ S) as HZ.
  unfold size_now in *. rewrite HZ in Hf. subst k.
  assert (G : forall m a, fd_ht (cd_q a) = fd_ht (cd_q s) -> fd_d (cd_q a) = fd_d (cd_q s) ->
    (cd_pcs a t = DPushLoad v \/ cd_pcs a t = DPushFull v) ->
    rets (snd (crun cd_step a (repeat (t, DPush v) m))) = [] /\
    fd_size (fd_d (cd_q (fst (crun cd_step a (repeat (t, DPush v) m))))) (fd_ht (cd_q (fst (crun cd_step a (repeat (t, DPush v) m))))) = (n - 1)%Z).
  { clear m. induction m as [|m IH]; intros a E1 E2 E3.
    - cbn. split; auto. rewrite E1, E2. exact HZ.
    - cbn [repeat crun]. destruct E3 as [E3|E3].
      + assert (ES : cd_step a t (DPush v) = (CD (cd_q a) (fupd (cd_pcs a) t (DPushFull v)), [])).
        { unfold cd_step. rewrite E3, E1, E2, (shape_full _ _ _ _ _ S), Z.eqb_refl. reflexivity. }
        rewrite ES. specialize (IH (CD (cd_q a) (fupd (cd_pcs a) t (DPushFull v)))).
        cbn [cd_q cd_pcs] in IH. rewrite fupd_same in IH. specialize (IH E1 E2 (or_intror eq_refl)).
        destruct (crun cd_step _ _) as [s2 h2]. cbn [fst snd app] in *. exact IH.
      + assert (ES : exists q', fd_ht q' = fd_ht (cd_q a) /\ fd_d q' = fd_d (cd_q a) /\ cd_step a t (DPush v) = (CD q' (fupd (cd_pcs a) t (DPushLoad v)), [])).
        { unfold cd_step. rewrite E3. eexists. split; [|split]; [| |reflexivity]; reflexivity. }
        destruct ES as (q' & Q1 & Q2 & ES). rewrite ES. specialize (IH (CD q' (fupd (cd_pcs a) t (DPushLoad v)))).
        cbn [cd_q cd_pcs] in IH. rewrite fupd_same, Q1, Q2 in IH. specialize (IH E1 E2 (or_introl eq_refl)).
        destruct (crun cd_step _ _) as [s2 h2]. cbn [fst snd app] in *. exact IH. }
  destruct m as [|m]; [cbn; split; auto|]. cbn [repeat crun].
  assert (ES : cd_step s t (DPush v) = (CD (cd_q s) (fupd (cd_pcs s) t (DPushLoad v)), [Inv t (DPush v)])).
  { unfold cd_step. rewrite Hi. reflexivity. }
  rewrite ES. specialize (G m (CD (cd_q s) (fupd (cd_pcs s) t (DPushLoad v)))). cbn [cd_q cd_pcs] in G. rewrite fupd_same in G.
  specialize (G eq_refl eq_refl (or_introl eq_refl)). destruct (crun cd_step _ _) as [s2 h2]. cbn [fst snd app rets] in *. exact G.
Qed.
