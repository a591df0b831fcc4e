From Coq Require Import ZArith List Bool Arith Lia.
From Verif Require Import GoBase ConcBase SListModel SpinProofs LFQModel ProgSpec ProgBase LFQLive.
Import ListNotations.
Local Open Scope nat_scope.


Lemma steps_app : forall X t (a b : list (nat * X)), steps_of t (a ++ b) = steps_of t a + steps_of t b.
Proof. intros. unfold steps_of. rewrite filter_app, app_length. reflexivity. Qed.
Lemma invs_of_app : forall Op Res t (a b : list (ext Op Res)), invs_of t (a ++ b) = invs_of t a + invs_of t b.
Proof. intros. unfold invs_of. rewrite invs_app, filter_app, app_length. reflexivity. Qed.
Lemma rets_of_app : forall Op Res t (a b : list (ext Op Res)), rets_of t (a ++ b) = rets_of t a + rets_of t b.
Proof. intros. unfold rets_of. rewrite rets_app, filter_app, app_length. reflexivity. Qed.

Definition chg (s : lq_state) (u : nat) : nat := if changes (lq_pcs s u) then 1 else 0.

(** The events of a step are those of the goroutine. *)
Lemma step_events : forall s t op u,
  invs_of u (snd (lq_step s t op)) = (if u =? t then length (invs (snd (lq_step s t op))) else 0) /\
  rets_of u (snd (lq_step s t op)) = (if u =? t then length (rets (snd (lq_step s t op))) else 0).
Proof.
  intros s t op u. unfold lq_step, invs_of, rets_of.
  destruct (lq_pcs s t); try destruct op; try destruct (lq_head s); try destruct (sp_eq _ _);
  cbn [snd invs rets filter fst]; try rewrite (Nat.eqb_sym t u); destruct (u =? t); cbn; auto.
Qed.

Section Single.
Variable P t : nat.
Hypothesis Ht : t < P.

Lemma single_run : forall sched s, own_ok s -> members P sched ->
  let s' := fst (crun lq_step s sched) in let h := snd (crun lq_step s sched) in
  left_of s' (lq_pcs s' t) + steps_of t sched + 3 * sumP P (chg s') <=
  left_of s (lq_pcs s t) + 7 * invs_of t h + 3 * (sumP P (chg s) + length (invs h)) /\
  busy s' t + rets_of t h = busy s t + invs_of t h.
Proof.
  intros sched s HI. cbv zeta. induction sched as [|[u op] l IH] using rev_ind; intro HM.
  - cbn. lia.
  - apply members_app in HM. destruct HM as [HM He]. inversion He as [|? ? Hu _]; subst. cbn [fst] in Hu.
    destruct (IH HM) as [IH1 IH2]. rewrite crun_snoc. cbn [fst snd].
    assert (HI' : own_ok (fst (crun lq_step s l))).
    { clear - HI. induction l as [|[v o] l IH] using rev_ind; [exact HI|]. rewrite crun_snoc. apply own_step. exact IH. }
    set (a := fst (crun lq_step s l)) in *. set (h := snd (crun lq_step s l)) in *.
    rewrite steps_app, invs_of_app, rets_of_app, invs_app, app_length.
    destruct (step_events a u op t) as [-> ->].
    destruct (step_self a u op) as (L1 & L2 & L3).
    assert (HC : sumP P (chg (fst (lq_step a u op))) + (if head_moves (lq_pcs a u) a then 1 else 0) <=
                 sumP P (chg a) + length (invs (snd (lq_step a u op)))).
    { pose proof (sumP_upd P u (chg a) (chg (fst (lq_step a u op))) Hu) as U.
      assert (U' : sumP P (chg (fst (lq_step a u op))) + chg a u = sumP P (chg a) + chg (fst (lq_step a u op)) u).
      { apply U. intros v Hv N. destruct (step_others a u op v HI' N) as [E _]. unfold chg. rewrite E. reflexivity. }
      unfold chg in *. lia. }
    change (steps_of t [(u, op)]) with (length (if u =? t then [(u, op)] else [])). destruct (Nat.eqb_spec t u) as [->|N].
    + rewrite Nat.eqb_refl. cbn [length]. unfold busy in *.
      destruct (head_moves (lq_pcs a u) a); lia.
    + destruct (Nat.eqb_spec u t); [congruence|]. cbn [length].
      destruct (step_others a u op t HI' N) as [E L]. unfold busy in *. rewrite !E.
      destruct (head_moves (lq_pcs a u) a); lia.
Qed.
End Single.

Lemma chg_busy : forall P s, sumP P (chg s) <= sumP P (busy s).
Proof. intros. apply sumP_le. intros u _. unfold chg, busy, busy_pc. destruct (lq_pcs s u); cbn; lia. Qed.

Lemma lq_call_bound : forall P before sched t, members P sched -> t < P ->
  let h := snd (crun lq_step (fst (crun lq_step lq_init before)) sched) in
  rets_of t h = 0 -> steps_of t sched <= 8 + 3 * (length (rets h) + P).
Proof.
  intros P before sched t HM Ht h HR. set (s := fst (crun lq_step lq_init before)) in *.
  pose proof (run_own before) as HI. fold s in HI.
  destruct (single_run P t Ht sched s HI HM) as [A B]. fold h in A, B.
  pose proof (calls_bound lq_step own_ok P busy (busy_step P) sched s HI HM) as C. fold h in C.
  pose proof (busy_max P (fst (crun lq_step s sched))). pose proof (chg_busy P s).
  assert (D : left_of s (lq_pcs s t) + 7 * invs_of t h <= 8).
  { rewrite HR in B. pose proof (left_max s (lq_pcs s t)).
    assert (busy (fst (crun lq_step s sched)) t <= 1) by (unfold busy, busy_pc; destruct (lq_pcs _ t); lia).
    unfold busy at 2 in B. destruct (lq_pcs s t); cbn [busy_pc] in B; cbn [left_of] in *; lia. }
  lia.
Qed.

(** ** A goroutine alone *)
Lemma lq_solo : forall before t op, exists n, n <= 8 /\
  rets_of t (snd (crun lq_step (fst (crun lq_step lq_init before)) (repeat (t, op) n))) = 1.
Proof.
  intros before t op. pose proof (run_own before) as HI. set (s := fst (crun lq_step lq_init before)) in *. clearbody s.
  assert (G : forall m s, own_ok s -> lq_pcs s t <> PcIdle -> left_of s (lq_pcs s t) <= m ->
    exists n, n <= m /\ rets_of t (snd (crun lq_step s (repeat (t, op) n))) = 1).
  { clear s HI. induction m as [|m IH]; intros s HI Hb HL.
    - exfalso. destruct (lq_pcs s t); cbn [left_of] in HL; repeat match type of HL with context [if ?c then _ else _] => destruct c end; try lia; congruence.
    - destruct (step_self s t op) as (L1 & _ & L3).
      assert (HN : invs (snd (lq_step s t op)) = []).
      { unfold lq_step. destruct (lq_pcs s t); try congruence; try destruct (lq_head s); try destruct (sp_eq _ _); reflexivity. }
      rewrite HN in L1, L3. cbn [length] in L1, L3.
      destruct (rets (snd (lq_step s t op))) as [|r l] eqn:ER.
      + destruct (IH (fst (lq_step s t op))) as (n & Hn & E).
        * apply own_step; auto.
        * intro K. rewrite K in L3. cbn in L3. destruct (lq_pcs s t); cbn in L3; try lia. congruence.
        * lia.
        * exists (S n). split; [lia|]. cbn [repeat crun]. destruct (lq_step s t op) as [s1 h1] eqn:E1. cbn [fst snd] in *.
          destruct (crun lq_step s1 (repeat (t, op) n)) as [s2 h2] eqn:E2. cbn [snd] in *. rewrite rets_of_app, E.
          unfold rets_of. rewrite ER. reflexivity.
      + exists 1. split; [lia|]. cbn [repeat crun]. destruct (step_events s t op t) as [_ E]. rewrite Nat.eqb_refl in E.
        destruct (lq_step s t op) as [s1 h1] eqn:E1. cbn [fst snd] in *. rewrite rets_of_app, E, ER.
        cbn [length] in *. unfold rets_of. cbn.
        destruct (lq_pcs s t); cbn in L3; lia. }
  destruct (lq_pcs s t) eqn:PC; try (apply (G 8 s HI); [congruence|apply left_max]).
  destruct (step_self s t op) as (L1 & _ & L3). rewrite PC in L1, L3. cbn [left_of busy_pc] in L1, L3.
  assert (HE : length (invs (snd (lq_step s t op))) = 1 /\ rets (snd (lq_step s t op)) = []).
  { unfold lq_step. rewrite PC. destruct op; cbn; auto. }
  destruct HE as [HE HR]. rewrite HE in *. rewrite HR in L3. cbn [length] in L3.
  destruct (G 6 (fst (lq_step s t op))) as (n & Hn & E).
  - apply own_step; auto.
  - intro K. rewrite K in L3. cbn in L3. lia.
  - lia.
  - exists (S n). split; [lia|]. cbn [repeat crun]. destruct (lq_step s t op) as [s1 h1] eqn:E1. cbn [fst snd] in *.
    destruct (crun lq_step s1 (repeat (t, op) n)) as [s2 h2] eqn:E2. cbn [snd] in *. rewrite rets_of_app, E.
    unfold rets_of. rewrite HR. reflexivity.
Qed.

(** ** A goroutine that never gets through *)
Definition overtake : list (nat * lq_op) :=
  [(0, QPop); (1, QPush 5); (1, QPop); (1, QPop); (1, QPop); (1, QPop); (0, QPop)].
Definition starving (s : lq_state) : Prop := exists v n, lq_pcs s 0 = PcPushLoad v n /\ lq_pcs s 1 = PcIdle /\ n < lq_fresh s /\
  (forall m, lq_head s = Some m -> m < lq_fresh s).

Lemma overtake_ok : forall s, starving s -> starving (fst (crun lq_step s overtake)) /\ rets_of 0 (snd (crun lq_step s overtake)) = 0.
Proof.
  intros s (v & n & P0 & P1 & Hn & Hh). destruct s as [h hd z fr pcs]. cbn [lq_pcs lq_fresh lq_head] in *.
  unfold overtake.
  assert (E : exists s', crun lq_step (LQ h hd z fr pcs)
    [(0, QPop); (1, QPush 5); (1, QPop); (1, QPop); (1, QPop); (1, QPop); (0, QPop)] = (s', [Inv 1 (QPush 5); Ret 1 (QPush 5) (RBool true)]) /\
    lq_pcs s' 0 = PcPushLoad v n /\ lq_pcs s' 1 = PcIdle /\ lq_fresh s' = S fr /\ lq_head s' = Some fr).
  { eexists. split; [|].
    - cbn [crun]. unfold lq_step at 1. cbn [lq_pcs lq_heap lq_head lq_size lq_fresh]. rewrite P0.
      unfold lq_step at 1. cbn [lq_pcs lq_heap lq_head lq_size lq_fresh]. rewrite fupd_other by lia. rewrite P1.
      unfold lq_step at 1. cbn [lq_pcs lq_heap lq_head lq_size lq_fresh]. rewrite fupd_same.
      unfold lq_step at 1. cbn [lq_pcs lq_heap lq_head lq_size lq_fresh]. rewrite fupd_same.
      unfold set_next at 1. rewrite fupd_same. cbn [snext]. rewrite sp_eq_refl.
      unfold lq_step at 1. cbn [lq_pcs lq_heap lq_head lq_size lq_fresh]. rewrite fupd_same.
      unfold lq_step at 1. cbn [lq_pcs lq_heap lq_head lq_size lq_fresh]. rewrite fupd_same.
      unfold lq_step at 1. cbn [lq_pcs lq_heap lq_head lq_size lq_fresh].
      repeat (rewrite fupd_other by lia). rewrite fupd_same.
      assert (HX : sp_eq (Some fr) (snext (set_next (fupd (set_next h n hd) fr (SNode 5 None)) fr hd n)) = false).
      { unfold set_next. rewrite (fupd_other _ fr n) by lia. rewrite (fupd_other _ fr n) by lia. rewrite fupd_same. cbn [snext].
        destruct hd as [m|]; cbn [sp_eq]; [|reflexivity]. apply Nat.eqb_neq. specialize (Hh m eq_refl). lia. }
      rewrite HX. cbn [app]. reflexivity.
    - cbn [lq_pcs lq_fresh lq_head]. rewrite fupd_same. rewrite fupd_other by lia. rewrite fupd_same. auto. }
  destruct E as (s' & E & A & B & C & D). rewrite E. cbn [fst snd]. split; [|reflexivity].
  exists v, n. rewrite A, B, C, D. repeat split; auto; try lia. intros m K. injection K as <-. lia.
Qed.

Fixpoint rounds (k : nat) : list (nat * lq_op) := match k with O => [] | S k => rounds k ++ overtake end.
Lemma rounds_ok : forall k, let s := fst (crun lq_step lq_init [(0, QPush 3)]) in
  starving (fst (crun lq_step s (rounds k))) /\ rets_of 0 (snd (crun lq_step s (rounds k))) = 0 /\ steps_of 0 (rounds k) = 2 * k /\ members 2 (rounds k).
Proof.
  intros k s. induction k as [|k (A & B & C & D)].
  - cbn [rounds crun fst snd]. repeat split; try constructor. exists 3%Z, 0. cbn. repeat split; auto. intros; discriminate.
  - cbn [rounds]. rewrite crun_app. cbn [fst snd]. destruct (overtake_ok _ A) as [E F]. split; auto.
    rewrite rets_of_app, B, F. split; auto. rewrite steps_app, C. split; [cbn; lia|]. apply Forall_app. split; auto.
    unfold overtake. repeat constructor; cbn; lia.
Qed.
Lemma lq_starves : forall N, exists sched, members 2 sched /\ N <= steps_of 0 sched /\
  rets_of 0 (snd (crun lq_step lq_init sched)) = 0 /\ invs_of 0 (snd (crun lq_step lq_init sched)) = 1.
Proof.
  intro N. exists ([(0, QPush 3)] ++ rounds N). destruct (rounds_ok N) as (A & B & C & D).
  assert (HM : members 2 ([(0, QPush 3%Z)] ++ rounds N)) by (apply Forall_app; split; [repeat constructor; cbn; lia|exact D]).
  split; auto.
  split; [rewrite steps_app; lia|].
  assert (R0 : rets_of 0 (snd (crun lq_step lq_init ([(0, QPush 3%Z)] ++ rounds N))) = 0).
  { rewrite crun_app. cbn [fst snd]. rewrite rets_of_app, B. reflexivity. }
  split; auto.
  destruct (single_run 2 0 ltac:(lia) _ lq_init own_init HM) as [_ E]. rewrite R0 in E.
  assert (E1 : busy (fst (crun lq_step lq_init ([(0, QPush 3%Z)] ++ rounds N))) 0 = 1).
  { rewrite crun_app. cbn [fst]. destruct A as (v & n & A & _). unfold busy. rewrite A. reflexivity. }
  rewrite E1 in E. change (busy lq_init 0) with 0 in E. lia.
Qed.
