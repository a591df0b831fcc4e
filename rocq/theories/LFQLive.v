From Coq Require Import ZArith List Bool Arith Lia.
From Verif Require Import GoBase ConcBase SListModel SpinProofs LFQModel ProgSpec ProgBase.
Import ListNotations.
Local Open Scope nat_scope.

(** New nodes belong to one goroutine. *)
Definition own (pc : lq_pc) : option nat :=
  match pc with PcPushLoad _ n => Some n | PcPushCas _ n => Some n | _ => None end.
Definition own_ok (s : lq_state) : Prop :=
  (forall t n, own (lq_pcs s t) = Some n -> n < lq_fresh s) /\
  (forall t u n, own (lq_pcs s t) = Some n -> own (lq_pcs s u) = Some n -> t = u).

Lemma own_init : own_ok lq_init.
Proof. split; intros; discriminate. Qed.

Lemma own_upd : forall s t pc h hd z fr, own_ok s ->
  (forall n, own pc = Some n -> own (lq_pcs s t) = Some n \/ (n = lq_fresh s /\ lq_fresh s < fr)) -> lq_fresh s <= fr ->
  own_ok (LQ h hd z fr (fupd (lq_pcs s) t pc)).
Proof.
  intros s t pc h hd z fr [A B] H Hf. split; cbn [lq_pcs lq_fresh].
  - intros u n E. unfold fupd in E. destruct (Nat.eqb_spec u t) as [->|N].
    + destruct (H n E) as [K|[-> K]]; [|lia]. specialize (A t n K). lia.
    + specialize (A u n E). lia.
  - intros u v n E F. unfold fupd in E, F.
    destruct (Nat.eqb_spec u t) as [->|Nu]; destruct (Nat.eqb_spec v t) as [->|Nv]; auto.
    + destruct (H n E) as [K|[-> K]]; [apply (B t v n); auto|]. specialize (A v _ F). lia.
    + destruct (H n F) as [K|[-> K]]; [apply (B u t n); auto|]. specialize (A u _ E). lia.
    + apply (B u v n); auto.
Qed.

Lemma own_step : forall s t op, own_ok s -> own_ok (fst (lq_step s t op)).
Proof.
  intros s t op H. unfold lq_step. destruct (lq_pcs s t) eqn:PC;
  try destruct op; try (destruct (lq_head s)); try (destruct (sp_eq _ _)); cbn [fst]; apply own_upd; auto; try lia; intros m E; cbn [own] in E |- *; try discriminate;
  try (injection E as <-; right; split; [reflexivity|lia]); rewrite PC; cbn [own]; auto.
Qed.

(** Whether the head has changed since the goroutine loaded it. *)
Definition stale (s : lq_state) (pc : lq_pc) : bool :=
  match pc with
  | PcPushCas _ n => negb (sp_eq (lq_head s) (snext (lq_heap s n)))
  | PcPopNext n => negb (sp_eq (lq_head s) (Some n))
  | PcPopCas n _ => negb (sp_eq (lq_head s) (Some n))
  | _ => false
  end.
(** How many steps the call still takes if the others stand still. *)
Definition left_of (s : lq_state) (pc : lq_pc) : nat :=
  match pc with
  | PcIdle => 0
  | PcPushLoad _ _ => 4
  | PcPushCas _ _ => if stale s pc then 5 else 3
  | PcPopLoad => 6
  | PcPopNext _ => if stale s pc then 8 else 5
  | PcPopCas _ _ => if stale s pc then 7 else 4
  | PcPopVal _ => 3
  | PcAdd _ _ _ => 2
  | PcClear | PcSize | PcEmpty => 2
  | PcRet _ _ => 1
  end.
(** Whether the call may still change the head. *)
Definition changes (pc : lq_pc) : bool :=
  match pc with
  | PcPushLoad _ _ | PcPushCas _ _ | PcPopLoad | PcPopNext _ | PcPopCas _ _ | PcClear => true
  | _ => false
  end.
Definition busy_pc (pc : lq_pc) : nat := match pc with PcIdle => 0 | _ => 1 end.

Lemma left_stale : forall s s' pc, (forall n, own pc = Some n -> lq_heap s' n = lq_heap s n) ->
  left_of s' pc <= left_of s pc + 3.
Proof.
  intros s s' pc H. destruct pc; cbn [left_of]; repeat match goal with |- context [if ?c then _ else _] => destruct c end; lia.
Qed.
Lemma left_same : forall s s' pc, lq_head s' = lq_head s -> (forall n, own pc = Some n -> lq_heap s' n = lq_heap s n) ->
  left_of s' pc = left_of s pc.
Proof.
  intros s s' pc Hh H. destruct pc; cbn [left_of stale]; auto; rewrite Hh; auto. cbn [own] in H. rewrite H; auto.
Qed.

(** What one step of [t] does to the counts. *)
Definition head_moves (pc : lq_pc) (s : lq_state) : bool :=
  match pc with
  | PcPushCas _ n => sp_eq (lq_head s) (snext (lq_heap s n))
  | PcPopCas n _ => sp_eq (lq_head s) (Some n)
  | PcClear => true
  | _ => false
  end.

Lemma step_others : forall s t op u, own_ok s -> u <> t ->
  lq_pcs (fst (lq_step s t op)) u = lq_pcs s u /\
  left_of (fst (lq_step s t op)) (lq_pcs s u) <= left_of s (lq_pcs s u) + (if head_moves (lq_pcs s t) s then 3 else 0).
Proof.
  intros s t op u [A B] N.
  assert (HP : lq_pcs (fst (lq_step s t op)) u = lq_pcs s u).
  { unfold lq_step. destruct (lq_pcs s t); try destruct op; try destruct (lq_head s); try destruct (sp_eq _ _); cbn [fst lq_pcs]; apply fupd_other; auto. }
  split; auto.
  assert (HO : forall n, own (lq_pcs s u) = Some n -> lq_heap (fst (lq_step s t op)) n = lq_heap s n).
  { intros n E. specialize (A u n E). unfold lq_step.
    destruct (lq_pcs s t) eqn:PC; try destruct op; try destruct (lq_head s); try destruct (sp_eq _ _); cbn [fst lq_heap]; auto.
    all: first [apply fupd_other; lia |
      unfold set_next; apply fupd_other; intro E2; apply N; apply (B u t n); auto; rewrite PC; cbn [own]; congruence]. }
  destruct (head_moves (lq_pcs s t) s) eqn:M.
  - apply left_stale. exact HO.
  - rewrite Nat.add_0_r. apply Nat.eq_le_incl. apply left_same; auto.
    unfold lq_step. destruct (lq_pcs s t) eqn:PC; cbn [head_moves] in M; try destruct op; try destruct (lq_head s); try rewrite M; cbn [fst lq_head]; auto; discriminate.
Qed.

Lemma sp_eq_refl : forall a, sp_eq a a = true.
Proof. intros [a|]; cbn; auto. apply Nat.eqb_refl. Qed.

Lemma step_self : forall s t op,
  let s' := fst (lq_step s t op) in
  left_of s' (lq_pcs s' t) + 1 <= left_of s (lq_pcs s t) + 7 * length (invs (snd (lq_step s t op))) /\
  ((if changes (lq_pcs s' t) then 1 else 0) + (if head_moves (lq_pcs s t) s then 1 else 0) <=
   (if changes (lq_pcs s t) then 1 else 0) + length (invs (snd (lq_step s t op)))) /\
  busy_pc (lq_pcs s' t) + length (rets (snd (lq_step s t op))) = busy_pc (lq_pcs s t) + length (invs (snd (lq_step s t op))).
Proof.
  intros s t op s'. unfold s'. clear s'. unfold lq_step. destruct (lq_pcs s t) eqn:PC; cbn [head_moves].
  - destruct op; cbn [fst snd lq_pcs invs rets length]; rewrite fupd_same; cbn; lia.
  - cbn [fst snd lq_pcs]; rewrite fupd_same. cbn [left_of stale lq_head lq_heap changes busy_pc invs rets length].
    unfold set_next. rewrite fupd_same. cbn [snext]. rewrite sp_eq_refl. cbn. lia.
  - destruct (sp_eq (lq_head s) (snext (lq_heap s n))) eqn:E; cbn [fst snd lq_pcs]; rewrite fupd_same;
    cbn [left_of stale lq_head lq_heap changes busy_pc invs rets length]; rewrite ?E; cbn; lia.
  - destruct (lq_head s) eqn:E; cbn [fst snd lq_pcs]; rewrite fupd_same;
    cbn [left_of stale lq_head lq_heap changes busy_pc invs rets length]; rewrite ?E, ?sp_eq_refl; cbn; lia.
  - cbn [fst snd lq_pcs]; rewrite fupd_same. cbn [left_of stale lq_head lq_heap changes busy_pc invs rets length].
    destruct (negb _); cbn; lia.
  - destruct (sp_eq (lq_head s) (Some t0)) eqn:E; cbn [fst snd lq_pcs]; rewrite fupd_same;
    cbn [left_of stale lq_head lq_heap changes busy_pc invs rets length]; rewrite ?E; cbn; lia.
  - cbn [fst snd lq_pcs]; rewrite fupd_same; cbn; lia.
  - cbn [fst snd lq_pcs]; rewrite fupd_same; cbn; lia.
  - cbn [fst snd lq_pcs]; rewrite fupd_same; cbn; lia.
  - cbn [fst snd lq_pcs]; rewrite fupd_same; cbn; lia.
  - cbn [fst snd lq_pcs]; rewrite fupd_same; cbn; lia.
  - cbn [fst snd lq_pcs]; rewrite fupd_same; cbn; lia.
Qed.

(** ** Progress of all *)
Lemma left_max : forall s pc, left_of s pc <= 8.
Proof. intros s pc. destruct pc; cbn [left_of]; repeat match goal with |- context [if ?c then _ else _] => destruct c end; lia. Qed.

Section Live.
Variable P : nat.
Definition weight (s : lq_state) (u : nat) : nat :=
  left_of s (lq_pcs s u) + (if changes (lq_pcs s u) then 3 * (P - 1) else 0).

Lemma weight_step : forall s t op, own_ok s -> t < P -> own_ok (fst (lq_step s t op)) /\
  sumP P (weight (fst (lq_step s t op))) + 1 <= sumP P (weight s) + (7 + 3 * (P - 1)) * length (invs (snd (lq_step s t op))).
Proof.
  intros s t op HI Ht. split; [apply own_step; auto|].
  apply (sumP_step P t (weight s) (weight (fst (lq_step s t op))) (if head_moves (lq_pcs s t) s then 3 else 0)); auto.
  - intros u Hu N. destruct (step_others s t op u HI N) as [E L]. unfold weight. rewrite E. lia.
  - destruct (step_self s t op) as (L1 & L2 & _). unfold weight in *.
    set (i := length (invs (snd (lq_step s t op)))) in *.
    destruct (changes (lq_pcs (fst (lq_step s t op)) t)), (changes (lq_pcs s t)), (head_moves (lq_pcs s t) s); nia.
Qed.

Definition busy (s : lq_state) (u : nat) : nat := busy_pc (lq_pcs s u).
Lemma busy_step : forall s t op, own_ok s -> t < P -> own_ok (fst (lq_step s t op)) /\
  sumP P (busy (fst (lq_step s t op))) + length (rets (snd (lq_step s t op))) = sumP P (busy s) + length (invs (snd (lq_step s t op))).
Proof.
  intros s t op HI Ht. split; [apply own_step; auto|].
  pose proof (sumP_upd P t (busy s) (busy (fst (lq_step s t op))) Ht) as U.
  destruct (step_self s t op) as (_ & _ & L3). unfold busy in *.
  rewrite <- (Nat.add_cancel_r _ _ (busy_pc (lq_pcs s t))). specialize (U ltac:(intros u Hu N; destruct (step_others s t op u HI N) as [E _]; rewrite E; reflexivity)).
  lia.
Qed.

Lemma busy_max : forall s, sumP P (busy s) <= P.
Proof.
  intro s. rewrite <- (Nat.mul_1_r P) at 2. rewrite <- (sumP_const P 1). apply sumP_le. intros u _. unfold busy, busy_pc.
  destruct (lq_pcs s u); lia.
Qed.
Lemma weight_max : forall s, sumP P (weight s) <= P * (8 + 3 * (P - 1)).
Proof.
  intro s. rewrite <- sumP_const. apply sumP_le. intros u _. unfold weight. pose proof (left_max s (lq_pcs s u)).
  destruct (changes _); lia.
Qed.

Lemma run_own : forall sched, own_ok (fst (crun lq_step lq_init sched)).
Proof.
  induction sched as [|[t op] l IH] using rev_ind; [exact own_init|].
  rewrite crun_snoc. cbn [fst]. apply own_step. exact IH.
Qed.

Lemma lq_lock_free : forall before sched, members P sched ->
  length sched <= (3 * P + 5) * (length (rets (snd (crun lq_step (fst (crun lq_step lq_init before)) sched))) + 2 * P).
Proof.
  intros before sched HM. set (s := fst (crun lq_step lq_init before)).
  pose proof (run_own before) as HI. fold s in HI.
  destruct (progress_bound lq_step own_ok P weight (7 + 3 * (P - 1)) weight_step sched s HI HM) as [_ A].
  pose proof (calls_bound lq_step own_ok P busy busy_step sched s HI HM) as B.
  pose proof (busy_max (fst (crun lq_step s sched))). pose proof (weight_max s). pose proof (busy_max s).
  set (i := length (invs (snd (crun lq_step s sched)))) in *. set (r := length (rets (snd (crun lq_step s sched)))) in *.
  assert (i <= r + P) by lia. clearbody i r.
  destruct P as [|p]; [destruct sched; [cbn; lia|inversion HM; lia]|]. replace (S p - 1) with p in * by lia. nia.
Qed.
End Live.
