(** Counting steps of concurrent executions: sums over goroutines.  Nothing here corresponds to
    lines of /repo. *)
From Coq Require Import ZArith List Bool Arith Lia.
From Verif Require Import GoBase ConcBase SpinProofs ProgSpec.
Import ListNotations.
Local Open Scope nat_scope.

(** Sum of [f] over the goroutines 0..P-1. *)
Fixpoint sumP (P : nat) (f : nat -> nat) : nat :=
  match P with
  | O => 0
  | S P => sumP P f + f P
  end.

Lemma sumP_le : forall P f g, (forall u, u < P -> f u <= g u) -> sumP P f <= sumP P g.
Proof.
  induction P; intros f g H; cbn [sumP]; auto. pose proof (H P ltac:(lia)).
  assert (sumP P f <= sumP P g) by (apply IHP; intros; apply H; lia). lia.
Qed.
Lemma sumP_const : forall P c, sumP P (fun _ => c) = P * c.
Proof. induction P; intro c; cbn [sumP]; auto. rewrite IHP. lia. Qed.

(** One goroutine pays for the others. *)
Lemma sumP_step : forall P t f f' c k, t < P ->
  (forall u, u < P -> u <> t -> f' u <= f u + c) -> f' t + c * (P - 1) + 1 <= f t + k ->
  sumP P f' + 1 <= sumP P f + k.
Proof.
  intros P t f f' c k Ht Ho He.
  assert (G : forall Q, Q <= P -> (Q <= t -> sumP Q f' <= sumP Q f + c * Q) /\ (t < Q -> sumP Q f' + f t <= sumP Q f + f' t + c * (Q - 1))).
  { induction Q; intro HQ; cbn [sumP]; [lia|]. destruct IHQ as [A B]; [lia|]. split; intro H.
    - pose proof (Ho Q ltac:(lia) ltac:(lia)). specialize (A ltac:(lia)). lia.
    - destruct (Nat.eq_dec Q t) as [->|N].
      + specialize (A ltac:(lia)). lia.
      + pose proof (Ho Q ltac:(lia) N). specialize (B ltac:(lia)).
        replace (c * (S Q - 1)) with (c * (Q - 1) + c) by (destruct Q; lia). lia. }
  destruct (G P ltac:(lia)) as [_ B]. specialize (B Ht). lia.
Qed.
(** One goroutine changes. *)
Lemma sumP_upd : forall P t f f' , t < P -> (forall u, u < P -> u <> t -> f' u = f u) ->
  sumP P f' + f t = sumP P f + f' t.
Proof.
  intros P t f f' Ht Ho.
  assert (G : forall Q, Q <= P -> (Q <= t -> sumP Q f' = sumP Q f) /\ (t < Q -> sumP Q f' + f t = sumP Q f + f' t)).
  { induction Q; intro HQ; cbn [sumP]; [lia|]. destruct IHQ as [A B]; [lia|]. split; intro H.
    - rewrite (Ho Q) by lia. rewrite A by lia. lia.
    - destruct (Nat.eq_dec Q t) as [->|N].
      + rewrite A by lia. lia.
      + rewrite (Ho Q) by lia. specialize (B ltac:(lia)). lia. }
  destruct (G P ltac:(lia)) as [_ B]. auto.
Qed.

Section Progress.
Context {St Op Res : Type}.
Variable step : St -> nat -> Op -> St * list (@ext Op Res).
Variable I : St -> Prop.
Variable P : nat.

Lemma members_app : forall (a b : list (nat * Op)), members P (a ++ b) -> members P a /\ members P b.
Proof. intros a b H. apply Forall_app in H. exact H. Qed.

Lemma crun_snoc' : forall s sched t op,
  fst (crun step s (sched ++ [(t, op)])) = fst (step (fst (crun step s sched)) t op) /\
  snd (crun step s (sched ++ [(t, op)])) = snd (crun step s sched) ++ snd (step (fst (crun step s sched)) t op).
Proof. intros. rewrite crun_snoc. destruct (step (fst (crun step s sched)) t op). cbn. auto. Qed.

(** If every step costs one and every call brings [K], executions are bounded by the calls. *)
Lemma progress_bound : forall (w : St -> nat -> nat) K,
  (forall s t op, I s -> t < P -> I (fst (step s t op)) /\
     sumP P (w (fst (step s t op))) + 1 <= sumP P (w s) + K * length (invs (snd (step s t op)))) ->
  forall sched s, I s -> members P sched ->
    I (fst (crun step s sched)) /\
    sumP P (w (fst (crun step s sched))) + length sched <= sumP P (w s) + K * length (invs (snd (crun step s sched))).
Proof.
  intros w K H sched s HI. induction sched as [|e sched IH] using rev_ind; intro HM.
  - cbn. split; auto. lia.
  - apply members_app in HM. destruct HM as [HM He]. destruct (IH HM) as [I1 L1]. inversion He; subst.
    destruct e as [t op]. cbn [fst] in *. destruct (crun_snoc' s sched t op) as [-> ->].
    destruct (H (fst (crun step s sched)) t op I1 ltac:(assumption)) as [I2 L2]. split; auto.
    rewrite invs_app, !app_length. cbn [length]. lia.
Qed.

(** Calls that have begun and not returned. *)
Lemma calls_bound : forall (busy : St -> nat -> nat),
  (forall s t op, I s -> t < P -> I (fst (step s t op)) /\
     sumP P (busy (fst (step s t op))) + length (rets (snd (step s t op))) = sumP P (busy s) + length (invs (snd (step s t op)))) ->
  forall sched s, I s -> members P sched ->
    sumP P (busy (fst (crun step s sched))) + length (rets (snd (crun step s sched))) =
    sumP P (busy s) + length (invs (snd (crun step s sched))).
Proof.
  intros busy H sched s HI HM.
  assert (G : I (fst (crun step s sched)) /\ sumP P (busy (fst (crun step s sched))) + length (rets (snd (crun step s sched))) =
    sumP P (busy s) + length (invs (snd (crun step s sched)))); [|tauto].
  revert HM. induction sched as [|e sched IH] using rev_ind; intro HM.
  - cbn. split; auto.
  - apply members_app in HM. destruct HM as [HM He]. destruct (IH HM) as [I1 L1]. inversion He; subst.
    destruct e as [t op]. cbn [fst] in *. destruct (crun_snoc' s sched t op) as [-> ->].
    destruct (H (fst (crun step s sched)) t op I1 ltac:(assumption)) as [I2 L2]. split; auto.
    rewrite invs_app, rets_app, !app_length. lia.
Qed.
End Progress.
