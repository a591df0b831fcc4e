(** The listed accesses of the lock-free queue are those of its steps. *)
From Coq Require Import ZArith List Bool Arith Lia.
From Verif Require Import GoBase ConcBase SListModel LFQModel RaceSpec RaceModel.
Import ListNotations.
Open Scope nat_scope.

Ltac listed := repeat match goal with
  | H : _ \/ _ |- _ => destruct H as [H|H]
  | H : False |- _ => destruct H
  | H : _ = ?a |- _ => is_var a; subst a
  end.

Ltac by_write := left; match goal with |- exists a, _ /\ _ /\ loc_of a = ?x =>
  first [exists (PWrite x); split; [cbn; tauto|split; reflexivity]
        |exists (ARmw x); split; [cbn; tauto|split; reflexivity]
        |exists (AStore x); split; [cbn; tauto|split; reflexivity]] end.

Theorem lq_honest : honest lq_step lq_accs lq_at lq_pcs lq_fresh.
Proof.
  split; [|split].
  - intros s t op l. unfold lq_step, lq_accs.
    destruct (lq_pcs s t) as [|v n|v n| |n|n nx|n|op' r d| | | |op' r] eqn:E.
    + destruct op as [v| | | |]; cbn [fst]; try (right; destruct l; reflexivity).
      destruct l as [| |m|m]; try (right; reflexivity).
      all: destruct (Nat.eq_dec m (lq_fresh s)) as [->|N];
        [by_write|right; cbn; now rewrite fupd_other].
    + cbn [fst]. destruct l as [| |m|m]; try (right; reflexivity).
      * right. cbn. unfold set_next, fupd. destruct (Nat.eqb_spec m n) as [->|]; reflexivity.
      * destruct (Nat.eq_dec m n) as [->|N]; [by_write|right; cbn; unfold set_next; now rewrite fupd_other].
    + destruct (sp_eq _ _); cbn [fst]; [|right; destruct l; reflexivity].
      destruct l; try (right; reflexivity). by_write.
    + destruct (lq_head s) eqn:Eh; right; destruct l; cbn; now rewrite ?Eh.
    + right. destruct l; reflexivity.
    + destruct (sp_eq _ _); cbn [fst]; [|right; destruct l; reflexivity].
      destruct l; try (right; reflexivity). by_write.
    + right. destruct l; reflexivity.
    + destruct l; try (right; reflexivity). by_write.
    + destruct l; try (right; reflexivity). by_write.
    + right. destruct l; reflexivity.
    + right. destruct l; reflexivity.
    + right. destruct l; reflexivity.
  - intros s t op u Hu. unfold lq_step.
    destruct (lq_pcs s t) as [|v n|v n| |n|n nx|n|op' r d| | | |op' r]; try destruct op; try destruct (sp_eq _ _); try destruct (lq_head s);
      cbn; now rewrite fupd_other.
  - intros s s' t op Ho He. unfold lq_step, lq_accs. rewrite <- Ho, <- He.
    destruct (lq_pcs s t) as [|v n|v n| |n|n nx|n|op' r d| | | |op' r] eqn:E; intros Hr.
    + destruct op as [v| | | |]; cbn [fst snd]; repeat split; cbn; rewrite ?fupd_same; auto; intros a Ha Hw; listed; cbn; rewrite ?fupd_same; auto.
    + assert (E1 : lq_head s = lq_head s') by (specialize (Hr (ALoad QHead) (or_introl eq_refl) eq_refl); cbn in Hr; congruence).
      cbn [fst snd]. repeat split; cbn; rewrite ?fupd_same; auto. intros a Ha Hw. listed; cbn; auto; try discriminate.
      unfold set_next. rewrite !fupd_same. cbn. congruence.
    + assert (E1 : snext (lq_heap s n) = snext (lq_heap s' n)).
      { specialize (Hr (PRead (QNext n)) (or_introl eq_refl) eq_refl). cbn in Hr. congruence. }
      assert (E2 : lq_head s = lq_head s').
      { destruct (sp_eq (lq_head s) (snext (lq_heap s n))); specialize (Hr _ (or_intror (or_introl eq_refl)) eq_refl); cbn in Hr; congruence. }
      rewrite <- E1, <- E2. destruct (sp_eq (lq_head s) (snext (lq_heap s n))); cbn [fst snd]; repeat split; cbn; rewrite ?fupd_same; auto;
        intros a Ha Hw; listed; cbn in *; auto; try discriminate.
    + assert (E1 : lq_head s = lq_head s') by (specialize (Hr (ALoad QHead) (or_introl eq_refl) eq_refl); cbn in Hr; congruence).
      rewrite <- E1. destruct (lq_head s); cbn [fst snd]; repeat split; cbn; rewrite ?fupd_same; auto;
        intros a Ha Hw; listed; cbn in *; auto; try discriminate.
    + assert (E1 : snext (lq_heap s n) = snext (lq_heap s' n)).
      { specialize (Hr (PRead (QNext n)) (or_introl eq_refl) eq_refl). cbn in Hr. congruence. }
      cbn [fst snd]. rewrite <- E1. repeat split; cbn; rewrite ?fupd_same; auto; intros a Ha Hw; listed; cbn in *; auto; try discriminate.
    + assert (E2 : lq_head s = lq_head s').
      { destruct (sp_eq (lq_head s) (Some n)); specialize (Hr _ (or_introl eq_refl) eq_refl); cbn in Hr; congruence. }
      rewrite <- E2. destruct (sp_eq (lq_head s) (Some n)); cbn [fst snd]; repeat split; cbn; rewrite ?fupd_same; auto;
        intros a Ha Hw; listed; cbn in *; auto; try discriminate.
    + assert (E1 : sval (lq_heap s n) = sval (lq_heap s' n)).
      { specialize (Hr (PRead (QVal n)) (or_introl eq_refl) eq_refl). cbn in Hr. congruence. }
      cbn [fst snd]. rewrite <- E1. repeat split; cbn; rewrite ?fupd_same; auto; intros a Ha Hw; listed; cbn in *; auto; try discriminate.
    + assert (E1 : lq_size s = lq_size s').
      { specialize (Hr (ARmw QCount) (or_introl eq_refl) eq_refl). cbn in Hr. congruence. }
      cbn [fst snd]. repeat split; cbn; rewrite ?fupd_same; auto; intros a Ha Hw; listed; cbn in *; auto; try discriminate. congruence.
    + cbn [fst snd]. repeat split; cbn; rewrite ?fupd_same; auto; intros a Ha Hw; listed; cbn in *; auto; try discriminate.
    + assert (E1 : lq_size s = lq_size s').
      { specialize (Hr (ALoad QCount) (or_introl eq_refl) eq_refl). cbn in Hr. congruence. }
      cbn [fst snd]. repeat split; cbn; rewrite ?fupd_same; auto; try congruence; intros a Ha Hw; listed; cbn in *; auto; try discriminate.
    + assert (E1 : lq_head s = lq_head s') by (specialize (Hr (ALoad QHead) (or_introl eq_refl) eq_refl); cbn in Hr; congruence).
      cbn [fst snd]. rewrite <- E1. repeat split; cbn; rewrite ?fupd_same; auto; try congruence; intros a Ha Hw; listed; cbn in *; auto; try discriminate.
    + cbn [fst snd]. repeat split; cbn; rewrite ?fupd_same; auto; intros a Ha Hw; listed; cbn in *; auto; try discriminate.
Qed.
