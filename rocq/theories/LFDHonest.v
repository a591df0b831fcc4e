(** The listed accesses of the lock-free deque are those of its steps. *)
From Coq Require Import ZArith List Bool Lia ZifyBool ZifyNat.
From Verif Require Import GoBase GoLists ConcBase QueueProofs LFDModel RaceSpec RaceModel LFQHonest RingHonest.
Import ListNotations.
Open Scope Z_scope.

Lemma fd_next_len d d' i : zlen d = zlen d' -> fd_next d i = fd_next d' i.
Proof. intros H. unfold fd_next, fd_cap. now rewrite H. Qed.
Lemma fd_size_len d d' w : zlen d = zlen d' -> fd_size d w = fd_size d' w.
Proof. intros H. unfold fd_size, fd_cap. now rewrite H. Qed.

Theorem cd_honest : honest cd_step cd_accs cd_at cd_pcs (fun _ => tt).
Proof.
  split; [|split].
  - intros s t op l. unfold cd_step, cd_accs, cd_at. destruct (cd_q s) as [w b d] eqn:Eq. cbn [fd_ht fd_busy fd_d].
    destruct (cd_pcs s t) as [|v|v|v h0 t0|v h0 t0|f|h0 t0|h0 t0 f| |op' r|] eqn:E.
    + right. destruct op, l; reflexivity.
    + right. reflexivity.
    + destruct l; try (right; reflexivity). by_write.
    + destruct (zset_cases d t0 v) as [[Hi Es]|[Hi Es]], (zget_cases d t0) as [[Hi' [x Eg]]|[Hi' Eg]]; try lia; rewrite Es, Eg.
      * cbn [fst cd_q fd_ht fd_busy fd_d]. destruct l; try (right; reflexivity).
        -- right. now rewrite zlen_upd.
        -- destruct (Z.eq_dec c t0) as [->|N]; [by_write|right]. now rewrite zget_upd_other.
      * right. reflexivity.
    + destruct (w =? _); cbn [fst cd_q fd_ht fd_busy fd_d]; [|right; reflexivity].
      destruct l; try (right; reflexivity). by_write.
    + right. reflexivity.
    + right. destruct (zget d h0); reflexivity.
    + destruct (w =? _); cbn [fst cd_q fd_ht fd_busy fd_d]; [|right; reflexivity].
      destruct l; try (right; reflexivity). by_write.
    + right. reflexivity.
    + right. reflexivity.
    + right. reflexivity.
  - intros s t op u Hu. unfold cd_step.
    destruct (cd_pcs s t) as [|v|v|v h0 t0|v h0 t0|f|h0 t0|h0 t0 f| |op' r|]; try destruct (zset _ _ _); try destruct (zget _ _);
      try destruct (fd_ht (cd_q s) =? _); cbn; now rewrite fupd_other.
  - intros s s' t op Ho _. unfold cd_step, cd_accs. rewrite <- Ho.
    destruct (cd_q s) as [w b d] eqn:Eq. destruct (cd_q s') as [w' b' d'] eqn:Eq'. cbn [fd_ht fd_busy fd_d].
    destruct (cd_pcs s t) as [|v|v|v h0 t0|v h0 t0|f|h0 t0|h0 t0 f| |op' r|] eqn:E; intros Hr.
    + cbn [fst snd cd_pcs]; rewrite ?fupd_same; destruct op; repeat split; auto; intros a Ha Hw; cbn in Ha; listed; cbn in *; try contradiction; discriminate.
    + pose proof (Hr _ (or_introl eq_refl) eq_refl) as H1. pose proof (Hr _ (or_intror (or_introl eq_refl)) eq_refl) as H2.
      unfold cd_at in H1, H2; rewrite Eq, Eq' in H1, H2; cint H1; cint H2; subst w'.
      cbn [fst snd cd_pcs]; rewrite ?fupd_same. rewrite (fd_next_len d d') by assumption. repeat split; auto; intros a Ha Hw; cbn in Ha; listed; cbn in *; discriminate.
    + specialize (Hr _ (or_introl eq_refl) eq_refl). unfold cd_at in Hr; rewrite Eq, Eq' in Hr; cint Hr; subst b'.
      cbn [fst snd cd_pcs]; rewrite ?fupd_same. repeat split; auto; intros a Ha Hw; cbn in Ha; listed; reflexivity.
    + pose proof (Hr _ (or_introl eq_refl) eq_refl) as H1. unfold cd_at in H1; rewrite Eq, Eq' in H1; cint H1.
      destruct (zset_cases d t0 v) as [[Hi Es]|[Hi Es]], (zget_cases d t0) as [[Hi' [x Eg]]|[Hi' Eg]],
        (zset_cases d' t0 v) as [[Hj Es']|[Hj Es']], (zget_cases d' t0) as [[Hj' [x' Eg']]|[Hj' Eg']];
        try lia; rewrite Es, Eg, Es', Eg'; cbn [fst snd cd_pcs app]; rewrite ?fupd_same; repeat split; auto;
        intros a Ha Hw; cbn in Ha; listed; try discriminate. unfold cd_at. cbn. rewrite !zget_upd_same by lia. reflexivity.
    + pose proof (Hr _ (or_introl eq_refl) eq_refl) as H1. unfold cd_at in H1; rewrite Eq, Eq' in H1; cint H1.
      assert (w = w').
      { destruct (w =? _); specialize (Hr _ (or_intror (or_introl eq_refl)) eq_refl); unfold cd_at in Hr; rewrite Eq, Eq' in Hr; now cint Hr. }
      subst w'. destruct (w =? _); cbn [fst snd cd_pcs]; rewrite ?fupd_same; repeat split; auto; intros a Ha Hw; cbn in Ha; listed; try discriminate.
      cbn. now rewrite (fd_next_len d d').
    + specialize (Hr _ (or_introl eq_refl) eq_refl); unfold cd_at in Hr; rewrite Eq, Eq' in Hr; cint Hr; subst w'.
      cbn [fst snd cd_pcs]; rewrite ?fupd_same; repeat split; auto; intros a Ha Hw; cbn in Ha; listed; discriminate.
    + pose proof (Hr _ (or_introl eq_refl) eq_refl) as H1. unfold cd_at in H1; rewrite Eq, Eq' in H1; cint H1.
      destruct (zget_cases d h0) as [[Hi' [x Eg]]|[Hi' Eg]], (zget_cases d' h0) as [[Hj' [x' Eg']]|[Hj' Eg']]; try lia.
      * rewrite Eg in Hr. specialize (Hr _ (or_intror (or_introl eq_refl)) eq_refl). unfold cd_at in Hr. rewrite Eq, Eq' in Hr. cbn in Hr.
        rewrite Eg, Eg' in Hr. assert (x = x') by congruence. subst x'.
        rewrite Eg, Eg'; cbn [fst snd cd_pcs]; rewrite ?fupd_same; repeat split; auto; intros a Ha Hw; cbn in Ha; listed; discriminate.
      * rewrite Eg, Eg'; cbn [fst snd cd_pcs]; rewrite ?fupd_same; repeat split; auto; intros a Ha Hw; cbn in Ha; listed; discriminate.
    + pose proof (Hr _ (or_introl eq_refl) eq_refl) as H1. unfold cd_at in H1; rewrite Eq, Eq' in H1; cint H1.
      assert (w = w').
      { destruct (w =? _); specialize (Hr _ (or_intror (or_introl eq_refl)) eq_refl); unfold cd_at in Hr; rewrite Eq, Eq' in Hr; now cint Hr. }
      subst w'. destruct (w =? _); cbn [fst snd cd_pcs]; rewrite ?fupd_same; repeat split; auto; intros a Ha Hw; cbn in Ha; listed; try discriminate.
      cbn. now rewrite (fd_next_len d d').
    + pose proof (Hr _ (or_introl eq_refl) eq_refl) as H1. unfold cd_at in H1; rewrite Eq, Eq' in H1; cint H1; subst w'.
      assert (fd_size d w = fd_size d' w) as Es.
      { destruct (head_of w <=? tail_of w) eqn:El; [unfold fd_size; cbv zeta; now rewrite El|].
        pose proof (Hr _ (or_intror (or_introl eq_refl)) eq_refl) as H2. unfold cd_at in H2; rewrite Eq, Eq' in H2; cint H2. now apply fd_size_len. }
      rewrite Es. cbn [fst snd cd_pcs]; rewrite ?fupd_same. repeat split; auto; intros a Ha Hw; destruct (_ <=? _); cbn in Ha; listed; discriminate.
    + cbn [fst snd cd_pcs]; rewrite ?fupd_same; repeat split; auto; intros a Ha Hw; destruct Ha.
    + cbn [fst snd cd_pcs]; rewrite ?fupd_same; repeat split; auto; intros a Ha Hw; destruct Ha.
Qed.
