(** The listed accesses of the ring buffer are those of its steps. *)
From Coq Require Import ZArith List Bool Lia ZifyBool ZifyNat.
From Verif Require Import GoBase GoLists ConcBase QueueProofs RingModel RaceSpec RaceModel LFQHonest.
Import ListNotations.
Open Scope Z_scope.

Lemma zget_cases (l : list Z) i : (0 <= i < zlen l /\ exists v, zget l i = Ok v) \/ (~ 0 <= i < zlen l /\ zget l i = Panic).
Proof.
  destruct (Z.le_gt_cases 0 i), (Z.lt_ge_cases i (zlen l)).
  - left. split; [lia|]. exists (nth (Z.to_nat i) l 0). apply zget_Ok. lia.
  - right. split; [lia|]. unfold zget. destruct (Z.ltb_spec i 0); [reflexivity|]. unfold aget.
    replace (nth_error l (Z.to_nat i)) with (@None Z); [reflexivity|]. symmetry. apply nth_error_None. unfold zlen in *. lia.
  - right. split; [lia|]. unfold zget. destruct (Z.ltb_spec i 0); [reflexivity|lia].
  - right. split; [lia|]. unfold zget. destruct (Z.ltb_spec i 0); [reflexivity|lia].
Qed.
Lemma zset_cases (l : list Z) i v : (0 <= i < zlen l /\ zset l i v = Ok (upd l (Z.to_nat i) v)) \/ (~ 0 <= i < zlen l /\ zset l i v = Panic).
Proof.
  destruct (Z.le_gt_cases 0 i), (Z.lt_ge_cases i (zlen l)).
  - left. split; [lia|]. now apply zset_Ok.
  - right. split; [lia|]. now apply zset_oob.
  - right. split; [lia|]. unfold zset. destruct (Z.ltb_spec i 0); [reflexivity|lia].
  - right. split; [lia|]. unfold zset. destruct (Z.ltb_spec i 0); [reflexivity|lia].
Qed.
Lemma zlen_upd (l : list Z) n v : zlen (upd l n v) = zlen l.
Proof. unfold zlen. now rewrite upd_length. Qed.
Lemma zget_upd_other (l : list Z) i c v : 0 <= i < zlen l -> c <> i -> zget (upd l (Z.to_nat i) v) c = zget l c.
Proof.
  intros Hi Hc. destruct (zget_cases l c) as [[H [x E]]|[H E]]; rewrite E.
  - pose proof (zget_Ok l c 0 H) as E'. rewrite E' in E. injection E as <-. rewrite (zget_Ok _ _ 0) by now rewrite zlen_upd.
    f_equal. change (zn (upd l (Z.to_nat i) v) c = zn l c). rewrite zn_upd by lia. destruct (Z.eq_dec i c); congruence.
  - destruct (zget_cases (upd l (Z.to_nat i) v) c) as [[H' _]|[_ E']]; [rewrite zlen_upd in H'; lia|exact E'].
Qed.
Lemma zget_upd_same (l : list Z) i v : 0 <= i < zlen l -> zget (upd l (Z.to_nat i) v) i = Ok v.
Proof.
  intros Hi. rewrite (zget_Ok _ _ 0) by now rewrite zlen_upd. f_equal. change (zn (upd l (Z.to_nat i) v) i = v).
  rewrite zn_upd by lia. destruct (Z.eq_dec i i); congruence.
Qed.

Ltac cint H := cbn in H; match type of H with CInt ?x = CInt ?y => assert (x = y) by congruence; clear H end.

Theorem cr_honest : honest cr_step cr_accs cr_at cr_pcs (fun _ => tt).
Proof.
  split; [|split].
  - intros s t op l. unfold cr_step, cr_accs, cr_at. destruct (cr_ring s) as [head head_r tail tail_r busy mask d] eqn:Er.
    destruct (cr_pcs s t) as [|v i|v i|v i|j|j|j val|tl|op' r|] eqn:E.
    + destruct op; cbn [fst cr_ring]; destruct l; try (right; rewrite ?Er; reflexivity); by_write.
    + right. destruct (_ <? _); cbn [fst cr_ring]; rewrite ?Er; reflexivity.
    + destruct (zset_cases d (Z.land i mask) v) as [[Hi Es]|[Hi Es]], (zget_cases d (Z.land i mask)) as [[Hi' [x Eg]]|[Hi' Eg]]; try lia; rewrite Es, Eg.
      * cbn [fst cr_ring rb_head rb_head_r rb_tail rb_tail_r rb_mask rb_d]. destruct l; try (right; reflexivity).
        -- right. now rewrite zlen_upd.
        -- destruct (Z.eq_dec c (Z.land i mask)) as [->|N]; [by_write|right]. now rewrite zget_upd_other.
      * right. cbn [fst cr_ring]. rewrite ?Er. reflexivity.
    + destruct (Z.eqb_spec tail i); cbn [fst cr_ring]; [|right; rewrite ?Er; reflexivity].
      destruct l; try (right; reflexivity). by_write.
    + right. destruct (_ <=? _); cbn [fst cr_ring]; rewrite ?Er; reflexivity.
    + right. destruct (zget d _); cbn [fst cr_ring]; rewrite ?Er; reflexivity.
    + destruct (Z.eqb_spec head j); cbn [fst cr_ring]; [|right; rewrite ?Er; reflexivity].
      destruct l; try (right; reflexivity). by_write.
    + right. cbn [fst cr_ring]; rewrite ?Er; reflexivity.
    + right. cbn [fst cr_ring]; rewrite ?Er; reflexivity.
    + right. cbn [fst cr_ring]; rewrite ?Er; reflexivity.
  - intros s t op u Hu. unfold cr_step. destruct (cr_ring s) as [head head_r tail tail_r busy mask d].
    destruct (cr_pcs s t) as [|v i|v i|v i|j|j|j val|tl|op' r|]; try destruct op; try destruct (_ <? _); try destruct (_ <=? _);
      try destruct (_ =? _); try destruct (zset _ _ _); try destruct (zget _ _); cbn; now rewrite fupd_other.
  - intros s s' t op Ho _. unfold cr_step, cr_accs. rewrite <- Ho.
    destruct (cr_ring s) as [head head_r tail tail_r busy mask d] eqn:Er.
    destruct (cr_ring s') as [head' head_r' tail' tail_r' busy' mask' d'] eqn:Er'.
    assert (Q : forall l, cr_at s l = cr_at s' l -> cr_at s l = cr_at s' l) by auto.
    destruct (cr_pcs s t) as [|v i|v i|v i|j|j|j val|tl|op' r|] eqn:E; intros Hr.
    + destruct op; specialize (Hr _ (or_introl eq_refl) eq_refl); unfold cr_at in Hr; rewrite Er, Er' in Hr; cint Hr; subst;
        cbn [fst snd cr_pcs]; rewrite ?fupd_same; repeat split; auto; intros a Ha Hw; cbn in Ha; listed; cbn in *; auto; discriminate.
    + pose proof (Hr _ (or_introl eq_refl) eq_refl) as H1. pose proof (Hr _ (or_intror (or_introl eq_refl)) eq_refl) as H2.
      unfold cr_at in H1, H2; rewrite Er, Er' in H1, H2; cint H1; cint H2; subst.
      destruct (_ <? _); cbn [fst snd cr_pcs]; rewrite ?fupd_same; repeat split; auto; intros a Ha Hw; cbn in Ha; listed; cbn in *; auto; discriminate.
    + pose proof (Hr _ (or_introl eq_refl) eq_refl) as H1. pose proof (Hr _ (or_intror (or_introl eq_refl)) eq_refl) as H2.
      unfold cr_at in H1, H2; rewrite Er, Er' in H1, H2; cint H1; cint H2; subst.
      destruct (zset_cases d (Z.land i mask') v) as [[Hi Es]|[Hi Es]], (zget_cases d (Z.land i mask')) as [[Hi' [x Eg]]|[Hi' Eg]],
        (zset_cases d' (Z.land i mask') v) as [[Hj Es']|[Hj Es']], (zget_cases d' (Z.land i mask')) as [[Hj' [x' Eg']]|[Hj' Eg']];
        try lia; rewrite Es, Eg, Es', Eg'; cbn [fst snd cr_pcs app]; rewrite ?fupd_same; repeat split; auto;
        intros a Ha Hw; cbn in Ha; listed; try discriminate. unfold cr_at. cbn. rewrite !zget_upd_same by lia. reflexivity.
    + assert (tail = tail').
      { destruct (tail =? i); specialize (Hr _ (or_introl eq_refl) eq_refl); unfold cr_at in Hr; rewrite Er, Er' in Hr; now cint Hr. }
      subst. destruct (tail' =? i); cbn [fst snd cr_pcs]; rewrite ?fupd_same; repeat split; auto; intros a Ha Hw; cbn in Ha; listed; cbn in *; auto; discriminate.
    + specialize (Hr _ (or_introl eq_refl) eq_refl); unfold cr_at in Hr; rewrite Er, Er' in Hr; cint Hr; subst.
      destruct (_ <=? _); cbn [fst snd cr_pcs]; rewrite ?fupd_same; repeat split; auto; intros a Ha Hw; cbn in Ha; listed; cbn in *; auto; discriminate.
    + pose proof (Hr _ (or_introl eq_refl) eq_refl) as H1. pose proof (Hr _ (or_intror (or_introl eq_refl)) eq_refl) as H2.
      unfold cr_at in H1, H2; rewrite Er, Er' in H1, H2; cint H1; cint H2; subst.
      destruct (zget_cases d (Z.land j mask')) as [[Hi' [x Eg]]|[Hi' Eg]], (zget_cases d' (Z.land j mask')) as [[Hj' [x' Eg']]|[Hj' Eg']]; try lia.
      * rewrite Eg in Hr. specialize (Hr _ (or_intror (or_intror (or_introl eq_refl))) eq_refl). unfold cr_at in Hr. rewrite Er, Er' in Hr. cbn in Hr.
        rewrite Eg, Eg' in Hr. assert (x = x') by congruence. subst x'.
        rewrite Eg, Eg'; cbn [fst snd cr_pcs app]; rewrite ?fupd_same; repeat split; auto; intros a Ha Hw; cbn in Ha; listed; cbn in *; discriminate.
      * rewrite Eg, Eg'; cbn [fst snd cr_pcs app]; rewrite ?fupd_same; repeat split; auto; intros a Ha Hw; cbn in Ha; listed; cbn in *; discriminate.
    + assert (head = head').
      { destruct (head =? j); specialize (Hr _ (or_introl eq_refl) eq_refl); unfold cr_at in Hr; rewrite Er, Er' in Hr; now cint Hr. }
      subst. destruct (head' =? j); cbn [fst snd cr_pcs]; rewrite ?fupd_same; repeat split; auto; intros a Ha Hw; cbn in Ha; listed; cbn in *; auto; discriminate.
    + specialize (Hr _ (or_introl eq_refl) eq_refl); unfold cr_at in Hr; rewrite Er, Er' in Hr; cint Hr; subst.
      cbn [fst snd cr_pcs]; rewrite ?fupd_same; repeat split; auto; intros a Ha Hw; cbn in Ha; listed; cbn in *; auto; discriminate.
    + cbn [fst snd cr_pcs]; rewrite ?fupd_same; repeat split; auto; intros a Ha Hw; destruct Ha.
    + cbn [fst snd cr_pcs]; rewrite ?fupd_same; repeat split; auto; intros a Ha Hw; destruct Ha.
Qed.
