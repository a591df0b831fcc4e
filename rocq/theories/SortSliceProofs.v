(** Lemmas about the sortable-slice model. *)
From Coq Require Import ZArith List Bool Lia ZifyBool ZifyNat.
From Verif Require Import GoBase GoLists SortSliceModel SortSliceSpec.
Import ListNotations.
Open Scope Z_scope.

Section S.
Context {A : Type} (zero : A) (grow : nat -> nat).

Lemma visible_length (s : gslice A) : gs_ok s -> length (visible s) = glen s.
Proof. unfold gs_ok, visible. intros. rewrite firstn_length. lia. Qed.

Lemma RS_len (s : gslice A) l : RS s l -> ss_len s = zlen l.
Proof. intros [H <-]. unfold ss_len, zlen. now rewrite visible_length. Qed.

Lemma gappend_RS s vs : gs_ok s -> RS (gappend zero grow s vs) (visible s ++ vs).
Proof.
  unfold gappend, RS, gs_ok, visible. intros H.
  destruct (Nat.leb_spec (glen s + length vs) (length (garr s))) as [Hc|Hc]; cbn [garr glen].
  - split.
    + rewrite !app_length, firstn_length, skipn_length. lia.
    + rewrite app_assoc, firstn_app.
      assert (L : length (firstn (glen s) (garr s) ++ vs) = (glen s + length vs)%nat).
      { rewrite app_length, firstn_length. lia. }
      rewrite L, Nat.sub_diag, firstn_O, app_nil_r. apply firstn_all2. lia.
  - split.
    + rewrite !app_length, firstn_length, repeat_length. lia.
    + rewrite app_assoc, firstn_app.
      assert (L : length (firstn (glen s) (garr s) ++ vs) = (glen s + length vs)%nat).
      { rewrite app_length, firstn_length. lia. }
      rewrite L, Nat.sub_diag, firstn_O, app_nil_r. apply firstn_all2. lia.
Qed.

Lemma greslice_RS (s : gslice A) l n : RS s l -> 0 <= n <= zlen l ->
  exists s', greslice s n = Ok s' /\ RS s' (before l n).
Proof.
  intros [H E] Hn. pose proof (visible_length s H) as Hl. rewrite E in Hl.
  unfold greslice. unfold gs_ok in H.
  assert (Hc : (0 <=? n) && (n <=? zlen (garr s)) = true) by (unfold zlen in *; lia).
  rewrite Hc. eexists. split; [reflexivity|]. unfold RS, gs_ok, visible, before. cbn [garr glen].
  split; [unfold zlen in *; lia|]. rewrite <- E. unfold visible. rewrite firstn_firstn.
  f_equal. unfold zlen in *. lia.
Qed.

Lemma at_pos_in (l : list A) i d : 0 <= i < zlen l -> at_pos l i = Some (nth (Z.to_nat i) l d).
Proof.
  intros H. unfold at_pos. destruct (Z.ltb_spec i 0); [lia|].
  apply nth_error_nth'. unfold zlen in H. lia.
Qed.

Lemma at_pos_out (l : list A) i : in_range l i = false -> at_pos l i = None.
Proof.
  unfold in_range, at_pos. intros H. destruct (Z.ltb_spec i 0); auto.
  apply nth_error_None. unfold zlen in H. lia.
Qed.

Lemma zget_at_pos (l : list A) i : zget l i = match at_pos l i with Some v => Ok v | None => Panic end.
Proof. unfold zget, at_pos, aget. destruct (i <? 0); auto. Qed.

Lemma ss_get_spec (s : gslice A) l i : RS s l -> ss_get s i = Ok (at_pos l i).
Proof.
  intros HR. unfold ss_get. rewrite (RS_len _ _ HR). destruct HR as [H E].
  change ((0 <=? i) && (i <? zlen l)) with (in_range l i).
  destruct (in_range l i) eqn:Ei.
  - rewrite E, zget_at_pos.
    assert (exists v, at_pos l i = Some v) as [v ->]; [|reflexivity].
    unfold in_range in Ei. rewrite (at_pos_in l i zero) by lia. eauto.
  - now rewrite at_pos_out.
Qed.

Lemma zslice_from (l : list A) i : 0 <= i <= zlen l -> zslice l i (zlen l) = Ok (from l i).
Proof.
  intros H. rewrite zslice_Ok by lia. unfold from. f_equal. apply firstn_all2.
  rewrite skipn_length. unfold zlen in *. lia.
Qed.

Lemma ss_step_real s l op : RS s l -> sim_out RS (ss_step zero grow s op) (real_step l op).
Proof.
  intros HR. pose proof (RS_len _ _ HR) as Hlen. pose proof HR as [H E].
  destruct op as [v|v idx|idx| |idx|idx| |i j]; cbn [ss_step real_step edit_step].
  - unfold ss_push. pose proof (gappend_RS s [v] H) as HR'. rewrite E in HR'.
    cbn. split; auto. rewrite (RS_len _ _ HR'). f_equal. unfold zlen. rewrite app_length. cbn. lia.
  - unfold ss_insert. rewrite Hlen. change ((0 <=? idx) && (idx <? zlen l)) with (in_range l idx).
    destruct (in_range l idx) eqn:Ei.
    + unfold in_range in Ei. rewrite E, zslice_from by lia. cbn [bind].
      destruct (greslice_RS s l idx HR) as (s1 & -> & HR1); [lia|]. cbn [bind].
      pose proof (gappend_RS s1 [v] (proj1 HR1)) as HR2.
      pose proof (gappend_RS _ (from l (idx + 1)) (proj1 HR2)) as HR3.
      rewrite (proj2 HR2), (proj2 HR1), <- app_assoc in HR3.
      cbn. split; auto. rewrite (RS_len _ _ HR3). f_equal. unfold zlen, before, from.
      rewrite !app_length, firstn_length, skipn_length. cbn. unfold zlen in Ei. lia.
    + pose proof (gappend_RS s [v] H) as HR'. rewrite E in HR'.
      cbn. split; auto. rewrite (RS_len _ _ HR'). f_equal. unfold zlen. rewrite app_length. cbn. lia.
  - unfold ss_remove. rewrite (ss_get_spec s l idx HR). cbn [bind].
    destruct (in_range l idx) eqn:Ei.
    + unfold in_range in Ei. rewrite (at_pos_in l idx zero) by lia.
      rewrite Hlen, E, zslice_from by lia. cbn [bind].
      destruct (greslice_RS s l idx HR) as (s1 & -> & HR1); [lia|]. cbn [bind].
      pose proof (gappend_RS s1 (from l (idx + 1)) (proj1 HR1)) as HR2. rewrite (proj2 HR1) in HR2.
      cbn. split; auto.
    + rewrite at_pos_out by auto. cbn. split; auto.
  - unfold ss_pop. rewrite Hlen, E.
    destruct l as [|x t _] using rev_ind.
    + cbn. unfold greslice. cbn. trivial.
    + assert (Hz : zlen (t ++ [x]) = zlen t + 1).
      { unfold zlen. rewrite app_length. cbn. lia. }
      assert (0 <= zlen t) by (unfold zlen; lia).
      destruct (Z.ltb_spec 0 (zlen (t ++ [x]))); [|lia].
      rewrite Hz. rewrite zget_at_pos. rewrite (at_pos_in _ _ zero) by lia. cbn [bind].
      destruct (greslice_RS s (t ++ [x]) (zlen t + 1 - 1) HR) as (s1 & -> & HR1); [lia|].
      rewrite removelast_last, rev_app_distr.
      assert (Eb : before (t ++ [x]) (zlen t + 1 - 1) = t).
      { unfold before. replace (Z.to_nat (zlen t + 1 - 1)) with (length t) by (unfold zlen; lia).
        rewrite firstn_app, Nat.sub_diag, firstn_all, firstn_O. apply app_nil_r. }
      rewrite Eb in HR1. destruct (t ++ [x]) eqn:Et; [destruct t; discriminate|]. rewrite <- Et.
      cbn. split; auto. do 2 f_equal.
      replace (Z.to_nat (zlen t + 1 - 1)) with (length t) by (unfold zlen; lia).
      rewrite Et. rewrite <- Et. rewrite app_nth2, Nat.sub_diag by lia. reflexivity.
  - rewrite (ss_get_spec s l idx HR). cbn. auto.
  - unfold ss_must_get. rewrite (ss_get_spec s l idx HR). cbn [bind].
    destruct (at_pos l idx); cbn; auto.
  - cbn. rewrite Hlen. auto.
  - unfold ss_swap. rewrite E, !zget_at_pos.
    destruct (at_pos l i) as [a|] eqn:Ea; cbn [bind].
    + destruct (at_pos l j) as [b|] eqn:Eb; cbn [bind]; [|exact I].
      assert (Hi : 0 <= i < zlen l).
      { unfold at_pos in Ea. destruct (Z.ltb_spec i 0); [discriminate|].
        assert (Z.to_nat i < length l)%nat by (apply nth_error_Some; congruence). unfold zlen. lia. }
      assert (Hj : 0 <= j < zlen l).
      { unfold at_pos in Eb. destruct (Z.ltb_spec j 0); [discriminate|].
        assert (Z.to_nat j < length l)%nat by (apply nth_error_Some; congruence). unfold zlen. lia. }
      pose proof (visible_length s H) as Hvl. rewrite E in Hvl. unfold gs_ok in H.
      rewrite zset_Ok by (unfold zlen in *; lia). cbn [bind].
      rewrite zset_Ok by (unfold zlen in *; rewrite upd_length; lia). cbn.
      split; auto. unfold RS, gs_ok, visible. cbn [garr glen]. rewrite !upd_length. split; auto.
      rewrite <- E. unfold visible.
      assert (Hf : forall (d : list A) k v n, (k < n)%nat -> firstn n (upd d k v) = upd (firstn n d) k v).
      { induction d as [|y d IH]; intros [|k] v [|n] Hk; cbn; auto; try lia.
        f_equal. apply IH. lia. }
      rewrite !Hf by (unfold zlen in *; lia). reflexivity.
    + destruct (at_pos l j); exact I.
Qed.

Lemma ss_history s ops : gs_ok s ->
  sim_out RS (run_ops (ss_step zero grow) s ops) (run_ops real_step (visible s) ops).
Proof.
  intros H. apply run_ops_sim.
  - intros. now apply ss_step_real.
  - split; auto.
Qed.

Lemma honoured_step (l : list A) (op : sop A) : honoured l op = true -> real_step l op = edit_step l op.
Proof.
  destruct op; cbn; auto.
  - destruct (in_range l idx); auto; discriminate.
  - destruct l; auto; discriminate.
Qed.

Lemma honoured_run (ops : list (sop A)) : forall l, all_honoured l ops ->
  run_ops real_step l ops = run_ops edit_step l ops.
Proof.
  induction ops as [|op ops IH]; intros l H; cbn in *; auto.
  destruct H as [H1 H2]. rewrite <- honoured_step by auto.
  destruct (real_step l op) as [[l' o]| |]; cbn; auto. rewrite IH; auto.
Qed.

Lemma ss_edit_partial s ops : gs_ok s -> all_honoured (visible s) ops ->
  sim_out RS (run_ops (ss_step zero grow) s ops) (run_ops edit_step (visible s) ops).
Proof. intros H Hh. rewrite <- honoured_run by auto. now apply ss_history. Qed.

End S.

Lemma ss_created {A} (zero : A) (grow : nat -> nat) capacity ops :
  (0 <= capacity -> exists s, ss_init zero capacity = Ok s /\ visible s = [] /\
     sim_out RS (run_ops (ss_step zero grow) s ops) (run_ops real_step [] ops)) /\
  (capacity < 0 -> ss_init zero capacity = Panic).
Proof.
  unfold ss_init. split; intros H.
  - destruct (Z.ltb_spec capacity 0); [lia|]. eexists. split; [reflexivity|]. split; [reflexivity|].
    apply (ss_history zero grow (GSlice (repeat zero (Z.to_nat capacity)) 0) ops). unfold gs_ok. cbn. lia.
  - destruct (Z.ltb_spec capacity 0); [reflexivity|lia].
Qed.
