(** Lemmas about the queue model. *)
From Coq Require Import ZArith List Bool Lia ZifyBool ZifyNat.
From Verif Require Import GoBase GoLists QueueModel QueueSpec.
Import ListNotations.
Open Scope Z_scope.

Definition zn (l : list Z) (i : Z) : Z := nth (Z.to_nat i) l 0.

Lemma zn_upd l i j v : 0 <= i < zlen l -> 0 <= j ->
  zn (upd l (Z.to_nat i) v) j = if Z.eq_dec i j then v else zn l j.
Proof.
  unfold zn, zlen. intros Hi Hj. rewrite nth_upd by lia.
  destruct (Nat.eq_dec (Z.to_nat i) (Z.to_nat j)), (Z.eq_dec i j); auto; lia.
Qed.

Lemma zlen_upd (l : list Z) i v : zlen (upd l i v) = zlen l.
Proof. unfold zlen. now rewrite upd_length. Qed.

Lemma zlen_nonneg {A} (l : list A) : 0 <= zlen l.
Proof. unfold zlen. lia. Qed.

Lemma zlen_app {A} (l r : list A) : zlen (l ++ r) = zlen l + zlen r.
Proof. unfold zlen. rewrite app_length. lia. Qed.

Lemma zn_app1 l r k : 0 <= k < zlen l -> zn (l ++ r) k = zn l k.
Proof. unfold zn, zlen. intros. rewrite app_nth1 by lia. auto. Qed.

Lemma zn_app2 l r k : zlen l <= k -> zn (l ++ r) k = zn r (k - zlen l).
Proof. unfold zn, zlen. intros. rewrite app_nth2 by lia. f_equal. lia. Qed.

Lemma zn_cons_S x l k : 0 < k -> zn (x :: l) k = zn l (k - 1).
Proof.
  unfold zn. intros. replace (Z.to_nat k) with (S (Z.to_nat (k - 1))) by lia. reflexivity.
Qed.

(** position of the k-th item in the ring *)
Definition rpos (off k cap : Z) : Z := if off + k <? cap then off + k else off + k - cap.

Definition RQ (q : queue) (a : aqueue) : Prop :=
  let '(AQueue items cap off) := a in
  zlen (qd q) = cap /\ qhead q = off /\
  ((cap = 0 /\ items = [] /\ off = 0 /\ qtail q = 0) \/
   (0 < cap /\ 0 <= off < cap /\ zlen items < cap /\
    qtail q = rpos off (zlen items) cap /\
    forall k, 0 <= k < zlen items -> zn (qd q) (rpos off k cap) = zn items k)).

Lemma zlen_0 {A} (l : list A) : zlen l = 0 -> l = [].
Proof. destruct l; unfold zlen; cbn; [auto|lia]. Qed.

Lemma nth_skipn {A} (l : list A) i j d : nth j (skipn i l) d = nth (i + j) l d.
Proof.
  revert i; induction l as [|x t IH]; intros [|i]; cbn; auto.
  - destruct j; reflexivity.
Qed.

Lemma nth_firstn {A} (l : list A) n j d : (j < n)%nat -> nth j (firstn n l) d = nth j l d.
Proof.
  revert n j; induction l as [|x t IH]; intros [|n] [|j] H; cbn; auto; try lia.
  apply IH. lia.
Qed.

(** copying a full ring into a larger fresh buffer, reading position 0 *)
Lemma ring_transfer_zero nd d : zlen d <= zlen nd ->
  ring_transfer nd d 0 0 = Ok (d ++ skipn (length d) nd, zlen d).
Proof.
  intros H. unfold ring_transfer.
  rewrite zslice_Ok by (pose proof (zlen_nonneg d); lia). cbn [bind].
  rewrite Z.sub_0_r. cbn [Z.to_nat skipn].
  replace (Z.to_nat (zlen d)) with (length d) by (unfold zlen; lia).
  rewrite firstn_all. unfold gocopy at 1.
  replace (Nat.min (length nd) (length d)) with (length d) by (unfold zlen in H; lia).
  rewrite firstn_all.
  rewrite (zslice_Ok d 0 0) by (pose proof (zlen_nonneg d); lia). cbn [bind].
  rewrite zslice_Ok.
  2: lia.
  2:{ rewrite zlen_app. unfold zlen. rewrite skipn_length. lia. }
  cbn [bind Z.to_nat skipn]. rewrite Z.sub_0_r, Nat2Z.id.
  rewrite firstn_app, Nat.sub_diag, firstn_O, app_nil_r, firstn_all.
  change (Z.to_nat (0 - 0)) with 0%nat. cbn [firstn].
  unfold gocopy. cbn [length]. rewrite Nat.min_0_r. cbn [firstn skipn app].
  rewrite skipn_app, Nat.sub_diag, skipn_all. cbn [app skipn].
  f_equal. f_equal. unfold zlen. lia.
Qed.

Lemma last_error_zn items : 0 < zlen items -> last_error items = Some (zn items (zlen items - 1)).
Proof.
  destruct items as [|x t _] using rev_ind; [unfold zlen; cbn; lia|]. intros _.
  unfold last_error. rewrite rev_app_distr. cbn. f_equal.
  rewrite zlen_app. rewrite zn_app2; unfold zlen; cbn [length]; [|lia].
  replace (Z.of_nat (length t) + Z.of_nat 1 - 1 - Z.of_nat (length t)) with 0 by lia. reflexivity.
Qed.

Lemma RQ_size q a : RQ q a -> queue_size q = zlen (aq_items a).
Proof.
  destruct a as [items cap off]. intros (Hd & Hh & H). unfold queue_size, queue_cap. cbn [aq_items].
  destruct H as [(-> & -> & -> & ->)|(Hc & Ho & Hs & Ht & _)].
  - rewrite Hh. reflexivity.
  - rewrite Hh, Ht, Hd. unfold rpos. pose proof (zlen_nonneg items).
    destruct (Z.ltb_spec (off + zlen items) cap); [destruct (Z.leb_spec off (off + zlen items))|
      destruct (Z.leb_spec off (off + zlen items - cap))]; lia.
Qed.

Lemma RQ_empty_iff q a : RQ q a -> (qhead q =? qtail q) = (zlen (aq_items a) =? 0).
Proof.
  destruct a as [items cap off]. intros (Hd & Hh & H). cbn [aq_items].
  destruct H as [(-> & -> & -> & ->)|(Hc & Ho & Hs & Ht & _)].
  - rewrite Hh. reflexivity.
  - rewrite Hh, Ht. unfold rpos. pose proof (zlen_nonneg items).
    destruct (Z.ltb_spec (off + zlen items) cap); lia.
Qed.

Lemma queue_push_RQ q a v : RQ q a ->
  exists q', queue_push q v = Ok q' /\ RQ q' (fst (ring_step a (QPush v))).
Proof.
  intros HR.
  (* reduce to an allocated buffer *)
  assert (G : forall q items cap off, 0 < cap -> RQ q (AQueue items cap off) ->
    exists q', queue_push q v = Ok q' /\
      RQ q' (if zlen items + 1 <? cap then AQueue (items ++ [v]) cap off
             else if off =? 0 then AQueue (items ++ [v]) (2 * cap) 0
             else AQueue [] cap off)).
  { clear q a HR. intros q items cap off Hcap (Hd & Hh & H).
    destruct H as [(-> & _)|(Hc & Ho & Hs & Ht & Hk)]; [lia|].
    pose proof (zlen_nonneg items) as Hnn.
    assert (Htb : 0 <= qtail q < cap).
    { rewrite Ht. unfold rpos. destruct (Z.ltb_spec (off + zlen items) cap); lia. }
    unfold queue_push.
    destruct (qd q) as [|d0 dt] eqn:Ed; [unfold zlen in Hd; cbn in Hd; lia|].
    rewrite <- Ed in *. clear d0 dt Ed. cbv zeta.
    rewrite zset_Ok by lia. cbn [bind]. rewrite zlen_upd, Hd.
    set (d' := upd (qd q) (Z.to_nat (qtail q)) v).
    assert (Hd' : zlen d' = cap) by (unfold d'; now rewrite zlen_upd).
    assert (Hk' : forall k, 0 <= k <= zlen items -> zn d' (rpos off k cap) = zn (items ++ [v]) k).
    { intros k Hkk. unfold d'. rewrite zn_upd.
      2: lia.
      2:{ unfold rpos. destruct (Z.ltb_spec (off + k) cap); lia. }
      destruct (Z.eq_dec (qtail q) (rpos off k cap)) as [e|e].
      - assert (k = zlen items) as ->.
        { rewrite Ht in e. unfold rpos in e.
          destruct (Z.ltb_spec (off + zlen items) cap), (Z.ltb_spec (off + k) cap); lia. }
        rewrite zn_app2 by lia. rewrite Z.sub_diag. reflexivity.
      - assert (k < zlen items).
        { destruct (Z.eq_dec k (zlen items)) as [->|]; [congruence|lia]. }
        rewrite zn_app1 by lia. apply Hk. lia. }
    assert (Hl' : zlen (items ++ [v]) = zlen items + 1) by (rewrite zlen_app; reflexivity).
    destruct (Z.leb_spec cap (qtail q + 1)) as [Hw|Hw].
    - (* tail wraps to 0 *)
      destruct (Z.eqb_spec 0 (qhead q)) as [e|e].
      + (* growth *)
        rewrite Hh in e. rewrite Hh. clear Hh. subst off.
        assert (Hfull : zlen items = cap - 1).
        { rewrite Ht in Hw. unfold rpos in Hw. destruct (Z.ltb_spec (0 + zlen items) cap); lia. }
        rewrite ring_transfer_zero.
        2:{ unfold queue_new_buf. destruct (Z.ltb_spec 0 (cap * 2)); [|lia].
            unfold zlen at 2. rewrite repeat_length. lia. }
        cbn [bind]. eexists. split; [reflexivity|].
        destruct (Z.ltb_spec (zlen items + 1) cap); [lia|]. cbn [Z.eqb].
        unfold RQ. cbn [qd qhead qtail].
        assert (Hnl : zlen (d' ++ skipn (length d') (queue_new_buf d' (cap * 2))) = 2 * cap).
        { unfold queue_new_buf. destruct (Z.ltb_spec 0 (cap * 2)); [|lia].
          rewrite zlen_app, Hd'. unfold zlen. rewrite skipn_length, repeat_length.
          unfold zlen in Hd'. lia. }
        split; [exact Hnl|]. split; [reflexivity|]. right.
        split; [lia|]. split; [lia|]. split; [lia|]. split.
        { unfold rpos. destruct (Z.ltb_spec (0 + zlen (items ++ [v])) (2 * cap)); lia. }
        intros k Hkr. unfold rpos. destruct (Z.ltb_spec (0 + k) (2 * cap)); [|lia].
        rewrite Z.add_0_l. rewrite zn_app1 by lia.
        rewrite <- (Hk' k) by lia. f_equal. unfold rpos. destruct (Z.ltb_spec (0 + k) cap); lia.
      + eexists. split; [reflexivity|].
        (* tail = cap-1, head <> 0 *)
        assert (Hno : off + zlen items = cap - 1).
        { rewrite Ht in Hw. unfold rpos in Hw. destruct (Z.ltb_spec (off + zlen items) cap); lia. }
        destruct (Z.ltb_spec (zlen items + 1) cap) as [Hr|Hr]; [|lia].
        unfold RQ. cbn [qd qhead qtail]. split; [auto|]. split; [auto|]. right.
        repeat (split; [lia|]). split.
        { unfold rpos. destruct (Z.ltb_spec (off + zlen (items ++ [v])) cap); lia. }
        intros k Hkr. apply Hk'. lia.
    - eexists. split; [reflexivity|].
      unfold RQ.
      destruct (Z.ltb_spec (zlen items + 1) cap) as [Hr|Hr].
      + cbn [qd qhead qtail]. split; [auto|]. split; [auto|]. right.
        repeat (split; [lia|]). split.
        { rewrite Ht in Hw |- *. unfold rpos in *.
          destruct (Z.ltb_spec (off + zlen items) cap), (Z.ltb_spec (off + zlen (items ++ [v])) cap); lia. }
        intros k Hkr. apply Hk'. lia.
      + (* the ring is full: tail has caught up with head *)
        destruct (Z.eqb_spec off 0) as [e|e].
        { exfalso. rewrite Ht in Hw. unfold rpos in Hw.
          destruct (Z.ltb_spec (off + zlen items) cap); lia. }
        cbn [qd qhead qtail]. split; [auto|]. split; [auto|]. right.
        split; [lia|]. split; [lia|]. split; [unfold zlen; cbn; lia|]. split.
        { rewrite Ht. unfold rpos. change (zlen (@nil Z)) with 0.
          destruct (Z.ltb_spec (off + zlen items) cap), (Z.ltb_spec (off + 0) cap); lia. }
        intros k Hkr. unfold zlen in Hkr. cbn in Hkr. lia. }
  destruct a as [items cap off]. cbn [ring_step fst].
  destruct (Z.eqb_spec cap 0) as [e|e].
  - subst cap. destruct HR as (Hd & Hh & [(_ & -> & -> & Ht)|(Hc & _)]); [|lia].
    apply zlen_0 in Hd.
    assert (E : queue_push q v = queue_push (queue_init q (-1)) v).
    { clear G. destruct q as [h t d]. cbn in Hd, Hh, Ht. subst. reflexivity. }
    rewrite E.
    destruct (G (queue_init q (-1)) [] 8 0) as (q' & E' & HR'); [lia| |].
    + unfold queue_init. rewrite Hd. cbn. repeat split; auto. right.
      repeat split; try lia.
    + exists q'. split; auto.
  - destruct (G q items cap off) as (q' & E' & HR'); auto.
    { destruct HR as (Hd & _). pose proof (zlen_nonneg (qd q)). lia. }
    exists q'. split; auto.
    destruct (zlen items + 1 <? cap); auto. destruct (off =? 0); auto.
Qed.

Lemma queue_pop_RQ q a : RQ q a ->
  exists q', (' (q', o) <- queue_pop q ;; Ok (q', QVal o)) = Ok (q', snd (ring_step a QPop)) /\
    RQ q' (fst (ring_step a QPop)).
Proof.
  intros HR. pose proof (RQ_empty_iff _ _ HR) as He.
  destruct a as [items cap off]. cbn [aq_items] in He. unfold queue_pop. rewrite He.
  destruct items as [|x t].
  - exists q. cbn. split; auto.
  - cbn [ring_step fst snd].
    destruct HR as (Hd & Hh & [(_ & E & _)|(Hc & Ho & Hs & Ht & Hk)]); [discriminate|].
    assert (Hl : zlen (x :: t) = zlen t + 1) by (unfold zlen; cbn; lia).
    pose proof (zlen_nonneg t) as Hnn.
    destruct (Z.eqb_spec (zlen (x :: t)) 0) as [e|_]; [lia|].
    rewrite (zget_Ok _ _ 0) by lia. cbn [bind].
    specialize (Hk 0 ltac:(lia)) as Hk0.
    assert (Ef : nth (Z.to_nat (qhead q)) (qd q) 0 = x).
    { transitivity (zn (qd q) (rpos off 0 cap)); [|exact Hk0].
      unfold zn, rpos. destruct (Z.ltb_spec (off + 0) cap); do 2 f_equal; lia. }
    rewrite Ef. unfold queue_cap. rewrite Hd, Hh.
    eexists. split; [reflexivity|].
    (* the new head *)
    set (nh := if (cap <=? off + 1) && negb (off + 1 =? qtail q) then 0 else off + 1).
    assert (Hnh : nh = rpos off 1 cap).
    { unfold nh, rpos. rewrite Ht. unfold rpos.
      destruct (Z.leb_spec cap (off + 1)), (Z.ltb_spec (off + 1) cap); cbn [andb]; try lia.
      destruct (Z.eqb_spec (off + 1) (if off + zlen (x :: t) <? cap then off + zlen (x :: t)
                            else off + zlen (x :: t) - cap)) as [e|e]; cbn [negb]; [|lia].
      exfalso. destruct (Z.ltb_spec (off + zlen (x :: t)) cap); lia. }
    assert (Hm : (off + 1) mod cap = rpos off 1 cap).
    { unfold rpos. destruct (Z.ltb_spec (off + 1) cap).
      - apply Z.mod_small. lia.
      - replace (off + 1) with cap by lia. rewrite Z.mod_same by lia. lia. }
    rewrite Hm. unfold RQ. cbn [qd qhead qtail]. split; [auto|]. split; [exact Hnh|]. right.
    assert (Hr : 0 <= rpos off 1 cap < cap).
    { unfold rpos. destruct (Z.ltb_spec (off + 1) cap); lia. }
    split; [lia|]. split; [lia|]. split; [lia|]. split.
    + rewrite Ht. unfold rpos in *.
      destruct (Z.ltb_spec (off + 1) cap); destruct (Z.ltb_spec (off + zlen (x :: t)) cap);
      match goal with |- _ = if ?c then _ else _ => destruct c eqn:? end; lia.
    + intros k Hkr. specialize (Hk (k + 1) ltac:(lia)).
      rewrite zn_cons_S in Hk by lia. replace (k + 1 - 1) with k in Hk by lia.
      rewrite <- Hk. f_equal. unfold rpos in *.
      destruct (Z.ltb_spec (off + 1) cap); destruct (Z.ltb_spec (off + (k + 1)) cap);
      match goal with |- (if ?c then _ else _) = _ => destruct c eqn:? end; lia.
Qed.

Lemma RQ_fresh q cap : 0 < cap -> zlen (qd q) = cap -> qhead q = 0 -> qtail q = 0 ->
  RQ q (AQueue [] cap 0).
Proof.
  intros Hc Hd Hh Ht. unfold RQ. split; [auto|]. split; [auto|]. right.
  split; [auto|]. split; [lia|]. split; [unfold zlen; cbn; lia|]. split.
  - rewrite Ht. unfold rpos. change (zlen (@nil Z)) with 0. destruct (Z.ltb_spec (0 + 0) cap); lia.
  - intros k Hk. unfold zlen in Hk. cbn in Hk. lia.
Qed.

Lemma queue_step_RQ q a op : RQ q a -> (match op with QInit _ => 0 <= aq_cap a | _ => True end) ->
  exists q', queue_step q op = Ok (q', snd (ring_step a op)) /\ RQ q' (fst (ring_step a op)).
Proof.
  intros HR _. pose proof (RQ_empty_iff _ _ HR) as He. pose proof (RQ_size _ _ HR) as Hsz.
  destruct op as [n| |v| | | | |].
  - (* Init *)
    destruct a as [items cap off]. cbn [queue_step ring_step fst snd].
    eexists. split; [reflexivity|].
    destruct HR as (Hd & Hh & H). unfold queue_init.
    destruct (qd q) as [|d0 dt] eqn:Ed.
    + unfold zlen in Hd. cbn in Hd. subst cap. cbn [Z.eqb].
      unfold queue_clear, queue_new_buf. cbn [qd qhead qtail].
      set (n' := if n <=? 0 then 8 else n).
      assert (0 < n') by (unfold n'; destruct (Z.leb_spec n 0); lia).
      destruct (Z.ltb_spec 0 n'); [|lia].
      apply RQ_fresh; auto. cbn [qd]. unfold zlen. rewrite repeat_length. lia.
    + assert (0 < cap) by (unfold zlen in Hd; cbn in Hd; lia).
      destruct (Z.eqb_spec cap 0); [lia|].
      apply RQ_fresh; auto. cbn [queue_clear qd]. now rewrite Ed.
  - (* Clear *)
    destruct a as [items cap off]. cbn [queue_step ring_step fst snd].
    eexists. split; [reflexivity|].
    destruct HR as (Hd & Hh & H).
    destruct H as [(-> & _)|(Hc & _)].
    + cbn. auto 10.
    + apply RQ_fresh; auto.
  - destruct (queue_push_RQ q a v HR) as (q' & E & HR'). cbn [queue_step]. rewrite E. cbn [bind].
    exists q'. split; auto. destruct a as [items cap off]. cbn [ring_step].
    destruct (_ <? _); auto. destruct (off =? 0); auto.
  - apply queue_pop_RQ; auto.
  - (* Front *)
    exists q. cbn [queue_step]. unfold queue_front. rewrite He.
    destruct a as [items cap off]. cbn [ring_step fst snd aq_items] in *. split; auto.
    destruct items as [|x t]; [reflexivity|].
    destruct HR as (Hd & Hh & [(_ & E & _)|(Hc & Ho & Hs & Ht & Hk)]); [discriminate|].
    assert (Hl : zlen (x :: t) = zlen t + 1) by (unfold zlen; cbn; lia).
    pose proof (zlen_nonneg t) as Hnn.
    destruct (Z.eqb_spec (zlen (x :: t)) 0) as [e|_]; [lia|].
    rewrite (zget_Ok _ _ 0) by lia. cbn [bind hd_error]. do 4 f_equal.
    transitivity (zn (qd q) (rpos off 0 cap)); [|exact (Hk 0 ltac:(lia))].
    unfold zn, rpos. destruct (Z.ltb_spec (off + 0) cap); do 2 f_equal; lia.
  - (* Back *)
    exists q. cbn [queue_step]. unfold queue_back. rewrite He.
    destruct a as [items cap off]. cbn [ring_step fst snd aq_items] in *. split; auto.
    destruct (Z.eqb_spec (zlen items) 0) as [e|e].
    { apply zlen_0 in e. subst. reflexivity. }
    destruct HR as (Hd & Hh & [(_ & E & _)|(Hc & Ho & Hs & Ht & Hk)]); [subst items; cbn in e; lia|].
    pose proof (zlen_nonneg items) as Hnn. rewrite last_error_zn by lia.
    cbv zeta. unfold queue_cap. rewrite Hd.
    assert (Hp : (if qtail q - 1 <? 0 then cap - 1 else qtail q - 1) = rpos off (zlen items - 1) cap).
    { rewrite Ht. unfold rpos. destruct (Z.ltb_spec (off + zlen items) cap),
        (Z.ltb_spec (off + (zlen items - 1)) cap);
      match goal with |- (if ?c then _ else _) = _ => destruct c eqn:? end; lia. }
    rewrite Hp. specialize (Hk (zlen items - 1) ltac:(lia)).
    rewrite (zget_Ok _ _ 0).
    2:{ unfold rpos. destruct (Z.ltb_spec (off + (zlen items - 1)) cap); lia. }
    cbn [bind]. do 4 f_equal. exact Hk.
  - exists q. cbn [queue_step]. rewrite Hsz. destruct a as [items cap off]. split; auto.
  - exists q. cbn [queue_step]. unfold queue_empty. rewrite Hsz.
    destruct a as [items cap off]. cbn [ring_step aq_items fst snd]. split; auto.
    do 3 f_equal. destruct items; reflexivity.
Qed.

Lemma queue_zero_RQ : RQ queue_zero (AQueue [] 0 0).
Proof. cbn. repeat split; auto. Qed.

Lemma queue_exact ops :
  exists q, run_ops queue_step queue_zero ops
            = Ok (q, snd (spec_ops ring_step (AQueue [] 0 0) ops)) /\
    queue_size q = zlen (aq_items (fst (spec_ops ring_step (AQueue [] 0 0) ops))) /\
    queue_cap q = aq_cap (fst (spec_ops ring_step (AQueue [] 0 0) ops)).
Proof.
  destruct (run_ops_refine RQ queue_step ring_step) with
    (ops := ops) (s := queue_zero) (a := AQueue [] 0 0) as (q & E & HR).
  - intros q a op HR. apply queue_step_RQ; auto. destruct op; auto.
    destruct a as [items cap off]. destruct HR as (Hd & _). cbn. pose proof (zlen_nonneg (qd q)). lia.
  - apply queue_zero_RQ.
  - exists q. split; auto. split; [now apply RQ_size|].
    destruct (fst (spec_ops ring_step (AQueue [] 0 0) ops)). unfold queue_cap. apply HR.
Qed.

Lemma ring_is_fifo ops : forall a, no_overflow a ops ->
  snd (spec_ops ring_step a ops) = snd (spec_ops fifo_step (aq_items a) ops) /\
  aq_items (fst (spec_ops ring_step a ops)) = fst (spec_ops fifo_step (aq_items a) ops).
Proof.
  induction ops as [|op ops IH]; intros a H; cbn [spec_ops no_overflow] in *; auto.
  destruct H as (H1 & H2).
  assert (Hs : snd (ring_step a op) = snd (fifo_step (aq_items a) op) /\
               aq_items (fst (ring_step a op)) = fst (fifo_step (aq_items a) op)).
  { destruct a as [items cap off]. destruct op as [n| |v| | | | |]; cbn in *; auto.
    - destruct (Z.ltb_spec (zlen items + 1) (if cap =? 0 then 8 else cap)); cbn; auto.
      destruct (Z.eqb_spec off 0); cbn; auto. lia.
    - destruct items; cbn; auto. }
  destruct Hs as [Hs1 Hs2].
  destruct (ring_step a op) as [a1 o1]. destruct (fifo_step (aq_items a) op) as [l1 o2].
  cbn [fst snd] in *. subst o2 l1.
  destruct (IH a1 H2) as [E1 E2].
  destruct (spec_ops ring_step a1 ops) as [a2 os]. destruct (spec_ops fifo_step (aq_items a1) ops) as [l2 os2].
  cbn [fst snd] in *. subst. auto.
Qed.

Lemma queue_fifo_partial ops : no_overflow (AQueue [] 0 0) ops ->
  exists q, run_ops queue_step queue_zero ops = Ok (q, snd (spec_ops fifo_step [] ops)) /\
    queue_size q = zlen (fst (spec_ops fifo_step [] ops)).
Proof.
  intros H. destruct (ring_is_fifo ops (AQueue [] 0 0) H) as [E1 E2].
  destruct (queue_exact ops) as (q & E & Hs & _).
  exists q. rewrite E, E1, Hs, E2. auto.
Qed.

(** ** Shrink *)
Lemma queue_reach ops :
  exists q a os, run_ops queue_step queue_zero ops = Ok (q, os) /\ RQ q a.
Proof.
  destruct (run_ops_refine RQ queue_step ring_step) with
    (ops := ops) (s := queue_zero) (a := AQueue [] 0 0) as (q & E & HR).
  - intros q a op HR. apply queue_step_RQ; auto. destruct op; auto.
    destruct a as [items cap off]. destruct HR as (Hd & _). cbn. pose proof (zlen_nonneg (qd q)). lia.
  - apply queue_zero_RQ.
  - eauto.
Qed.

Lemma queue_run_RQ ops q a : RQ q a ->
  exists q', run_ops queue_step q ops = Ok (q', snd (spec_ops ring_step a ops)).
Proof.
  intros HR0.
  destruct (run_ops_refine RQ queue_step ring_step) with
    (ops := ops) (s := q) (a := a) as (q' & E & HR).
  - intros q1 a1 op HR. apply queue_step_RQ; auto. destruct op; auto.
    destruct a1 as [items cap off]. destruct HR as (Hd & _). cbn. pose proof (zlen_nonneg (qd q1)). lia.
  - auto.
  - eauto.
Qed.

Lemma reads_depend_on_items ops : forall a b, forallb is_read ops = true ->
  aq_items a = aq_items b ->
  snd (spec_ops ring_step a ops) = snd (spec_ops ring_step b ops).
Proof.
  induction ops as [|op ops IH]; intros a b H E; cbn [spec_ops] in *; auto.
  cbn in H. apply andb_prop in H as [H1 H2].
  assert (Hs : snd (ring_step a op) = snd (ring_step b op) /\
     aq_items (fst (ring_step a op)) = aq_items (fst (ring_step b op))).
  { destruct a as [ia ca oa], b as [ib cb ob]. cbn in E. subst ib.
    destruct op; try discriminate; cbn; auto. destruct ia; cbn; auto. }
  destruct (ring_step a op) as [a' o1], (ring_step b op) as [b' o2]. cbn [fst snd] in Hs.
  destruct Hs as [-> E']. specialize (IH a' b' H2 E').
  destruct (spec_ops ring_step a' ops), (spec_ops ring_step b' ops). cbn in *. congruence.
Qed.

Lemma queue_shrink_small q a : RQ q a -> (shrinks q = false \/ queue_size q <= 1) ->
  exists q' a', queue_shrink q = Ok (q', false) /\ RQ q' a' /\ aq_items a' = aq_items a /\
     queue_cap q' = queue_cap q.
Proof.
  intros HR H. unfold queue_shrink.
  change ((8 <? queue_cap q) && (3 * queue_size q <=? queue_cap q)) with (shrinks q).
  destruct (shrinks q) eqn:Es; [|exists q, a; auto].
  destruct H as [H|H]; [discriminate|].
  pose proof (RQ_size _ _ HR) as Hsz.
  destruct a as [items cap off]. cbn [aq_items] in *.
  pose proof (zlen_nonneg items) as Hnn.
  assert (Eq0 : Z.quot (queue_size q) 2 = 0) by (rewrite Z.quot_small; lia).
  rewrite Eq0. cbn [queue_new_buf Z.ltb Z.compare].
  destruct HR as (Hd & Hh & HR).
  unfold shrinks, queue_cap in Es. rewrite Hd in Es. apply andb_prop in Es as [Es _].
  apply Z.ltb_lt in Es.
  destruct HR as [(-> & _)|(Hc & Ho & Hs & Ht & Hk)]; [lia|].
  assert (Hz : zlen items = 0 \/ zlen items = 1) by lia.
  unfold queue_new_buf. change (0 <? 0) with false. cbn match.
  destruct (Z.leb_spec (qhead q) (qtail q)) as [Hle|Hgt].
  - assert (Htl : qtail q = off + zlen items).
    { rewrite Ht in Hle |- *. unfold rpos in *. destruct (Z.ltb_spec (off + zlen items) cap); lia. }
    rewrite zslice_Ok.
    2: lia.
    2:{ rewrite Htl. rewrite Ht in Htl. unfold rpos in Htl.
        destruct (Z.ltb_spec (off + zlen items) cap); lia. }
    cbn [bind].
    assert (Hb : off + zlen items < cap).
    { rewrite Ht in Htl. unfold rpos in Htl. destruct (Z.ltb_spec (off + zlen items) cap); lia. }
    set (src := firstn (Z.to_nat (qtail q - qhead q)) (skipn (Z.to_nat (qhead q)) (qd q))).
    assert (Hsl : length src = Z.to_nat (zlen items)).
    { unfold src. rewrite firstn_length, skipn_length. unfold zlen in Hd. lia. }
    unfold gocopy.
    replace (Nat.min (length (qd q)) (length src)) with (length src) by (unfold zlen in Hd; lia).
    rewrite firstn_all.
    eexists. exists (AQueue items cap 0). split; [reflexivity|]. split; [|split; auto].
    + unfold RQ. cbn [qd qhead qtail].
      assert (Hl2 : zlen (src ++ skipn (length src) (qd q)) = cap).
      { rewrite zlen_app. unfold zlen. rewrite skipn_length. unfold zlen in Hd. lia. }
      split; [auto|]. split; [auto|]. right. repeat (split; [lia|]). split.
      { unfold rpos. destruct (Z.ltb_spec (0 + zlen items) cap); lia. }
      intros k Hkr. assert (k = 0) as -> by lia.
      unfold rpos at 1. destruct (Z.ltb_spec (0 + 0) cap); [|lia].
      rewrite zn_app1 by (unfold zlen; lia).
      rewrite <- (Hk 0) by lia.
      unfold zn, src. rewrite nth_firstn by lia. rewrite nth_skipn. f_equal.
      unfold rpos. destruct (Z.ltb_spec (off + 0) cap); lia.
    + unfold queue_cap. cbn [qd]. rewrite zlen_app. unfold zlen. rewrite skipn_length.
      unfold zlen in Hd. lia.
  - assert (Hw : zlen items = 1 /\ off = cap - 1 /\ qtail q = 0).
    { rewrite Ht in Hgt |- *. unfold rpos in *. destruct (Z.ltb_spec (off + zlen items) cap); lia. }
    destruct Hw as (Hz1 & Hoff & Htl). clear Ht.
    unfold ring_transfer.
    rewrite zslice_Ok by lia. cbn [bind].
    set (src := firstn (Z.to_nat (zlen (qd q) - qhead q)) (skipn (Z.to_nat (qhead q)) (qd q))).
    assert (Hsl : length src = 1%nat).
    { unfold src. rewrite firstn_length, skipn_length. unfold zlen in *. lia. }
    assert (Hx : exists x, src = [x] /\ x = zn items 0).
    { destruct src as [|x [|]] eqn:Esrc; cbn in Hsl; try lia. exists x. split; auto.
      rewrite <- (Hk 0) by lia.
      change x with (nth 0 [x] 0). rewrite <- Esrc. unfold src.
      rewrite nth_firstn by lia. rewrite nth_skipn. unfold zn. f_equal.
      unfold rpos. destruct (Z.ltb_spec (off + 0) cap); lia. }
    destruct Hx as (x & -> & Ex).
    rewrite Htl. rewrite (zslice_Ok (qd q) 0 0) by lia.
    destruct (qd q) as [|d0 dt] eqn:Ed; [unfold zlen in Hd; cbn in Hd; lia|].
    cbn [gocopy length Nat.min firstn skipn app bind Z.to_nat Z.sub].
    rewrite Nat.min_0_r. cbn [firstn skipn app bind].
    change (Z.of_nat 1) with 1.
    rewrite zslice_Ok by (unfold zlen; cbn; lia). cbn [bind].
    change (Z.to_nat 1) with 1%nat. change (Z.to_nat (1 - 0)) with 1%nat.
    change (Z.to_nat (0 - 0)) with 0%nat.
    cbn [Z.to_nat skipn firstn gocopy length Nat.min app bind].
    eexists. exists (AQueue items cap 0). split; [reflexivity|]. split; [|split; auto].
    2:{ unfold queue_cap. cbn [qd]. rewrite Ed. reflexivity. }
    unfold RQ. cbn [qd qhead qtail].
    split; [unfold zlen in *; cbn [length] in *; lia|]. split; [auto|]. right.
    repeat (split; [lia|]). split.
    { unfold rpos. destruct (Z.ltb_spec (0 + zlen items) cap); lia. }
    intros k Hkr. assert (k = 0) as -> by lia.
    unfold rpos. destruct (Z.ltb_spec (0 + 0) cap); [|lia]. cbn. auto.
Qed.

Lemma queue_shrink_keeps ops rest :
  exists q os, run_ops queue_step queue_zero ops = Ok (q, os) /\
    ((shrinks q = false \/ queue_size q <= 1) -> forallb is_read rest = true ->
     exists q' q1 q2 os', queue_shrink q = Ok (q', false) /\
       run_ops queue_step q rest = Ok (q1, os') /\ run_ops queue_step q' rest = Ok (q2, os')).
Proof.
  destruct (queue_reach ops) as (q & a & os & E & HR). exists q, os. split; auto.
  intros H Hr. destruct (queue_shrink_small q a HR H) as (q' & a' & Es & HR' & Ei & _).
  destruct (queue_run_RQ rest q a HR) as (q1 & E1).
  destruct (queue_run_RQ rest q' a' HR') as (q2 & E2).
  rewrite (reads_depend_on_items rest a' a Hr Ei) in E2. eauto 10.
Qed.

Lemma zset_oob {A} (l : list A) i v : zlen l <= i -> zset l i v = Panic.
Proof.
  unfold zset, aset, zlen. intros. destruct (Z.ltb_spec i 0); auto.
  destruct (Nat.ltb_spec (Z.to_nat i) (length l)); auto. lia.
Qed.

Lemma push_oob q v : 0 < zlen (qd q) -> zlen (qd q) <= qtail q -> queue_push q v = Panic.
Proof.
  intros H0 H. unfold queue_push. destruct (qd q) eqn:E; [cbn in H0; lia|]. rewrite <- E in *.
  cbv zeta. rewrite zset_oob; auto.
Qed.

(** the two copies never change the length of the new buffer; h and t are
    the two copied amounts *)
Lemma ring_transfer_shape nd d head tail : 0 <= head <= zlen d -> 0 <= tail <= zlen d ->
  exists nd', ring_transfer nd d head tail =
    Ok (nd', Z.min (zlen nd) (zlen d - head)
             + Z.min (Z.min (zlen nd) (zlen d - head)) tail) /\ zlen nd' = zlen nd.
Proof.
  intros Hh Ht. unfold ring_transfer.
  rewrite zslice_Ok by lia. cbn [bind].
  set (s1 := firstn _ _).
  assert (L1 : length s1 = Z.to_nat (zlen d - head)).
  { unfold s1. rewrite firstn_length, skipn_length. unfold zlen. lia. }
  unfold gocopy at 1.
  set (n1 := Nat.min (length nd) (length s1)).
  assert (Ln : zlen (firstn n1 s1 ++ skipn n1 nd) = zlen nd).
  { rewrite zlen_app. unfold zlen. rewrite firstn_length, skipn_length. lia. }
  rewrite zslice_Ok by lia. cbn [bind]. rewrite zslice_Ok; [|lia| rewrite Ln; unfold zlen; lia].
  cbn [bind].
  set (s2 := firstn (Z.to_nat (tail - 0)) _).
  set (dst := firstn (Z.to_nat (Z.of_nat n1 - 0)) _).
  assert (L2 : length s2 = Z.to_nat tail).
  { unfold s2. rewrite firstn_length, skipn_length. unfold zlen in Ht. lia. }
  assert (L3 : length dst = n1).
  { unfold dst. rewrite firstn_length, skipn_length. unfold zlen in Ln. lia. }
  unfold gocopy. eexists. split.
  - f_equal. f_equal. rewrite L2, L3. unfold n1. rewrite L1. unfold zlen in *. lia.
  - rewrite !zlen_app. rewrite zlen_app in Ln. unfold zlen in *.
    rewrite !skipn_length, !firstn_length, L2, L3.
    rewrite app_length, firstn_length, skipn_length in *. lia.
Qed.

Lemma queue_shrink_breaks q a : RQ q a -> shrinks q = true -> 2 <= queue_size q ->
  exists q', queue_shrink q = Ok (q', false) /\
    (queue_size q' <> queue_size q \/ forall v, queue_push q' v = Panic).
Proof.
  intros HR Es H2. unfold queue_shrink.
  change ((8 <? queue_cap q) && (3 * queue_size q <=? queue_cap q)) with (shrinks q). rewrite Es.
  pose proof (RQ_size _ _ HR) as Hsz.
  destruct a as [items cap off]. cbn [aq_items] in *.
  set (c' := Z.quot (queue_size q) 2).
  assert (Hc' : c' = queue_size q / 2) by (unfold c'; apply Z.quot_div_nonneg; lia).
  pose proof (Z.div_mod (queue_size q) 2 ltac:(lia)) as Hdm.
  pose proof (Z.mod_pos_bound (queue_size q) 2 ltac:(lia)) as Hmb.
  rewrite <- Hc' in Hdm. clearbody c'.
  unfold queue_new_buf. destruct (Z.ltb_spec 0 c') as [Hp|]; [|lia].
  assert (Hnl : zlen (repeat 0 (Z.to_nat c')) = c') by (unfold zlen; rewrite repeat_length; lia).
  destruct HR as (Hd & Hh & HR).
  unfold shrinks, queue_cap in Es. rewrite Hd in Es. apply andb_prop in Es as [Es1 Es2].
  apply Z.ltb_lt in Es1. apply Z.leb_le in Es2.
  destruct HR as [(-> & _)|(Hc & Ho & Hs & Ht & Hk)]; [lia|].
  destruct (Z.leb_spec (qhead q) (qtail q)) as [Hle|Hgt].
  - assert (Htl : qtail q = off + zlen items /\ off + zlen items < cap).
    { rewrite Ht in Hle |- *. unfold rpos in *. destruct (Z.ltb_spec (off + zlen items) cap); lia. }
    rewrite zslice_Ok by lia. cbn [bind].
    unfold gocopy. eexists. split; [reflexivity|]. right. intros v.
    assert (Lb : forall s : list Z, let n := Nat.min (length (repeat 0 (Z.to_nat c'))) (length s) in
      zlen (firstn n s ++ skipn n (repeat 0 (Z.to_nat c'))) = c').
    { intros s n. rewrite zlen_app. unfold zlen in *. rewrite firstn_length, skipn_length.
      subst n. lia. }
    apply push_oob; cbn [qd qtail]; rewrite Lb; lia.
  - assert (Htl : qtail q = off + zlen items - cap /\ cap <= off + zlen items).
    { rewrite Ht in Hgt |- *. unfold rpos in *. destruct (Z.ltb_spec (off + zlen items) cap); lia. }
    destruct (ring_transfer_shape (repeat 0 (Z.to_nat c')) (qd q) (qhead q) (qtail q))
      as (nd' & E & Ln); [lia|lia|].
    rewrite E. cbn [bind]. eexists. split; [reflexivity|].
    rewrite Hnl in *. rewrite Hd, Hh in *.
    destruct (Z_lt_dec (Z.min c' (cap - off) + Z.min (Z.min c' (cap - off)) (qtail q)) c').
    + left. unfold queue_size at 1. cbn [qhead qtail].
      match goal with |- (if ?b then _ else _) <> _ => destruct b eqn:? end; lia.
    + right. intros v. apply push_oob; cbn [qd qtail]; lia.
Qed.

Lemma queue_shrink_loses ops :
  exists q os, run_ops queue_step queue_zero ops = Ok (q, os) /\
    (shrinks q = true -> 2 <= queue_size q ->
     exists q', queue_shrink q = Ok (q', false) /\
       (queue_size q' <> queue_size q \/ forall v, queue_push q' v = Panic)).
Proof.
  destruct (queue_reach ops) as (q & a & os & E & HR). exists q, os. split; auto.
  intros. eapply queue_shrink_breaks; eauto.
Qed.
