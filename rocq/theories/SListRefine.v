(** The singly linked list refines the sequence editor, for all histories. *)
From Coq Require Import ZArith List Bool Arith Lia.
From Verif Require Import GoBase GoLists ConcBase ListSpec SListModel SListSpec SListProofs.
Import ListNotations.
Open Scope nat_scope.

Lemma nodup_app_disj {A} (l1 l2 : list A) x : NoDup (l1 ++ l2) -> In x l1 -> In x l2 -> False.
Proof.
  induction l1 as [|y t IH]; cbn; auto. intros H [<-|H1] H2; inversion H as [|? ? K1 K2]; subst; auto. apply K1, in_or_app; auto.
Qed.
Lemma nodup_app_l {A} (l1 l2 : list A) : NoDup (l1 ++ l2) -> NoDup l1.
Proof.
  induction l1 as [|y t IH]; cbn; intros H; constructor; inversion H; subst; auto. rewrite in_app_iff in *. tauto.
Qed.
Lemma nodup_app_r {A} (l1 l2 : list A) : NoDup (l1 ++ l2) -> NoDup l2.
Proof. induction l1 as [|y t IH]; cbn; auto. intros H; inversion H; auto. Qed.

Record SRel (w : sworld) (a : sabs) : Prop := {
  r_fresh : s_fresh w = qfresh a;
  r_val : forall x, sval (s_heap w x) = qval a x;
  r_seg : forall k, qlive a k = true -> heads (s_heap w) k (qseq a k);
  r_nodup : forall k, qlive a k = true -> NoDup (qseq a k);
  r_in : forall k x, qlive a k = true -> In x (qseq a k) -> x < qfresh a /\ qfree a x = false /\ qhead a x = false;
  r_disj : forall k j x, qlive a k = true -> qlive a j = true -> k <> j -> In x (qseq a k) -> ~ In x (qseq a j);
  r_live : forall k, qlive a k = true -> qhead a k = true;
  r_head : forall k, qhead a k = true -> k < qfresh a;
  r_free : forall x, qfree a x = true -> x < qfresh a /\ qhead a x = false
}.

Lemma SRel0 : SRel sworld0 sabs0.
Proof. constructor; cbn; auto; try discriminate. Qed.

(** Replacing the sequence of one list. *)
Lemma SRel_put w a k h' f' l' v' fr' :
  SRel w a -> qlive a k = true -> qfresh a <= f' ->
  (forall y, y <> k -> ~ In y (qseq a k) -> qfree a y = false -> y < qfresh a -> snext (h' y) = snext (s_heap w y)) ->
  (forall y, sval (h' y) = v' y) ->
  heads h' k l' -> NoDup l' ->
  (forall y, In y l' -> In y (qseq a k) \/ qfree a y = true \/ qfresh a <= y < f') ->
  (forall y, In y l' -> fr' y = false) ->
  (forall y, fr' y = true -> qfree a y = true \/ In y (qseq a k)) ->
  SRel (SWorld h' f') (SAbs (fupd (qseq a) k l') v' fr' (qlive a) (qhead a) f').
Proof.
  intros R Lk Hf He Hv Hs ND Hin Hfr Hfr2.
  assert (Hk : k < qfresh a) by (apply (r_head _ _ R), (r_live _ _ R); auto).
  assert (Hout : forall j y, qlive a j = true -> j <> k -> In y (j :: qseq a j) -> snext (h' y) = snext (s_heap w y)).
  { intros j y Lj Njk [<-|Hy].
    - pose proof (r_live _ _ R _ Lj) as Hj. apply He; auto.
      + intros K. apply (r_in _ _ R k) in K; auto. intuition congruence.
      + destruct (qfree a j) eqn:E; auto. apply (r_free _ _ R) in E. intuition congruence.
      + apply (r_head _ _ R); auto.
    - destruct (r_in _ _ R j y Lj Hy) as (K1 & K2 & K3). apply He; auto.
      + intros ->. apply (r_live _ _ R) in Lk. congruence.
      + apply (r_disj _ _ R j k); auto. }
  constructor; cbn.
  - reflexivity.
  - exact Hv.
  - intros j Lj. unfold fupd. destruct (Nat.eqb_spec j k) as [->|Njk]; auto.
    unfold heads. rewrite (Hout j j) by (cbn; auto). apply seg_ext with (h := s_heap w); [|apply (r_seg _ _ R); auto].
    intros y Hy. apply (Hout j); cbn; auto.
  - intros j Lj. unfold fupd. destruct (Nat.eqb_spec j k) as [->|Njk]; auto. apply (r_nodup _ _ R); auto.
  - intros j x Lj. unfold fupd. destruct (Nat.eqb_spec j k) as [->|Njk]; intros Hx.
    + split; [|split].
      * destruct (Hin x Hx) as [K|[K|K]]; [apply (r_in _ _ R) in K; auto; lia|apply (r_free _ _ R) in K; lia|lia].
      * auto.
      * destruct (Hin x Hx) as [K|[K|K]]; [apply (r_in _ _ R) in K; auto; tauto|apply (r_free _ _ R) in K; tauto|].
        destruct (qhead a x) eqn:E; auto. apply (r_head _ _ R) in E. lia.
    + destruct (r_in _ _ R j x Lj Hx) as (K1 & K2 & K3). split; [lia|split; auto].
      destruct (fr' x) eqn:E; auto. apply Hfr2 in E. destruct E as [E|E]; [congruence|].
      exfalso. eapply (r_disj _ _ R k j); eauto.
  - intros i j x Li Lj Nij. unfold fupd.
    assert (K : forall u, qlive a u = true -> u <> k -> In x (qseq a u) -> ~ In x l').
    { intros u Lu Nu Hu Hl. destruct (r_in _ _ R u x Lu Hu) as (K1 & K2 & K3).
      destruct (Hin x Hl) as [E|[E|E]]; [|congruence|lia]. eapply (r_disj _ _ R u k); eauto. }
    destruct (Nat.eqb_spec i k) as [->|Nik], (Nat.eqb_spec j k) as [->|Njk]; try congruence.
    + intros H1 H2. apply (K j Lj Njk H2 H1).
    + intros H1. apply (K i Li Nik H1).
    + apply (r_disj _ _ R); auto.
  - apply (r_live _ _ R).
  - intros j Hj. apply (r_head _ _ R) in Hj. lia.
  - intros x Hx. destruct (Hfr2 x Hx) as [K|K].
    + apply (r_free _ _ R) in K. split; [lia|tauto].
    + apply (r_in _ _ R) in K; auto. split; [lia|tauto].
Qed.

(** The list [j] is given up; its nodes become free. *)
Lemma SRel_kill w a j : SRel w a -> qlive a j = true ->
  SRel w (SAbs (qseq a) (qval a) (fun x => qfree a x || member x (qseq a j)) (fupd (qlive a) j false) (qhead a) (qfresh a)).
Proof.
  intros R Lj.
  assert (L : forall k, fupd (qlive a) j false k = true -> qlive a k = true /\ k <> j).
  { intros k. unfold fupd. destruct (Nat.eqb_spec k j); intuition congruence. }
  constructor; cbn; try apply R.
  - intros k H. apply L in H. apply (r_seg _ _ R); tauto.
  - intros k H. apply L in H. apply (r_nodup _ _ R); tauto.
  - intros k x H Hx. apply L in H. destruct H as (Lk & N). destruct (r_in _ _ R k x Lk Hx) as (K1 & K2 & K3).
    repeat split; auto. rewrite K2. cbn. apply member_notin. apply (r_disj _ _ R k j); auto.
  - intros k i x H1 H2 N. apply L in H1, H2. apply (r_disj _ _ R); tauto.
  - intros k H. apply L in H. apply (r_live _ _ R); tauto.
  - intros x H. apply orb_true_iff in H. destruct H as [H|H]; [apply (r_free _ _ R); auto|].
    apply member_In in H. apply (r_in _ _ R) in H; tauto.
Qed.

Lemma SRel_lt w a k x : SRel w a -> qlive a k = true -> In x (k :: qseq a k) -> x < qfresh a.
Proof.
  intros R Lk [<-|H]; [apply (r_head _ _ R), (r_live _ _ R); auto|apply (r_in _ _ R k); auto].
Qed.
Lemma SRel_nodup w a k : SRel w a -> qlive a k = true -> NoDup (k :: qseq a k).
Proof.
  intros R Lk. constructor; [|apply (r_nodup _ _ R); auto].
  intros H. apply (r_in _ _ R) in H; auto. pose proof (r_live _ _ R _ Lk). intuition congruence.
Qed.
Lemma SRel_len w a k : SRel w a -> qlive a k = true -> length (qseq a k) < qfresh a.
Proof.
  intros R Lk. pose proof (SRel_nodup w a k R Lk) as ND.
  assert (K : incl (k :: qseq a k) (seq 0 (qfresh a))).
  { intros y Hy. apply in_seq. pose proof (SRel_lt w a k y R Lk Hy). lia. }
  pose proof (NoDup_incl_length ND K). rewrite seq_length in H. cbn in H. lia.
Qed.

(** Values do not change when only pointers do. *)
Ltac vals R := intros y; rewrite ?set_next_val; apply (r_val _ _ R).

(** Abstract worlds that agree at every point are related alike. *)
Lemma SRel_ext w a a' : SRel w a ->
  (forall k, qseq a' k = qseq a k) -> (forall x, qval a' x = qval a x) -> (forall x, qfree a' x = qfree a x) ->
  (forall k, qlive a' k = qlive a k) -> (forall k, qhead a' k = qhead a k) -> qfresh a' = qfresh a -> SRel w a'.
Proof.
  intros R E1 E2 E3 E4 E5 E6. constructor; intros *; rewrite ?E1, ?E2, ?E3, ?E4, ?E5, ?E6; apply R.
Qed.

(** ** The edits *)
Lemma take_rel w a k l1 n l2 : SRel w a -> qlive a k = true -> qseq a k = l1 ++ n :: l2 ->
  SRel (SWorld (set_next (set_next (s_heap w) (last l1 k) (snext (s_heap w n))) n None) (s_fresh w)) (stake a k (Some n)).
Proof.
  intros R Lk E. pose proof (r_nodup _ _ R k Lk) as ND. pose proof (SRel_nodup w a k R Lk) as NDk. rewrite E in ND, NDk.
  destruct (nodup_mid _ _ _ ND) as (N1 & N2 & ND').
  pose proof (r_seg _ _ R k Lk) as Hs. rewrite E in Hs. destruct (pred_next _ _ _ _ _ Hs) as (P1 & P2).
  inversion NDk as [|? ? Nk _]; subst. rewrite in_app_iff in Nk. cbn in Nk.
  assert (Nn : last l1 k <> n) by (intros <-; pose proof (last_in l1 k) as [K|K]; [rewrite <- K in Nk at 1; tauto|tauto]).
  cbn [stake]. rewrite (r_fresh _ _ R). unfold sput. apply SRel_put with (w := w); auto.
  - intros y Hy1 Hy2 _ _. rewrite E, in_app_iff in Hy2. cbn in Hy2.
    rewrite (set_next_other _ n) by (intros ->; tauto). apply set_next_other. intros ->.
    pose proof (last_in l1 k) as [K|K]; [congruence|tauto].
  - vals R.
  - rewrite E, without_mid by auto.
    apply heads_redirect with (h := s_heap w) (l2 := n :: l2) (q := snext (s_heap w n)); auto.
    + apply NoDup_cons_iff. split; [tauto|]. eapply nodup_app_l; eauto.
    + rewrite set_next_other by auto. now rewrite set_next_same.
    + apply seg_ext with (h := s_heap w); auto. intros y Hy.
      rewrite set_next_other by (intros ->; tauto). apply set_next_other. intros ->.
      pose proof (last_in l1 k) as [K|K]; [rewrite <- K in Hy; tauto|].
      eapply nodup_app_disj; eauto.
    + intros y Hy Hy2. rewrite (set_next_other _ n) by (intros ->; destruct Hy as [<-|Hy]; tauto). now apply set_next_other.
  - rewrite E, without_mid; auto.
  - intros y. unfold without. rewrite filter_In. tauto.
  - intros y. unfold without. rewrite filter_In. intros (Hy1 & Hy2). apply negb_true_iff, Nat.eqb_neq in Hy2.
    rewrite fupd_other by auto. apply (r_in _ _ R k); auto.
  - intros y. unfold fupd. destruct (Nat.eqb_spec y n); [|auto]. subst. intros _. right. rewrite E. apply in_or_app. cbn. auto.
Qed.

(** Insertion of a node behind the member [b] of the list or its dummy. *)
Lemma insert_rel w a k l1 l2 n h' f' v' :
  SRel w a -> qlive a k = true -> qseq a k = l1 ++ l2 ->
  qfree a n = true /\ f' = qfresh a \/ n = qfresh a /\ f' = S n ->
  snext (h' (last l1 k)) = Some n -> snext (h' n) = snext (s_heap w (last l1 k)) ->
  (forall y, y <> last l1 k -> y <> n -> snext (h' y) = snext (s_heap w y)) ->
  (forall y, sval (h' y) = v' y) ->
  SRel (SWorld h' f') (SAbs (fupd (qseq a) k (l1 ++ n :: l2)) v' (fupd (qfree a) n false) (qlive a) (qhead a) f').
Proof.
  intros R Lk E Hn Hb Hn2 Ho Hv.
  pose proof (SRel_nodup w a k R Lk) as ND.
  assert (Nn : ~ In n (k :: qseq a k)).
  { intros K. destruct Hn as [(F & _)|(-> & _)].
    - destruct K as [<-|K]; [apply (r_free _ _ R) in F; apply (r_live _ _ R) in Lk; intuition congruence|].
      apply (r_in _ _ R) in K; auto. intuition congruence.
    - apply (SRel_lt w a k) in K; auto. lia. }
  rewrite E in *. pose proof (r_seg _ _ R k Lk) as Hs. rewrite E in Hs.
  assert (NDl : NoDup (l1 ++ l2)) by (inversion ND; auto).
  assert (Hlast : In (last l1 k) (k :: l1 ++ l2)) by (pose proof (last_in l1 k) as [K|K]; [left; auto|right; apply in_or_app; auto]).
  apply SRel_put with (w := w); auto.
  - destruct Hn as [(_ & ->)|(-> & ->)]; lia.
  - intros y H1 H2 H3 H4. rewrite E in H2. apply Ho.
    + intros ->. destruct Hlast as [K|K]; [congruence|tauto].
    + intros ->. destruct Hn as [(F & _)|(-> & _)]; [congruence|lia].
  - assert (Hl2 : seg (s_heap w) (snext (s_heap w (last l1 k))) l2 None).
    { unfold heads in Hs. rewrite seg_app in Hs. destruct Hs as (r & K1 & K2).
      destruct l1 as [|z t _] using rev_ind; cbn in *; [now subst|]. rewrite last_last. apply seg_snoc in K1. now destruct K1 as (_ & ->). }
    apply heads_redirect with (h := s_heap w) (l2 := l2) (q := Some n); auto.
    + inversion ND as [|? ? K1 K2]. subst. constructor; [intros K; apply K1, in_or_app; auto|].
      eapply nodup_app_l; eauto.
    + cbn. split; auto. rewrite Hn2. apply seg_ext with (h := s_heap w); auto.
      intros y Hy. apply Ho; [|intros ->; apply Nn; right; apply in_or_app; auto].
      intros ->. pose proof (last_in l1 k) as [K|K].
      * inversion ND; subst. apply H1, in_or_app. right. rewrite K. auto.
      * eapply nodup_app_disj; eauto.
    + intros y Hy Hy2. apply Ho; auto. intros ->. apply Nn. destruct Hy as [<-|Hy]; [left; auto|right; apply in_or_app; auto].
  - apply NoDup_Add with (a := n) (l := l1 ++ l2); [apply Add_app|]. split; auto. intros K. apply Nn. right. auto.
  - intros y Hy. rewrite E. apply in_app_iff in Hy. rewrite in_app_iff. cbn in Hy.
    destruct Hy as [Hy|[<-|Hy]]; [tauto| |tauto]. destruct Hn as [(F & _)|(-> & ->)]; [tauto|]. right. right. lia.
  - intros y Hy. unfold fupd. destruct (Nat.eqb_spec y n); auto. apply (r_in _ _ R k); auto. rewrite E.
    apply in_app_iff in Hy. cbn in Hy. apply in_or_app. destruct Hy as [Hy|[Hy|Hy]]; [tauto|congruence|tauto].
  - intros y. unfold fupd. destruct (Nat.eqb_spec y n); [discriminate|tauto].
Qed.

Lemma SRel_heap w a h' : SRel w a -> (forall y, snext (h' y) = snext (s_heap w y)) -> (forall y, sval (h' y) = sval (s_heap w y)) ->
  SRel (SWorld h' (s_fresh w)) a.
Proof.
  intros R E1 E2. constructor; cbn; try apply R.
  - intros x. rewrite E2. apply R.
  - intros k Lk. unfold heads. rewrite E1. apply seg_ext with (h := s_heap w); [auto|apply (r_seg _ _ R); auto].
Qed.

Lemma insert_free_rel w a k l1 l2 n : SRel w a -> qlive a k = true -> qseq a k = l1 ++ l2 -> qfree a n = true ->
  SRel (SWorld (set_next (set_next (s_heap w) n (snext (s_heap w (last l1 k)))) (last l1 k) (Some n)) (s_fresh w))
       (sput a k (l1 ++ n :: l2) (fupd (qfree a) n false)) /\ last l1 k <> n.
Proof.
  intros R Lk E F.
  assert (N : last l1 k <> n).
  { intros K. pose proof (last_in l1 k) as [K2|K2]; rewrite K in K2.
    - subst n. apply (r_free _ _ R) in F. apply (r_live _ _ R) in Lk. intuition congruence.
    - apply (r_free _ _ R) in F as F2. destruct (r_in _ _ R k n Lk); [rewrite E; apply in_or_app; auto|]. intuition congruence. }
  split; auto. rewrite (r_fresh _ _ R). unfold sput. eapply insert_rel; eauto.
  - now rewrite set_next_same.
  - rewrite set_next_other, set_next_same; auto.
  - intros y H1 H2. rewrite !set_next_other; auto.
  - vals R.
Qed.

Lemma insert_new_rel w a k l1 l2 v : SRel w a -> qlive a k = true -> qseq a k = l1 ++ l2 ->
  let x := s_fresh w in
  SRel (SWorld (set_next (fupd (s_heap w) x (SNode v (snext (s_heap w (last l1 k))))) (last l1 k) (Some x)) (S x))
       (snew a k (l1 ++ x :: l2) v) /\ last l1 k <> x.
Proof.
  intros R Lk E x.
  assert (N : last l1 k <> x).
  { intros K. assert (In x (k :: qseq a k)) as K2.
    { pose proof (last_in l1 k) as [K2|K2]; rewrite K in K2; [left; auto|right; rewrite E; apply in_or_app; auto]. }
    apply (SRel_lt w a k) in K2; auto. unfold x in K2. rewrite (r_fresh _ _ R) in K2. lia. }
  split; auto. unfold x in *. rewrite (r_fresh _ _ R) in *.
  eapply SRel_ext; [eapply (insert_rel w a k l1 l2 (qfresh a) _ (S (qfresh a)) (fupd (qval a) (qfresh a) v)); eauto|..];
    cbn; auto.
  - now rewrite set_next_same.
  - now rewrite set_next_other, fupd_same by auto.
  - intros y H1 H2. rewrite set_next_other, fupd_other by auto. auto.
  - intros y. rewrite set_next_val. unfold fupd. destruct (Nat.eqb_spec y (qfresh a)); auto. apply (r_val _ _ R).
  - intros y. unfold fupd. destruct (Nat.eqb_spec y (qfresh a)); auto. subst.
    destruct (qfree a (qfresh a)) eqn:F; auto. apply (r_free _ _ R) in F. lia.
Qed.

Lemma clear_rel w a k : SRel w a -> qhead a k = true ->
  SRel (SWorld (s_clear (s_heap w) k) (s_fresh w)) (fst (swant a (SClear k))).
Proof.
  intros R Hk. destruct (qlive a k) eqn:Lk.
  - eapply SRel_ext with (a := SAbs (fupd (qseq a) k []) (qval a) (fun x => qfree a x || member x (qseq a k)) (qlive a) (qhead a) (qfresh a));
      cbn; auto; rewrite ?Lk; auto.
    2:{ intros j. unfold fupd. destruct (Nat.eqb_spec j k); subst; auto. }
    rewrite (r_fresh _ _ R). apply SRel_put with (w := w); auto.
    + intros y H _ _ _. unfold s_clear. now rewrite set_next_other.
    + unfold s_clear. vals R.
    + unfold heads, s_clear. now rewrite set_next_same.
    + constructor.
    + intros y [].
    + intros y H. apply orb_true_iff in H. rewrite member_In in H. tauto.
  - cbn. rewrite Lk.
    assert (L : forall j, fupd (qlive a) k true j = true -> j = k \/ j <> k /\ qlive a j = true).
    { intros j. unfold fupd. destruct (Nat.eqb_spec j k); auto. }
    assert (Hnk : forall j, qlive a j = true -> ~ In k (qseq a j)).
    { intros j Lj K. apply (r_in _ _ R) in K; auto. intuition congruence. }
    constructor; cbn; try apply R.
    + unfold s_clear. vals R.
    + intros j Lj. apply L in Lj. unfold heads, s_clear. destruct Lj as [->|(N & Lj)].
      * rewrite fupd_same, set_next_same. reflexivity.
      * rewrite fupd_other, set_next_other by auto. apply seg_ext with (h := s_heap w); [|apply (r_seg _ _ R); auto].
        intros y Hy. apply set_next_other. intros ->. eapply Hnk; eauto.
    + intros j Lj. apply L in Lj. destruct Lj as [->|(N & Lj)]; [rewrite fupd_same; constructor|].
      rewrite fupd_other by auto. apply (r_nodup _ _ R); auto.
    + intros j x Lj. apply L in Lj. destruct Lj as [->|(N & Lj)]; [rewrite fupd_same; intros []|].
      rewrite fupd_other by auto. rewrite orb_false_r. apply (r_in _ _ R); auto.
    + intros i j x Li Lj Nij. apply L in Li, Lj. destruct Li as [->|(Ni & Li)], Lj as [->|(Nj & Lj)]; rewrite ?fupd_same; cbn; try tauto.
      rewrite !fupd_other by auto. apply (r_disj _ _ R); auto.
    + intros j Lj. apply L in Lj. destruct Lj as [->|(N & Lj)]; auto. apply (r_live _ _ R); auto.
    + intros x. rewrite orb_false_r. apply (r_free _ _ R).
Qed.

Lemma splice_rel w a k j x t : SRel w a -> qlive a k = true -> qlive a j = true -> k <> j -> qseq a j = x :: t ->
  SRel (SWorld (set_next (set_next (s_heap w) (last t x) (snext (s_heap w k))) k (Some x)) (s_fresh w))
       (fst (swant a (SPushFrontList k j))).
Proof.
  intros R Lk Lj Nkj E. cbn. rewrite E.
  pose proof (SRel_kill w a j R Lj) as R'.
  rewrite (r_fresh _ _ R).
  assert (Lk' : fupd (qlive a) j false k = true) by (rewrite fupd_other; auto).
  assert (Hl : In (last t x) (qseq a j)) by (rewrite E; apply last_in).
  assert (Hlk : last t x <> k).
  { intros K. rewrite K in Hl. apply (r_in _ _ R) in Hl; auto. apply (r_live _ _ R) in Lk. intuition congruence. }
  assert (NDj := r_nodup _ _ R j Lj). rewrite E in NDj.
  assert (HD : forall y, In y (qseq a j) -> ~ In y (qseq a k)) by (intros y; apply (r_disj _ _ R j k); auto).
  eapply SRel_ext; [eapply (SRel_put _ _ k _ (qfresh a) (x :: t ++ qseq a k) (qval a) (qfree a) R')|..]; cbn; auto.
  - intros y H1 H2 H3 H4. rewrite !set_next_other; auto. intros ->. apply orb_false_iff in H3. destruct H3 as (_ & H3).
    apply member_notin in H3. auto.
  - vals R.
  - assert (Hs := r_seg _ _ R j Lj). unfold heads in *. rewrite E in Hs. cbn in Hs. destruct Hs as (Hj & Hs).
    rewrite set_next_same. split; auto.
    destruct t as [|z t _] using rev_ind.
    + cbn in *. rewrite set_next_other, set_next_same by auto. apply seg_ext with (h := s_heap w); [|apply (r_seg _ _ R); auto].
      intros y Hy. rewrite !set_next_other; auto; intros ->; [eapply HD; eauto|]. pose proof (SRel_nodup w a k R Lk) as ND; inversion ND; auto.
    + rewrite last_last in *. apply seg_snoc in Hs. apply seg_app. exists (snext (s_heap w k)). split.
      * apply seg_snoc. split; [|rewrite set_next_other, set_next_same; auto].
        rewrite set_next_other.
        2:{ intros ->. apply (r_in _ _ R j k) in Lj; [|rewrite E; cbn; auto]. apply (r_live _ _ R) in Lk. intuition congruence. }
        inversion NDj as [|? ? K1 K2]; subst. pose proof (nodup_mid _ _ _ K2) as (K3 & _).
        rewrite set_next_other by (intros ->; apply K1, in_or_app; cbn; auto).
        apply seg_ext with (h := s_heap w); [|tauto]. intros y Hy.
        rewrite set_next_other. 2:{ intros ->. apply (r_in _ _ R j k) in Lj; [|rewrite E; right; apply in_or_app; auto]. apply (r_live _ _ R) in Lk. intuition congruence. }
        apply set_next_other. intros ->. tauto.
      * apply seg_ext with (h := s_heap w); [|apply (r_seg _ _ R); auto].
        intros y Hy. rewrite !set_next_other; auto; intros ->; [eapply HD; eauto|]. pose proof (SRel_nodup w a k R Lk) as ND; inversion ND; auto.
  - change (NoDup ((x :: t) ++ qseq a k)). rewrite <- E in *. clear - NDj HD R Lk.
    pose proof (r_nodup _ _ R k Lk) as ND. induction (qseq a j); cbn; auto. inversion NDj; subst. constructor.
    + rewrite in_app_iff. intros [K|K]; auto. eapply HD; [left; eauto|auto].
    + apply IHl; auto. intros; apply HD; cbn; auto.
  - intros y Hy. change (In y ((x :: t) ++ qseq a k)) in Hy. rewrite <- E in Hy. apply in_app_iff in Hy.
    destruct Hy as [Hy|Hy]; auto. right. left. apply orb_true_iff. right. now apply member_In.
  - intros y Hy. change (In y ((x :: t) ++ qseq a k)) in Hy. rewrite <- E in Hy. apply in_app_iff in Hy.
    destruct Hy as [Hy|Hy]; [apply (r_in _ _ R j); auto|apply (r_in _ _ R k); auto].
  - intros y Hy. left. now rewrite Hy.
Qed.

(** Reversal: every round moves a free node to the front. *)
Lemma reverse_rel k rest : forall fuel h f a acc,
  SRel (SWorld h f) a -> qlive a k = true -> length rest <= fuel -> qseq a k = acc ->
  NoDup rest -> (forall y, In y rest -> qfree a y = true) -> 
  forall p, seg h p rest None ->
  exists h' fr', reverse_loop fuel h k p = Ok h' /\ SRel (SWorld h' f) (sput a k (rev rest ++ acc) fr') /\
    forall y, fr' y = qfree a y && negb (member y rest).
Proof.
  induction rest as [|x t IH]; intros fuel h f a acc R Lk Hf E ND Fr p Hp; cbn in Hp.
  - subst p. exists h, (qfree a). split; [destruct fuel; reflexivity|]. split.
    + eapply SRel_ext; [exact R|..]; cbn; auto. intros j. unfold fupd. destruct (Nat.eqb_spec j k); subst; auto.
    + intros y. cbn. now rewrite andb_true_r.
  - destruct Hp as (-> & Hp). destruct fuel; cbn in Hf; [lia|]. cbn [reverse_loop].
    destruct (insert_free_rel _ _ k [] acc x R Lk E (Fr x (or_introl eq_refl))) as (R1 & Nx). cbn in R1, Nx.
    unfold s_insert_front, s_insert_after. destruct (Nat.eqb_spec x k); [congruence|]. cbn [fst].
    inversion ND as [|? ? Nt NDt]; subst.
    assert (Nk : ~ In k t).
    { intros K. pose proof (Fr k (or_intror K)) as F. apply (r_free _ _ R) in F. apply (r_live _ _ R) in Lk. intuition congruence. }
    set (h1 := set_next (set_next h x (snext (h k))) k (Some x)) in *.
    destruct (IH fuel h1 f _ (x :: qseq a k) R1) with (p := snext (h x)) as (h' & fr' & E1 & R2 & F2); auto.
    + lia.
    + cbn. now rewrite fupd_same.
    + intros y Hy. cbn. unfold fupd. destruct (Nat.eqb_spec y x); [subst; tauto|]. apply Fr. cbn. auto.
    + apply seg_ext with (h := h); auto. intros y Hy. unfold h1. rewrite !set_next_other; auto; intros ->; tauto.
    + exists h', fr'. split; [exact E1|]. split.
      * eapply SRel_ext; [exact R2|..]; cbn; auto. intros j. rewrite <- app_assoc. unfold fupd.
        destruct (Nat.eqb_spec j k); auto.
      * intros y. rewrite F2. cbn [qfree sput]. unfold fupd, member. cbn [existsb]. destruct (Nat.eqb_spec y x); cbn; [now rewrite andb_false_r|auto].
Qed.

(** Removing an arbitrary node. *)
Lemma remove_step w a k n : SRel w a -> qlive a k = true ->
  exists h', remove_loop (s_fresh w) (s_heap w) k n =
               Ok (h', if member n (qseq a k) then Some n else None) /\
    SRel (SWorld h' (s_fresh w)) (if member n (qseq a k) then stake a k (Some n) else a).
Proof.
  intros R Lk. pose proof (SRel_len w a k R Lk) as Hl. pose proof (r_seg _ _ R k Lk) as Hs.
  pose proof (r_nodup _ _ R k Lk) as ND. pose proof (r_fresh _ _ R) as Ef.
  destruct (member n (qseq a k)) eqn:M.
  - apply member_In in M. destruct (in_split _ _ M) as (l1 & l2 & E).
    rewrite E in Hs, ND, Hl. destruct (nodup_mid _ _ _ ND) as (N1 & N2 & _).
    rewrite app_length in Hl. cbn in Hl.
    eexists. split; [eapply remove_loop_some; eauto; lia|]. apply take_rel with (l2 := l2); auto.
  - apply member_notin in M. exists (s_heap w). split; [eapply remove_loop_none; eauto; lia|].
    destruct w; exact R.
Qed.

Lemma hd_member (l : list nat) n : hd_error l = Some n -> member n l = true.
Proof. destruct l; cbn; [discriminate|]. intros [= ->]. now rewrite Nat.eqb_refl. Qed.

Lemma seg_front h p l q : seg h p l q -> l <> [] -> p = hd_error l.
Proof. destruct l; cbn; tauto. Qed.

Lemma front_hd w a k : SRel w a -> qlive a k = true -> snext (s_heap w k) = hd_error (qseq a k).
Proof.
  intros R Lk. pose proof (r_seg _ _ R k Lk) as H. unfold heads in H. destruct (qseq a k); cbn in *; tauto.
Qed.

Lemma last_hd_rev (l : list nat) d : last_node (l ++ [d]) = Some d.
Proof. unfold last_node. rewrite rev_app_distr. reflexivity. Qed.
Lemma last_node_last x (t : list nat) : last_node (x :: t) = Some (last t x).
Proof.
  destruct t as [|y t] using rev_ind; auto. rewrite last_last. change (x :: t ++ [y]) with ((x :: t) ++ [y]). apply last_hd_rev.
Qed.

Lemma sstep_ok w a op : SRel w a -> spre a op ->
  exists w', sstep w op = Ok (w', snd (sexact a op)) /\ SRel w' (fst (sexact a op)).
Proof.
  intros R Hp. destruct w as [h f]. pose proof (r_fresh _ _ R) as Ef. cbn [s_fresh] in Ef.
  assert (Same : forall o : sobs, exists w', Ok (SWorld h f, o) = Ok (w', o) /\ SRel w' a) by (intros o; eexists; split; [reflexivity|auto]).
  assert (Rem : forall k n, qlive a k = true -> exists h', remove_loop f h k n =
                Ok (h', if member n (qseq a k) then Some n else None) /\
                SRel (SWorld h' f) (if member n (qseq a k) then stake a k (Some n) else a)).
  { intros k n Lk. exact (remove_step _ _ k n R Lk). }
  assert (Hd : forall k, qlive a k = true -> snext (h k) = hd_error (qseq a k)) by (intros k Lk; exact (front_hd _ _ k R Lk)).
  assert (RemF : forall k, qlive a k = true -> exists h', s_remove_front f h k = Ok (h', hd_error (qseq a k)) /\
             SRel (SWorld h' f) (stake a k (hd_error (qseq a k)))).
  { intros k Lk. unfold s_remove_front. rewrite (Hd k Lk). destruct (hd_error (qseq a k)) as [n|] eqn:E; cbn [s_remove].
    - destruct (Rem k n Lk) as (h' & E1 & R1). rewrite (hd_member _ _ E) in *. eauto.
    - exists h. split; auto. }
  assert (Len : forall k, qlive a k = true -> length (qseq a k) < f) by (intros k Lk; pose proof (SRel_len _ _ k R Lk); cbn in *; lia).
  destruct op; cbn [sstep s_heap s_fresh sexact swant spre] in *.
  - (* New *)
    eexists. split; [rewrite Ef; reflexivity|]. cbn [fst].
    assert (Nf : forall k, qlive a k = true -> k <> f /\ ~ In f (qseq a k)).
    { intros k Lk. split; [intros ->; apply (r_live _ _ R), (r_head _ _ R) in Lk; lia|]. intros K. apply (r_in _ _ R) in K; auto. lia. }
    assert (L : forall j, fupd (qlive a) (qfresh a) true j = true -> j = f \/ j <> f /\ qlive a j = true).
    { intros j. rewrite <- Ef. unfold fupd. destruct (Nat.eqb_spec j f); auto. }
    subst f. constructor; cbn.
    + reflexivity.
    + intros x. unfold fupd. destruct (Nat.eqb_spec x (qfresh a)); auto. apply (r_val _ _ R).
    + intros j Lj. apply L in Lj. unfold heads. destruct Lj as [->|(N & Lj)].
      * rewrite !fupd_same. reflexivity.
      * rewrite !fupd_other by auto. apply seg_ext with (h := h); [|apply (r_seg _ _ R); auto].
        intros y Hy. rewrite fupd_other; auto. intros ->. apply Nf in Lj. tauto.
    + intros j Lj. apply L in Lj. destruct Lj as [->|(N & Lj)]; [rewrite fupd_same; constructor|].
      rewrite fupd_other by auto. apply (r_nodup _ _ R); auto.
    + intros j x Lj. apply L in Lj. destruct Lj as [->|(N & Lj)]; [rewrite fupd_same; intros []|].
      rewrite fupd_other by auto. intros Hx. destruct (r_in _ _ R j x Lj Hx) as (K1 & K2 & K3). repeat split; auto.
      rewrite fupd_other; auto. lia.
    + intros i j x Li Lj Nij. apply L in Li, Lj. destruct Li as [->|(Ni & Li)], Lj as [->|(Nj & Lj)]; rewrite ?fupd_same; cbn; try tauto.
      rewrite !fupd_other by auto. apply (r_disj _ _ R); auto.
    + intros j Lj. apply L in Lj. destruct Lj as [->|(N & Lj)]; [apply fupd_same|]. rewrite fupd_other; auto. apply (r_live _ _ R); auto.
    + intros j. unfold fupd. destruct (Nat.eqb_spec j (qfresh a)); [lia|]. intros K. apply (r_head _ _ R) in K. lia.
    + intros x K. apply (r_free _ _ R) in K. split; [lia|]. rewrite fupd_other; [tauto|lia].
  - (* PushFront *)
    destruct (insert_new_rel _ _ k [] (qseq a k) v R Hp eq_refl) as (R1 & _). cbn in R1. rewrite <- Ef.
    eexists. split; [reflexivity|]. exact R1.
  - (* PopFront *)
    unfold s_pop_front, s_front. destruct (RemF k Hp) as (h' & E1 & R1). unfold s_remove_front in E1. rewrite E1. cbn [bind].
    destruct (hd_error (qseq a k)) as [n|] eqn:E; cbn [got fst snd].
    + eexists. split; [|exact R1]. cbn [bind fst snd]. do 4 f_equal. apply (r_val _ _ R1).
    + eexists. split; [reflexivity|exact R1].
  - (* PushAfter *)
    destruct Hp as (Lk & Hm). destruct m as [m|]; [|apply Same].
    destruct (in_split _ _ Hm) as (l1 & l2 & E). pose proof (r_nodup _ _ R k Lk) as ND. rewrite E in ND.
    destruct (nodup_mid _ _ _ ND) as (N1 & N2 & _).
    destruct (insert_new_rel _ _ k (l1 ++ [m]) l2 v R Lk) as (R1 & Nx); [rewrite E, <- app_assoc; reflexivity|].
    rewrite last_last in *. cbn [s_heap s_fresh] in *. cbn [s_push_after s_insert_after].
    destruct (Nat.eqb_spec f m); [congruence|]. cbn [fst snd].
    subst f. eexists. split; [reflexivity|].
    eapply SRel_heap with (w := SWorld _ _) in R1; [cbn [s_fresh] in R1; eapply SRel_ext; [exact R1|..]; cbn; auto|..]; cbn [s_heap].
    + intros j. rewrite E, after_mid, <- app_assoc by auto. reflexivity.
    + intros z. unfold set_next, fupd. cbn.
      repeat (match goal with |- context [?u =? ?v] => destruct (Nat.eqb_spec u v) end; subst; cbn; auto; try congruence).
    + intros z. unfold set_next, fupd. cbn.
      repeat (match goal with |- context [?u =? ?v] => destruct (Nat.eqb_spec u v) end; subst; cbn; auto; try congruence).
  - (* InsertAfter *)
    destruct Hp as (Lk & Hm). destruct n as [n|], m as [m|]; try apply Same. cbn [s_insert_after].
    destruct (Nat.eqb_spec n m); [apply Same|]. destruct Hm as [Hm|(F & Hm)]; [congruence|].
    destruct (in_split _ _ Hm) as (l1 & l2 & E). pose proof (r_nodup _ _ R k Lk) as ND. rewrite E in ND.
    destruct (nodup_mid _ _ _ ND) as (N1 & N2 & _).
    destruct (insert_free_rel _ _ k (l1 ++ [m]) l2 n R Lk) as (R1 & Nx); [rewrite E, <- app_assoc; reflexivity|auto|].
    rewrite last_last in *. eexists. split; [reflexivity|]. cbn [fst]. rewrite E, after_mid by auto. rewrite <- app_assoc in R1. exact R1.
  - (* InsertFront *)
    destruct Hp as (Lk & Hm). destruct n as [n|]; try apply Same. cbn [s_insert_front s_insert_after].
    destruct (insert_free_rel _ _ k [] (qseq a k) n R Lk eq_refl Hm) as (R1 & Nx). cbn in Nx.
    destruct (Nat.eqb_spec n k); [congruence|]. eexists. split; [reflexivity|]. exact R1.
  - (* RemoveFront *)
    destruct (RemF k Hp) as (h' & E1 & R1). rewrite E1. cbn [bind]. eexists. split; [reflexivity|exact R1].
  - (* Remove *)
    destruct n as [n|]; [|apply Same]. cbn [s_remove]. destruct (Rem k n Hp) as (h' & E1 & R1). rewrite E1. cbn [bind].
    destruct (member n (qseq a k)); eexists; (split; [reflexivity|exact R1]).
  - (* MoveFront *)
    destruct n as [n|]; [|apply Same]. cbn [s_move_front]. pose proof (r_seg _ _ R k Hp) as Hs. pose proof (r_nodup _ _ R k Hp) as ND.
    pose proof (Len k Hp) as Hl. cbn [s_heap] in Hs.
    destruct (member n (qseq a k) && negb (is_first n (qseq a k))) eqn:M.
    + apply andb_true_iff in M. destruct M as (M & M2). apply member_In in M. destruct (in_split _ _ M) as (l1 & l2 & E).
      rewrite E in *. destruct (nodup_mid _ _ _ ND) as (N1 & N2 & _).
      destruct l1 as [|y l1 _] using rev_ind; [cbn in M2; rewrite Nat.eqb_refl in M2; discriminate|].
      pose proof (take_rel _ _ k _ n l2 R Hp E) as R1.
      assert (Fn : qfree (stake a k (Some n)) n = true) by (cbn; apply fupd_same).
      destruct (insert_free_rel _ _ k [] (qseq (stake a k (Some n)) k) n R1 Hp eq_refl Fn) as (R2 & Nk). cbn [last] in *.
      rewrite <- app_assoc in Hs. cbn in Hs.
      rewrite app_length in Hl. cbn in Hl. rewrite app_length in Hl.
      rewrite (move_front_loop_some h k l1 y n l2) by (auto; lia). cbn [bind].
      eexists. split; [reflexivity|]. cbn [fst].
      eapply SRel_ext; [eapply (SRel_heap _ _ _ R2)|..]; cbn; auto; rewrite ?last_last.
      * assert (Ny : y <> n) by (intros ->; apply N1, in_or_app; cbn; auto).
        intros z. unfold set_next, fupd. cbn.
        repeat (match goal with |- context [?u =? ?v] => destruct (Nat.eqb_spec u v) end; subst; cbn; auto; try congruence).
      * intros z. unfold set_next, fupd. cbn.
        repeat (match goal with |- context [?u =? ?v] => destruct (Nat.eqb_spec u v) end; subst; cbn; auto; try congruence).
      * intros j. rewrite E. unfold fupd. destruct (Nat.eqb_spec j k); auto. subst. now rewrite Nat.eqb_refl.
      * intros x. unfold fupd. destruct (Nat.eqb_spec x n); auto. subst. apply (r_in _ _ R k); auto. rewrite E. exact M.
    + rewrite (move_front_loop_none h k (qseq a k)); auto; [apply Same|lia|].
      intros K. apply andb_false_iff in M. destruct M as [M|M].
      * apply member_notin in M. apply M. destruct (qseq a k); cbn in *; auto.
      * apply negb_false_iff in M. destruct (qseq a k); cbn in *; [discriminate|]. apply Nat.eqb_eq in M. subst. inversion ND; auto.
  - (* MoveAfter *)
    destruct Hp as (Lk & Hm). destruct n as [n|], m as [m|]; try apply Same. cbn [s_move_after].
    pose proof (r_seg _ _ R k Lk) as Hs. pose proof (r_nodup _ _ R k Lk) as ND. pose proof (Len k Lk) as Hl. cbn [s_heap] in Hs.
    destruct (Nat.eqb_spec n m) as [->|Nnm]; [rewrite andb_false_r; apply Same|].
    cbn [negb]. rewrite andb_true_r.
    destruct (member n (qseq a k)) eqn:M; cbn [andb].
    2:{ apply member_notin in M. rewrite (move_after_loop_none h (qseq a k)) by auto. apply Same. }
    apply member_In in M. destruct (in_split _ _ M) as (l1 & l2 & E).
    assert (Nkm : k <> m) by (intros <-; apply (r_in _ _ R) in Hm; auto; apply (r_live _ _ R) in Lk; intuition congruence).
    pose proof (take_rel _ _ k _ n l2 R Lk E) as R1.
    rewrite E in *. destruct (nodup_mid _ _ _ ND) as (N1 & N2 & ND').
    rewrite app_length in Hl. cbn in Hl.
    rewrite (move_after_loop_some h m n l2 l1) by (auto; lia).
    assert (Adj : is_first n (tl (from m (l1 ++ n :: l2))) = (last l1 k =? m)).
    { destruct (Nat.eqb_spec (last l1 k) m) as [K|K].
      - destruct l1 as [|y l1 _] using rev_ind; [cbn in K; congruence|]. rewrite last_last in K. subst y.
        rewrite <- app_assoc. cbn. rewrite from_mid; [cbn; apply Nat.eqb_refl|].
        apply nodup_app_l in ND'. pose proof (nodup_mid _ _ _ ND'). tauto.
      - apply in_app_iff in Hm. cbn in Hm. destruct Hm as [Hm|[Hm|Hm]]; [|congruence|].
        + destruct (in_split _ _ Hm) as (u & v & ->). rewrite <- app_assoc. cbn.
          rewrite from_mid. 2:{ apply nodup_app_l in ND'. pose proof (nodup_mid _ _ _ ND'). tauto. }
          cbn. destruct v as [|z v]; [rewrite last_last in K; congruence|]. cbn. apply Nat.eqb_neq. intros ->. apply N1, in_or_app. cbn. auto.
        + destruct (in_split _ _ Hm) as (u & v & ->).
          replace (l1 ++ n :: u ++ m :: v) with ((l1 ++ n :: u) ++ m :: v) by (rewrite <- app_assoc; reflexivity).
          rewrite from_mid.
          * cbn. destruct v as [|z v]; auto. cbn. apply Nat.eqb_neq. intros ->. apply N2, in_or_app. cbn. auto.
          * rewrite in_app_iff. cbn. intros [K2|[K2|K2]]; [|congruence|].
            -- eapply nodup_app_disj; [exact ND'|exact K2|apply in_or_app; cbn; auto].
            -- apply nodup_app_r in ND'. pose proof (nodup_mid _ _ _ ND'). tauto. }
    rewrite Adj. destruct (Nat.eqb_spec (last l1 k) m) as [K|K]; cbn [negb]; [apply Same|].
    cbn zeta. cbn [bind]. eexists. split; [reflexivity|]. cbn [fst].
    assert (Fn : qfree (stake a k (Some n)) n = true) by (cbn; apply fupd_same).
    assert (Es : qseq (stake a k (Some n)) k = l1 ++ l2) by (cbn; rewrite fupd_same, E; apply without_mid; auto).
    assert (Hm2 : In m (l1 ++ l2)) by (apply in_app_iff in Hm; apply in_or_app; cbn in Hm; destruct Hm as [?|[?|?]]; auto; congruence).
    destruct (in_split _ _ Hm2) as (u & v & E2). rewrite E2 in Es.
    destruct (insert_free_rel _ _ k (u ++ [m]) v n R1 Lk) as (R2 & Nm); [now rewrite <- app_assoc|exact Fn|].
    rewrite last_last in *. rewrite E2 in ND'. destruct (nodup_mid _ _ _ ND') as (Nu & Nv & _).
    assert (Nln : last l1 k <> n).
    { intros Q. pose proof (last_in l1 k) as [Q2|Q2]; rewrite Q in Q2; [|tauto]. subst k.
      apply (r_in _ _ R n n) in Lk as Q3; [|rewrite E; exact M]. apply (r_live _ _ R) in Lk. intuition congruence. }
    eapply SRel_ext; [eapply (SRel_heap _ _ _ R2)|..]; cbn; auto.
    + intros z. unfold set_next, fupd. cbn.
      repeat (match goal with |- context [?u =? ?v] => destruct (Nat.eqb_spec u v) end; subst; cbn; auto; try congruence).
    + intros z. unfold set_next, fupd. cbn.
      repeat (match goal with |- context [?u =? ?v] => destruct (Nat.eqb_spec u v) end; subst; cbn; auto; try congruence).
    + intros j. rewrite without_mid, E2, after_mid, <- app_assoc by auto. cbn. unfold fupd. destruct (Nat.eqb_spec j k); auto.
    + intros x. unfold fupd. destruct (Nat.eqb_spec x n); auto. subst. apply (r_in _ _ R k); auto. rewrite E. exact M.
  - (* Reverse *)
    pose proof (r_live _ _ R k Hp) as Hk. pose proof (clear_rel _ _ k R Hk) as R1. cbn [s_heap s_fresh] in R1.
    unfold s_reverse. pose proof (SRel_nodup _ _ k R Hp) as ND.
    destruct (reverse_rel k (qseq a k) f (s_clear h k) f _ [] R1) with (p := snext (h k)) as (h' & fr' & E1 & R2 & F2); cbn.
    + apply fupd_same.
    + pose proof (Len k Hp). lia.
    + apply fupd_same.
    + inversion ND; auto.
    + intros y Hy. rewrite Hp. apply orb_true_iff. right. now apply member_In.
    + unfold s_clear. apply seg_ext with (h := h); [|exact (r_seg _ _ R k Hp)].
      intros y Hy. apply set_next_other. intros ->. inversion ND; auto.
    + rewrite E1. cbn [bind]. eexists. split; [reflexivity|]. eapply SRel_ext; [exact R2|..]; cbn; auto.
      * intros j. rewrite app_nil_r. unfold fupd. destruct (Nat.eqb_spec j k); auto.
      * intros x. rewrite F2. cbn [swant fst qfree]. rewrite Hp. cbn [andb]. destruct (member x (qseq a k)) eqn:Mx; cbn.
        -- rewrite andb_false_r. apply member_In in Mx. apply (r_in _ _ R k); auto.
        -- destruct (qfree a x); reflexivity.
      * intros j. unfold fupd. destruct (Nat.eqb_spec j k); subst; auto.
  - (* Clear *)
    pose proof (clear_rel _ _ k R Hp) as R1. eexists. split; [reflexivity|]. exact R1.
  - (* PushFrontList *)
    destruct Hp as (Lk & Lj & N). unfold s_push_front_list. rewrite (Hd j Lj).
    destruct (qseq a j) as [|x t] eqn:E; cbn [hd_error s_tail bind]; [apply Same|].
    pose proof (r_seg _ _ R j Lj) as Hs. rewrite E in Hs. cbn in Hs. destruct Hs as (Hj & Hs).
    pose proof (Len j Lj) as Hl. rewrite E in Hl. cbn in Hl.
    rewrite (tail_loop_ok h t) by (auto; lia). cbn [bind].
    pose proof (splice_rel _ _ k j x t R Lk Lj N E) as R1. cbn [s_heap s_fresh swant] in R1. rewrite E in R1.
    eexists. split; [|exact R1]. do 4 f_equal. rewrite set_next_other, (Hd j Lj), E; auto.
    intros K. pose proof (last_in t x) as Q. rewrite <- K, <- E in Q. apply (r_in _ _ R) in Q; auto.
    apply (r_live _ _ R) in Lj. intuition congruence.
  - (* Sort *)
    destruct Hp as (Lk & Hl). unfold s_sort. rewrite (Hd k Lk).
    pose proof (r_seg _ _ R k Lk) as Hs. cbn [s_heap] in Hs. unfold heads in Hs.
    assert (E : stable_sort (qval a) (qseq a k) = qseq a k) by (destruct (qseq a k) as [|x [|y t]]; cbn in *; auto; lia).
    rewrite E. assert (R1 : SRel (SWorld h f) (sput a k (qseq a k) (qfree a))).
    { eapply SRel_ext; [exact R|..]; cbn; auto. intros j. unfold fupd. destruct (Nat.eqb_spec j k); subst; auto. }
    destruct (qseq a k) as [|x [|y t]]; cbn in *; [| |lia].
    + eexists. split; [reflexivity|auto].
    + destruct Hs as (_ & ->). eexists. split; [reflexivity|auto].
  - (* Front *) unfold s_front. rewrite (Hd k Hp). apply Same.
  - (* Empty *) unfold s_empty. rewrite (Hd k Hp). destruct (qseq a k); apply Same.
  - (* Len *) unfold s_len, s_visitor. rewrite (Hd k Hp). destruct f, (hd_error (qseq a k)); cbn; apply Same.
  - (* Visit *) unfold s_visitor. rewrite (Hd k Hp). destruct f, (hd_error (qseq a k)); cbn; apply Same.
  - (* IsValid *)
    unfold s_is_valid. rewrite (Hd k Hp). destruct n as [n|].
    + destruct (qseq a k) as [|x t]; cbn; [apply Same|].
      destruct (Nat.eqb_spec x n); [apply Same|]. destruct f; cbn; rewrite Nat.eqb_refl; cbn; apply Same.
    + destruct (qseq a k); cbn; apply Same.
  - (* Tail *)
    destruct Hp as (Lk & Hn). destruct (in_split _ _ Hn) as (l1 & l2 & E). pose proof (r_seg _ _ R k Lk) as Hs.
    pose proof (Len k Lk) as Hl. pose proof (r_nodup _ _ R k Lk) as ND. rewrite E in *. apply pred_next in Hs. destruct Hs as (_ & Hs).
    rewrite app_length in Hl. cbn in Hl, Hs. destruct (nodup_mid _ _ _ ND) as (N1 & N2 & _).
    cbn [s_tail]. rewrite (tail_loop_ok h l2) by (auto; lia). cbn [bind]. rewrite from_mid by auto. cbn [length].
    replace (last_node (l1 ++ n :: l2)) with (Some (last l2 n)); [apply Same|].
    destruct l2 as [|y l2 _] using rev_ind; [cbn; now rewrite last_hd_rev|].
    rewrite last_last. change (l1 ++ n :: l2 ++ [y]) with (l1 ++ (n :: l2) ++ [y]). rewrite app_assoc. now rewrite last_hd_rev.
  - (* Get *) rewrite (r_val _ _ R). apply Same.
  - (* Set *)
    eexists. split; [rewrite (r_val _ _ R); reflexivity|]. cbn [fst]. constructor; cbn; try apply R; auto.
    + intros x. unfold fupd. destruct (Nat.eqb_spec x n); auto. apply (r_val _ _ R).
    + intros k Lk. unfold heads.
      assert (K : forall y, snext (fupd h n (SNode v (snext (h n))) y) = snext (h y)).
      { intros y. unfold fupd. destruct (Nat.eqb_spec y n); subst; auto. }
      rewrite K. apply seg_ext with (h := h); [auto|apply (r_seg _ _ R); auto].
  - (* Walk *)
    unfold s_front. rewrite (walk_loop_ok h (qseq a k)); [apply Same|pose proof (Len k Hp); lia|exact (r_seg _ _ R k Hp)].
  - (* Values *)
    unfold s_front. rewrite (walk_loop_ok h (qseq a k)); [|pose proof (Len k Hp); lia|exact (r_seg _ _ R k Hp)].
    cbn [bind]. rewrite (map_ext _ _ (r_val _ _ R)). apply Same.
Qed.

Lemma srun_exact ops : forall w a, SRel w a -> run_meets sexact spre a ops ->
  exists w', run_ops sstep w ops = Ok (w', snd (spec_ops sexact a ops)) /\ SRel w' (fst (spec_ops sexact a ops)).
Proof.
  induction ops as [|op ops IH]; intros w a R H; cbn in *; [eauto|].
  destruct H as (Hp & H). destruct (sstep_ok w a op R Hp) as (w1 & -> & R1). cbn.
  destruct (sexact a op) as [a1 o]. cbn in *. destruct (IH w1 a1 R1 H) as (w2 & -> & R2). cbn.
  destruct (spec_ops sexact a1 ops). cbn in *. eauto.
Qed.

Lemma swant_exact a op : spre a op -> sregular a op -> swant a op = sexact a op.
Proof.
  intros Hp Hr. destruct op; cbn in *; auto; try tauto; try (now rewrite Hr).
  destruct n as [n|]; auto. change (existsb (Nat.eqb n)) with (member n) in *. destruct Hr as [K|K]; rewrite K.
  - destruct (qseq a k); cbn in *; [discriminate|]. rewrite Nat.eqb_sym in K. now rewrite K.
  - destruct (qseq a k); cbn in *; auto. apply orb_false_iff in K. rewrite Nat.eqb_sym. now destruct K as (-> & _).
Qed.
