(** The list with a tail pointer refines its specification, for all histories. *)
From Coq Require Import ZArith List Bool Arith Lia.
From Verif Require Import GoBase GoLists ConcBase ListSpec SListModel SListSpec SListProofs SListRefine TailModel TailSpec.
Import ListNotations.
Open Scope nat_scope.

Definition TRel (w : tworld) (s : tabs) : Prop := SRel (t_base w) (tq s) /\ forall k, t_tail w k = tback s k.

(** ** The loops *)
Lemma pred_of_skip n p q x l : x <> n -> pred_of n p (x :: l) = pred_of n q (x :: l).
Proof. intros H. cbn. now destruct (Nat.eqb_spec x n). Qed.

Lemma t_mf_ok h T k n l : forall fuel p d, length l <= fuel -> seg h p l None -> NoDup l ->
  t_move_front_loop fuel h T k p n =
  (' (h', r) <- move_front_loop fuel h k p n ;;
   Ok (h', match r with Some _ => if_tail T k n (pred_of n d l) | None => T end, r)).
Proof.
  induction l as [|y t IH]; intros fuel p d Hf Hs ND; cbn in Hs.
  - subst. destruct fuel; reflexivity.
  - destruct Hs as (-> & Hs). inversion ND as [|? ? Ny NDt]; subst. destruct fuel; cbn in Hf; [lia|].
    cbn [t_move_front_loop move_front_loop]. destruct (sp_eq (snext (h y)) (Some n)) eqn:E.
    + cbn [bind]. destruct t as [|z t]; cbn in Hs; [rewrite Hs in E; discriminate|]. destruct Hs as (Hs & _). rewrite Hs in E.
      cbn in E. apply Nat.eqb_eq in E. subst z. cbn. destruct (Nat.eqb_spec y n); [subst; cbn in Ny; tauto|].
      now rewrite Nat.eqb_refl.
    + rewrite (IH fuel (snext (h y)) y) by (auto; lia). cbn [pred_of].
      destruct (Nat.eqb_spec y n) as [->|N]; [|reflexivity].
      rewrite (move_front_loop_none h k t) by (auto; try lia; destruct t; cbn in *; tauto). reflexivity.
Qed.
Lemma t_ma_ok h T k n m l : forall fuel x, length l < fuel -> seg h (snext (h x)) l None -> 
  t_move_after_loop fuel h T k (Some x) n m =
  (' (h', r) <- move_after_loop fuel h (Some x) n m ;;
   Ok (h', match r with Some _ => if_tail T k n (pred_of n x l) | None => T end, r)).
Proof.
  induction l as [|y t IH]; intros fuel x Hf Hs; cbn in Hs; (destruct fuel; cbn in Hf; [lia|]);
    cbn [t_move_after_loop move_after_loop].
  - rewrite Hs. cbn. destruct fuel; reflexivity.
  - destruct Hs as (E & Hs). rewrite E. cbn [sp_eq pred_of]. destruct (Nat.eqb_spec y n).
    + destruct (x =? m); reflexivity.
    + apply IH; auto; lia.
Qed.
Lemma t_mb_none h T k l : forall fuel p n, length l <= fuel -> seg h p l None -> ~ In n (tl l) ->
  t_move_back_loop fuel h T k p n = Ok (h, T, None).
Proof.
  induction l as [|y t IH]; intros fuel p n Hf H Hn; cbn in H.
  - subst. destruct fuel; reflexivity.
  - destruct H as (-> & H). destruct fuel; cbn in Hf; [lia|]. cbn [t_move_back_loop].
    destruct t as [|z t]; cbn in *.
    + rewrite H. cbn. destruct fuel; reflexivity.
    + destruct H as (E & H). rewrite E. cbn. destruct (Nat.eqb_spec z n); [tauto|].
      apply IH; [lia| |tauto]. auto.
Qed.
Lemma t_mb_some h T k t l1 y n l2 : T k = Some t -> forall fuel p, length l1 <= fuel -> seg h p (l1 ++ y :: n :: l2) None ->
  ~ In n (l1 ++ [y]) ->
  t_move_back_loop fuel h T k p n =
    Ok (set_next (set_next (set_next h y (snext (h n))) n None) t (Some n), fupd T k (Some n), Some n).
Proof.
  intros ET. induction l1 as [|z u IH]; intros fuel p Hf H Hn; cbn in H.
  - destruct H as (-> & E & H). destruct fuel; cbn [t_move_back_loop]; rewrite E; cbn [sp_eq]; rewrite Nat.eqb_refl, ET; reflexivity.
  - destruct H as (-> & H). destruct fuel; cbn in Hf; [lia|]. cbn [t_move_back_loop].
    assert (K : sp_eq (snext (h z)) (Some n) = false).
    { destruct u as [|u0 u]; cbn in H, Hn; destruct H as (-> & H); cbn; apply Nat.eqb_neq; intros ->; tauto. }
    rewrite K. apply IH; auto; [lia|]. cbn in Hn. tauto.
Qed.

(** ** Appending a list *)
Lemma last_next w a k : SRel w a -> qlive a k = true -> snext (s_heap w (last (qseq a k) k)) = None.
Proof.
  intros R L. pose proof (r_seg _ _ R k L) as H. unfold heads in H. destruct (qseq a k) as [|x l _] using rev_ind; [exact H|].
  rewrite last_last. apply seg_snoc in H. tauto.
Qed.
Lemma last_node_nil l : last_node l = None -> l = [].
Proof.
  destruct l as [|x l _] using rev_ind; auto. rewrite last_hd_rev. discriminate.
Qed.
Lemma last_node_some l t d : last_node l = Some t -> last l d = t.
Proof.
  destruct l as [|x l _] using rev_ind; [discriminate|]. rewrite last_hd_rev, last_last. congruence.
Qed.
(** The node the code writes through: the tail, or the dummy of an empty list. *)
Lemma write_at (h : sheap) l k q : match last_node l with Some t => set_next h t q | None => set_next h k q end = set_next h (last l k) q.
Proof.
  destruct (last_node l) eqn:E; [now rewrite (last_node_some _ _ k E)|]. now rewrite (last_node_nil _ E).
Qed.

Lemma append_rel w a k j : SRel w a -> qlive a k = true -> qlive a j = true -> k <> j ->
  SRel (SWorld (s_clear (set_next (s_heap w) (last (qseq a k) k) (snext (s_heap w j))) j) (s_fresh w))
       (fst (twant a (TPushBackList k j))).
Proof.
  intros R Lk Lj Nkj.
  pose proof (SRel_kill w a j R Lj) as R1.
  set (h1 := set_next (s_heap w) (last (qseq a k) k) (snext (s_heap w j))).
  set (a1 := SAbs _ _ _ _ _ _) in R1.
  assert (Lk1 : qlive a1 k = true) by (cbn; rewrite fupd_other; auto).
  assert (HD : forall y, In y (qseq a j) -> ~ In y (qseq a k)) by (intros y; apply (r_disj _ _ R j k); auto).
  assert (NDk := SRel_nodup w a k R Lk). assert (NDj := r_nodup _ _ R j Lj).
  assert (Hlast : In (last (qseq a k) k) (k :: qseq a k)) by (pose proof (last_in (qseq a k) k) as [K|K]; cbn; auto).
  assert (Nj : forall y, In y (k :: qseq a k) -> ~ In y (qseq a j)).
  { intros y [<-|Hy] K; [|eapply HD; eauto]. apply (r_in _ _ R) in K; auto. apply (r_live _ _ R) in Lk. intuition congruence. }
  assert (R2 : SRel (SWorld h1 (qfresh a1)) (SAbs (fupd (qseq a1) k (qseq a k ++ qseq a j)) (qval a) (qfree a) (qlive a1) (qhead a1) (qfresh a1))).
  { apply SRel_put with (w := w); auto.
    - intros y H1 H2 H3 H4. cbn in H2. unfold h1. apply set_next_other. intros ->. destruct Hlast as [K|K]; [congruence|tauto].
    - unfold h1. vals R.
    - assert (Hj : seg h1 (snext (s_heap w j)) (qseq a j) None).
      { apply seg_ext with (h := s_heap w); [|apply (r_seg _ _ R); auto].
        intros y Hy. unfold h1. apply set_next_other. intros ->. eapply Nj; eauto. }
      assert (Hk := r_seg _ _ R k Lk). unfold heads in *.
      assert (HH : forall y, y <> last (qseq a k) k -> snext (h1 y) = snext (s_heap w y)) by (intros; now apply set_next_other).
      assert (HL : snext (h1 (last (qseq a k) k)) = snext (s_heap w j)) by apply set_next_same.
      clearbody h1. destruct (qseq a k) as [|z t _] using rev_ind.
      + cbn in *. rewrite HL. exact Hj.
      + rewrite last_last in *. rewrite HH.
        2:{ inversion NDk as [|? ? K1 K2]. intros ->. apply K1, in_or_app. cbn. auto. }
        apply seg_app. exists (snext (s_heap w j)). split; [|exact Hj].
        apply seg_snoc. split; [|exact HL]. apply seg_snoc in Hk. destruct Hk as (Hk & _).
        apply seg_ext with (h := s_heap w); auto. intros y Hy. apply HH. intros ->. inversion NDk as [|? ? K1 K2]; subst.
        apply nodup_mid in K2. tauto.
    - inversion NDk as [|? ? K1 K2]; subst. clear - K2 NDj HD. induction (qseq a k) as [|z t IH]; cbn; auto.
      inversion K2; subst. constructor.
      + rewrite in_app_iff. intros [K|K]; auto. eapply HD; [exact K|cbn; auto].
      + apply IH; auto. intros y Hy K. eapply HD; [exact Hy|cbn; auto].
    - intros y Hy. apply in_app_iff in Hy. destruct Hy as [Hy|Hy]; auto. right. left. cbn. apply orb_true_iff. right. now apply member_In.
    - intros y Hy. apply in_app_iff in Hy. destruct Hy as [Hy|Hy]; [apply (r_in _ _ R k); auto|apply (r_in _ _ R j); auto].
    - intros y Hy. left. cbn. now rewrite Hy. }
  assert (Hj : qhead a j = true) by (apply (r_live _ _ R); auto).
  pose proof (clear_rel _ _ j R2 Hj) as R3. cbn [s_heap s_fresh] in R3. rewrite (r_fresh _ _ R). 
  eapply SRel_ext; [exact R3|..]; cbn; auto.
  - intros x. rewrite fupd_same. cbn. now rewrite orb_false_r.
  - intros i. unfold fupd. destruct (Nat.eqb_spec i j); subst; auto.
Qed.

(** ** One call *)
Lemma if_tail_fupd T k n b i : if_tail T k n b i = (if is_back (T k) n then fupd T k (Some b) else T) i.
Proof. unfold if_tail, is_back, sp_eq. destruct (T k); auto. Qed.
Lemma if_nil_fupd T k n i : if_nil T k n i = fupd T k (behind (T k) n) i.
Proof. unfold if_nil, behind, fupd. destruct (T k) eqn:E; destruct (Nat.eqb_spec i k); subst; auto. Qed.

Lemma base_step w s o : TRel w s -> spre (tq s) o ->
  exists b, sstep (t_base w) o = Ok (b, snd (sexact (tq s) o)) /\ SRel b (fst (sexact (tq s) o)) .
Proof. intros (R & _) H. exact (sstep_ok _ _ o R H). Qed.

Lemma is_last_spec n l : is_last n l = true <-> last_node l = Some n.
Proof.
  unfold is_last, last_node. destruct (rev l); cbn; [split; discriminate|]. rewrite Nat.eqb_eq. split; congruence.
Qed.

Lemma tstep_ok w s op : TRel w s -> tsafe s op ->
  exists w', tstep w op = Ok (w', snd (texact s op)) /\ TRel w' (fst (texact s op)).
Proof.
  intros RR (Hp & Ht). assert (RR' := RR). destruct RR' as (R & HT).
  assert (Base : forall o T', spre (tq s) o -> (forall i, T' i = tback s i) ->
     exists w', (' (b, o) <- sstep (t_base w) o ;; Ok (TWorld b T', o)) = Ok (w', snd (sexact (tq s) o)) /\
                TRel w' (TAbs (fst (sexact (tq s) o)) (tback s))).
  { intros o T' H HT'. destruct (base_step w s o RR H) as (b & E & Rb). rewrite E. cbn [bind].
    eexists. split; [reflexivity|]. split; auto. }
  assert (Len : forall k, qlive (tq s) k = true -> length (qseq (tq s) k) < s_fresh (t_base w)).
  { intros k L. rewrite (r_fresh _ _ R). apply (SRel_len _ _ k R L). }
  destruct op as [o|k|k|k v|k j|k n]; cbn [tpre] in Hp.
  - destruct o; cbn [tstep]; try exact (Base _ _ Hp HT).
    + (* New *)
      destruct (base_step w s _ RR Hp) as (b & E & Rb). rewrite E. cbn [bind]. eexists. split; [reflexivity|].
      split; [exact Rb|]. cbn [t_tail texact fst tback]. intros i. rewrite (r_fresh _ _ R). unfold fupd. destruct (i =? _); auto.
    + (* PushFront *)
      destruct (base_step w s _ RR Hp) as (b & E & Rb). rewrite E. cbn [bind]. eexists. split; [reflexivity|].
      split; [exact Rb|]. cbn [t_tail texact fst tback]. intros i. rewrite if_nil_fupd, (r_fresh _ _ R), HT. unfold fupd. destruct (i =? _); auto.
    + (* MoveFront *)
      destruct n as [n|]; cbn [t_move_front bind].
      2:{ eexists. split; [reflexivity|]. split; auto. cbn. destruct w as [[] ?]; auto. }
      destruct (base_step w s _ RR Hp) as (b & E & Rb). cbn [sstep s_move_front] in E. cbn [spre] in Hp.
      rewrite (t_mf_ok _ _ _ _ (qseq (tq s) k) _ _ k); [|pose proof (Len k Hp); lia|exact (r_seg _ _ R k Hp)|apply (r_nodup _ _ R); auto].
      destruct (move_front_loop _ _ _ _ _) as [[h' r]| |] eqn:El; cbn [bind] in E |- *; try discriminate.
      injection E as Eb Eo. rewrite Eo. eexists. split; [reflexivity|]. split; [cbn; now rewrite Eb|].
      cbn [t_tail texact fst tback]. cbn [sexact swant] in Eo.
      destruct (member n (qseq (tq s) k) && negb (is_first n (qseq (tq s) k))); cbn [snd andb] in Eo |- *; injection Eo as ->.
      * intros i. rewrite if_tail_fupd, HT. destruct (is_back _ _); unfold fupd; auto. destruct (i =? k); auto.
      * auto.
    + (* MoveAfter *)
      destruct n as [n|]; cbn [t_move_after bind].
      2:{ eexists. split; [reflexivity|]. split; auto. cbn. destruct w as [[] ?]; auto. }
      destruct m as [m|]; cbn [t_move_after bind].
      2:{ eexists. split; [reflexivity|]. split; auto. cbn. destruct w as [[] ?]; auto. }
      destruct (base_step w s _ RR Hp) as (b & E & Rb). cbn [sstep s_move_after] in E. cbn [spre] in Hp. destruct Hp as (Lk & Hm).
      cbn [texact fst snd]. cbn [sexact swant] in E, Rb |- *. 
      destruct (Nat.eqb_spec n m) as [->|Nnm].
      { cbn [negb] in *. rewrite andb_false_r in *. cbn [andb bind fst snd] in *. eexists. split; [reflexivity|]. split; auto.
        cbn. destruct w as [[] ?]; auto. }
      cbn [negb] in *. rewrite andb_true_r in *.
      rewrite (t_ma_ok _ _ _ _ _ (qseq (tq s) k)); [|pose proof (Len k Lk); lia|exact (r_seg _ _ R k Lk)].
      destruct (move_after_loop _ _ _ _ _) as [[h' r]| |] eqn:El; cbn [bind] in E |- *; try discriminate.
      injection E as Eb Eo. rewrite Eo. eexists. split; [reflexivity|]. split; [cbn; now rewrite Eb|].
      cbn [t_tail tback].
      destruct (member n (qseq (tq s) k) && negb (is_first n (tl (from m (qseq (tq s) k))))); cbn [snd andb] in Eo |- *; injection Eo as ->.
      * intros i. rewrite if_tail_fupd, HT. destruct (is_back _ _); unfold fupd; auto. destruct (i =? k); auto.
      * auto.
    + (* Reverse *)
      destruct (base_step w s _ RR Hp) as (b & E & Rb). cbn [sstep] in E. unfold s_reverse in E. cbn zeta in E.
      destruct (reverse_loop _ _ _ _) as [h'| |] eqn:El; cbn [bind] in E |- *; try discriminate. injection E as Eb.
      eexists. split; [reflexivity|]. split; [cbn; now rewrite Eb|]. cbn [t_tail texact fst tback].
      intros i. cbn [spre] in Hp. rewrite (front_hd _ _ k R Hp). unfold fupd. destruct (i =? k); auto.
    + (* Clear *)
      destruct (base_step w s _ RR Hp) as (b & E & Rb). cbn [sstep] in E. injection E as Eb.
      eexists. split; [reflexivity|]. split; [cbn; now rewrite Eb|]. cbn [t_tail texact fst tback].
      intros i. unfold fupd. destruct (i =? k); auto.
    + (* PushFrontList *)
      destruct (base_step w s _ RR Hp) as (b & E & Rb). cbn [sstep] in E. destruct Hp as (Lk & Lj & N).
      unfold t_push_front_list. unfold s_push_front_list in E. rewrite HT. unfold ttrue in Ht. rewrite Ht.
      pose proof (r_seg _ _ R j Lj) as Hs. unfold heads in Hs.
      destruct (qseq (tq s) j) as [|x t] eqn:Eq.
      * cbn in Hs. rewrite Hs in E. cbn in E. injection E as Eb Eo. cbn. rewrite Eq. eexists. split; [reflexivity|].
        split; [cbn|].
        { cbn in Rb. rewrite Eq in Rb. destruct w as [[] ?]; cbn; auto. }
        { cbn [t_tail texact fst tback]. intros i. rewrite Ht. cbn. rewrite HT. unfold behind, fupd. destruct (Nat.eqb_spec i k); auto.
          subst. destruct (tback s k); auto. }
      * cbn in Hs. destruct Hs as (Hj & Hs). rewrite Hj in E. cbn [s_tail] in E.
        pose proof (Len j Lj) as Hl. rewrite Eq in Hl. cbn in Hl.
        rewrite (tail_loop_ok _ t) in E by (auto; lia). cbn [bind] in E. injection E as Eb Eo.
        rewrite last_node_last. eexists. split; [cbn [texact sexact swant]; rewrite Eq; reflexivity|]. split.
        { cbn [t_base tq texact fst]. cbn [sexact] in *. rewrite Eb. exact Rb. }
        { cbn [t_tail texact fst tback]. intros i. rewrite if_nil_fupd, HT, Ht, last_node_last. unfold fupd. destruct (i =? k); auto. }
    + (* Sort *)
      destruct (base_step w s _ RR Hp) as (b & E & Rb). cbn [sstep] in E. cbn [spre] in Hp. destruct Hp as (Lk & Hl).
      unfold t_sort. destruct (s_sort _ _ _ _) as [h'| |] eqn:Es; cbn [bind] in E |- *; try discriminate. injection E as Eb.
      pose proof (r_seg _ _ R k Lk) as Hs. unfold heads in Hs. destruct (qseq (tq s) k) as [|x [|y t]] eqn:Eq; cbn in Hs.
      * rewrite Hs. cbn [bind]. eexists. split; [reflexivity|]. split; [cbn; now rewrite Eb|]. exact HT.
      * destruct Hs as (-> & ->). cbn [bind]. eexists. split; [reflexivity|]. split; [cbn; now rewrite Eb|]. exact HT.
      * cbn in Hl. lia.
  - (* Back *) cbn. rewrite HT. eauto.
  - (* PopBack *)
    cbn [tstep]. rewrite HT. cbn [texact]. destruct (tback s k) as [n|]; cbn [s_remove bind].
    2:{ eexists. split; [reflexivity|]. split; auto. cbn. destruct w as [[] ?]; auto. }
    destruct (remove_step _ _ k n R Hp) as (h' & E & R1). rewrite E. cbn [bind]. destruct (member n (qseq (tq s) k)).
    + cbn [fst snd]. rewrite <- (r_val _ _ R1 n : sval (h' n) = qval (tq s) n). eexists. split; [reflexivity|split; [exact R1|exact HT]].
    + eexists. split; [reflexivity|]. split; auto.
  - (* PushBack *)
    cbn [tstep]. unfold t_push_back, ttrue in *. rewrite HT, Ht, write_at. cbn [texact fst snd twant].
    destruct (insert_new_rel _ _ k (qseq (tq s) k) [] v R Hp (eq_sym (app_nil_r _))) as (R1 & _).
    rewrite (last_next _ _ k R Hp) in R1. rewrite (r_fresh _ _ R) in *.
    eexists. split; [reflexivity|]. split; [exact R1|]. intros i. cbn [t_tail tback]. unfold fupd. destruct (i =? k); auto.
  - (* PushBackList *)
    destruct Hp as (Lk & Lj & N), Ht as (Tk & Tj). cbn [tstep]. unfold t_push_back_list, ttrue in *. rewrite !HT.
    cbn [texact]. destruct (tback s j) as [t|] eqn:Ej.
    2:{ eexists. split; [reflexivity|]. split; auto. cbn. destruct w as [[] ?]; auto. }
    rewrite Tk, write_at. eexists. split; [reflexivity|]. split; [exact (append_rel _ _ k j R Lk Lj N)|].
    intros i. cbn [t_tail tback fst]. unfold fupd. destruct (i =? j), (i =? k); auto.
  - (* MoveBack *)
    cbn [tstep]. unfold ttrue in Ht. destruct n as [n|]; cbn [t_move_back bind texact].
    2:{ eexists. split; [reflexivity|]. split; auto. cbn. destruct w as [[] ?]; auto. }
    assert (Same : exists w', Ok (TWorld (SWorld (s_heap (t_base w)) (s_fresh (t_base w))) (t_tail w), SoNode None) = Ok (w', SoNode None) /\ TRel w' s).
    { eexists. split; [reflexivity|]. split; auto. cbn. destruct w as [[] ?]; auto. }
    pose proof (r_seg _ _ R k Hp) as Hs. pose proof (r_nodup _ _ R k Hp) as ND. pose proof (Len k Hp) as Hl.
    destruct (member n (qseq (tq s) k) && negb (is_first n (qseq (tq s) k)) && negb (is_last n (qseq (tq s) k))) eqn:M.
    + apply andb_true_iff in M. destruct M as (M & M3). apply andb_true_iff in M. destruct M as (M & M2).
      pose proof M as Mm. apply member_In in M. destruct (in_split _ _ M) as (l1 & l2 & E).
      destruct (last_node (qseq (tq s) k)) as [t|] eqn:El; [|apply last_node_nil in El; rewrite El in M; destruct M].
      pose proof (take_rel _ _ k _ n l2 R Hp E) as R1.
      assert (Fn : qfree (stake (tq s) k (Some n)) n = true) by (cbn; apply fupd_same).
      assert (Es : qseq (stake (tq s) k (Some n)) k = without n (qseq (tq s) k)) by (cbn; apply fupd_same).
      destruct (insert_free_rel _ _ k (without n (qseq (tq s) k)) [] n R1 Hp) as (R2 & Nk); [rewrite Es; now rewrite app_nil_r|exact Fn|].
      rewrite E in ND, Hs, Hl, El, M2, M3. destruct (nodup_mid _ _ _ ND) as (N1 & N2 & ND').
      assert (Ew : without n (qseq (tq s) k) = l1 ++ l2) by (rewrite E; apply without_mid; auto).
      destruct l1 as [|y l1 _] using rev_ind; [cbn in M2; rewrite Nat.eqb_refl in M2; discriminate|].
      destruct l2 as [|z l2 _] using rev_ind.
      { apply negb_true_iff in M3. unfold is_last in M3. rewrite rev_app_distr in M3. cbn in M3. rewrite Nat.eqb_refl in M3. discriminate. }
      assert (z = t) as ->.
      { assert (K : last_node (((l1 ++ [y]) ++ n :: l2) ++ [z]) = Some t) by (rewrite <- El; f_equal; now rewrite <- !app_assoc).
        rewrite last_hd_rev in K. congruence. }
      assert (Hlast : last (without n (qseq (tq s) k)) k = t) by (rewrite Ew, app_assoc; apply last_last).
      assert (Hnn : snext (s_heap (t_base w) n) <> None).
      { apply pred_next in Hs. destruct Hs as (_ & K). destruct l2; cbn in K; destruct K as (K & _); rewrite K; discriminate. }
      assert (Ntn : t <> n) by (intros ->; apply N2, in_or_app; cbn; auto).
      assert (Nty : t <> y) by (intros ->; eapply nodup_app_disj; [exact ND'|apply in_or_app; right; left; reflexivity|apply in_or_app; right; left; reflexivity]).
      destruct (snext (s_heap (t_base w) n)) as [nn|] eqn:En; [clear Hnn|congruence].
      pose proof Hs as Hs2. unfold heads in Hs2. rewrite <- app_assoc in Hs2. cbn in Hs2.
      rewrite (t_mb_some _ _ k t l1 y n (l2 ++ [t])); [|now rewrite HT, Ht|rewrite !app_length in Hl; cbn in Hl; lia|exact Hs2|exact N1].
      cbn [bind fst snd]. cbn [twant]. rewrite Mm. apply negb_true_iff in M3.
      assert (M4 : is_last n (qseq (tq s) k) = false) by (now rewrite E). rewrite M4. cbn [negb andb fst snd].
      eexists. split; [reflexivity|]. split.
      2:{ intros i. cbn [t_tail tback]. unfold fupd. destruct (i =? k); auto. }
      cbn [t_base tq].
      assert (Ht0 : snext (s_heap (t_base w) t) = None).
      { assert (K := last_next _ _ k R Hp). rewrite E in K. rewrite (last_node_some _ _ k El) in K. exact K. }
      eapply SRel_ext; [eapply (SRel_heap _ _ _ R2)|..]; cbn [s_heap s_fresh]; rewrite ?Hlast, ?last_last, ?En.
      * intros x. unfold set_next, fupd. cbn.
        repeat (match goal with |- context [?u =? ?v] => destruct (Nat.eqb_spec u v) end; subst; cbn; auto; try congruence).
      * intros x. unfold set_next, fupd. cbn.
        repeat (match goal with |- context [?u =? ?v] => destruct (Nat.eqb_spec u v) end; subst; cbn; auto; try congruence).
      * intros i. cbn. unfold fupd. destruct (Nat.eqb_spec i k); auto.
      * reflexivity.
      * intros x. cbn. unfold fupd. destruct (Nat.eqb_spec x n); auto. subst. apply (r_in _ _ R k); auto.
      * reflexivity.
      * reflexivity.
      * reflexivity.
    + destruct (snext (s_heap (t_base w) n)) as [nn|] eqn:En; [|apply Same].
      rewrite (t_mb_none _ _ k (qseq (tq s) k)); [apply Same|lia|exact Hs|].
      intros K. assert (Kin : In n (qseq (tq s) k)) by (destruct (qseq (tq s) k); cbn in *; tauto).
      apply andb_false_iff in M. destruct M as [M|M].
      * apply andb_false_iff in M. destruct M as [M|M]; [apply member_notin in M; tauto|].
        apply negb_false_iff in M. destruct (qseq (tq s) k); cbn in *; [discriminate|]. apply Nat.eqb_eq in M. subst. inversion ND; auto.
      * apply negb_false_iff, is_last_spec in M. assert (Q := last_next _ _ k R Hp). rewrite (last_node_some _ _ k M) in Q. congruence.
Qed.

Lemma TRel0 : TRel tworld0 tabs0.
Proof. split; [exact SRel0|reflexivity]. Qed.
Lemma trun_exact ops : forall w s, TRel w s -> run_meets texact tsafe s ops ->
  exists w', run_ops tstep w ops = Ok (w', snd (spec_ops texact s ops)) /\ TRel w' (fst (spec_ops texact s ops)).
Proof.
  induction ops as [|op ops IH]; intros w a R H; cbn in *; [eauto|].
  destruct H as (Hp & H). destruct (tstep_ok w a op R Hp) as (w1 & -> & R1). cbn.
  destruct (texact a op) as [a1 o]. cbn in *. destruct (IH w1 a1 R1 H) as (w2 & -> & R2). cbn.
  destruct (spec_ops texact a1 ops). cbn in *. eauto.
Qed.
