(** Proofs about the lock-free queue. *)
From Coq Require Import ZArith List Bool Arith Lia Permutation.
From Verif Require Import GoBase ConcBase SListModel SListProofs LFQModel LFQSpec.
Import ListNotations.
Open Scope nat_scope.

Definition priv (pc : lq_pc) : option nat := match pc with PcPushLoad _ n | PcPushCas _ n => Some n | _ => None end.
Definition held (pc : lq_pc) : option nat := match pc with PcPopNext n | PcPopCas n _ | PcPopVal n => Some n | _ => None end.

(** What a place means: the status of the call, and what is known of the node
    in hand. *)
Definition tok (h : sheap) (pc : lq_pc) (x : @tstat lq_op lq_res) : Prop :=
  match pc with
  | PcIdle => x = TIdle
  | PcPushLoad v n | PcPushCas v n => x = TPend (QPush v) /\ sval (h n) = v
  | PcPopLoad | PcPopNext _ => x = TPend QPop
  | PcPopCas n nx => x = TPend QPop /\ snext (h n) = nx
  | PcPopVal n => x = TDone QPop (RVal (sval (h n)) true)
  | PcAdd op r _ | PcRet op r => x = TDone op r
  | PcClear => x = TPend QClear
  | PcSize => x = TPend QSize
  | PcEmpty => x = TPend QEmpty
  end.

Record lq_threads (h : sheap) (fr : nat) (pcs : nat -> lq_pc) (st : nat -> @tstat lq_op lq_res) : Prop := {
  lt_priv : forall t n, priv (pcs t) = Some n -> n < fr;
  lt_uniq : forall t u n, priv (pcs t) = Some n -> priv (pcs u) = Some n -> t = u;
  lt_held : forall t u n, held (pcs t) = Some n -> n < fr /\ priv (pcs u) <> Some n;
  lt_tok : forall t, tok h (pcs t) (st t) }.

Definition lq_list (h : sheap) (fr : nat) (pcs : nat -> lq_pc) (p : option nat) (l : list nat) : Prop :=
  seg h p l None /\ (forall n, In n l -> n < fr /\ forall t, priv (pcs t) <> Some n).

Definition lq_rel (s : lq_state) (a : list Z) (st : nat -> @tstat lq_op lq_res) : Prop :=
  lq_threads (lq_heap s) (lq_fresh s) (lq_pcs s) st /\
  exists l, lq_list (lq_heap s) (lq_fresh s) (lq_pcs s) (lq_head s) l /\ map (fun n => sval (lq_heap s n)) l = a.

Lemma seg_same (h h' : sheap) l p q : (forall n, In n l -> h' n = h n) -> seg h p l q -> seg h' p l q.
Proof.
  revert p. induction l as [|x l IH]; intros p H; cbn; auto. intros [-> K]. split; auto.
  rewrite (H x) by (cbn; auto). apply IH; auto. intros n Hn. apply H. cbn. auto.
Qed.

(** A step of [t] that writes only to its own or a new node. *)
Lemma threads_step h fr pcs st t h' fr' pc x :
  lq_threads h fr pcs st -> fr <= fr' ->
  (forall n, n <> fr -> priv (pcs t) <> Some n -> h' n = h n) ->
  (forall n, priv pc = Some n -> (n = fr /\ fr < fr') \/ priv (pcs t) = Some n) ->
  (forall n, held pc = Some n -> n < fr /\ forall u, priv (pcs u) <> Some n) ->
  tok h' pc x ->
  lq_threads h' fr' (fupd pcs t pc) (fupd st t x).
Proof.
  intros [P U H K] Hf Hh Hp Hd Ht. constructor.
  - intros u n. unfold fupd. destruct (Nat.eqb_spec u t) as [->|].
    + intros E. destruct (Hp n E) as [[-> ?]|E']; auto. specialize (P _ _ E'). lia.
    + intros E. specialize (P _ _ E). lia.
  - intros u w n. unfold fupd. destruct (Nat.eqb_spec u t) as [->|Nu], (Nat.eqb_spec w t) as [->|Nw]; auto; intros E1 E2.
    + destruct (Hp n E1) as [[-> ?]|E']; [specialize (P _ _ E2); lia|]. now apply (U t w n).
    + destruct (Hp n E2) as [[-> ?]|E']; [specialize (P _ _ E1); lia|]. now apply (U u t n).
    + now apply (U u w n).
  - intros u w n. unfold fupd at 1. destruct (Nat.eqb_spec u t) as [->|Nu]; intros E.
    + destruct (Hd n E) as [L1 L2]. split; [lia|]. unfold fupd. destruct (Nat.eqb_spec w t) as [->|]; auto.
      intros E2. destruct (Hp n E2) as [[-> ?]|E']; [lia|]. now apply (L2 t).
    + destruct (H u w n E) as [L1 L2]. split; [lia|]. unfold fupd. destruct (Nat.eqb_spec w t) as [->|]; auto.
      intros E2. destruct (Hp n E2) as [[-> ?]|E']; [lia|]. now apply (H u t n).
  - intros u. unfold fupd. destruct (Nat.eqb_spec u t) as [->|Nu]; auto.
    specialize (K u). destruct (pcs u) as [|v n|v n| |n|n nx|n|op r d| | | |op r] eqn:E; cbn in *; auto.
    + destruct K. split; auto. rewrite Hh; auto.
      * specialize (P u n). rewrite E in P. specialize (P eq_refl). lia.
      * intros E2. apply Nu. apply (U u t n); [now rewrite E|auto].
    + destruct K. split; auto. rewrite Hh; auto.
      * specialize (P u n). rewrite E in P. specialize (P eq_refl). lia.
      * intros E2. apply Nu. apply (U u t n); [now rewrite E|auto].
    + destruct K. split; auto. destruct (H u t n) as [L1 L2]; [now rewrite E|]. rewrite Hh; auto. lia.
    + destruct (H u t n) as [L1 L2]; [now rewrite E|]. rewrite Hh; auto. lia.
Qed.

Lemma list_step h fr pcs p l t h' fr' pc : lq_list h fr pcs p l -> fr <= fr' ->
  (forall n, n <> fr -> priv (pcs t) <> Some n -> h' n = h n) ->
  (forall n, priv pc = Some n -> (n = fr /\ fr < fr') \/ priv (pcs t) = Some n) ->
  lq_list h' fr' (fupd pcs t pc) p l /\ map (fun n => sval (h' n)) l = map (fun n => sval (h n)) l.
Proof.
  intros [S H] Hf Hh Hp. assert (E : forall n, In n l -> h' n = h n).
  { intros n Hn. destruct (H n Hn) as [L1 L2]. apply Hh; auto. lia. }
  split; [split|].
  - now apply seg_same with h.
  - intros n Hn. destruct (H n Hn) as [L1 L2]. split; [lia|]. intros u. unfold fupd.
    destruct (Nat.eqb_spec u t) as [->|]; auto. intros E2. destruct (Hp n E2) as [[-> ?]|E']; [lia|]. now apply (L2 t).
  - apply map_ext_in. intros n Hn. now rewrite E.
Qed.

Lemma sp_eq_true p q : sp_eq p q = true <-> p = q.
Proof. destruct p, q; cbn; try rewrite Nat.eqb_eq; split; intros K; congruence. Qed.

Lemma fupd_id {X} (f : nat -> X) t : forall u, fupd f t (f t) u = f u.
Proof. intros u. unfold fupd. destruct (Nat.eqb_spec u t) as [->|]; auto. Qed.

Lemma threads_ext h fr pcs st st' : (forall u, st' u = st u) -> lq_threads h fr pcs st -> lq_threads h fr pcs st'.
Proof. intros E [P U H K]. constructor; auto. intros t. rewrite E. apply K. Qed.

Ltac lq_none t st := exists [], _, st; split; [reflexivity|split; [constructor|]].

Lemma lq_goto s a st t pc x hd l :
  lq_threads (lq_heap s) (lq_fresh s) (lq_pcs s) st ->
  lq_list (lq_heap s) (lq_fresh s) (lq_pcs s) hd l -> map (fun n => sval (lq_heap s n)) l = a ->
  (forall n, priv pc = Some n -> priv (lq_pcs s t) = Some n) ->
  (forall n, held pc = Some n -> n < lq_fresh s /\ forall u, priv (lq_pcs s u) <> Some n) ->
  tok (lq_heap s) pc x ->
  forall sz, lq_rel (LQ (lq_heap s) hd sz (lq_fresh s) (fupd (lq_pcs s) t pc)) a (fupd st t x).
Proof.
  intros T L M Hp Hd Hk sz. split; cbn.
  - apply threads_step with (h := lq_heap s) (fr := lq_fresh s); auto.
  - exists l. destruct (list_step _ _ _ _ _ t (lq_heap s) (lq_fresh s) pc L) as [L1 L2]; auto.
Qed.

Lemma lq_rel_ext s a st st' : (forall u, st' u = st u) -> lq_rel s a st -> lq_rel s a st'.
Proof. intros E [T L]. split; auto. now apply threads_ext with st. Qed.

Lemma lq_step_sim s a st t op : lq_rel s a st -> exists evs a' st',
  erase evs = snd (lq_step s t op) /\ lin_run lq_spec a st evs a' st' /\ lq_rel (fst (lq_step s t op)) a' st'.
Proof.
  intros [T [l [L M]]]. pose proof (lt_tok _ _ _ _ T t) as Ht. unfold lq_step.
  destruct (lq_pcs s t) as [|v n|v n| |n|n nx|n|op' r d| | | |op' r] eqn:E; cbn in Ht.
  - (* call *)
    exists [AInv t op], a, (fupd st t (TPend op)). split; [destruct op; reflexivity|].
    split; [apply lr_inv; [auto|constructor]|].
    destruct op as [v| | | |]; cbn [fst].
    2-5: apply (lq_goto s a st t _ _ (lq_head s) l T L M); [discriminate|discriminate|reflexivity].
    assert (F : forall m, m <> lq_fresh s -> fupd (lq_heap s) (lq_fresh s) (SNode v None) m = lq_heap s m)
      by (intros m Hm; now apply fupd_other).
    split; cbn.
    + apply threads_step with (h := lq_heap s) (fr := lq_fresh s); auto; try (cbn; discriminate).
      * cbn. intros m Em. injection Em as <-. left. lia.
      * cbn. rewrite fupd_same. auto.
    + exists l. edestruct (list_step _ _ _ _ _ t (fupd (lq_heap s) (lq_fresh s) (SNode v None)) (S (lq_fresh s))
        (PcPushLoad v (lq_fresh s)) L) as [L1 L2]; auto.
      * cbn. intros m Em. injection Em as <-. left. lia.
      * split; auto. now rewrite L2.
  - (* n.next = head *)
    destruct Ht as [Ht Hv]. exists [], a, st. split; [reflexivity|]. split; [constructor|].
    apply lq_rel_ext with (fupd st t (st t)); [intros u; symmetry; apply fupd_id|].
    assert (F : forall m, m <> lq_fresh s -> priv (lq_pcs s t) <> Some m -> set_next (lq_heap s) n (lq_head s) m = lq_heap s m).
    { intros m _ Hm. apply fupd_other. intros ->. apply Hm. now rewrite E. }
    split; cbn.
    + apply threads_step with (h := lq_heap s) (fr := lq_fresh s); auto; try (cbn; discriminate).
      * cbn. intros m Em. right. now rewrite E.
      * cbn. unfold set_next. rewrite fupd_same. auto.
    + exists l. edestruct (list_step _ _ _ _ _ t (set_next (lq_heap s) n (lq_head s)) (lq_fresh s)
        (PcPushCas v n) L) as [L1 L2]; auto.
      * cbn. intros m Em. right. now rewrite E.
      * split; auto. now rewrite L2.
  - (* CAS of push *)
    destruct Ht as [Ht Hv].
    destruct (sp_eq (lq_head s) (snext (lq_heap s n))) eqn:Eq.
    + apply sp_eq_true in Eq.
      exists [ALin t (QPush v) (RBool true)], (v :: a), (fupd st t (TDone (QPush v) (RBool true))).
      split; [reflexivity|]. split; [eapply lr_lin; [eauto|split; reflexivity|constructor]|].
      split; cbn.
      * apply threads_step with (h := lq_heap s) (fr := lq_fresh s); auto; cbn; try discriminate; auto.
      * exists (n :: l). split; [|cbn; congruence].
        assert (Hn : priv (lq_pcs s t) = Some n) by now rewrite E.
        destruct L as [L1 L2]. split.
        -- cbn. split; auto. now rewrite <- Eq.
        -- intros m [<-|Hm].
           ++ split; [now apply (lt_priv _ _ _ _ T t)|]. intros u. unfold fupd.
              destruct (Nat.eqb_spec u t) as [->|Nu]; [discriminate|]. intros K. apply Nu. now apply (lt_uniq _ _ _ _ T u t n).
           ++ destruct (L2 m Hm). split; auto. intros u. unfold fupd. destruct (Nat.eqb_spec u t); [discriminate|auto].
    + exists [], a, st. split; [reflexivity|]. split; [constructor|].
      apply lq_rel_ext with (fupd st t (st t)); [intros u; symmetry; apply fupd_id|].
      apply (lq_goto s a st t _ _ (lq_head s) l T L M); cbn; auto; try discriminate. now rewrite E.
  - (* load of pop *)
    destruct (lq_head s) as [n|] eqn:Eh.
    + exists [], a, st. split; [reflexivity|]. split; [constructor|].
      apply lq_rel_ext with (fupd st t (st t)); [intros u; symmetry; apply fupd_id|].
      cbn [fst]. rewrite <- Eh. apply (lq_goto s a st t _ _ (lq_head s) l); try rewrite Eh; cbn; auto; try discriminate.
      intros m Em. injection Em as <-. destruct L as [L1 L2]. apply L2.
      destruct l; [discriminate L1|]. destruct L1 as [K _]. injection K as <-. cbn. auto.
    + assert (l = []) as ->. { destruct L as [L1 _]. destruct l; auto. destruct L1 as [K _]. discriminate. }
      cbn in M. subst a.
      exists [ALin t QPop (RVal 0 false)], [], (fupd st t (TDone QPop (RVal 0 false))).
      split; [reflexivity|]. split; [eapply lr_lin; [eauto|split; reflexivity|constructor]|].
      cbn [fst]. rewrite <- Eh. apply (lq_goto s [] st t _ _ (lq_head s) []); try rewrite Eh; cbn; auto; discriminate.
  - (* next *)
    exists [], a, st. split; [reflexivity|]. split; [constructor|].
    apply lq_rel_ext with (fupd st t (st t)); [intros u; symmetry; apply fupd_id|].
    apply (lq_goto s a st t _ _ (lq_head s) l T L M); cbn; auto; try discriminate.
    intros m Em. injection Em as <-. assert (H : held (lq_pcs s t) = Some n) by now rewrite E.
    split; [exact (proj1 (lt_held _ _ _ _ T t t n H))|]. intros u. exact (proj2 (lt_held _ _ _ _ T t u n H)).
  - (* CAS of pop *)
    destruct Ht as [Ht Hnx]. assert (H : held (lq_pcs s t) = Some n) by now rewrite E.
    destruct (sp_eq (lq_head s) (Some n)) eqn:Eq.
    + apply sp_eq_true in Eq. destruct l as [|m l]; [destruct L as [L1 _]; cbn in L1; congruence|].
      destruct L as [[L0 L1] L2]. rewrite Eq in L0. injection L0 as <-. cbn in M. subst a.
      exists [ALin t QPop (RVal (sval (lq_heap s n)) true)], (map (fun n => sval (lq_heap s n)) l),
        (fupd st t (TDone QPop (RVal (sval (lq_heap s n)) true))).
      split; [reflexivity|]. split; [eapply lr_lin; [eauto|split; reflexivity|constructor]|].
      apply (lq_goto s _ st t _ _ nx l T); cbn; auto; try discriminate.
      * split; [now rewrite <- Hnx|]. intros k Hk. apply L2. cbn. auto.
      * intros k Ek. injection Ek as <-. apply L2. cbn. auto.
    + exists [], a, st. split; [reflexivity|]. split; [constructor|].
      apply lq_rel_ext with (fupd st t (st t)); [intros u; symmetry; apply fupd_id|].
      apply (lq_goto s a st t _ _ (lq_head s) l T L M); cbn; auto; discriminate.
  - exists [], a, st. split; [reflexivity|]. split; [constructor|].
    apply lq_rel_ext with (fupd st t (st t)); [intros u; symmetry; apply fupd_id|].
    apply (lq_goto s a st t _ _ (lq_head s) l T L M); cbn; auto; discriminate.
  - exists [], a, st. split; [reflexivity|]. split; [constructor|].
    apply lq_rel_ext with (fupd st t (st t)); [intros u; symmetry; apply fupd_id|].
    apply (lq_goto s a st t _ _ (lq_head s) l T L M); cbn; auto; discriminate.
  - exists [ALin t QClear RUnit], [], (fupd st t (TDone QClear RUnit)).
    split; [reflexivity|]. split; [eapply lr_lin; [eauto|split; reflexivity|constructor]|].
    apply (lq_goto s [] st t _ _ None [] T); cbn; auto; try discriminate. split; [reflexivity|]. intros k [].
  - exists [ALin t QSize (RInt (lq_size s))], a, (fupd st t (TDone QSize (RInt (lq_size s)))).
    split; [reflexivity|]. split; [eapply lr_lin; [eauto|reflexivity|constructor]|].
    apply (lq_goto s a st t _ _ (lq_head s) l T L M); cbn; auto; discriminate.
  - set (r := RBool _).
    exists [ALin t QEmpty r], a, (fupd st t (TDone QEmpty r)).
    split; [reflexivity|]. split.
    + eapply lr_lin; [eauto|split; [reflexivity|]|constructor]. unfold r. f_equal.
      destruct L as [L1 _], l as [|m l]; cbn in L1, M; subst a; [now rewrite L1|]. destruct L1 as [-> _]. reflexivity.
    + apply (lq_goto s a st t _ _ (lq_head s) l T L M); cbn; auto; discriminate.
  - exists [ARet t op' r], a, (fupd st t TIdle).
    split; [reflexivity|]. split; [eapply lr_ret; [eauto|constructor]|].
    apply (lq_goto s a st t _ _ (lq_head s) l T L M); cbn; auto; discriminate.
Qed.

Lemma lq_rel_init : lq_rel lq_init [] (fun _ => TIdle).
Proof.
  split; [constructor; cbn; try discriminate; auto|]. exists []. split; [|reflexivity]. split; [reflexivity|intros n []].
Qed.

Lemma lq_sim sched : exists evs a st, erase evs = snd (crun lq_step lq_init sched) /\
  lin_run lq_spec [] (fun _ => TIdle) evs a st /\ lq_rel (fst (crun lq_step lq_init sched)) a st.
Proof. apply (lin_sim lq_spec lq_step lq_rel); [intros; now apply lq_step_sim|apply lq_rel_init]. Qed.

Lemma lq_linearizable sched : linearizable lq_spec [] (snd (crun lq_step lq_init sched)).
Proof. destruct (lq_sim sched) as (evs & a & st & E & L & _). exists evs, a, st. auto. Qed.

(** ** The counter *)
Lemma int32_add x d : int32 (int32 x + d) = int32 (x + d).
Proof.
  unfold int32. set (M := (2 ^ 32)%Z). set (K := (2 ^ 31)%Z).
  replace ((x + K) mod M - K + d + K)%Z with ((x + K) mod M + d)%Z by ring.
  rewrite Z.add_mod_idemp_l by discriminate. f_equal. f_equal. ring.
Qed.

Definition cstat (pc : lq_pc) (x : @tstat lq_op lq_res) : Prop :=
  match pc with
  | PcIdle => x = TIdle
  | PcPushLoad v _ | PcPushCas v _ => x = TPend (QPush v)
  | PcPopLoad | PcPopNext _ | PcPopCas _ _ | PcPopVal _ => x = TPend QPop
  | PcAdd op r d => x = TPend op /\ match op with QPush _ => d = 1%Z | QPop => d = (-1)%Z | _ => False end
  | PcRet op r => x = TDone op r
  | PcClear => x = TPend QClear
  | PcSize => x = TPend QSize
  | PcEmpty => x = TPend QEmpty
  end.
Definition lc_rel (s : lq_state) (c : Z) (st : nat -> @tstat lq_op lq_res) : Prop :=
  lq_size s = int32 c /\ forall t, cstat (lq_pcs s t) (st t).

Lemma cstat_upd pcs st t pc x : (forall u, cstat (pcs u) (st u)) -> cstat pc x -> forall u, cstat (fupd pcs t pc u) (fupd st t x u).
Proof. intros H K u. unfold fupd. destruct (u =? t); auto. Qed.
Lemma cstat_upd0 pcs st t pc : (forall u, cstat (pcs u) (st u)) -> cstat pc (st t) -> forall u, cstat (fupd pcs t pc u) (st u).
Proof. intros H K u. unfold fupd. destruct (Nat.eqb_spec u t) as [->|]; auto. Qed.

Lemma lc_step_sim s c st t op : lc_rel s c st -> exists evs c' st',
  erase evs = snd (lq_step s t op) /\ lin_run lq_count_spec c st evs c' st' /\ lc_rel (fst (lq_step s t op)) c' st'.
Proof.
  intros [Z K]. pose proof (K t) as Ht. unfold lq_step.
  destruct (lq_pcs s t) as [|v n|v n| |n|n nx|n|op' r d| | | |op' r] eqn:E; cbn in Ht.
  - exists [AInv t op], c, (fupd st t (TPend op)). split; [destruct op; reflexivity|].
    split; [apply lr_inv; [auto|constructor]|].
    destruct op; (split; [exact Z|cbn; apply cstat_upd; [auto|reflexivity]]).
  - exists [], c, st. split; [reflexivity|]. split; [constructor|]. split; [exact Z|]. cbn. apply cstat_upd0; auto.
  - destruct (sp_eq _ _); (exists [], c, st; split; [reflexivity|]; split; [constructor|]; split; [exact Z|];
      cbn; apply cstat_upd0; cbn; auto).
  - destruct (lq_head s); (exists [], c, st; split; [reflexivity|]; split; [constructor|]; split; [exact Z|];
      cbn; apply cstat_upd0; cbn; auto).
  - exists [], c, st. split; [reflexivity|]. split; [constructor|]. split; [exact Z|]. cbn. apply cstat_upd0; auto.
  - destruct (sp_eq _ _); (exists [], c, st; split; [reflexivity|]; split; [constructor|]; split; [exact Z|];
      cbn; apply cstat_upd0; cbn; auto).
  - exists [], c, st. split; [reflexivity|]. split; [constructor|]. split; [exact Z|]. cbn. apply cstat_upd0; cbn; auto.
  - destruct Ht as [Ht Hd]. exists [ALin t op' r], (c + d)%Z, (fupd st t (TDone op' r)).
    split; [reflexivity|]. split.
    + eapply lr_lin; [eauto| |constructor]. destruct op'; cbn in *; subst; auto; contradiction.
    + split; cbn; [rewrite Z; apply int32_add|]. apply cstat_upd; cbn; auto.
  - exists [ALin t QClear RUnit], c, (fupd st t (TDone QClear RUnit)). split; [reflexivity|].
    split; [eapply lr_lin; [eauto|reflexivity|constructor]|]. split; [exact Z|]. cbn. apply cstat_upd; cbn; auto.
  - exists [ALin t QSize (RInt (lq_size s))], c, (fupd st t (TDone QSize (RInt (lq_size s)))). split; [reflexivity|].
    split; [eapply lr_lin; [eauto| |constructor]|].
    + cbn. rewrite Z. split; reflexivity.
    + split; [exact Z|]. cbn. apply cstat_upd; cbn; auto.
  - set (r := RBool _). exists [ALin t QEmpty r], c, (fupd st t (TDone QEmpty r)). split; [reflexivity|].
    split; [eapply lr_lin; [eauto|reflexivity|constructor]|]. split; [exact Z|]. cbn. apply cstat_upd; cbn; auto.
  - exists [ARet t op' r], c, (fupd st t TIdle). split; [reflexivity|].
    split; [eapply lr_ret; [eauto|constructor]|]. split; [exact Z|]. cbn. apply cstat_upd; cbn; auto.
Qed.

Lemma lc_sim sched : exists evs c st, erase evs = snd (crun lq_step lq_init sched) /\
  lin_run lq_count_spec 0%Z (fun _ => TIdle) evs c st /\ lc_rel (fst (crun lq_step lq_init sched)) c st.
Proof.
  apply (lin_sim lq_count_spec lq_step lc_rel); [intros; now apply lc_step_sim|].
  split; [reflexivity|intros t; reflexivity].
Qed.

Lemma lq_size_linearizable sched : linearizable lq_count_spec 0%Z (snd (crun lq_step lq_init sched)).
Proof. destruct (lc_sim sched) as (evs & c & st & E & L & _). exists evs, c, st. auto. Qed.

(** ** Quiescent states *)
Definition cnt (f : lq_op -> lq_res -> bool) (l : list (nat * lq_op * lq_res)) : nat :=
  length (filter (fun e => f (snd (fst e)) (snd e)) l).

Lemma count_rets_cnt f h : count_rets f h = cnt f (rets h).
Proof.
  unfold count_rets, cnt. induction h as [|[t op|t op r] h IH]; cbn; auto. destruct (f op r); cbn; auto.
Qed.
Lemma cnt_perm f l l' : Permutation l l' -> cnt f l = cnt f l'.
Proof.
  unfold cnt. induction 1 as [|x l l' _ IH|x y l|l l1 l2 _ IH1 _ IH2]; cbn; auto.
  - destruct (f _ _); cbn; congruence.
  - destruct (f (snd (fst x)) (snd x)), (f (snd (fst y)) (snd y)); auto.
  - congruence.
Qed.

Lemma values_conserved a st h a' st' : lin_run lq_spec a st h a' st' ->
  Forall (fun e => snd (fst e) <> QClear) (lins h) -> forall z,
  count_occ Z.eq_dec a z + cnt (pushed z) (lins h) = cnt (popped z) (lins h) + count_occ Z.eq_dec a' z.
Proof.
  unfold cnt. induction 1 as [a st|a st t op h a' st' Ht Hr IH|a st t op r b h a' st' Ht Hs Hr IH|a st t op r h a' st' Ht Hr IH];
    intros F z; cbn [lins]; auto; try (cbn; lia). cbn [lins] in F.
  apply Forall_cons_iff in F as [F1 F]. specialize (IH F z). cbn in F1.
  destruct op as [v| | | |]; cbn [lq_spec] in Hs; try congruence.
  - destruct Hs as [-> ->]. cbn in *. destruct (Z.eq_dec v z) as [->|N].
    + rewrite Z.eqb_refl. cbn. lia.
    + apply Z.eqb_neq in N. rewrite N. lia.
  - destruct a as [|v a]; destruct Hs as [-> ->]; cbn in *; auto.
    destruct (Z.eq_dec v z) as [->|N].
    + rewrite Z.eqb_refl. cbn. lia.
    + apply Z.eqb_neq in N. rewrite N. lia.
  - subst b. cbn. auto.
  - destruct Hs as [-> ->]. cbn. auto.
Qed.

Lemma lengths_conserved a st h a' st' : lin_run lq_spec a st h a' st' ->
  Forall (fun e => snd (fst e) <> QClear) (lins h) ->
  length a + cnt is_push (lins h) + cnt pop_failed (lins h) = cnt is_pop (lins h) + length a'.
Proof.
  unfold cnt. induction 1 as [a st|a st t op h a' st' Ht Hr IH|a st t op r b h a' st' Ht Hs Hr IH|a st t op r h a' st' Ht Hr IH];
    intros F; cbn [lins]; auto; try (cbn; lia). cbn [lins] in F.
  apply Forall_cons_iff in F as [F1 F]. specialize (IH F). cbn in F1.
  destruct op as [v| | | |]; cbn [lq_spec] in Hs; try congruence.
  - destruct Hs as [-> ->]. cbn in *. lia.
  - destruct a as [|v a]; destruct Hs as [-> ->]; cbn in *; lia.
  - subst b. cbn. auto.
  - destruct Hs as [-> ->]. cbn. auto.
Qed.

Lemma counter_value c st h c' st' : lin_run lq_count_spec c st h c' st' ->
  c' = (c + Z.of_nat (cnt is_push (lins h)) - Z.of_nat (cnt is_pop (lins h)))%Z.
Proof.
  unfold cnt. induction 1 as [a st|a st t op h a' st' Ht Hr IH|a st t op r b h a' st' Ht Hs Hr IH|a st t op r h a' st' Ht Hr IH];
    cbn [lins]; auto; try (cbn; lia).
  destruct op as [v| | | |]; cbn [lq_count_spec] in Hs; match type of Hs with _ /\ _ => destruct Hs as [Hs _] | _ => idtac end; cbn in *; lia.
Qed.

Definition never_clear (pc : lq_pc) : Prop :=
  match pc with PcClear => False | PcAdd op _ _ | PcRet op _ => op <> QClear | _ => True end.
Lemma no_clear_rets sched : forall s, (forall t, never_clear (lq_pcs s t)) -> no_clear sched ->
  Forall (fun e => snd (fst e) <> QClear) (rets (snd (crun lq_step s sched))).
Proof.
  induction sched as [|[t op] sched IH]; intros s Hs Hn; [constructor|]. apply Forall_cons_iff in Hn as [Hn Hn'].
  cbn in Hn. cbn [crun].
  assert (Hu : forall pc, never_clear pc -> forall u, never_clear (fupd (lq_pcs s) t pc u)).
  { intros pc K u. unfold fupd. destruct (u =? t); auto. }
  assert (Hstep : (forall u, never_clear (lq_pcs (fst (lq_step s t op)) u)) /\
                  Forall (fun e => snd (fst e) <> QClear) (rets (snd (lq_step s t op)))).
  { pose proof (Hs t) as Ht. unfold lq_step. destruct (lq_pcs s t) eqn:E; cbn in Ht; try contradiction.
    11: split; [apply Hu; cbn; auto|cbn; auto]. 
    1: destruct op; (split; [apply Hu; cbn; congruence|cbn; auto]).
    all: try destruct (lq_head s); try destruct (sp_eq _ _); (split; [apply Hu; cbn; congruence|cbn; auto]). }
  destruct Hstep as [H1 H2]. destruct (lq_step s t op) as [s1 h1]. cbn [fst snd] in *.
  specialize (IH s1 H1 Hn'). destruct (crun lq_step s1 sched) as [s2 h2]. cbn [fst snd] in *.
  rewrite rets_app. apply Forall_app. auto.
Qed.

Lemma seg_stored h l : forall p, seg h p l None -> stored h p (map (fun n => sval (h n)) l).
Proof.
  induction l as [|x l IH]; intros p; cbn.
  - intros ->. constructor.
  - intros [-> K]. constructor. auto.
Qed.

Lemma lq_quiescent sched : no_clear sched -> quiescent (fst (crun lq_step lq_init sched)) ->
  let s := fst (crun lq_step lq_init sched) in let h := snd (crun lq_step lq_init sched) in
  exists l, stored (lq_heap s) (lq_head s) l /\
    (forall z, count_rets (pushed z) h = count_rets (popped z) h + count_occ Z.eq_dec l z) /\
    lq_size s = int32 (Z.of_nat (length l) - Z.of_nat (count_rets pop_failed h)).
Proof.
  intros Hn Hq s h.
  destruct (lq_sim sched) as (evs & a & st & E & L & [T [l [[S _] M]]]).
  destruct (lc_sim sched) as (evs2 & c & st2 & E2 & L2 & [Z2 K2]).
  fold s in T, S, M, Z2, K2, Hq. fold h in E, E2.
  assert (Q1 : forall t, st t = TIdle) by (intros t; pose proof (lt_tok _ _ _ _ T t) as K; rewrite Hq in K; exact K).
  assert (Q2 : forall t, st2 t = TIdle) by (intros t; specialize (K2 t); rewrite Hq in K2; exact K2).
  pose proof (quiescent_rets _ _ _ _ _ L Q1) as P1. pose proof (quiescent_rets _ _ _ _ _ L2 Q2) as P2.
  rewrite E in P1. rewrite E2 in P2.
  assert (F : Forall (fun e => snd (fst e) <> QClear) (lins evs)).
  { apply (Permutation_Forall P1). apply no_clear_rets; auto. intros t. cbn. auto. }
  exists a. split; [subst a; now apply seg_stored|]. split.
  - intros z. pose proof (values_conserved _ _ _ _ _ L F z) as V. cbn in V.
    rewrite !count_rets_cnt. rewrite (cnt_perm _ _ _ P1), (cnt_perm (popped z) _ _ P1). exact V.
  - pose proof (lengths_conserved _ _ _ _ _ L F) as V. pose proof (counter_value _ _ _ _ _ L2) as C.
    rewrite <- (cnt_perm _ _ _ P1), <- (cnt_perm pop_failed _ _ P1), <- (cnt_perm is_pop _ _ P1) in V.
    rewrite <- (cnt_perm _ _ _ P2), <- (cnt_perm is_pop _ _ P2) in C. cbn in V.
    rewrite Z2. f_equal. rewrite count_rets_cnt. lia.
Qed.

Lemma lq_conserves sched z : no_clear sched -> quiescent (fst (crun lq_step lq_init sched)) ->
  exists l, stored (lq_heap (fst (crun lq_step lq_init sched))) (lq_head (fst (crun lq_step lq_init sched))) l /\
    count_rets (pushed z) (snd (crun lq_step lq_init sched)) =
    count_rets (popped z) (snd (crun lq_step lq_init sched)) + count_occ Z.eq_dec l z.
Proof. intros H1 H2. destruct (lq_quiescent sched H1 H2) as (l & A & B & _). eauto. Qed.

Lemma int32_small x : (- 2 ^ 31 <= x < 2 ^ 31)%Z -> int32 x = x.
Proof. intros H. unfold int32. rewrite Z.mod_small; lia. Qed.

(** A call of Size on its own. *)
Lemma size_call s t : quiescent s -> snd (crun lq_step s [(t, QSize); (t, QSize); (t, QSize)]) =
  [Inv t QSize; Ret t QSize (RInt (lq_size s))].
Proof.
  intros H. assert (E1 : lq_step s t QSize =
    (LQ (lq_heap s) (lq_head s) (lq_size s) (lq_fresh s) (fupd (lq_pcs s) t PcSize), [Inv t QSize])).
  { unfold lq_step. now rewrite H. }
  cbn [crun]. rewrite E1. unfold lq_step at 1. cbn [lq_pcs]. rewrite fupd_same.
  unfold lq_step at 1. cbn [lq_pcs lq_size]. rewrite fupd_same. reflexivity.
Qed.

Lemma lq_size_quiescent sched : no_clear sched -> quiescent (fst (crun lq_step lq_init sched)) ->
  let s := fst (crun lq_step lq_init sched) in
  exists l, stored (lq_heap s) (lq_head s) l /\ (Z.of_nat (length l) < 2 ^ 31 ->
    Z.of_nat (count_rets pop_failed (snd (crun lq_step lq_init sched))) <= 2 ^ 31 -> forall t,
    snd (crun lq_step s [(t, QSize); (t, QSize); (t, QSize)]) =
    [Inv t QSize; Ret t QSize (RInt (Z.of_nat (length l) - Z.of_nat (count_rets pop_failed (snd (crun lq_step lq_init sched)))))])%Z.
Proof.
  intros H1 H2 s. destruct (lq_quiescent sched H1 H2) as (l & A & _ & C). exists l. split; auto.
  intros Hl Hf t. rewrite size_call by exact H2. fold s in C. rewrite C, int32_small by lia. reflexivity.
Qed.
