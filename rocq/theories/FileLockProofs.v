From Coq Require Import ZArith List Bool Arith Lia.
From Verif Require Import GoBase ConcBase SpinProofs FileLockModel FileLockSpec.
Import ListNotations.
Open Scope Z_scope.

(** ** Linearizability *)
Definition fl_stat (pc : fl_pc) : tstat fl_op fl_res :=
  match pc with
  | FIdle => TIdle
  | FEnter op | FBody op | FSleep op => TPend op
  | FLeave op r | FRet op r => TDone op r
  end.
Record FLR (busy : Z) (file : nat -> bool) (s : fl_state) (a : fl_abs) (st : nat -> tstat fl_op fl_res) : Prop := {
  f_path : forall m, fl_path s m = fa_path a m;
  f_stat : forall t, st t = fl_stat (fl_pcs s t);
  f_held : forall p m, fa_held a p = Some m -> fl_open s p = Some (fl_h s m) /\ fl_h s m <> 0%nat /\ fl_path s m = p /\ p <> 0%nat;
  f_free : forall p, fa_held a p = None -> fl_open s p = None;
  f_hnd : forall m, fl_h s m <> 0%nat -> fa_held a (fl_path s m) = Some m;
  f_lt : forall m, (fl_h s m < fl_next s)%nat;
  f_inj : forall m n, fl_h s m = fl_h s n -> fl_h s m <> 0%nat -> m = n;
  f_sleep : forall t op, fl_pcs s t = FSleep op -> busy = 536870913 /\ exists m, op = FLock m
}.
Lemma FLR0 busy file : FLR busy file fl_init fl_abs0 (fun _ => TIdle).
Proof. constructor; cbn; auto; try discriminate; try congruence; lia. Qed.

Lemma stat_upd pcs t pc st : (forall u, st u = fl_stat (pcs u)) -> forall u, fupd st t (fl_stat pc) u = fl_stat (fupd pcs t pc u).
Proof. intros H u. unfold fupd. destruct (u =? t)%nat; auto. Qed.

(** A step that moves the goroutine only. *)
Lemma FLR_goto busy file s a st w t pc st' : FLR busy file s a st -> (forall u, st' u = fl_stat (fupd (fl_pcs s) t pc u)) ->
  (forall op, pc = FSleep op -> busy = 536870913 /\ exists m, op = FLock m) ->
  FLR busy file (FL w (fl_h s) (fl_path s) (fl_open s) (fl_next s) (fupd (fl_pcs s) t pc)) a st'.
Proof.
  intros R H Hs. constructor; cbn; try apply R; auto.
  intros u op. unfold fupd. destruct (u =? t)%nat; [auto|apply (f_sleep _ _ _ _ _ R)].
Qed.

Lemma fl_lin_step busy file s a st t op : FLR busy file s a st ->
  exists evs a' st', erase evs = snd (fl_step busy file s t op) /\ lin_run (fl_spec busy file) a st evs a' st' /\
                     FLR busy file (fst (fl_step busy file s t op)) a' st'.
Proof.
  intros R. unfold fl_step. pose proof (f_stat _ _ _ _ _ R t) as Et.
  destruct (fl_pcs s t) as [|o|o|o|o r|o r] eqn:Ep; cbn [fl_stat] in Et.
  - exists [AInv t op], a, (fupd st t (TPend op)). split; [reflexivity|]. split; [econstructor; auto; constructor|].
    eapply FLR_goto; eauto; [|discriminate]. apply (stat_upd _ t (FEnter op)). apply R.
  - exists [], a, st. destruct (fl_w s (fl_obj o)); (split; [reflexivity|]); (split; [constructor|]); cbn [fst]; [exact R|].
    eapply FLR_goto; eauto; [|discriminate]. intros u. rewrite (f_stat _ _ _ _ _ R). unfold fupd.
    destruct (Nat.eqb_spec u t); subst; rewrite ?Ep; auto.
  - destruct o as [m p|m|m].
    + destruct (Nat.eqb_spec (fl_path s m) 0) as [E0|E0].
      * exists [ALin t (FInit m p) (FOk true)], (FA (fupd (fa_path a) m p) (fa_held a)), (fupd st t (TDone (FInit m p) (FOk true))).
        split; [reflexivity|]. split.
        { econstructor; [auto| |constructor]. cbn. rewrite <- (f_path _ _ _ _ _ R), E0. auto. }
        assert (Hm : fl_h s m = 0%nat).
        { destruct (Nat.eq_dec (fl_h s m) 0) as [|N]; auto. apply (f_hnd _ _ _ _ _ R) in N.
          apply (f_held _ _ _ _ _ R) in N. tauto. }
        constructor; cbn; try apply R; auto.
        { intros n. unfold fupd. destruct (n =? m)%nat; auto. apply R. }
        { apply (stat_upd _ t (FLeave (FInit m p) (FOk true))). apply R. }
        { intros q n H. pose proof (f_held _ _ _ _ _ R q n H) as (K1 & K2 & K3 & K4). repeat split; auto.
          unfold fupd. destruct (Nat.eqb_spec n m); subst; tauto. }
        { intros n N. unfold fupd. destruct (Nat.eqb_spec n m); subst; [tauto|]. apply R; auto. }
        { intros u o'. unfold fupd. destruct (u =? t)%nat; [discriminate|apply (f_sleep _ _ _ _ _ R)]. }
      * exists [ALin t (FInit m p) (FOk false)], a, (fupd st t (TDone (FInit m p) (FOk false))).
        split; [reflexivity|]. split.
        { econstructor; [auto| |constructor]. cbn. rewrite <- (f_path _ _ _ _ _ R). destruct (fl_path s m); auto; congruence. }
        eapply FLR_goto; eauto; [|discriminate]. apply (stat_upd _ t (FLeave (FInit m p) (FOk false))). apply R.
    + unfold create_file. destruct (negb (fl_path s m =? 0)%nat && file (fl_path s m)) eqn:Ef.
      * destruct (fl_open s (fl_path s m)) as [h|] eqn:Eo.
        { destruct (busy =? EACCES) eqn:Eb; cbn [negb].
          - exists [], a, st. split; [reflexivity|]. split; [constructor|]. cbn [fst].
            eapply FLR_goto; eauto.
            + intros u. rewrite (f_stat _ _ _ _ _ R). unfold fupd. destruct (Nat.eqb_spec u t); subst; rewrite ?Ep; auto.
            + intros o [= <-]. apply Z.eqb_eq in Eb. split; [exact Eb|eauto].
          - exists [ALin t (FLock m) (FErr (Some busy))], a, (fupd st t (TDone (FLock m) (FErr (Some busy)))).
            split; [reflexivity|]. split.
            { econstructor; [auto| |constructor]. cbn. rewrite <- (f_path _ _ _ _ _ R), Ef.
              destruct (fa_held a (fl_path s m)) eqn:Eh; [|apply (f_free _ _ _ _ _ R) in Eh; congruence].
              apply Z.eqb_neq in Eb. auto. }
            eapply FLR_goto; eauto; [|discriminate]. apply (stat_upd _ t (FLeave (FLock m) (FErr (Some busy)))). apply R. }
        { exists [ALin t (FLock m) (FErr None)], (FA (fa_path a) (fupd (fa_held a) (fl_path s m) (Some m))), (fupd st t (TDone (FLock m) (FErr None))).
          split; [reflexivity|].
          assert (Eh : fa_held a (fl_path s m) = None).
          { destruct (fa_held a (fl_path s m)) eqn:Eh; auto. apply (f_held _ _ _ _ _ R) in Eh. intuition congruence. }
          split.
          { econstructor; [auto| |constructor]. cbn. rewrite <- (f_path _ _ _ _ _ R), Ef, Eh. auto. }
          apply andb_true_iff in Ef. destruct Ef as (E0 & _). apply negb_true_iff, Nat.eqb_neq in E0.
          assert (Hm : fl_h s m = 0%nat).
          { destruct (Nat.eq_dec (fl_h s m) 0) as [|N]; auto. apply (f_hnd _ _ _ _ _ R) in N. congruence. }
          pose proof (f_lt _ _ _ _ _ R m) as Hn.
          constructor; cbn; try apply R; auto.
          - apply (stat_upd _ t (FLeave (FLock m) (FErr None))). apply R.
          - intros q n. unfold fupd. destruct (Nat.eqb_spec q (fl_path s m)) as [->|Nq].
            + intros [= <-]. rewrite Nat.eqb_refl. repeat split; auto. lia.
            + intros H. pose proof (f_held _ _ _ _ _ R q n H) as (K1 & K2 & K3 & K4).
              destruct (Nat.eqb_spec n m) as [->|]; [congruence|auto].
          - intros q. unfold fupd. destruct (Nat.eqb_spec q (fl_path s m)) as [->|Nq]; [discriminate|apply R].
          - intros n. unfold fupd. destruct (Nat.eqb_spec n m) as [->|Nn]; [intros _; now rewrite Nat.eqb_refl|].
            intros N. pose proof (f_hnd _ _ _ _ _ R n N) as K. destruct (Nat.eqb_spec (fl_path s n) (fl_path s m)) as [E|]; [congruence|auto].
          - intros n. unfold fupd. destruct (n =? m)%nat; [lia|]. pose proof (f_lt _ _ _ _ _ R n). lia.
          - intros i j. pose proof (f_lt _ _ _ _ _ R i). pose proof (f_lt _ _ _ _ _ R j). unfold fupd.
            destruct (Nat.eqb_spec i m), (Nat.eqb_spec j m); subst; auto; try lia. apply R.
          - intros u o'. unfold fupd. destruct (u =? t)%nat; [discriminate|apply (f_sleep _ _ _ _ _ R)]. }
      * exists [ALin t (FLock m) (FErr (Some 2))], a, (fupd st t (TDone (FLock m) (FErr (Some 2)))).
        split; [reflexivity|]. split.
        { econstructor; [auto| |constructor]. cbn. rewrite <- (f_path _ _ _ _ _ R), Ef. auto. }
        change (ENOFILE =? EACCES) with false. cbn [negb fst]. unfold ENOFILE.
        eapply FLR_goto; eauto; [|discriminate]. apply (stat_upd _ t (FLeave (FLock m) (FErr (Some 2)))). apply R.
    + set (a' := FA (fa_path a) (fun p => match fa_held a p with Some n => if Nat.eqb n m then None else Some n | None => None end)).
      exists [ALin t (FUnlock m) FUnit], a', (fupd st t (TDone (FUnlock m) FUnit)).
      split; [reflexivity|]. split.
      { econstructor; [auto| |constructor]. cbn. auto. }
      assert (CH : forall p h, fl_open s p = Some h -> h <> fl_h s m -> close_handle (fl_open s) (fl_h s m) p = Some h).
      { intros p h H N. unfold close_handle. rewrite H. destruct (Nat.eqb_spec h (fl_h s m)); congruence. }
      constructor; cbn; try apply R.
      * apply (stat_upd _ t (FLeave (FUnlock m) FUnit)). apply R.
      * intros p n. destruct (fa_held a p) as [k|] eqn:Eh; [|discriminate]. destruct (Nat.eqb_spec k m); [discriminate|].
        intros [= <-]. pose proof (f_held _ _ _ _ _ R p k Eh) as (K1 & K2 & K3 & K4).
        rewrite fupd_other by auto. repeat split; auto. apply CH; auto. intros E. symmetry in E.
        pose proof (f_inj _ _ _ _ _ R m k E). intuition congruence.
      * intros p. destruct (fa_held a p) as [k|] eqn:Eh.
        { destruct (Nat.eqb_spec k m) as [->|]; [|discriminate]. intros _.
          pose proof (f_held _ _ _ _ _ R p m Eh) as (K1 & _). unfold close_handle. now rewrite K1, Nat.eqb_refl. }
        { intros _. unfold close_handle. now rewrite (f_free _ _ _ _ _ R p Eh). }
      * intros n. unfold fupd. destruct (Nat.eqb_spec n m) as [->|]; [congruence|]. intros N.
        rewrite (f_hnd _ _ _ _ _ R n N). destruct (Nat.eqb_spec n m); congruence.
      * intros n. unfold fupd. destruct (n =? m)%nat; [|apply R]. pose proof (f_lt _ _ _ _ _ R m). lia.
      * intros i j. unfold fupd. destruct (Nat.eqb_spec i m), (Nat.eqb_spec j m); subst; auto; try congruence.
        apply R.
      * intros u o'. unfold fupd. destruct (u =? t)%nat; [discriminate|apply (f_sleep _ _ _ _ _ R)].
  - exists [], a, st. split; [reflexivity|]. split; [constructor|]. cbn [fst]. eapply FLR_goto; eauto; [|discriminate].
    intros u. rewrite (f_stat _ _ _ _ _ R). unfold fupd. destruct (Nat.eqb_spec u t); subst; rewrite ?Ep; auto.
  - exists [], a, st. split; [reflexivity|]. split; [constructor|]. cbn [fst]. eapply FLR_goto; eauto; [|discriminate].
    intros u. rewrite (f_stat _ _ _ _ _ R). unfold fupd. destruct (Nat.eqb_spec u t); subst; rewrite ?Ep; auto.
  - exists [ARet t o r], a, (fupd st t TIdle). split; [reflexivity|]. split; [econstructor; auto; constructor|].
    eapply FLR_goto; eauto; [|discriminate]. apply (stat_upd _ t FIdle). apply R.
Qed.

Lemma fl_reach busy file sched : exists evs a st,
  erase evs = snd (crun (fl_step busy file) fl_init sched) /\ lin_run (fl_spec busy file) fl_abs0 (fun _ => TIdle) evs a st /\
  FLR busy file (fst (crun (fl_step busy file) fl_init sched)) a st.
Proof. apply (lin_sim (fl_spec busy file) (fl_step busy file) (FLR busy file)); [intros; now apply fl_lin_step|apply FLR0]. Qed.
Lemma fl_linearizable busy file sched : linearizable (fl_spec busy file) fl_abs0 (snd (crun (fl_step busy file) fl_init sched)).
Proof. destruct (fl_reach busy file sched) as (evs & a & st & E & L & _). exists evs, a, st. auto. Qed.
