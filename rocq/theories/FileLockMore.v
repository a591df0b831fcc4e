From Coq Require Import ZArith List Bool Arith Lia.
From Verif Require Import GoBase ConcBase SpinSpec SpinProofs FileLockModel FileLockSpec FileLockProofs.
Import ListNotations.
Open Scope Z_scope.

Definition pc_op (pc : fl_pc) : option fl_op :=
  match pc with FIdle => None | FEnter op | FBody op | FSleep op | FLeave op _ | FRet op _ => Some op end.
(** In the part guarded by w. *)
Definition guarded (pc : fl_pc) : option nat :=
  match pc with FBody op | FSleep op | FLeave op _ => Some (fl_obj op) | _ => None end.

(** ** Facts of every run *)
Record FLW (s : fl_state) (h : list (ext fl_op fl_res)) : Prop := {
  w_w : forall m t, fl_w s m = Some t <-> guarded (fl_pcs s t) = Some m;
  w_call : forall t, in_call h t = pc_op (fl_pcs s t)
}.
Lemma in_call_snoc h e t : in_call (h ++ [e]) t = call_after t (in_call h t) e.
Proof. unfold in_call. now rewrite fold_left_app. Qed.
Lemma has_lock_snoc h e t : has_lock (h ++ [e]) t = fl_after t (has_lock h t) e.
Proof. unfold has_lock. now rewrite fold_left_app. Qed.

Ltac fu := repeat match goal with
  | |- context [fupd _ ?t _ ?u] => unfold fupd at 1; destruct (Nat.eqb_spec u t); subst
  end.

Lemma FLW0 : FLW fl_init [].
Proof. constructor; cbn; auto. intros; split; discriminate. Qed.

Lemma guard_one (w : nat -> option nat) pcs : (forall m t, w m = Some t <-> guarded (pcs t) = Some m) ->
  forall m t u, guarded (pcs t) = Some m -> guarded (pcs u) = Some m -> t = u.
Proof. intros H m t u A B. apply H in A, B. congruence. Qed.

Lemma FLW_step busy file s h t op : FLW s h ->
  FLW (fst (fl_step busy file s t op)) (h ++ snd (fl_step busy file s t op)).
Proof.
  intros [W C].
  assert (K : forall pc w', (forall m, w' m = Some t <-> guarded pc = Some m) ->
              (forall m u, u <> t -> (w' m = Some u <-> fl_w s m = Some u)) ->
              forall m u, w' m = Some u <-> guarded (fupd (fl_pcs s) t pc u) = Some m).
  { intros pc w' A B m u. unfold fupd. destruct (Nat.eqb_spec u t) as [->|N]; [apply A|rewrite (B m u N); apply W]. }
  assert (K0 : forall pc, guarded pc = guarded (fl_pcs s t) ->
              forall m u, fl_w s m = Some u <-> guarded (fupd (fl_pcs s) t pc u) = Some m).
  { intros pc E. apply K; [|tauto]. intros m. rewrite E. apply W. }
  assert (C0 : forall pc, pc_op pc = pc_op (fl_pcs s t) -> forall u, in_call h u = pc_op (fupd (fl_pcs s) t pc u)).
  { intros pc E u. rewrite C. unfold fupd. destruct (Nat.eqb_spec u t) as [->|N]; auto. }
  unfold fl_step. destruct (fl_pcs s t) as [|o|o|o|o r|o r] eqn:Ep.
  - constructor; cbn; [apply K0; auto|]. intros u. rewrite in_call_snoc, C. cbn. unfold fupd.
    rewrite (Nat.eqb_sym t u). destruct (u =? t)%nat; auto.
  - destruct (fl_w s (fl_obj o)) as [v|] eqn:Ew; cbn [fst snd]; rewrite app_nil_r; [constructor; auto|].
    constructor; cbn; [|apply C0; auto]. apply K.
    + intros m. cbn. unfold fupd. destruct (Nat.eqb_spec m (fl_obj o)) as [->|N]; [tauto|].
      rewrite W, Ep. cbn. split; congruence.
    + intros m u Nu. unfold fupd. destruct (Nat.eqb_spec m (fl_obj o)) as [->|N]; [|tauto]. rewrite Ew. split; congruence.
  - destruct o as [m p|m|m].
    + destruct (fl_path s m =? 0)%nat; cbn [fst snd]; rewrite app_nil_r; constructor; cbn; try (apply K0; auto); apply C0; auto.
    + destruct (create_file busy file s (fl_path s m)) as [k|e]; [|destruct (negb (e =? EACCES))]; cbn [fst snd]; rewrite app_nil_r;
        constructor; cbn; try (apply K0; auto); apply C0; auto.
    + cbn [fst snd]; rewrite app_nil_r; constructor; cbn; [apply K0; auto|apply C0; auto].
  - cbn [fst snd]; rewrite app_nil_r; constructor; cbn; [apply K0; auto|apply C0; auto].
  - cbn [fst snd]; rewrite app_nil_r; constructor; cbn; [|apply C0; auto].
    assert (Eo : fl_w s (fl_obj o) = Some t) by (apply W; rewrite Ep; reflexivity).
    apply K.
    + intros m. cbn. unfold fupd. destruct (Nat.eqb_spec m (fl_obj o)) as [->|N]; [split; discriminate|].
      rewrite W, Ep. cbn. split; congruence.
    + intros m u Nu. unfold fupd. destruct (Nat.eqb_spec m (fl_obj o)) as [->|N]; [|tauto]. rewrite Eo. split; congruence.
  - constructor; cbn; [apply K0; auto|]. intros u. rewrite in_call_snoc, C. cbn. unfold fupd.
    rewrite (Nat.eqb_sym t u). destruct (u =? t)%nat; auto.
Qed.

Local Notation run busy file := (crun (fl_step busy file)).

Lemma FLW_reach busy file sched : FLW (fst (run busy file fl_init sched)) (snd (run busy file fl_init sched)).
Proof.
  induction sched as [|[t op] l IH] using rev_ind; [apply FLW0|].
  rewrite crun_snoc. cbn [fst snd]. now apply FLW_step.
Qed.

(** ** One goroutine per value *)
(** What holds of goroutine [t], with the handle and the path of its value, where it is,
    whether it has the lock, and the paths its Inits have set. *)
Record FT (hd path : nat) (pc : fl_pc) (hl : bool) (ini : nat -> Prop) (t : nat) : Prop := {
  o_obj : forall op, pc_op pc = Some op -> fl_obj op = t;
  o_has : hl = true -> hd <> 0%nat /\ pc_op pc <> Some (FUnlock t);
  o_not : hl = false -> hd = 0%nat \/ pc = FEnter (FUnlock t) \/ pc = FBody (FUnlock t)
            \/ pc = FLeave (FLock t) (FErr None) \/ pc = FRet (FLock t) (FErr None);
  o_new : pc = FLeave (FLock t) (FErr None) \/ pc = FRet (FLock t) (FErr None) -> hd <> 0%nat;
  o_old : forall r, pc = FLeave (FUnlock t) r \/ pc = FRet (FUnlock t) r -> hd = 0%nat;
  o_path : forall p, p <> 0%nat -> (pc = FLeave (FInit t p) (FOk true) \/ pc = FRet (FInit t p) (FOk true) \/ ini p) -> path = p;
  o_sleep : forall op, pc = FSleep op -> op = FLock t
}.
Definition FLO (s : fl_state) (h : list (ext fl_op fl_res)) : Prop :=
  fl_next s <> 0%nat /\
  forall t, FT (fl_h s t) (fl_path s t) (fl_pcs s t) (has_lock h t) (fun p => In (Ret t (FInit t p) (FOk true)) h) t.

Lemma FLO0 : FLO fl_init [].
Proof. split; [cbn; lia|]. intros t. constructor; cbn; try discriminate; auto; intuition discriminate. Qed.

Ltac ftac := cbn in *;
  repeat match goal with
  | H : Some _ = Some _ |- _ => injection H as H; try subst
  | H : _ \/ _ |- _ => destruct H
  | H : _ /\ _ |- _ => destruct H
  end; try subst; try discriminate; try congruence; auto.

Lemma FLO_step busy file s h t op : FLO s h -> fl_obj op = t ->
  FLO (fst (fl_step busy file s t op)) (h ++ snd (fl_step busy file s t op)).
Proof.
  intros [N F] Eo.
  (* the others *)
  assert (OT : forall s' evs, fl_next s' <> 0%nat -> (forall u, u <> t -> fl_h s' u = fl_h s u /\ fl_path s' u = fl_path s u /\ fl_pcs s' u = fl_pcs s u) ->
     (evs = [] \/ (exists o, evs = [Inv t o]) \/ exists o r, evs = [Ret t o r]) ->
     FT (fl_h s' t) (fl_path s' t) (fl_pcs s' t) (has_lock (h ++ evs) t) (fun p => In (Ret t (FInit t p) (FOk true)) (h ++ evs)) t ->
     FLO s' (h ++ evs)).
  { intros s' evs N' Hu He Ht. split; auto. intros u. destruct (Nat.eq_dec u t) as [->|Nu]; auto.
    destruct (Hu u Nu) as (-> & -> & ->).
    assert (Hl : has_lock (h ++ evs) u = has_lock h u).
    { destruct He as [->|[(o & ->)|(o & r & ->)]]; [now rewrite app_nil_r| |]; rewrite has_lock_snoc; cbn.
      - destruct o; auto. destruct (Nat.eqb_spec t u); congruence.
      - destruct o; auto. destruct r as [|[]|]; auto. destruct (Nat.eqb_spec t u); congruence. }
    rewrite Hl. pose proof (F u) as G. constructor; try apply G.
    intros p Np [A|[A|A]]; [apply G; auto|apply G; auto|]. apply G; auto. right; right.
    apply in_app_or in A. destruct A as [A|A]; auto.
    destruct He as [->|[(o & ->)|(o & r & ->)]]; cbn in A; [tauto|destruct A as [A|[]]; discriminate|].
    destruct A as [A|[]]. congruence. }
  assert (P : forall pc u, u <> t -> fupd (fl_pcs s) t pc u = fl_pcs s u) by (intros; now apply fupd_other).
  pose proof (F t) as G. unfold fl_step. destruct (fl_pcs s t) as [|o|o|o|o r|o r] eqn:Ep.
  - apply OT; cbn; eauto. rewrite fupd_same, has_lock_snoc.
    constructor; cbn; try discriminate; try (intuition discriminate).
    + intros o [= <-]. auto.
    + intros H. destruct op as [m p|m|m]; cbn in Eo; subst; cbn in *.
      * split; [|congruence]. apply G; auto.
      * split; [|congruence]. apply G; auto.
      * rewrite Nat.eqb_refl in H. discriminate.
    + intros H. destruct op as [m p|m|m]; cbn in Eo; subst; cbn in *; auto;
        destruct (o_not _ _ _ _ _ _ G H) as [A|[A|[A|[A|A]]]]; auto; discriminate.
    + intros p Np [A|[A|A]]; try discriminate. apply G; auto. right; right. apply in_app_or in A. destruct A as [A|[A|[]]]; auto; discriminate.
  - assert (fl_obj o = t) by (apply G; auto).
    destruct (fl_w s (fl_obj o)) as [v|] eqn:Ew; cbn [fst snd].
    { rewrite app_nil_r. split; auto. }
    apply OT; cbn; auto. rewrite fupd_same, app_nil_r. constructor; cbn; try discriminate; try (intuition discriminate).
    + apply G.
    + apply G.
    + intros Hl. destruct (o_not _ _ _ _ _ _ G Hl) as [A|[A|[A|[A|A]]]]; auto; try discriminate. injection A as ->. auto.
    + intros p Np [A|[A|A]]; try discriminate. apply G; auto.
  - assert (Em : fl_obj o = t) by (apply G; auto).
    destruct o as [m p|m|m]; cbn in Em; subst m.
    + destruct (Nat.eqb_spec (fl_path s t) 0) as [E0|E0]; cbn [fst snd];
        apply OT; cbn; auto; try (intros u Nu; now rewrite !fupd_other by auto);
        rewrite !fupd_same, app_nil_r; constructor; cbn; try discriminate; try (intuition discriminate).
      * intros ? [= <-]; auto.
      * intros Hl. split; [|congruence]. now apply G.
      * intros Hl. destruct (o_not _ _ _ _ _ _ G Hl) as [A|[A|[A|[A|A]]]]; auto; try discriminate.
      * intros q Nq [A|[A|A]]; [congruence|discriminate|]. assert (fl_path s t = q) by (apply G; auto). congruence.
      * intros ? [= <-]; auto.
      * intros Hl. split; [|congruence]. now apply G.
      * intros Hl. destruct (o_not _ _ _ _ _ _ G Hl) as [A|[A|[A|[A|A]]]]; auto; try discriminate.
      * intros q Nq [A|[A|A]]; [congruence|discriminate|]. apply G; auto.
    + destruct (create_file busy file s (fl_path s t)) as [k|e] eqn:Ec; [|destruct (negb (e =? EACCES))]; cbn [fst snd];
        apply OT; cbn; auto; try (intros u Nu; now rewrite !fupd_other by auto);
        rewrite !fupd_same, app_nil_r.
      * assert (k = fl_next s).
        { revert Ec. unfold create_file. destruct (_ && _); [|discriminate]. destruct (fl_open s (fl_path s t)); [discriminate|]. congruence. }
        subst k. constructor; cbn; try discriminate; try (intuition discriminate); auto.
        -- intros ? [= <-]; auto.
        -- intros q Nq [A|[A|A]]; try discriminate. apply G; auto.
      * constructor; cbn; try discriminate; try (intuition discriminate); auto.
        -- intros ? [= <-]; auto.
        -- intros Hl. split; [|congruence]. now apply G.
        -- intros Hl. destruct (o_not _ _ _ _ _ _ G Hl) as [A|[A|[A|[A|A]]]]; auto; try discriminate.
        -- intros q Nq [A|[A|A]]; try discriminate. apply G; auto.
      * constructor; cbn; try discriminate; try (intuition discriminate); auto.
        -- intros ? [= <-]; auto.
        -- intros Hl. split; [|congruence]. now apply G.
        -- intros Hl. destruct (o_not _ _ _ _ _ _ G Hl) as [A|[A|[A|[A|A]]]]; auto; try discriminate.
        -- intros q Nq [A|[A|A]]; try discriminate. apply G; auto.
        -- congruence.
    + cbn [fst snd]. apply OT; cbn; auto; try (intros u Nu; now rewrite !fupd_other by auto).
      rewrite !fupd_same, app_nil_r. constructor; cbn; try discriminate; try (intuition discriminate); auto.
      * intros ? [= <-]; auto.
      * intros Hl. exfalso. apply (o_has _ _ _ _ _ _ G) in Hl. cbn in Hl. tauto.
      * intros q Nq [A|[A|A]]; try discriminate. apply G; auto.
  - assert (o = FLock t) as -> by (apply (o_sleep _ _ _ _ _ _ G); auto). cbn [fst snd]. apply OT; cbn; auto. rewrite !fupd_same, app_nil_r. constructor; cbn; try discriminate; try (intuition discriminate); auto.
    + intros ? [= <-]; auto.
    + apply G.
    + intros Hl. destruct (o_not _ _ _ _ _ _ G Hl) as [A|[A|[A|[A|A]]]]; auto; try discriminate.
    + intros q Nq [A|[A|A]]; try discriminate. apply G; auto.
  - cbn [fst snd]. apply OT; cbn; auto. rewrite !fupd_same, app_nil_r. constructor; cbn; try discriminate; auto.
    + apply G.
    + apply G.
    + intros Hl. destruct (o_not _ _ _ _ _ _ G Hl) as [A|[A|[A|[A|A]]]]; auto; try discriminate. injection A as E1 E2. subst. auto 8.
    + intros [A|A]; [discriminate|]. injection A as -> ->. apply (o_new _ _ _ _ _ _ G); auto.
    + intros r0 [A|A]; [discriminate|]. injection A as -> ->. apply (o_old _ _ _ _ _ _ G r0); auto.
    + intros q Nq [A|[A|A]]; [discriminate| |].
      * injection A as -> ->. apply G; auto.
      * apply G; auto.
  - assert (Em : fl_obj o = t) by (apply G; auto).
    cbn [fst snd]. apply OT; cbn; eauto. rewrite !fupd_same, has_lock_snoc.
    assert (I : forall q, In (Ret t (FInit t q) (FOk true)) (h ++ [Ret t o r]) -> FRet o r = FRet (FInit t q) (FOk true) \/ In (Ret t (FInit t q) (FOk true)) h).
    { intros q A. apply in_app_or in A. destruct A as [A|[A|[]]]; auto. left. congruence. }
    constructor; cbn; try discriminate; auto; try (intuition discriminate).
    + intros Hl. split; [|discriminate].
      destruct o as [m p|m|m]; cbn in *; subst; try (apply G; auto; fail).
      destruct r as [b|[e|]|]; try (apply G; auto; fail).
      apply (o_new _ _ _ _ _ _ G); auto.
    + intros Hl. left.
      destruct o as [m p|m|m]; cbn in *; subst.
      * destruct (o_not _ _ _ _ _ _ G Hl) as [A|[A|[A|[A|A]]]]; auto; discriminate.
      * destruct r as [b|[e|]|]; cbn in Hl; try (rewrite Nat.eqb_refl in Hl; discriminate);
          destruct (o_not _ _ _ _ _ _ G Hl) as [A|[A|[A|[A|A]]]]; auto; discriminate.
      * apply (o_old _ _ _ _ _ _ G r); auto.
    + intros q Nq [A|[A|A]]; try discriminate. apply I in A. apply G; auto.
Qed.

Lemma FLO_reach busy file sched : own sched -> FLO (fst (run busy file fl_init sched)) (snd (run busy file fl_init sched)).
Proof.
  induction sched as [|[t op] l IH] using rev_ind; intros O; [apply FLO0|].
  apply Forall_app in O. destruct O as (O1 & O2). inversion O2; subst. cbn in *.
  rewrite crun_snoc. cbn [fst snd]. apply FLO_step; auto.
Qed.

Lemma fl_exclusion busy file sched h t u p q : own sched -> h = snd (run busy file fl_init sched) ->
  t <> u -> p <> 0%nat -> q <> 0%nat ->
  has_lock h t = true -> has_lock h u = true ->
  In (Ret t (FInit t p) (FOk true)) h -> In (Ret u (FInit u q) (FOk true)) h -> p <> q.
Proof.
  intros O -> Ntu Np Nq Ht Hu It Iu <-.
  destruct (FLO_reach busy file sched O) as [_ F].
  destruct (fl_reach busy file sched) as (evs & a & st & _ & _ & R).
  assert (A : forall x, has_lock (snd (run busy file fl_init sched)) x = true -> In (Ret x (FInit x p) (FOk true)) (snd (run busy file fl_init sched)) ->
                        fa_held a p = Some x).
  { intros x Hx Ix. destruct (o_has _ _ _ _ _ _ (F x) Hx) as (K & _).
    apply (f_hnd _ _ _ _ _ R) in K. rewrite (o_path _ _ _ _ _ _ (F x) p) in K; auto. }
  pose proof (A t Ht It). pose proof (A u Hu Iu). congruence.
Qed.
