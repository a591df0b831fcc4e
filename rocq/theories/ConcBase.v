(** Concurrent executions and linearizability, independent of any object.
    Nothing here corresponds to lines of /repo. *)
From Coq Require Import ZArith List Arith Lia Permutation.
Import ListNotations.

(** Functional update of a thread table. *)
Definition fupd {X : Type} (f : nat -> X) (t : nat) (x : X) : nat -> X :=
  fun u => if u =? t then x else f u.

Lemma fupd_same {X} (f : nat -> X) t x : fupd f t x t = x.
Proof. unfold fupd. now rewrite Nat.eqb_refl. Qed.
Lemma fupd_other {X} (f : nat -> X) t u x : u <> t -> fupd f t x u = f u.
Proof. unfold fupd. intros H. destruct (Nat.eqb_spec u t); congruence. Qed.

Section Lin.
Context {Op Res A : Type}.

(** What a client sees: calls and returns, each with its thread. *)
Inductive ext := Inv (t : nat) (op : Op) | Ret (t : nat) (op : Op) (r : Res).
(** The same with the moments at which calls take effect. *)
Inductive aev := AInv (t : nat) (op : Op) | ALin (t : nat) (op : Op) (r : Res) | ARet (t : nat) (op : Op) (r : Res).

Fixpoint erase (h : list aev) : list ext :=
  match h with
  | [] => []
  | AInv t op :: h => Inv t op :: erase h
  | ALin _ _ _ :: h => erase h
  | ARet t op r :: h => Ret t op r :: erase h
  end.

(** Where a thread is: between calls, in a call that has not taken effect, in a
    call that has taken effect with a result. *)
Inductive tstat := TIdle | TPend (op : Op) | TDone (op : Op) (r : Res).

(** [lin_run spec a st h a' st']: in [h] every thread alternates call, effect,
    return; every effect lies between its call and its return; the effects, in
    their order, are a run of the sequential object [spec] from [a] to [a'];
    every return gives the result of its effect. *)
Inductive lin_run (spec : A -> Op -> Res -> A -> Prop) : A -> (nat -> tstat) -> list aev -> A -> (nat -> tstat) -> Prop :=
| lr_nil a st : lin_run spec a st [] a st
| lr_inv a st t op h a' st' : st t = TIdle ->
    lin_run spec a (fupd st t (TPend op)) h a' st' -> lin_run spec a st (AInv t op :: h) a' st'
| lr_lin a st t op r b h a' st' : st t = TPend op -> spec a op r b ->
    lin_run spec b (fupd st t (TDone op r)) h a' st' -> lin_run spec a st (ALin t op r :: h) a' st'
| lr_ret a st t op r h a' st' : st t = TDone op r ->
    lin_run spec a (fupd st t TIdle) h a' st' -> lin_run spec a st (ARet t op r :: h) a' st'.

(** A history of calls and returns is linearizable: moments of effect can be
    chosen as above. *)
Definition linearizable (spec : A -> Op -> Res -> A -> Prop) (a0 : A) (h : list ext) : Prop :=
  exists h' a' st', erase h' = h /\ lin_run spec a0 (fun _ => TIdle) h' a' st'.

(** The effects and the returns of an annotated history, in order. *)
Fixpoint lins (h : list aev) : list (nat * Op * Res) :=
  match h with
  | [] => []
  | ALin t op r :: h => (t, op, r) :: lins h
  | _ :: h => lins h
  end.
Fixpoint rets (h : list ext) : list (nat * Op * Res) :=
  match h with
  | [] => []
  | Ret t op r :: h => (t, op, r) :: rets h
  | _ :: h => rets h
  end.

Fixpoint invs (h : list ext) : list (nat * Op) :=
  match h with
  | [] => []
  | Inv t op :: h => (t, op) :: invs h
  | _ :: h => invs h
  end.

Lemma erase_app h1 h2 : erase (h1 ++ h2) = erase h1 ++ erase h2.
Proof. induction h1 as [|[] h1 IH]; cbn; congruence. Qed.
Lemma lins_app h1 h2 : lins (h1 ++ h2) = lins h1 ++ lins h2.
Proof. induction h1 as [|[] h1 IH]; cbn; congruence. Qed.
Lemma rets_app h1 h2 : rets (h1 ++ h2) = rets h1 ++ rets h2.
Proof. induction h1 as [|[] h1 IH]; cbn; congruence. Qed.

Lemma lin_run_app spec a st h1 b st1 : lin_run spec a st h1 b st1 ->
  forall h2 c st2, lin_run spec b st1 h2 c st2 -> lin_run spec a st (h1 ++ h2) c st2.
Proof.
  induction 1; intros h2 c st2 H2; cbn; auto.
  - eapply lr_inv; eauto.
  - eapply lr_lin; eauto.
  - eapply lr_ret; eauto.
Qed.

(** Runs of a machine whose step takes a thread and the operation that the
    thread calls next if it is between calls. *)
Context {S : Type}.
Fixpoint crun (step : S -> nat -> Op -> S * list ext) (s : S) (sched : list (nat * Op)) : S * list ext :=
  match sched with
  | [] => (s, [])
  | (t, op) :: rest => let (s1, h1) := step s t op in
                       let (s2, h2) := crun step s1 rest in (s2, h1 ++ h2)
  end.

Lemma lin_sim spec step (R : S -> A -> (nat -> tstat) -> Prop) :
  (forall s a st t op, R s a st -> exists evs a' st',
     erase evs = snd (step s t op) /\ lin_run spec a st evs a' st' /\ R (fst (step s t op)) a' st') ->
  forall sched s a st, R s a st -> exists evs a' st',
     erase evs = snd (crun step s sched) /\ lin_run spec a st evs a' st' /\ R (fst (crun step s sched)) a' st'.
Proof.
  intros Hstep sched. induction sched as [|[t op] rest IH]; intros s a st HR.
  - exists [], a, st. cbn. repeat split; auto. constructor.
  - destruct (Hstep s a st t op HR) as (e1 & a1 & st1 & E1 & L1 & R1).
    cbn [crun]. destruct (step s t op) as [s1 h1]. cbn [fst snd] in *.
    destruct (IH s1 a1 st1 R1) as (e2 & a2 & st2 & E2 & L2 & R2).
    destruct (crun step s1 rest) as [s2 h2]. cbn [fst snd] in *.
    exists (e1 ++ e2), a2, st2. repeat split; auto.
    + now rewrite erase_app, E1, E2.
    + eapply lin_run_app; eauto.
Qed.

(** The same for schedules all of whose entries satisfy [P]. *)
Lemma lin_sim_on spec step (R : S -> A -> (nat -> tstat) -> Prop) (P : nat -> Op -> Prop) :
  (forall s a st t op, P t op -> R s a st -> exists evs a' st',
     erase evs = snd (step s t op) /\ lin_run spec a st evs a' st' /\ R (fst (step s t op)) a' st') ->
  forall sched s a st, Forall (fun e => P (fst e) (snd e)) sched -> R s a st -> exists evs a' st',
     erase evs = snd (crun step s sched) /\ lin_run spec a st evs a' st' /\ R (fst (crun step s sched)) a' st'.
Proof.
  intros Hstep sched. induction sched as [|[t op] rest IH]; intros s a st HP HR.
  - exists [], a, st. cbn. repeat split; auto. constructor.
  - apply Forall_cons_iff in HP as [HP1 HP]. cbn in HP1.
    destruct (Hstep s a st t op HP1 HR) as (e1 & a1 & st1 & E1 & L1 & R1).
    cbn [crun]. destruct (step s t op) as [s1 h1]. cbn [fst snd] in *.
    destruct (IH s1 a1 st1 HP R1) as (e2 & a2 & st2 & E2 & L2 & R2).
    destruct (crun step s1 rest) as [s2 h2]. cbn [fst snd] in *.
    exists (e1 ++ e2), a2, st2. repeat split; auto.
    + now rewrite erase_app, E1, E2.
    + eapply lin_run_app; eauto.
Qed.

Lemma invs_app h1 h2 : invs (h1 ++ h2) = invs h1 ++ invs h2.
Proof. induction h1 as [|[] h1 IH]; cbn; congruence. Qed.

(** The same for at most [B] calls; the relation knows how many were made. *)
Lemma lin_sim_upto spec step (R : nat -> S -> A -> (nat -> tstat) -> Prop) (B : Z) :
  (forall n s a st t op, R n s a st -> (Z.of_nat (n + length (invs (snd (step s t op)))) <= B)%Z -> exists evs a' st',
     erase evs = snd (step s t op) /\ lin_run spec a st evs a' st' /\
     R (n + length (invs (snd (step s t op)))) (fst (step s t op)) a' st') ->
  forall sched n s a st, R n s a st -> (Z.of_nat (n + length (invs (snd (crun step s sched)))) <= B)%Z -> exists evs a' st',
     erase evs = snd (crun step s sched) /\ lin_run spec a st evs a' st' /\
     R (n + length (invs (snd (crun step s sched)))) (fst (crun step s sched)) a' st'.
Proof.
  intros Hstep sched. induction sched as [|[t op] rest IH]; intros n s a st HR Hb.
  - exists [], a, st. cbn. rewrite Nat.add_0_r. repeat split; auto. constructor.
  - cbn [crun] in *. specialize (Hstep n s a st t op HR).
    destruct (step s t op) as [s1 h1]. cbn [fst snd] in *.
    specialize (IH (n + length (invs h1)) s1).
    destruct (crun step s1 rest) as [s2 h2]. cbn [fst snd] in *.
    rewrite invs_app, app_length in Hb.
    destruct Hstep as (e1 & a1 & st1 & E1 & L1 & R1); [lia|].
    destruct (IH a1 st1 R1) as (e2 & a2 & st2 & E2 & L2 & R2); [lia|].
    exists (e1 ++ e2), a2, st2. repeat split; auto.
    + now rewrite erase_app, E1, E2.
    + eapply lin_run_app; eauto.
    + rewrite invs_app, app_length. now rewrite Nat.add_assoc.
Qed.

(** Every return belongs to its own effect. *)
Lemma rets_are_lins_gen spec a st h a' st' : lin_run spec a st h a' st' ->
  forall (L : list (nat * Op * Res)) ks (rs : list (nat * Op * Res)),
  NoDup ks -> Forall2 (fun k e => nth_error L k = Some e) ks rs ->
  (forall t op r, st t = TDone op r -> exists i, ~ In i ks /\ nth_error L i = Some (t, op, r)) ->
  exists ks', NoDup ks' /\
    Forall2 (fun k e => nth_error (L ++ lins h) k = Some e) ks' (rs ++ rets (erase h)).
Proof.
  assert (mono : forall (L M : list (nat * Op * Res)) k e, nth_error L k = Some e -> nth_error (L ++ M) k = Some e).
  { intros L M k e H. rewrite nth_error_app1; auto. apply nth_error_Some. congruence. }
  induction 1 as [a st|a st t op h a' st' Ht Hr IH|a st t op r b h a' st' Ht Hs Hr IH|a st t op r h a' st' Ht Hr IH];
    intros L ks rs Hnd Hf Hd; cbn [lins erase rets].
  - exists ks. rewrite !app_nil_r. auto.
  - apply (IH L ks); auto. intros u op' r Hu. unfold fupd in Hu. destruct (u =? t); [discriminate|eauto].
  - replace (L ++ (t, op, r) :: lins h) with ((L ++ [(t, op, r)]) ++ lins h) by (rewrite <- app_assoc; reflexivity).
    apply (IH _ ks); auto.
    + clear - Hf mono. induction Hf; constructor; auto.
    + intros u op' r' Hu. unfold fupd in Hu. destruct (Nat.eqb_spec u t) as [->|].
      * injection Hu as -> ->. exists (length L). split.
        -- intros Hin. clear - Hf Hin. induction Hf as [|k e ks rs Hk _ IHf]; [destruct Hin|].
           destruct Hin as [->|Hin]; auto. assert (length L < length L) by (apply nth_error_Some; congruence). lia.
        -- rewrite nth_error_app2, Nat.sub_diag by lia. reflexivity.
      * destruct (Hd u op' r' Hu) as (i & Hi & Ei). exists i. split; auto.
  - destruct (Hd t op r Ht) as (i & Hi & Ei).
    replace (rs ++ (t, op, r) :: rets (erase h)) with ((rs ++ [(t, op, r)]) ++ rets (erase h))
      by (rewrite <- app_assoc; reflexivity).
    apply IH with (ks := ks ++ [i]).
    + clear - Hnd Hi. induction Hnd as [|k ks Hk _ IHn]; cbn.
      * constructor; [intros []|constructor].
      * cbn in Hi. constructor; [|apply IHn; tauto]. rewrite in_app_iff. cbn. intros [|[|[]]]; [tauto|subst; tauto].
    + apply Forall2_app; auto.
    + intros u op' r' Hu. unfold fupd in Hu. destruct (Nat.eqb_spec u t) as [->|Hne]; [discriminate|].
      destruct (Hd u op' r' Hu) as (j & Hj & Ej). exists j. split; auto.
      rewrite in_app_iff. cbn. intros [|[<-|[]]]; [tauto|]. congruence.
Qed.

Lemma rets_are_lins spec a h a' st' : lin_run spec a (fun _ => TIdle) h a' st' ->
  exists ks, NoDup ks /\ Forall2 (fun k e => nth_error (lins h) k = Some e) ks (rets (erase h)).
Proof.
  intros H. apply (rets_are_lins_gen _ _ _ _ _ _ H [] [] []).
  - constructor.
  - constructor.
  - discriminate.
Qed.

(** Every effect belongs to its own call. *)
Lemma lins_are_invs_gen spec a st h a' st' : lin_run spec a st h a' st' ->
  forall (L : list (nat * Op)) ks (rs : list (nat * Op * Res)),
  NoDup ks -> Forall2 (fun k e => nth_error L k = Some (fst e)) ks rs ->
  (forall t op, st t = TPend op -> exists i, ~ In i ks /\ nth_error L i = Some (t, op)) ->
  exists ks', NoDup ks' /\
    Forall2 (fun k e => nth_error (L ++ invs (erase h)) k = Some (fst e)) ks' (rs ++ lins h).
Proof.
  assert (mono : forall (L M : list (nat * Op)) k e, nth_error L k = Some e -> nth_error (L ++ M) k = Some e).
  { intros L M k e H. rewrite nth_error_app1; auto. apply nth_error_Some. congruence. }
  induction 1 as [a st|a st t op h a' st' Ht Hr IH|a st t op r b h a' st' Ht Hs Hr IH|a st t op r h a' st' Ht Hr IH];
    intros L ks rs Hnd Hf Hd; cbn [lins erase invs].
  - exists ks. rewrite !app_nil_r. auto.
  - replace (L ++ (t, op) :: invs (erase h)) with ((L ++ [(t, op)]) ++ invs (erase h)) by (rewrite <- app_assoc; reflexivity).
    apply (IH _ ks); auto.
    + clear - Hf mono. induction Hf; constructor; auto.
    + intros u op' Hu. unfold fupd in Hu. destruct (Nat.eqb_spec u t) as [->|].
      * injection Hu as ->. exists (length L). split.
        -- intros Hin. clear - Hf Hin. induction Hf as [|k e ks rs Hk _ IHf]; [destruct Hin|].
           destruct Hin as [->|Hin]; auto. assert (length L < length L) by (apply nth_error_Some; congruence). lia.
        -- rewrite nth_error_app2, Nat.sub_diag by lia. reflexivity.
      * destruct (Hd u op' Hu) as (i & Hi & Ei). exists i. split; auto.
  - destruct (Hd t op Ht) as (i & Hi & Ei).
    replace (rs ++ (t, op, r) :: lins h) with ((rs ++ [(t, op, r)]) ++ lins h)
      by (rewrite <- app_assoc; reflexivity).
    apply IH with (ks := ks ++ [i]).
    + clear - Hnd Hi. induction Hnd as [|k ks Hk _ IHn]; cbn.
      * constructor; [intros []|constructor].
      * cbn in Hi. constructor; [|apply IHn; tauto]. rewrite in_app_iff. cbn. intros [|[|[]]]; [tauto|subst; tauto].
    + apply Forall2_app; auto.
    + intros u op' Hu. unfold fupd in Hu. destruct (Nat.eqb_spec u t) as [->|Hne]; [discriminate|].
      destruct (Hd u op' Hu) as (j & Hj & Ej). exists j. split; auto.
      rewrite in_app_iff. cbn. intros [|[<-|[]]]; [tauto|]. congruence.
  - apply (IH L ks); auto. intros u op' Hu. unfold fupd in Hu. destruct (u =? t); [discriminate|eauto].
Qed.

Lemma lins_le_invs spec a h a' st' : lin_run spec a (fun _ => TIdle) h a' st' ->
  length (lins h) <= length (invs (erase h)).
Proof.
  intros H. destruct (lins_are_invs_gen _ _ _ _ _ _ H [] [] []) as (ks & Hnd & Hf).
  - constructor.
  - constructor.
  - discriminate.
  - cbn in Hf.
    assert (El : length ks = length (lins h)) by (clear - Hf; induction Hf; cbn; congruence).
    rewrite <- El, <- (seq_length (length (invs (erase h))) 0).
    apply NoDup_incl_length; auto. intros k Hk. apply in_seq.
    assert (G : forall l1 l2, Forall2 (fun k (e : nat * Op * Res) => nth_error (invs (erase h)) k = Some (fst e)) l1 l2 ->
       In k l1 -> k < length (invs (erase h))).
    { clear. induction 1 as [|x y l1 l2 Hxy _ IH]; [intros []|]. intros [->|Hin]; auto.
      apply nth_error_Some. congruence. }
    specialize (G _ _ Hf Hk). lia.
Qed.

(** The first annotated history of a linearizable one, with both facts. *)
Lemma rets_positions spec a h a' st' : lin_run spec a (fun _ => TIdle) h a' st' ->
  exists ks, NoDup ks /\ Forall (fun k => k < length (invs (erase h))) ks /\
    Forall2 (fun k e => nth_error (lins h) k = Some e) ks (rets (erase h)).
Proof.
  intros H. destruct (rets_are_lins _ _ _ _ _ H) as (ks & Hnd & Hf). exists ks. repeat split; auto.
  pose proof (lins_le_invs _ _ _ _ _ H) as Hle.
  clear Hnd. induction Hf as [|k e ks rs Hk _ IH]; constructor; auto.
  apply Nat.lt_le_trans with (length (lins h)); auto. apply nth_error_Some. congruence.
Qed.

(** When no call is running at the end, the returns are exactly the effects. *)
Lemma quiescent_gen spec a st h a' st' : lin_run spec a st h a' st' -> (forall t, st' t = TIdle) ->
  forall D : list (nat * Op * Res), NoDup D -> (forall t op r, In (t, op, r) D <-> st t = TDone op r) ->
  Permutation (rets (erase h)) (D ++ lins h).
Proof.
  induction 1 as [a st|a st t op h a' st' Ht Hr IH|a st t op r b h a' st' Ht Hs Hr IH|a st t op r h a' st' Ht Hr IH];
    intros Hq D ND HD; cbn [lins erase rets].
  - destruct D as [|[[t op] r] D]; [reflexivity|]. exfalso.
    assert (K : st t = TDone op r) by (apply HD; cbn; auto). rewrite Hq in K. discriminate.
  - apply IH; auto. intros u op' r'. unfold fupd. rewrite HD. destruct (Nat.eqb_spec u t) as [->|]; [|tauto].
    rewrite Ht. split; discriminate.
  - rewrite (IH Hq ((t, op, r) :: D)).
    + cbn. apply Permutation_middle.
    + constructor; auto. rewrite HD, Ht. discriminate.
    + intros u op' r'. cbn. rewrite HD. unfold fupd. destruct (Nat.eqb_spec u t) as [->|N].
      * rewrite Ht. split; [intros [K|K]; [injection K as -> ->; auto|discriminate]|intros K; injection K as -> ->; auto].
      * split; [intros [K|K]; [congruence|auto]|auto].
  - assert (Hin : In (t, op, r) D) by (apply HD; auto). destruct (in_split _ _ Hin) as (D1 & D2 & ->).
    apply NoDup_remove in ND. destruct ND as (ND & Hn).
    rewrite (IH Hq (D1 ++ D2)).
    + rewrite <- !app_assoc. cbn. apply Permutation_middle.
    + auto.
    + intros u op' r'. specialize (HD u op' r'). rewrite in_app_iff in HD. cbn in HD. rewrite in_app_iff. unfold fupd.
      destruct (Nat.eqb_spec u t) as [->|N].
      * split; [|discriminate]. intros K. exfalso. assert (E : st t = TDone op' r') by (apply HD; tauto).
        rewrite Ht in E. injection E as <- <-. apply Hn. apply in_app_iff. auto.
      * rewrite <- HD. split; [tauto|]. intros [K|[K|K]]; [auto|congruence|auto].
Qed.
Lemma quiescent_rets spec a h a' st' : lin_run spec a (fun _ => TIdle) h a' st' -> (forall t, st' t = TIdle) ->
  Permutation (rets (erase h)) (lins h).
Proof.
  intros H Q. apply (quiescent_gen _ _ _ _ _ _ H Q []); [constructor|]. intros; cbn. split; [tauto|discriminate].
Qed.
End Lin.
Arguments ext : clear implicits.
Arguments aev : clear implicits.
Arguments tstat : clear implicits.
