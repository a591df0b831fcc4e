(** The deque without Init behaves like one after Init(8), if one goroutine pushes. *)
From Coq Require Import ZArith List Bool Lia.
From Verif Require Import GoBase ConcBase LFDModel LFDSpec LFDProofs LFDConc SpinProofs LFDLazyModel.
Import ListNotations.
Open Scope Z_scope.

Section Lazy.
Variables (p c : nat).
Definition fresh8 : lfd := LFD 0 0 (repeat 0 8).
(** Places that a goroutine can reach while the word is 0 and that do not push. *)
Definition quiet (pc : cd_pc) : Prop :=
  match pc with DIdle | DPopLoad _ | DSizeLoad => True | DRet _ _ => True | _ => False end.
(** Before the buffer is made. *)
Definition before (s : cz_state) (b : cd_state) : Prop :=
  cz_q s = lfd_zero /\ cd_q b = fresh8 /\
  forall t, match cz_pcs s t with
            | ZBase pc => cd_pcs b t = pc /\ quiet pc
            | ZInit v | ZMake v => t = p /\ cd_pcs b t = DPushLoad v
            | _ => False
            end.
(** While it is being cleared. *)
Definition making (s : cz_state) (b : cd_state) : Prop :=
  cz_q s = fresh8 /\ cd_q b = fresh8 /\ (exists v, cd_pcs b p = DPushLoad v /\ (cz_pcs s p = ZStore v \/ cz_pcs s p = ZBusy v)) /\
  forall t, t <> p -> cz_pcs s t = ZBase (cd_pcs b t) /\ quiet (cd_pcs b t).
(** Afterwards. *)
Definition after (s : cz_state) (b : cd_state) : Prop :=
  cz_q s = cd_q b /\ fd_d (cz_q s) <> [] /\ forall t, cz_pcs s t = ZBase (cd_pcs b t).

Definition okop (t : nat) (op : cd_op) : Prop := match op with DPush _ => t = p | DPop => t = c | DSize => True end.

Lemma after_step s b t op : after s b ->
  snd (cz_step s t op) = snd (cd_step b t op) /\ after (fst (cz_step s t op)) (fst (cd_step b t op)).
Proof.
  intros (Q & N & P). unfold cz_step. rewrite (P t).
  assert (E : match cd_pcs b t, op with
              | DIdle, DPush v => (CZ (cz_q s) (fupd (cz_pcs s) t (match fd_d (cz_q s) with [] => ZInit v | _ => ZBase (DPushLoad v) end)), [Inv t op])
              | _, _ => let '(b', h) := cd_step (cz_at_pc s (cd_pcs b t)) t op in
                        (CZ (cd_q b') (fupd (cz_pcs s) t (ZBase (cd_pcs b' t))), h)
              end = let '(b', h) := cd_step (cz_at_pc s (cd_pcs b t)) t op in (CZ (cd_q b') (fupd (cz_pcs s) t (ZBase (cd_pcs b' t))), h)).
  { destruct (cd_pcs b t) eqn:Eb; try reflexivity. destruct op; try reflexivity. cbn. rewrite fupd_same.
    destruct (fd_d (cz_q s)); [congruence | reflexivity]. }
  rewrite E. clear E.
  assert (F : forall pc q, after (CZ q (fupd (cz_pcs s) t (ZBase pc))) (CD q (fupd (cd_pcs b) t pc)) \/ fd_d q = []).
  { intros pc q. destruct (fd_d q) eqn:Ed; [now right | left]. split; [reflexivity |]. cbn. split; [congruence |].
    intros u. cbn. unfold fupd. destruct (Nat.eqb_spec u t); [reflexivity | apply P]. }
  assert (G : forall pc q, fd_d q <> [] -> after (CZ q (fupd (cz_pcs s) t (ZBase pc))) (CD q (fupd (cd_pcs b) t pc))).
  { intros pc q H. destruct (F pc q); [assumption | contradiction]. }
  unfold cd_step, cz_at_pc. cbn [cd_q cd_pcs]. rewrite <- Q.
  destruct (cd_pcs b t) as [|v|v|v h0 t0|v h0 t0|f|h0 t0|h0 t0 f| |op' r|] eqn:Eb; cbn [fst snd cd_q cd_pcs]; rewrite ?fupd_same;
    try (split; [reflexivity | now apply G]).
  - destruct (zset (fd_d (cz_q s)) t0 v) as [d' | |] eqn:Ez; cbn [fst snd cd_q cd_pcs]; rewrite ?fupd_same; split; try reflexivity; apply G; try exact N.
    cbn. unfold zset in Ez. destruct (t0 <? 0); [discriminate |]. unfold aset in Ez. destruct (_ <? _)%nat; [| discriminate].
    injection Ez as <-. destruct (fd_d (cz_q s)); [congruence |]. now destruct (Z.to_nat t0).
  - destruct (_ =? _); cbn [fst snd cd_q cd_pcs]; rewrite ?fupd_same; (split; [reflexivity | now apply G]).
  - destruct (zget _ _); cbn [fst snd cd_q cd_pcs]; rewrite ?fupd_same; (split; [reflexivity | now apply G]).
  - destruct (_ =? _); cbn [fst snd cd_q cd_pcs]; rewrite ?fupd_same; (split; [reflexivity | now apply G]).
Qed.

(** A quiet goroutine while the word is 0. *)
Lemma quiet_step s b t op : fd_ht (cz_q s) = 0 -> fd_ht (cd_q b) = 0 -> cz_pcs s t = ZBase (cd_pcs b t) -> quiet (cd_pcs b t) ->
  (forall v, cd_pcs b t = DIdle -> op <> DPush v) ->
  exists pc, quiet pc /\ snd (cz_step s t op) = snd (cd_step b t op) /\
    fst (cz_step s t op) = CZ (cz_q s) (fupd (cz_pcs s) t (ZBase pc)) /\ fst (cd_step b t op) = CD (cd_q b) (fupd (cd_pcs b) t pc).
Proof.
  intros Hs Hb P Q N. unfold cz_step. rewrite P. unfold cd_step, cz_at_pc. cbn [cd_q cd_pcs].
  destruct (cd_pcs b t) as [|v|v|v h0 t0|v h0 t0|f|h0 t0|h0 t0 f| |op' r|]; try contradiction.
  - destruct op as [v | |]; [now elim (N v) | |]; eexists; cbn [fst snd cd_q cd_pcs]; rewrite fupd_same; repeat split; exact Logic.I.
  - rewrite Hs, Hb. eexists; cbn [fst snd cd_q cd_pcs]; rewrite fupd_same; repeat split; exact Logic.I.
  - rewrite Hs, Hb. exists (DRet DSize (FInt 0)); cbn [fst snd cd_q cd_pcs]; rewrite fupd_same; repeat split.
  - eexists; cbn [fst snd cd_q cd_pcs]; rewrite fupd_same; repeat split; exact Logic.I.
Qed.

(** One step of the deque without Init is one step, or none, of the deque after Init. *)
Definition sim (s : cz_state) (b : cd_state) : Prop := before s b \/ making s b \/ after s b.
Lemma sim_step s b t op : okop t op -> sim s b ->
  exists l, (l = [] \/ l = [(t, op)]) /\ snd (cz_step s t op) = snd (crun cd_step b l) /\ sim (fst (cz_step s t op)) (fst (crun cd_step b l)).
Proof.
  intros Ho [B | [M | A]].
  - destruct B as (Qs & Qb & P). pose proof (P t) as Pt. destruct (cz_pcs s t) as [pc | v | v | v | v] eqn:Es; [| | | contradiction | contradiction].
    + destruct Pt as (Eb & Hq).
      assert (D : (exists v, pc = DIdle /\ op = DPush v) \/ forall v, pc = DIdle -> op <> DPush v).
      { destruct op; [| right; discriminate | right; discriminate]. destruct pc; try (right; discriminate). left. now exists v. }
      exists [(t, op)]. split; [now right |]. cbn [crun]. destruct D as [(v & -> & ->) | D].
      * unfold cz_step, cd_step. rewrite Es, Eb, Qs. cbn. split; [reflexivity |]. left. split; [reflexivity |]. split; [exact Qb |].
        intros u. cbn. unfold fupd. destruct (Nat.eqb_spec u t) as [-> | Nu]; [split; [exact Ho | reflexivity] | apply P].
      * rewrite <- Eb in Hq, Es, D. destruct (quiet_step s b t op) as (pc' & Hq' & E1 & E2 & E3); try assumption; try (rewrite Qs || rewrite Qb; reflexivity).
        destruct (cd_step b t op) as [b' h]. cbn in E1, E3 |- *. rewrite app_nil_r. split; [exact E1 |]. rewrite E2, E3. left.
        split; [exact Qs |]. split; [exact Qb |]. intros u. cbn. unfold fupd. destruct (Nat.eqb_spec u t); [now split | apply P].
    + destruct Pt as (-> & Eb). exists []. split; [now left |]. unfold cz_step. rewrite Es, Qs. cbn. split; [reflexivity |]. left.
      split; [reflexivity |]. split; [exact Qb |]. intros u. cbn. unfold fupd. destruct (Nat.eqb_spec u p) as [-> | Nu]; [now split | apply P].
    + destruct Pt as (-> & Eb). exists []. split; [now left |]. unfold cz_step. rewrite Es, Qs. cbn [fst snd crun lfd_zero fd_ht fd_busy]. split; [reflexivity |]. right. left.
      split; [reflexivity |]. split; [exact Qb |]. split.
      * exists v. split; [exact Eb |]. left. cbn. apply fupd_same.
      * intros u Nu. cbn. rewrite fupd_other by exact Nu. specialize (P u). destruct (cz_pcs s u); try contradiction; destruct P as (P1 & P2); [| congruence | congruence].
        now subst.
  - destruct M as (Qs & Qb & (v & Eb & Ev) & P). destruct (Nat.eq_dec t p) as [-> | Nt].
    + exists []. split; [now left |]. unfold cz_step. destruct Ev as [Es | Es]; rewrite Es, Qs; cbn; (split; [reflexivity |]); right.
      * left. split; [reflexivity |]. split; [exact Qb |]. split; [exists v; split; [exact Eb | right; cbn; apply fupd_same] |].
        intros u Nu. cbn. rewrite fupd_other by exact Nu. now apply P.
      * right. split; [cbn; now rewrite Qb |]. split; [discriminate |]. intros u. cbn. unfold fupd. destruct (Nat.eqb_spec u p) as [-> | Nu]; [now rewrite Eb | now apply P].
    + destruct (P t Nt) as (Es & Hq). exists [(t, op)]. split; [now right |]. cbn [crun].
      destruct (quiet_step s b t op) as (pc' & Hq' & E1 & E2 & E3); try assumption; try (rewrite Qs || rewrite Qb; reflexivity).
      { intros v' _ ->. exact (Nt Ho). }
      destruct (cd_step b t op) as [b' h]. cbn in E1, E3 |- *. rewrite app_nil_r. split; [exact E1 |]. rewrite E2, E3. right. left.
      split; [exact Qs |]. split; [exact Qb |]. cbn. split.
      * exists v. rewrite !fupd_other by congruence. now split.
      * intros u Nu. unfold fupd. destruct (Nat.eqb_spec u t); [now split | now apply P].
  - exists [(t, op)]. split; [now right |]. cbn [crun]. destruct (after_step s b t op A) as (E & A'). destruct (cd_step b t op) as [b' h].
    cbn in *. rewrite app_nil_r. split; [exact E |]. now right; right.
Qed.
Lemma sim_run sched : roles p c sched -> forall s b, sim s b ->
  exists l, roles p c l /\ snd (crun cz_step s sched) = snd (crun cd_step b l) /\ sim (fst (crun cz_step s sched)) (fst (crun cd_step b l)).
Proof.
  induction 1 as [| [t op] sched Ho Hs IH]; intros s b S; [exists []; repeat split; [constructor | exact S] |].
  destruct (sim_step s b t op Ho S) as (l1 & Hl & E1 & S1). destruct (IH _ _ S1) as (l2 & R2 & E2 & S2).
  exists (l1 ++ l2). split; [| split].
  - apply Forall_app. split; [| exact R2]. destruct Hl as [-> | ->]; [constructor | now repeat constructor].
  - cbn [crun]. rewrite crun_app. destruct (cz_step s t op) as [s1 h1]. destruct (crun cd_step b l1) as [b1 g1]. cbn [fst snd] in *.
    destruct (crun cz_step s1 sched). destruct (crun cd_step b1 l2). cbn in *. congruence.
  - cbn [crun]. rewrite crun_app. destruct (cz_step s t op) as [s1 h1]. destruct (crun cd_step b l1) as [b1 g1]. cbn [fst snd] in *.
    destruct (crun cz_step s1 sched). destruct (crun cd_step b1 l2). cbn in *. exact S2.
Qed.
Lemma sim_init : sim cz_init (cd_init 8).
Proof. left. split; [reflexivity |]. split; [reflexivity |]. intros t. cbn. repeat split. Qed.
End Lazy.

Theorem lazy_spsc p c sched : roles p c sched ->
  linearizable (cd_spec 7) [] (snd (crun cz_step cz_init sched)) /\
  forall t, cz_pcs (fst (crun cz_step cz_init sched)) t <> ZBase DPanic.
Proof.
  intros R. destruct (sim_run p c sched R _ _ (sim_init p)) as (l & Rl & E & S).
  destruct (lfd_spsc 8 p c l ltac:(lia) Rl) as (H1 & H2). rewrite E. split; [exact H1 |].
  intros t Et. specialize (H2 t). destruct S as [(_ & _ & P) | [(_ & _ & (v & _ & Ev) & P) | (_ & _ & P)]].
  - specialize (P t). rewrite Et in P. now destruct P as (_ & P).
  - destruct (Nat.eq_dec t p) as [-> | N]; [destruct Ev; congruence |]. destruct (P t N) as (P1 & P2). rewrite Et in P1. injection P1 as P1. now rewrite <- P1 in P2.
  - rewrite (P t) in Et. congruence.
Qed.
