(** Proofs: no call of package errors waits for ever. *)
From Coq Require Import ZArith List Bool Arith Lia ZifyBool.
From Verif Require Import GoBase ConcBase SpinProofs RegModel RegSpec RaceSpec ErrConcModel ErrConcSpec ErrFineModel ErrFineRace ErrFineProofs.
Import ListNotations.
Open Scope Z_scope.

Section Live.
Context (grow : nat -> nat).
Notation step := (ef_step grow).
Definition nop : er_op := EGet 0.
Definition reach (s : ef_state) : Prop := exists sched, sched_ok sched /\ s = fst (crun step ef_init sched).

Lemma reach_step s t op : er_ok op -> reach s -> reach (fst (step s t op)).
Proof.
  intros Ho (sc & H & ->). exists (sc ++ [(t, op)]). split; [|now rewrite crun_snoc].
  apply Forall_app. split; [exact H|]. constructor; [exact Ho|constructor].
Qed.
Lemma nop_ok : er_ok nop. Proof. cbn. lia. Qed.

(** The numbers. *)
Definition idok (pc : ef_pc) : Prop :=
  match pc with
  | FLoop _ id => 1001 <= id <= 10000
  | FRLock (FShow _ id) | FValid (FShow _ id) | FIndex (FShow _ id) | FRUnlock (FShow _ id) _ _ => 1001 <= id <= 9999
  | _ => True
  end.
Definition bd (s : ef_state) : Prop := 1000 <= ef_cur s <= 9999 /\ forall t, idok (ef_pcs s t).

Lemma wrap_id x : 0 <= x < 2 ^ 32 -> wrap 32 x = x.
Proof. intros H. unfold wrap. now apply Z.mod_small. Qed.

Lemma bd_go s t pc : bd s -> idok pc -> bd (ef_go s t pc).
Proof. intros [A B] H. split; [exact A|]. intros u. cbn. unfold fupd. destruct (u =? t)%nat; auto. Qed.

Lemma bd_step s c t op : rel s c -> bd s -> bd (fst (step s t op)).
Proof.
  intros R [A B]. assert (H : bd s) by now split. pose proof (B t) as Bt. pose proof (r_pcs s c R t) as Hp.
  unfold ef_step. destruct (ef_pcs s t) eqn:E.
  - apply bd_go; auto. destruct op; cbn; auto.
  - destruct (ef_w s); [exact H|]. destruct (ef_rs s); [|exact H]. apply bd_go; [exact H|exact Logic.I].
  - apply bd_go; auto. now destruct (_ <? _).
  - apply bd_go; [|exact Logic.I]. unfold ef_append. destruct (_ <? _)%nat; exact H.
  - apply bd_go; [|exact Logic.I]. cbn in Hp. destruct Hp as [_ Hp]. rewrite <- (r_cur s c R) in Hp. unfold g_id_max in Hp.
    split; [|exact B]. cbn. rewrite wrap_id; lia.
  - apply bd_go; [exact H|exact Logic.I].
  - apply bd_go; [exact H|exact Logic.I].
  - destruct (ef_w s); [exact H|]. apply bd_go; [exact H|]. destruct k; exact Bt.
  - apply bd_go; auto. destruct (_ && _); destruct k; exact Bt || exact Logic.I.
  - apply bd_go; auto. destruct (_ && _); [|exact Logic.I]. destruct k; exact Bt || exact Logic.I.
  - apply bd_go; [exact H|]. destruct k as [[]|buf id]; cbn in Bt |- *; auto. rewrite wrap_id; lia.
  - apply bd_go; auto. cbn. unfold g_id_min. lia.
  - apply bd_go; auto. destruct (Z.leb_spec id (ef_cur s)); cbn in Bt |- *; [lia|exact Logic.I].
  - apply bd_go; [exact H|exact Logic.I].
  - exact H.
Qed.

Lemma reach_inv s : reach s -> li s /\ bd s /\ (exists c, rel s c) /\ forall t, ef_pcs s t <> FDead.
Proof.
  intros (sc & H & ->).
  assert (G : forall l s0, li s0 -> bd s0 -> (exists c, rel s0 c) ->
    let s1 := fst (crun step s0 l) in li s1 /\ bd s1 /\ exists c, rel s1 c).
  { induction l as [|[t op] l IH]; intros s0 A B C; [now split|]. cbn [crun].
    destruct C as (c & C). pose proof (li_step grow s0 t op A) as A'. pose proof (bd_step s0 c t op C B) as B'.
    assert (C' : exists c, rel (fst (step s0 t op)) c) by (destruct (sim1 grow s0 c t op A C) as [[K _]|[K _]]; eauto).
    destruct (step s0 t op) as [s1 h1]. cbn [fst] in *. specialize (IH s1 A' B' C').
    destruct (crun step s1 l) as [s2 h2]. exact IH. }
  destruct (G sc ef_init li_init) as (A & B & C).
  - split; [cbn; lia|]. intros t. exact Logic.I.
  - exists ec_init. exact rel_init.
  - repeat split; auto; try apply A; try apply B. intros t. now apply fine_no_panic.
Qed.

(** How many steps are left. *)
Definition lp (id : Z) : nat := (6 * Z.to_nat (10001 - id) + 2)%nat.
Arguments lp : simpl never.
Definition meas (pc : ef_pc) : nat :=
  match pc with
  | FIdle | FDead => 0
  | FRet _ _ => 1
  | FUnlock _ _ => 2 | FId _ => 3 | FInc _ => 4 | FAppend _ => 5 | FCheck _ => 6 | FLock _ => 7
  | FRUnlock (FCall _) _ _ => 2 | FIndex (FCall _) => 3 | FValid (FCall _) => 4 | FRLock (FCall _) => 5
  | FLoop _ id => lp id
  | FRUnlock (FShow _ id) _ _ => lp (id + 1) + 1
  | FIndex (FShow _ id) => lp (id + 1) + 2
  | FValid (FShow _ id) => lp (id + 1) + 3
  | FRLock (FShow _ id) => lp (id + 1) + 4
  | FHead => lp 1001 + 1
  end%nat.

Lemma other_pc s t op u : u <> t -> ef_pcs (fst (step s t op)) u = ef_pcs s u.
Proof.
  intros Hu. unfold ef_step, ef_append. destruct (ef_pcs s t); try (destruct (ef_w s); [|destruct (ef_rs s)]); try destruct (_ <? _)%nat; cbn;
    rewrite ?fupd_other by exact Hu; reflexivity.
Qed.

(** A goroutine that nobody holds up comes nearer to its return. *)
Lemma meas_step s t op : idok (ef_pcs s t) -> (ef_w s = None \/ ef_w s = Some t) -> (forall u, In u (ef_rs s) -> u = t) -> li s ->
  ef_pcs s t <> FIdle -> ef_pcs s t <> FDead -> (forall o r, ef_pcs s t <> FRet o r) ->
  let s' := fst (step s t op) in
  (meas (ef_pcs s' t) < meas (ef_pcs s t))%nat /\ (ef_w s' = None \/ ef_w s' = Some t) /\ (forall u, In u (ef_rs s') -> u = t) /\
  (ef_pcs s' t <> FIdle).
Proof.
  intros Hi Hw Hr Hli N1 N2 N3. unfold ef_step.
  assert (Wt : wpc (ef_pcs s t) = true <-> ef_w s = Some t) by apply (li_w s Hli).
  assert (Rt : rpc (ef_pcs s t) = true <-> In t (ef_rs s)) by apply (li_r s Hli).
  destruct (ef_pcs s t) eqn:E; cbn [wpc rpc idok] in *; try congruence.
  - destruct Hw as [Hw|Hw]; [|apply Wt in Hw; discriminate]. rewrite Hw.
    destruct (ef_rs s) as [|u rs] eqn:Er; cbn.
    + rewrite fupd_same. repeat split; auto; try contradiction; try lia; discriminate.
    + assert (u = t) as -> by (apply Hr; now left). exfalso. assert (false = true) by (apply Rt; now left). discriminate.
  - cbn. rewrite fupd_same. destruct (_ <? _); repeat split; auto; try lia; discriminate.
  - unfold ef_append. destruct (_ <? _)%nat; cbn; rewrite fupd_same; repeat split; auto; try lia; discriminate.
  - cbn. rewrite fupd_same. repeat split; auto; try lia; discriminate.
  - cbn. rewrite fupd_same. repeat split; auto; try lia; discriminate.
  - cbn. rewrite fupd_same. repeat split; auto; try lia; discriminate.
  - destruct Hw as [Hw|Hw]; [|apply Wt in Hw; discriminate]. rewrite Hw. cbn. rewrite fupd_same.
    repeat split; auto; try discriminate; [destruct k; cbn; lia|]. intros u [<-|Hu]; auto.
  - cbn [fst ef_go ef_pcs ef_w ef_rs]. rewrite fupd_same. destruct (_ && _); repeat split; auto; try discriminate; destruct k; cbn; lia.
  - cbn [fst ef_go ef_pcs ef_w ef_rs]. rewrite fupd_same. destruct (_ && _); repeat split; auto; try discriminate; destruct k; cbn; lia.
  - cbn [fst ef_go ef_pcs ef_w ef_rs ef_set_lock]. rewrite fupd_same. repeat split; auto.
    + destruct k as [[]|buf id]; cbn; try lia. rewrite wrap_id by lia. unfold lp. lia.
    + intros u Hu. apply in_remove in Hu. now apply Hr.
    + destruct k as [[]|buf id]; discriminate.
  - cbn [fst ef_go ef_pcs ef_w ef_rs]. rewrite fupd_same. repeat split; auto; try discriminate; cbn [meas]; change g_id_min with 1001; lia.
  - cbn [fst ef_go ef_pcs ef_w ef_rs]. rewrite fupd_same. destruct (_ <=? _); repeat split; auto; try discriminate; cbn [meas]; unfold lp; lia.
Qed.

Lemma solo n : forall s t, reach s -> (ef_w s = None \/ ef_w s = Some t) -> (forall u, In u (ef_rs s) -> u = t) -> ef_pcs s t <> FIdle ->
  (meas (ef_pcs s t) <= n)%nat -> exists k o r, In (Ret t o r) (snd (crun step s (repeat (t, nop) k))).
Proof.
  induction n as [|n IH]; intros s t Hs Hw Hr Hi Hm.
  - destruct (reach_inv s Hs) as (_ & _ & _ & D). specialize (D t). destruct (ef_pcs s t) as [| | | | | | |[]|[]|[]|[] ? ?| | | |]; cbn in Hm; try congruence; unfold lp in Hm; lia.
  - destruct (reach_inv s Hs) as (A & B & _ & D). destruct B as [_ B].
    assert (Hc : (exists o r, ef_pcs s t = FRet o r) \/ (forall o r, ef_pcs s t <> FRet o r)).
    { destruct (ef_pcs s t); try (right; discriminate). left. eauto. }
    destruct Hc as [(o & r & E)|Hc].
    + exists 1%nat, o, r. cbn. unfold ef_step. rewrite E. now left.
    + destruct (meas_step s t nop (B t) Hw Hr A Hi (D t) Hc) as (M & W & R & N).
      destruct (IH (fst (step s t nop)) t) as (k & o & r & K); auto; [apply reach_step; auto using nop_ok|lia|].
      exists (S k), o, r. cbn [repeat crun]. destruct (step s t nop) as [s1 h1]. cbn [fst] in K.
      destruct (crun step s1 (repeat (t, nop) k)) as [s2 h2]. cbn [snd] in *. apply in_or_app. now right.
Qed.

(** The others release the lock. *)
Definition after s l := fst (crun step s l).
Lemma after_app s l1 l2 : after s (l1 ++ l2) = after (after s l1) l2.
Proof. unfold after. now rewrite crun_app. Qed.
Lemma after_reach l : forall s, sched_ok l -> reach s -> reach (after s l).
Proof.
  induction l as [|[t op] l IH]; intros s H Hs; [exact Hs|]. inversion H as [|? ? H1 H2 E]. cbn [snd] in H1.
  unfold after. cbn [crun]. pose proof (IH (fst (step s t op)) H2 (reach_step s t op H1 Hs)) as K.
  unfold after in K. destruct (step s t op) as [s1 h1]. cbn [fst] in K. destruct (crun step s1 l). exact K.
Qed.
Lemma after_one s t op : after s [(t, op)] = fst (step s t op).
Proof. unfold after. cbn. now destruct (step s t op). Qed.
Lemma nops_ok t k : sched_ok (repeat (t, nop) k).
Proof. apply Forall_forall. intros x Hx. apply repeat_spec in Hx. subst x. apply nop_ok. Qed.

Lemma writer_out n : forall s u, reach s -> ef_w s = Some u -> (meas (ef_pcs s u) <= n)%nat ->
  exists k, let s' := after s (repeat (u, nop) k) in ef_w s' = None /\ ef_rs s' = [] /\ forall t, t <> u -> ef_pcs s' t = ef_pcs s t.
Proof.
  induction n as [|n IH]; intros s u Hs Hw Hm; destruct (reach_inv s Hs) as (A & _); pose proof (proj2 (li_w s A u) Hw) as P;
    assert (Er : ef_rs s = []) by (apply (li_x s A); congruence); destruct (ef_pcs s u) eqn:E; try discriminate; cbn in Hm; try lia.
  5: { exists 1%nat. unfold after. cbn. unfold ef_step. rewrite E. cbn. repeat split; auto. intros t Ht. now rewrite fupd_other. }
  all: destruct (IH (fst (step s u nop)) u) as (k & K1 & K2 & K3);
    [apply reach_step; auto using nop_ok|unfold ef_step; rewrite E; try (unfold ef_append; destruct (_ <? _)%nat); exact Hw|
     unfold ef_step; rewrite E; try (unfold ef_append; destruct (_ <? _)%nat); cbn; rewrite fupd_same; cbn; try destruct (_ <? _); cbn; lia|];
    exists (S k); change (repeat (u, nop) (S k)) with ([(u, nop)] ++ repeat (u, nop) k); rewrite after_app, after_one; repeat split; auto;
    intros t Ht; rewrite K3 by exact Ht; now apply other_pc.
Qed.
Lemma reader_out n : forall s u, reach s -> In u (ef_rs s) -> (meas (ef_pcs s u) <= n)%nat ->
  exists k, let s' := after s (repeat (u, nop) k) in ef_w s' = None /\ ef_rs s' = remove Nat.eq_dec u (ef_rs s) /\ forall t, t <> u -> ef_pcs s' t = ef_pcs s t.
Proof.
  induction n as [|n IH]; intros s u Hs Hw Hm; destruct (reach_inv s Hs) as (A & _ & _ & D); pose proof (proj2 (li_r s A u) Hw) as P;
    assert (Er : ef_w s = None) by (destruct (ef_w s) eqn:E; [rewrite (li_x s A) in Hw by congruence; contradiction|reflexivity]);
    specialize (D u); destruct (ef_pcs s u) eqn:E; try discriminate; try congruence.
  1-3: exfalso; destruct k; cbn in Hm; try lia; unfold lp in Hm; lia.
  3: { exists 1%nat. unfold after. cbn. unfold ef_step. rewrite E. cbn. repeat split; auto. intros t Ht. now rewrite fupd_other. }
  all: destruct (IH (fst (step s u nop)) u) as (m & K1 & K2 & K3);
    [apply reach_step; auto using nop_ok|unfold ef_step; rewrite E; exact Hw|
     unfold ef_step; rewrite E; cbn [fst ef_go ef_pcs]; rewrite fupd_same; destruct k, (_ && _); cbn in Hm |- *; lia|];
    exists (S m); change (repeat (u, nop) (S m)) with ([(u, nop)] ++ repeat (u, nop) m); rewrite after_app, after_one; repeat split; auto;
    [rewrite K2; unfold ef_step; rewrite E; reflexivity|];
    intros t Ht; rewrite K3 by exact Ht; now apply other_pc.
Qed.

Lemma readers_out n : forall s t, reach s -> ef_w s = None -> (length (remove Nat.eq_dec t (ef_rs s)) <= n)%nat ->
  exists l, sched_ok l /\ let s' := after s l in ef_w s' = None /\ (forall u, In u (ef_rs s') -> u = t) /\ ef_pcs s' t = ef_pcs s t.
Proof.
  induction n as [|n IH]; intros s t Hs Hw Hn.
  - exists []. split; [constructor|]. repeat split; auto. intros u Hu. change (after s []) with s in Hu. destruct (Nat.eq_dec u t) as [|N]; [assumption|].
    apply (in_in_remove Nat.eq_dec _ N) in Hu. destruct (remove Nat.eq_dec t (ef_rs s)); [contradiction|cbn in Hn; lia].
  - destruct (remove Nat.eq_dec t (ef_rs s)) as [|u l] eqn:El.
    + exists []. split; [constructor|]. repeat split; auto. intros u Hu. change (after s []) with s in Hu. destruct (Nat.eq_dec u t) as [|N]; [assumption|].
      apply (in_in_remove Nat.eq_dec _ N) in Hu. rewrite El in Hu. contradiction.
    + assert (Hu : In u (remove Nat.eq_dec t (ef_rs s))) by (rewrite El; now left). apply in_remove in Hu. destruct Hu as [Hu Nu].
      destruct (reader_out (meas (ef_pcs s u)) s u Hs Hu (le_n _)) as (k & K1 & K2 & K3).
      destruct (IH (after s (repeat (u, nop) k)) t) as (l' & L1 & L2 & L3 & L4); auto.
      * apply after_reach; auto using nops_ok.
      * rewrite K2, remove_remove_comm, El. cbn. destruct (Nat.eq_dec u u); [|congruence]. pose proof (remove_length_le Nat.eq_dec l u). cbn in Hn. lia.
      * exists (repeat (u, nop) k ++ l'). split; [apply Forall_app; split; [apply nops_ok|exact L1]|]. cbv zeta. rewrite after_app. repeat split; auto.
        rewrite L4. apply K3; congruence.
Qed.

Lemma can_return s t : reach s -> ef_pcs s t <> FIdle -> exists more o r, sched_ok more /\ In (Ret t o r) (snd (crun step s more)).
Proof.
  intros Hs Hi.
  assert (H1 : exists l, sched_ok l /\ let s' := after s l in (ef_w s' = None \/ ef_w s' = Some t) /\ (ef_w s' = Some t -> ef_rs s' = []) /\ ef_pcs s' t = ef_pcs s t).
  { destruct (ef_w s) as [u|] eqn:Ew.
    - destruct (Nat.eq_dec u t) as [->|N].
      + exists []. split; [constructor|]. repeat split; auto. intros _. destruct (reach_inv s Hs) as (A & _). apply (li_x s A). congruence.
      + destruct (writer_out (meas (ef_pcs s u)) s u Hs Ew (le_n _)) as (k & K1 & K2 & K3). exists (repeat (u, nop) k).
        split; [apply nops_ok|]. repeat split; auto; congruence.
    - exists []. split; [constructor|]. repeat split; auto. cbn. congruence. }
  destruct H1 as (l & L1 & L2 & L3 & L4). pose proof (after_reach l s L1 Hs) as R1.
  assert (H2 : exists l', sched_ok l' /\ let s' := after (after s l) l' in (ef_w s' = None \/ ef_w s' = Some t) /\ (forall u, In u (ef_rs s') -> u = t) /\ ef_pcs s' t = ef_pcs s t).
  { destruct L2 as [L2|L2].
    - destruct (readers_out _ (after s l) t R1 L2 (le_n _)) as (l' & A & B & C & D). exists l'. split; [exact A|]. repeat split; auto. congruence.
    - exists []. split; [constructor|]. repeat split; auto. intros u Hu. change (after (after s l) []) with (after s l) in Hu. rewrite (L3 L2) in Hu. contradiction. }
  destruct H2 as (l' & M1 & M2 & M3 & M4). pose proof (after_reach l' _ M1 R1) as R2.
  destruct (solo (meas (ef_pcs (after (after s l) l') t)) (after (after s l) l') t R2 M2 M3) as (k & o & r & K); [congruence|apply le_n|].
  exists (l ++ l' ++ repeat (t, nop) k), o, r. split; [apply Forall_app; split; [exact L1|apply Forall_app; split; [exact M1|apply nops_ok]]|].
  rewrite !crun_app. cbn [snd]. apply in_or_app. right. apply in_or_app. right. exact K.
Qed.
End Live.

Theorem fine_no_deadlock grow sched t : sched_ok sched -> ef_pcs (fst (crun (ef_step grow) ef_init sched)) t <> FIdle ->
  exists more o r, sched_ok more /\ In (Ret t o r) (snd (crun (ef_step grow) (fst (crun (ef_step grow) ef_init sched)) more)).
Proof. intros H. apply can_return. exists sched. now split. Qed.
