(** Proofs: what concurrent calls of package regable can do wrong. *)
From Coq Require Import ZArith List Bool Arith Lia.
From Verif Require Import GoBase GoLists ConcBase RaceSpec RaceWit QueueProofs RegModel RegProofs RegObjModel RegObjSpec RegObjProofs RegFineModel RegFineSpec RegFineRace RegFineProofs RegFineHonest RegFineLive.
Import ListNotations.
Open Scope Z_scope.

Lemma reach2 ops : Forall ro_ok ops -> forall s a, ro_rel (ro_count_new ops) (ro_count_reg ops) s a ->
  forall s' os, run_ops ro_step s ops = Ok (s', os) -> exists a', run_ops ro_spec a ops = Ok (a', os) /\ ro_rel 0 0 s' a'.
Proof.
  induction ops as [|op ops IH]; intros Hf s a R s' os E.
  { cbn in E. injection E as <- <-. exists a. split; [reflexivity|exact R]. }
  cbn [run_ops] in E |- *. inversion Hf as [|? ? Hop Hrest]; subst.
  assert (C1 : ro_count_new (op :: ops) = ro_count_new ops + rcost_new op).
  { unfold ro_count_new, rcost_new. cbn [filter]. destruct (ro_new op); unfold zlen; cbn [length]; lia. }
  assert (C2 : ro_count_reg (op :: ops) = ro_count_reg ops + rcost_reg op).
  { unfold ro_count_reg, rcost_reg. cbn [filter]. destruct (ro_reg op); unfold zlen; cbn [length]; lia. }
  rewrite C1, C2 in R.
  pose proof (ro_sim _ _ s a op (zlen_nonneg _) (zlen_nonneg _) Hop R) as S.
  destruct (ro_step s op) as [[s1 o]| |], (ro_spec a op) as [[a1 o']| |]; cbn in S; try contradiction; try discriminate.
  destruct S as [-> R1]. cbn [bind] in E |- *. destruct (run_ops ro_step s1 ops) as [[s2 os2]| |] eqn:E2; try discriminate. cbn in E. injection E as <- <-.
  destruct (IH Hrest s1 a1 R1 s2 os2 E2) as (a' & -> & K). exists a'. auto.
Qed.
Lemma reach_init ops s os : Forall ro_ok ops -> ro_count_new ops <= 255 -> ro_count_reg ops < 2 ^ 24 -> run_ops ro_step regs_init ops = Ok (s, os) ->
  exists a, run_ops ro_spec (ARegs false []) ops = Ok (a, os) /\ ro_rel 0 0 s a.
Proof.
  intros Hf Hn Hr E. eapply reach2; eauto. split; [|reflexivity]. split; [reflexivity|]. split; [reflexivity|]. split; [reflexivity|]. split.
  - intros [|i] p Hp; discriminate.
  - repeat split; auto. intros c [].
Qed.
Lemma lin_all ops s os : Forall ro_ok ops -> ro_count_new ops <= 255 -> ro_count_reg ops < 2 ^ 24 -> run_ops ro_step regs_init ops = Ok (s, os) ->
  exists a, run_ops ro_spec (ARegs false []) ops = Ok (a, os) /\ forall sched, rf_sched_ok sched -> linearizable rf_seq a (snd (crun rf_step (rf_init s) sched)).
Proof.
  intros Hf Hn Hr E. destruct (reach_init ops s os Hf Hn Hr E) as (a & E1 & R). exists a. split; [exact E1|]. intros sched Hs. now apply reg_linearizable.
Qed.
Lemma live_all ops s os : Forall ro_ok ops -> ro_count_new ops <= 255 -> ro_count_reg ops < 2 ^ 24 -> run_ops ro_step regs_init ops = Ok (s, os) ->
  exists a, run_ops ro_spec (ARegs false []) ops = Ok (a, os) /\
  forall sched t, Forall (fun e => rf_safe (snd e) /\ obj_in a (snd e)) sched -> rf_pcs (fst (crun rf_step (rf_init s) sched)) t <> QIdle ->
  exists more, Forall (fun e => rf_safe (snd e) /\ obj_in a (snd e)) more /\
    ((exists o r, In (Ret t o r) (snd (crun rf_step (fst (crun rf_step (rf_init s) sched)) more))) \/
     (exists op, In (Inv t op) (snd (crun rf_step (rf_init s) (sched ++ more))) /\ forall b, same_names a b -> ro_spec b op = Panic)).
Proof.
  intros Hf Hn Hr E. destruct (reach_init ops s os Hf Hn Hr E) as (a & E1 & R). exists a. split; [exact E1|]. intros sched t Hs Hi.
  destruct (no_deadlock s a R sched t Hs Hi) as (more & M & K). exists more. split; [exact M|]. destruct K as [K|K]; [now left|right].
  rewrite <- after_app in K. unfold after in K. eapply reg_panics in K; [exact K|exact R|]. unfold rf_sched_ok. apply Forall_app. split; (eapply Forall_impl; [|eassumption]; cbn; intros x Hx; apply Hx).
Qed.
Lemma text_all ops s os : Forall ro_ok ops -> ro_count_new ops <= 255 -> ro_count_reg ops < 2 ^ 24 -> run_ops ro_step regs_init ops = Ok (s, os) ->
  exists a, run_ops ro_spec (ARegs false []) ops = Ok (a, os) /\
  forall s1 t op s2 op' o r, rf_sched_ok (s1 ++ (t, op) :: s2) ->
  snd (rf_step (fst (crun rf_step (rf_init s) s1)) t op) = [Inv t op] ->
  snd (rf_step (fst (crun rf_step (rf_init s) (s1 ++ (t, op) :: s2))) t op') = [Ret t o r] -> is_text o = true ->
  exists b, same_names a b /\ ro_spec b o = Ok (b, r) /\ forall p c, ocell (as_list b) p = Some c ->
    exists s2a s2b rc, s2 = s2a ++ s2b /\ rec_at (rf_regs (fst (crun rf_step (rf_init s) (s1 ++ (t, op) :: s2a)))) p = Ok rc /\ rc_val rc = snd c.
Proof.
  intros Hf Hn Hr E. destruct (reach_init ops s os Hf Hn Hr E) as (a & E1 & R). exists a. split; [exact E1|]. intros. eapply reg_text_fresh; eauto.
Qed.

(** ** Registering concurrently *)
Definition rf_eqb (a b : rf_loc) : bool :=
  match a, b with
  | XLocked, XLocked | XGens, XGens | XRegers, XRegers => true
  | XSlot g, XSlot h | XReger g, XReger h | XGen g, XGen h | XList g, XList h => (g =? h)%nat
  | XElem p, XElem q | XName p, XName q | XVal p, XVal q | XId p, XId q | XMu p, XMu q => peqb p q
  | XRd p t, XRd q u => peqb p q && (t =? u)%nat
  | _, _ => false
  end.
Lemma rf_eqb_ok a b : a = b -> rf_eqb a b = true.
Proof.
  assert (P : forall p, peqb p p = true) by (intros p; now destruct (peqb_spec p p)).
  intros ->. destruct b; cbn; rewrite ?Nat.eqb_refl, ?P; auto.
Qed.
Lemma reg_races : exists sched i j, race (trace_of rf_step rf_accs (rf_init (state_of one_reger)) sched) i j.
Proof.
  exists reg_bad, 3%nat, 5%nat. exists 1%nat, 0%nat, (PRead (XGen 0)), (PWrite (XGen 0)).
  split; [lia|]. split; [vm_compute; reflexivity|]. split; [vm_compute; reflexivity|]. split; [discriminate|].
  split; [repeat split; auto|]. apply (not_hb rf_eqb rf_eqb_ok _ (fun i => (i =? 3)%nat || (6 <=? i)%nat)); vm_compute; reflexivity.
Qed.

(** All ways to put a history in order. *)
Ltac lin_case :=
  match goal with L : lin_run _ _ _ ?evs _ _, E : erase ?evs = _ |- _ => inversion L; clear L; subst; cbn [erase] in E; try discriminate E end.
Ltac clean := repeat match goal with
  | H : Inv _ _ :: _ = Inv _ _ :: _ |- _ => injection H; clear H; intros
  | H : Ret _ _ _ :: _ = Ret _ _ _ :: _ |- _ => injection H; clear H; intros
  | H : _ = ?v :> nat |- _ => is_var v; subst v
  | H : ?v = _ :> nat |- _ => is_var v; subst v
  | H : _ = ?v :> ro_op |- _ => is_var v; subst v
  | H : ?v = _ :> ro_op |- _ => is_var v; subst v
  | H : _ = ?v :> ro_res |- _ => is_var v; subst v
  | H : ?v = _ :> ro_res |- _ => is_var v; subst v
  | H : fupd _ _ _ ?t = TPend _ |- _ => unfold fupd in H; cbn in H
  | H : TIdle = TPend _ |- _ => discriminate H
  | H : TDone _ _ = TPend _ |- _ => discriminate H
  | H : TPend _ = TPend _ |- _ => injection H; clear H; intros
  | H : (if (?t =? ?n)%nat then _ else _) = TPend _ |- _ => destruct (Nat.eqb_spec t n); [subst t|]
  | H : rf_strict _ _ _ _ |- _ => vm_compute in H; injection H; clear H; intros; subst
  | H : fupd _ _ _ ?t = TDone _ _ |- _ => vm_compute in H; discriminate H
  | H : fupd _ _ _ ?t = TDone _ _ |- _ => vm_compute in H; clear H
  | H : fupd _ _ _ ?t = TIdle |- _ => vm_compute in H; discriminate H
  | H : fupd _ _ _ ?t = TIdle |- _ => clear H
  end.
Definition text_hist := Eval vm_compute in snd (crun rf_step (rf_init (state_of two_cells)) text_bad).
Definition text_cells : aregs := Eval vm_compute in cells_of two_cells.
Definition reg_hist := Eval vm_compute in snd (crun rf_step (rf_init (state_of one_reger)) reg_bad).
Definition reg_cells : aregs := Eval vm_compute in cells_of one_reger.
Lemma text_not_lin : ~ linearizable rf_strict text_cells text_hist.
Proof. intros (evs & a' & st' & E & L). unfold text_hist, text_cells in *. repeat (lin_case; clean). Qed.
Lemma reg_not_lin : ~ linearizable rf_strict reg_cells reg_hist.
Proof. intros (evs & a' & st' & E & L). unfold reg_hist, reg_cells in *. repeat (lin_case; clean). Qed.
Lemma text_refuted : exists ops s os a sched, run_ops ro_step regs_init ops = Ok (s, os) /\ run_ops ro_spec (ARegs false []) ops = Ok (a, os) /\ rf_sched_ok sched /\
  ~ linearizable rf_strict a (snd (crun rf_step (rf_init s) sched)).
Proof.
  exists two_cells, (state_of two_cells). eexists. exists text_cells, text_bad. split; [vm_compute; reflexivity|]. split; [vm_compute; reflexivity|]. split.
  - unfold rf_sched_ok, text_bad. repeat (apply Forall_app; split); apply Forall_forall; intros x Hx; apply repeat_spec in Hx; subst x; exact Logic.I.
  - assert (snd (crun rf_step (rf_init (state_of two_cells)) text_bad) = text_hist) as -> by (vm_compute; reflexivity). exact text_not_lin.
Qed.
Lemma reg_refuted : exists ops s os a sched, run_ops ro_step regs_init ops = Ok (s, os) /\ run_ops ro_spec (ARegs false []) ops = Ok (a, os) /\
  Forall (fun e => ro_ok (snd e)) sched /\ ~ linearizable rf_strict a (snd (crun rf_step (rf_init s) sched)).
Proof.
  exists one_reger, (state_of one_reger). eexists. exists reg_cells, reg_bad. split; [vm_compute; reflexivity|]. split; [vm_compute; reflexivity|]. split.
  - unfold reg_bad. apply Forall_app. split; [repeat (constructor; [exact Logic.I|]); constructor|].
    apply Forall_forall; intros x Hx; apply repeat_spec in Hx; subst x. cbn. lia.
  - assert (snd (crun rf_step (rf_init (state_of one_reger)) reg_bad) = reg_hist) as -> by (vm_compute; reflexivity). exact reg_not_lin.
Qed.
