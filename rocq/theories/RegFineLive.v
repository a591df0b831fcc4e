(** Proofs: no call of package regable waits for ever. *)
From Coq Require Import ZArith List Bool Arith Lia ZifyBool.
From Verif Require Import GoBase GoLists ConcBase SpinProofs RaceSpec RegModel RegSpec RegProofs RegObjModel RegObjSpec RegObjProofs RegFineModel RegFineSpec RegFineRace RegFineProofs RegFineHonest.
Import ListNotations.
Open Scope nat_scope.

(** Whoever holds a lock is between taking and releasing it. *)
Record full (s : rf_state) : Prop := {
  f_w : forall t p, lk_w (rf_lk s p) = Some t -> wp (rf_pcs s t) = Some p;
  f_r : forall t p, In t (lk_rs (rf_lk s p)) -> rp (rf_pcs s t) = Some p }.
Lemma full_same s s' t pc : full s -> rf_lk s' = rf_lk s -> rf_pcs s' = fupd (rf_pcs s) t pc ->
  wp (rf_pcs s t) = None \/ wp pc = wp (rf_pcs s t) -> rp (rf_pcs s t) = None \/ rp pc = rp (rf_pcs s t) -> full s'.
Proof.
  intros [A B] El Ep Hw Hr. constructor; intros u p; rewrite El, Ep; unfold fupd; destruct (Nat.eqb_spec u t) as [->|N]; auto; intros K.
  - apply A in K. destruct Hw; congruence.
  - apply B in K. destruct Hr; congruence.
Qed.
Lemma full_lock s t p pc l : full s -> wp (rf_pcs s t) = None \/ wp (rf_pcs s t) = Some p -> rp (rf_pcs s t) = None \/ rp (rf_pcs s t) = Some p ->
  (lk_w l = None \/ lk_w l = lk_w (rf_lk s p) \/ lk_w l = Some t) -> (lk_w l = Some t -> wp pc = Some p) ->
  (forall u, In u (lk_rs l) -> u = t \/ In u (lk_rs (rf_lk s p))) -> (In t (lk_rs l) -> rp pc = Some p) ->
  full (rf_go (rf_set_lock s p l) t pc).
Proof.
  intros [A B] W R L1 L2 L3 L4. constructor; intros u q; cbn [rf_lk rf_pcs rf_go rf_set_lock]; unfold fupd; destruct (peqb_spec q p) as [->|N], (Nat.eqb_spec u t) as [->|Nu]; intros K; auto.
  - destruct L1 as [L1|[L1|L1]]; [congruence| |congruence]. apply A. congruence.
  - apply A in K. destruct W; congruence.
  - destruct (L3 u K) as [|L]; [congruence|]. now apply B.
  - apply B in K. destruct R; congruence.
Qed.

Section Live.
Context (r0 : regs) (a0 : aregs) (R0 : ro_rel 0 0 r0 a0).
Definition rel0 := rel r0 a0 (fun _ _ _ => True).
Definition op_of (pc : rf_pc) : option ro_op :=
  match pc with
  | QId o _ | QRLock o _ | QRead o _ | QLock o _ _ | QWrite o _ _ | QGens o _ | QRegers o _ _ | QGen o _ _ _ | QList o _ _ _ => Some o
  | _ => None
  end.
Definition hob (s : rf_state) : Prop := forall t o, op_of (rf_pcs s t) = Some o -> obj_in a0 o.
Record inv (s : rf_state) : Prop := { i_rel : exists a st, rel0 s a st; i_li : li s; i_full : full s; i_hob : hob s }.

Lemma rec_there s a st (t : nat) p o : rel0 s a st -> obj_in a0 o -> at_rec a0 o p -> exists c, ocell (as_list a) p = Some c.
Proof.
  intros H Ho Ha. assert (N : ocell (as_list a0) p <> None).
  { destruct Ha as [Ha|(id & _ & Hi)].
    - destruct o as [[]|? ? ?|?|[q|]|[q|]|[q|]|[q|] ?|[q|]|[q|]|[q|]|?|?|?| |]; cbn in Ha, Ho; try contradiction; subst; exact Ho.
    - apply icell_ocell in Hi. destruct Hi. congruence. }
  apply (same_cell a0 a p (r_names _ _ _ _ _ _ H)) in N. destruct (ocell (as_list a) p) as [c|]; [eauto|congruence].
Qed.

Lemma hob_step s t op : obj_in a0 op -> hob s -> hob (fst (rf_step s t op)).
Proof.
  intros Ho H.
  assert (G : forall s' pc, rf_pcs s' = fupd (rf_pcs s) t pc -> (forall o, op_of pc = Some o -> obj_in a0 o) -> hob s').
  { intros s' pc Ep K u o. rewrite Ep. unfold fupd. destruct (u =? t); [apply K|apply H]. }
  pose proof (H t) as Ht. unfold rf_step. destruct (rf_pcs s t) eqn:E; try exact H; try (eapply G; [reflexivity|]; cbn; intros ? K; discriminate).
  - assert (K : forall o, op_of (rf_start op) = Some o -> obj_in a0 o).
    { assert (K : forall o, op_of (rf_start op) = Some o -> o = op).
      { intros o. destruct op as [[]|? ? ?|?|[q|]|[q|]|[q|]|[q|] ?|[q|]|[q|]|[q|]|?|?|g| |]; cbn; try discriminate; try destruct (_ <? _)%Z; cbn; try discriminate; congruence. }
      intros o Eo. now rewrite (K o Eo). }
    destruct (rf_start op); try exact H; (eapply G; [reflexivity|exact K]).
  - eapply G; [reflexivity|exact Ht].
  - eapply G; [reflexivity|]. destruct (_ && _); [exact Ht|discriminate].
  - destruct (nth_error (rs_list (rf_regs s)) g); (eapply G; [reflexivity|]); [exact Ht|discriminate].
  - destruct (nth_error (rs_list (rf_regs s)) g); (eapply G; [reflexivity|]); [|discriminate]. destruct (_ && _); [|discriminate]. intros o Eo. apply Ht. cbn. rewrite <- Eo.
    destruct ok; [destruct op0 as [[]| | | | | | | | | | | | | |]|destruct op0 as [[]| | | | | | | | | | | | | |]]; cbn in Eo |- *; try discriminate; try congruence.
  - destruct (rec_at (rf_regs s) p); (eapply G; [reflexivity|discriminate]).
  - destruct (lk_w (rf_lk s p)); [exact H|]. eapply G; [reflexivity|exact Ht].
  - destruct (rec_at (rf_regs s) p); (eapply G; [reflexivity|discriminate]).
  - destruct (lk_w (rf_lk s p)); [exact H|]. destruct (lk_rs (rf_lk s p)); [|exact H]. eapply G; [reflexivity|exact Ht].
  - destruct (ro_step (rf_regs s) (OSet (Some p) v)) as [[rg' ?]| |]; (eapply G; [reflexivity|discriminate]).
  - eapply G; [reflexivity|]. destruct (_ <? _); discriminate.
  - destruct (nth_error (rs_list (rf_regs s)) g); (eapply G; [reflexivity|discriminate]).
  - eapply G; [reflexivity|]. destruct (_ <? _); [discriminate|]. unfold rf_next. destruct (tx_all x); [destruct (_ <? _)|]; discriminate.
  - destruct (lk_w (rf_lk s (tx_g x, tx_i x))); [exact H|]. eapply G; [reflexivity|discriminate].
  - destruct (rec_at (rf_regs s) (tx_g x, tx_i x)); (eapply G; [reflexivity|discriminate]).
  - eapply G; [reflexivity|]. destruct (rs_locked (rf_regs s)); discriminate.
  - destruct (nth_error (rs_list (rf_regs s)) g); [|eapply G; [reflexivity|discriminate]]. destruct (MathModel.range_inc 32 (rg_gen r)). eapply G; [reflexivity|]. destruct (snd p); discriminate.
  - destruct (nth_error (rs_list (rf_regs s)) g); (eapply G; [reflexivity|discriminate]).
  - destruct (nth_error (rs_list (rf_regs s)) g); (eapply G; [reflexivity|]); [|discriminate]. destruct op0; cbn; try discriminate. intros o Eo. injection Eo as <-. exact Logic.I.
Qed.

(** What a step does to the locks and where it goes, when records are there. *)
Lemma full_step s a st t op : rel0 s a st -> hob s -> full s -> full (fst (rf_step s t op)).
Proof.
  intros H Hh F. pose proof (r_pcs _ _ _ _ _ _ H t) as K. pose proof (r_rel _ _ _ _ _ _ H) as R. pose proof (Hh t) as Ht. unfold rf_step.
  destruct (rf_pcs s t) eqn:E; try (cbn in K; contradiction); try (eapply full_same; [exact F|reflexivity|reflexivity|rewrite E; now left|rewrite E; now left]).
  - destruct (rf_start op); try exact F; (eapply full_same; [exact F|reflexivity|reflexivity|rewrite E; now left|rewrite E; now left]).
  - destruct (nth_error (rs_list (rf_regs s)) g); (eapply full_same; [exact F|reflexivity|reflexivity|rewrite E; now left|rewrite E; now left]).
  - destruct (nth_error (rs_list (rf_regs s)) g); (eapply full_same; [exact F|reflexivity|reflexivity|rewrite E; now left|rewrite E; now left]).
  - destruct (rec_at (rf_regs s) p); (eapply full_same; [exact F|reflexivity|reflexivity|rewrite E; now left|rewrite E; now left]).
  - destruct (lk_w (rf_lk s p)); [exact F|]. apply full_lock; rewrite ?E; auto; cbn; auto; [discriminate|]. intros u [<-|Hu]; auto.
  - destruct K as (K1 & K2 & K3). destruct (rec_there s a st t p op0 H (Ht op0 eq_refl) K2) as (c & Hc). pose proof (olookup 0 0 _ a p ltac:(lia) R) as L. rewrite Hc in L.
    destruct L as (g & rc & _ & _ & _ & -> & _). eapply full_same; [exact F|reflexivity|reflexivity|rewrite E; now left|rewrite E; now right].
  - apply full_lock; rewrite ?E; auto; cbn; auto.
    + intros W. apply (f_w s F) in W. rewrite E in W. discriminate.
    + intros u Hu. apply in_remove in Hu. tauto.
    + intros Hu. apply in_remove in Hu. tauto.
  - destruct (lk_w (rf_lk s p)); [exact F|]. destruct (lk_rs (rf_lk s p)) eqn:El; [|exact F]. apply full_lock; rewrite ?E; auto; cbn; auto; try contradiction.
  - destruct K as (K1 & K2 & K3). destruct (rec_there s a st t p op0 H (Ht op0 eq_refl) K2) as (c & Hc). pose proof (olookup 0 0 _ a p ltac:(lia) R) as L. rewrite Hc in L.
    destruct p as [i j]. destruct L as (g & rc & L1 & L2 & _). destruct (set_ok (rf_regs s) i j v rc) as (r' & -> & _). { unfold rcd. cbn [fst snd] in *. now rewrite L1. }
    eapply full_same; [exact F|reflexivity|reflexivity|rewrite E; now right|rewrite E; now left].
  - apply full_lock; rewrite ?E; auto; cbn; auto; try discriminate. intros Hu. apply (f_r s F) in Hu. rewrite E in Hu. discriminate.
  - destruct (nth_error (rs_list (rf_regs s)) g); (eapply full_same; [exact F|reflexivity|reflexivity|rewrite E; now left|rewrite E; now left]).
  - destruct (lk_w (rf_lk s (tx_g x, tx_i x))); [exact F|]. apply full_lock; rewrite ?E; auto; cbn; auto; [discriminate|]. intros u [<-|Hu]; auto.
  - destruct K as (K1 & K2 & K3). destruct (ocell (as_list a) (tx_g x, tx_i x)) as [c|] eqn:Hc; [|exfalso; eapply (text_cell r0 a0 _ s a st H); eauto; intros ? ? ? ?; exact Logic.I].
    pose proof (olookup 0 0 _ a (tx_g x, tx_i x) ltac:(lia) R) as L. rewrite Hc in L.
    destruct L as (g & rc & _ & _ & _ & -> & _). eapply full_same; [exact F|reflexivity|reflexivity|rewrite E; now left|rewrite E; now right].
  - apply full_lock; rewrite ?E; auto; cbn; auto.
    + intros W. apply (f_w s F) in W. rewrite E in W. discriminate.
    + intros u Hu. apply in_remove in Hu. tauto.
    + intros Hu. apply in_remove in Hu. tauto.
  - exact F.
Qed.
Definition ok_op (op : ro_op) : Prop := rf_safe op /\ obj_in a0 op.
Lemma inv_step s t op : ok_op op -> inv s -> inv (fst (rf_step s t op)).
Proof.
  intros [H1 H2] [(a & st & A) B C D]. constructor.
  - destruct (lin_step r0 a0 R0 (fun _ _ _ => True) s a st A (fun _ _ _ _ => Logic.I) t op H1) as (_ & a' & st' & _ & _ & K). eauto.
  - now apply li_step.
  - eapply full_step; eauto.
  - now apply hob_step.
Qed.
Lemma inv_init : inv (rf_init r0).
Proof.
  constructor; [exists a0, (fun _ => TIdle); now apply rel_init|apply li_init| |].
  - constructor; cbn; intros; [discriminate|contradiction].
  - intros t o. discriminate.
Qed.
Definition scheds (l : list (nat * ro_op)) : Prop := Forall (fun e => ok_op (snd e)) l.
Definition after s l := fst (crun rf_step s l).
Lemma after_app s l1 l2 : after s (l1 ++ l2) = after (after s l1) l2.
Proof. unfold after. now rewrite crun_app. Qed.
Lemma after_one s t op : after s [(t, op)] = fst (rf_step s t op).
Proof. unfold after. cbn. now destruct (rf_step s t op). Qed.
Lemma inv_after l : forall s, scheds l -> inv s -> inv (after s l).
Proof.
  induction l as [|[t op] l IH]; intros s H Hs; [exact Hs|]. inversion H as [|? ? H1 H2 E]. cbn [snd] in H1.
  change ((t, op) :: l) with ([(t, op)] ++ l). rewrite after_app, after_one. apply IH; auto. now apply inv_step.
Qed.
Definition nop : ro_op := RBase (GIds 0).
Lemma nop_ok : ok_op nop. Proof. split; cbn; [lia|exact Logic.I]. Qed.
Lemma nops_ok t k : scheds (repeat (t, nop) k).
Proof. apply Forall_forall. intros x Hx. apply repeat_spec in Hx. subst x. apply nop_ok. Qed.

(** A goroutine leaves its critical section without waiting. *)
Definition quiet (s : rf_state) (u : nat) : Prop := wp (rf_pcs s u) = None /\ rp (rf_pcs s u) = None.
Lemma out s u : inv s -> exists k, quiet (after s (repeat (u, nop) k)) u /\ forall t, t <> u -> rf_pcs (after s (repeat (u, nop) k)) t = rf_pcs s t.
Proof.
  intros Hs.
  assert (S1 : forall s', rf_pcs (after s' [(u, nop)]) u = rf_pcs (fst (rf_step s' u nop)) u /\ forall t, t <> u -> rf_pcs (after s' [(u, nop)]) t = rf_pcs s' t).
  { intros s'. rewrite after_one. split; [reflexivity|]. intros t Ht. now apply other_pc. }
  assert (one : forall s', (match rf_pcs s' u with QRUnlock _ _ _ | QUnlock _ _ _ | QLRUnlock _ _ => True | _ => False end) -> quiet (after s' [(u, nop)]) u).
  { intros s' M. unfold quiet. rewrite (proj1 (S1 s')). unfold rf_step. destruct (rf_pcs s' u); try contradiction; cbn; rewrite fupd_same; auto. }
  assert (Z : (match rf_pcs s u with QRead _ _ | QWrite _ _ _ | QLRead _ _ => True | _ => False end) ->
    (match rf_pcs (fst (rf_step s u nop)) u with QRUnlock _ _ _ | QUnlock _ _ _ | QLRUnlock _ _ => True | _ => False end) \/ quiet (fst (rf_step s u nop)) u).
  { unfold quiet, rf_step. destruct (rf_pcs s u); try contradiction; intros _.
    - destruct (rec_at (rf_regs s) p); cbn; rewrite fupd_same; auto.
    - destruct (ro_step (rf_regs s) (OSet (Some p) v)) as [[rg' ?]| |]; cbn; rewrite fupd_same; auto.
    - destruct (rec_at (rf_regs s) (tx_g x, tx_i x)); cbn; rewrite fupd_same; auto. }
  destruct (rf_pcs s u) eqn:E; try (exists 0; split; [split; cbn; rewrite E; reflexivity|reflexivity]);
    try (exists 1; split; [apply one; now rewrite E|apply S1]);
    (destruct (Z Logic.I) as [M|M]; [exists 2; change (repeat (u, nop) 2) with ([(u, nop)] ++ [(u, nop)]); rewrite after_app; split;
      [apply one; now rewrite after_one|intros t Ht; rewrite (proj2 (S1 _)) by exact Ht; now apply S1]|exists 1; split; [cbn [repeat]; now rewrite after_one|apply S1]]).
Qed.
Lemma outs l : forall s t, inv s -> exists m, scheds m /\ rf_pcs (after s m) t = rf_pcs s t /\ (forall u, u <> t -> quiet s u -> quiet (after s m) u) /\ forall u, In u l -> u <> t -> quiet (after s m) u.
Proof.
  induction l as [|v l IH]; intros s t Hs.
  - exists []. split; [constructor|]. split; [reflexivity|]. split; [auto|]. intros u [].
  - destruct (Nat.eq_dec v t) as [->|N].
    + destruct (IH s t Hs) as (m & A & B & C & D). exists m. split; [exact A|]. split; [exact B|]. split; [exact C|]. intros u [<-|Hu] Nu; [congruence|now apply D].
    + destruct (out s v Hs) as (k & Q & P). destruct (IH (after s (repeat (v, nop) k)) t) as (m & A & B & C & D); [apply inv_after; auto using nops_ok|].
      exists (repeat (v, nop) k ++ m). rewrite after_app. split; [apply Forall_app; split; [apply nops_ok|exact A]|]. split; [rewrite B; apply P; congruence|]. split.
      * intros u Hu Hq. apply C; auto. destruct (Nat.eq_dec u v) as [->|Nu]; [exact Q|]. unfold quiet in *. now rewrite P.
      * intros u [<-|Hu] Nu; [apply C; auto|now apply D].
Qed.

(** How many steps are left. *)
Definition rlen (g : nat) : nat := match nth_error (rs_list r0) g with Some p => length (rg_list p) | None => 0 end.
Definition rest (g : nat) (all : option nat) : nat := match all with None => 0 | Some _ => list_sum (map (fun p => 4 * length (rg_list p) + 3) (skipn g (rs_list r0))) end.
Definition meas (pc : rf_pc) : nat :=
  match pc with
  | QIdle | QDead => 0 | QRet _ _ => 1
  | QGens _ _ => 10 | QRegers _ _ _ => 9 | QGen _ _ _ _ => 8 | QList _ _ _ _ => 7
  | QLock _ _ _ | QRLock _ _ => 5 | QWrite _ _ _ | QRead _ _ | QId _ _ => 4 | QUnlock _ _ _ | QRUnlock _ _ _ => 3
  | QFlag _ => 7 + rest 0 (Some 0) | QCount _ _ => 6 + rest 0 (Some 0)
  | QHead _ _ g all => 4 * rlen g + 4 + rest (S g) all
  | QLine _ x => 4 * (tx_n x - tx_i x) + 2 + rest (S (tx_g x)) (tx_all x)
  | QLRLock _ x => 4 * (tx_n x - tx_i x) + 1 + rest (S (tx_g x)) (tx_all x)
  | QLRead _ x => 4 * (tx_n x - tx_i x) + rest (S (tx_g x)) (tx_all x)
  | QLRUnlock _ x => 4 * (tx_n x - tx_i x) - 1 + rest (S (tx_g x)) (tx_all x)
  | _ => 0
  end.
Lemma rest_S g n : g < length (rs_list r0) -> rest g (Some n) = 4 * rlen g + 3 + rest (S g) (Some n).
Proof.
  unfold rest, rlen. intros H. destruct (nth_error (rs_list r0) g) as [p|] eqn:E; [|apply nth_error_None in E; lia].
  assert (K : skipn g (rs_list r0) = p :: skipn (S g) (rs_list r0)).
  { clear H. revert E. generalize (rs_list r0). induction g as [|g IH]; intros [|q l] E; try discriminate; cbn in E |- *; [congruence|]. now apply IH. }
  rewrite K. cbn [map list_sum fold_right]. change (fold_right Nat.add 0) with list_sum. lia.
Qed.
Arguments rest : simpl never.
Arguments rlen : simpl never.

Lemma meas_step s t op : inv s -> (forall u, u <> t -> quiet s u) -> rf_pcs s t <> QIdle -> rf_pcs s t <> QDead -> (forall o r, rf_pcs s t <> QRet o r) ->
  meas (rf_pcs (fst (rf_step s t op)) t) < meas (rf_pcs s t) /\ rf_pcs (fst (rf_step s t op)) t <> QIdle.
Proof.
  intros [(a & st & H) Hl F Hh] Hq N1 N2 N3. pose proof (r_pcs _ _ _ _ _ _ H t) as K. pose proof (r_shape _ _ _ _ _ _ H) as SH.
  assert (LEN : length (rs_list (rf_regs s)) = length (rs_list r0)). { apply shape_len in SH. unfold zlen in SH. lia. }
  assert (L0 : length (rs_list r0) = length (as_list a0)). { destruct R0 as [_ Hm]. apply (f_equal (@length _)) in Hm. now rewrite !map_length in Hm. }
  assert (FW : wp (rf_pcs s t) = None -> forall p, lk_w (rf_lk s p) = None).
  { intros W p. destruct (lk_w (rf_lk s p)) as [u|] eqn:Eu; [|reflexivity]. apply (f_w s F) in Eu. destruct (Nat.eq_dec u t) as [->|Nu]; [congruence|]. destruct (Hq u Nu); congruence. }
  assert (FR : rp (rf_pcs s t) = None -> forall p, lk_rs (rf_lk s p) = []).
  { intros W p. destruct (lk_rs (rf_lk s p)) as [|u l] eqn:Eu; [reflexivity|]. assert (In u (lk_rs (rf_lk s p))) as I1 by (rewrite Eu; now left). apply (f_r s F) in I1. destruct (Nat.eq_dec u t) as [->|Nu]; [congruence|]. destruct (Hq u Nu); congruence. }
  unfold rf_step. destruct (rf_pcs s t) eqn:E; try congruence; try (cbn in K; contradiction); cbn [wp rp] in FW, FR.
  - cbn. rewrite fupd_same. split; [cbn; lia|discriminate].
  - cbn [fst rf_go rf_pcs]. rewrite fupd_same. destruct (_ && _); split; try discriminate; cbn; lia.
  - destruct (nth_error (rs_list (rf_regs s)) g); cbn; rewrite fupd_same; split; try discriminate; cbn; lia.
  - destruct (nth_error (rs_list (rf_regs s)) g); cbn [fst rf_go rf_pcs]; rewrite fupd_same; [|split; try discriminate; cbn; lia].
    destruct (_ && _); [|split; try discriminate; cbn; lia].
    destruct ok; [destruct op0 as [[]| | | | | | | | | | | | | |]|destruct op0 as [[]| | | | | | | | | | | | | |]]; cbn; try destruct (reged_ids id); split; try discriminate; cbn; lia.
  - destruct (rec_at (rf_regs s) p); cbn; rewrite fupd_same; split; try discriminate; cbn; lia.
  - rewrite (FW eq_refl). cbn. rewrite fupd_same. split; try discriminate; cbn; lia.
  - destruct (rec_at (rf_regs s) p); cbn; rewrite fupd_same; split; try discriminate; cbn; lia.
  - cbn. rewrite fupd_same. split; try discriminate; cbn; lia.
  - rewrite (FW eq_refl), (FR eq_refl). cbn. rewrite fupd_same. split; try discriminate; cbn; lia.
  - destruct (ro_step (rf_regs s) (OSet (Some p) v)) as [[rg' ?]| |]; cbn; rewrite fupd_same; split; try discriminate; cbn; lia.
  - cbn. rewrite fupd_same. split; try discriminate; cbn; lia.
  - cbn [fst rf_go rf_pcs]. rewrite fupd_same. split; try discriminate; cbn; lia.
  - cbn [fst rf_go rf_pcs]. rewrite fupd_same, LEN. destruct (Nat.ltb_spec 0 (length (rs_list r0))) as [B|B]; split; try discriminate; cbn [meas]; [|lia].
    pose proof (rest_S 0 0 B) as X. assert (rest 1 (Some (length (rs_list r0))) = rest 1 (Some 0)) by reflexivity. lia.
  - destruct (nth_error (rs_list (rf_regs s)) g) as [p|] eqn:Ep; cbn [fst rf_go rf_pcs]; rewrite fupd_same; split; try discriminate; cbn [meas tx_n tx_i tx_g tx_all]; [|lia].
    pose proof (shape_nth _ _ g SH) as SN. rewrite Ep in SN. unfold rlen. destruct (nth_error (rs_list r0) g) as [p0|]; [|discriminate].
    cbn in SN. assert (LL := rshape_len p p0 ltac:(congruence)). unfold zlen in LL. lia.
  - cbn [fst rf_go rf_pcs]. rewrite fupd_same. destruct K as (K1 & K2 & _). destruct (Nat.ltb_spec (tx_i x) (tx_n x)) as [B|B]; [split; try discriminate; cbn [meas]; lia|].
    unfold rf_next. destruct (tx_all x) as [n|] eqn:Ea; [|split; try discriminate; cbn [meas]; lia]. cbn in K2. destruct K2 as (_ & -> & G).
    destruct (Nat.ltb_spec (S (tx_g x)) (length (as_list a0))) as [B2|B2]; split; try discriminate; cbn [meas]; rewrite ?Ea; [|lia].
    rewrite (rest_S (S (tx_g x))) by lia. lia.
  - rewrite (FW eq_refl). cbn [fst rf_go rf_pcs rf_set_lock]. rewrite fupd_same. split; try discriminate; cbn [meas]. lia.
  - destruct K as (K1 & K2 & K3). destruct (rec_at (rf_regs s) (tx_g x, tx_i x)); cbn [fst rf_go rf_pcs]; rewrite fupd_same; split; try discriminate; cbn [meas tx_n tx_i tx_g tx_all]; lia.
  - destruct K as (K1 & _ & b & q & _ & _ & _ & _ & K2 & _). cbn [fst rf_go rf_pcs rf_set_lock]. rewrite fupd_same. split; try discriminate; cbn [meas tx_n tx_i tx_g tx_all]; lia.
Qed.

Lemma solo n : forall s t, inv s -> (forall u, u <> t -> quiet s u) -> rf_pcs s t <> QIdle -> meas (rf_pcs s t) <= n ->
  exists k, (exists o r, In (Ret t o r) (snd (crun rf_step s (repeat (t, nop) k)))) \/ rf_pcs (after s (repeat (t, nop) k)) t = QDead.
Proof.
  induction n as [n IH] using lt_wf_ind. intros s t Hs Hq Hi Hm.
  assert (Hc : rf_pcs s t = QDead \/ (exists o r, rf_pcs s t = QRet o r) \/ (rf_pcs s t <> QDead /\ forall o r, rf_pcs s t <> QRet o r)).
  { destruct (rf_pcs s t); try (right; right; split; discriminate); [right; left; eauto|now left]. }
  destruct Hc as [Hc|[(o & r & Hc)|[Hc1 Hc2]]].
  - exists 0. now right.
  - exists 1. left. exists o, r. cbn. unfold rf_step. rewrite Hc. now left.
  - destruct (meas_step s t nop Hs Hq Hi Hc1 Hc2) as (M & N).
    destruct (IH (meas (rf_pcs (fst (rf_step s t nop)) t))) with (s := fst (rf_step s t nop)) (t := t) as (k & K); auto; [lia|apply inv_step; auto using nop_ok| |].
    + intros u Hu. unfold quiet. rewrite other_pc by exact Hu. now apply Hq.
    + exists (S k). change (repeat (t, nop) (S k)) with ([(t, nop)] ++ repeat (t, nop) k). rewrite after_app, after_one.
      destruct K as [(o & r & K)|K]; [left; exists o, r|now right]. rewrite crun_app. cbn [snd]. apply in_or_app. right.
      cbn [crun]. destruct (rf_step s t nop) as [s1 h1]. exact K.
Qed.

Lemma idle_outside l : forall s t, rf_pcs s t = QIdle -> ~ In t (map fst l) -> rf_pcs (after s l) t = QIdle.
Proof.
  induction l as [|[u op] l IH]; intros s t E N; [exact E|]. change ((u, op) :: l) with ([(u, op)] ++ l). rewrite after_app, after_one. apply IH; [|intros X; apply N; now right].
  rewrite other_pc; [exact E|]. intros ->. apply N. now left.
Qed.
Theorem no_deadlock sched t : scheds sched -> rf_pcs (after (rf_init r0) sched) t <> QIdle ->
  exists more, scheds more /\ ((exists o r, In (Ret t o r) (snd (crun rf_step (after (rf_init r0) sched) more))) \/ rf_pcs (after (after (rf_init r0) sched) more) t = QDead).
Proof.
  intros Hs Hi. set (s := after (rf_init r0) sched) in *. assert (I1 : inv s) by (apply inv_after; auto using inv_init).
  destruct (outs (map fst sched) s t I1) as (m & A & B & C & D). assert (I2 := inv_after m s A I1).
  destruct (solo (meas (rf_pcs (after s m) t)) (after s m) t I2) as (k & K).
  - intros u Hu. destruct (in_dec Nat.eq_dec u (map fst sched)) as [X|X]; [now apply D|]. apply C; auto.
    assert (E : rf_pcs s u = QIdle) by (apply idle_outside; auto). unfold quiet. now rewrite E.
  - congruence.
  - apply le_n.
  - exists (m ++ repeat (t, nop) k). split; [apply Forall_app; split; [exact A|apply nops_ok]|]. rewrite after_app. destruct K as [(o & r & K)|K]; [left; exists o, r|now right].
    rewrite crun_app. cbn [snd]. apply in_or_app. now right.
Qed.
End Live.
