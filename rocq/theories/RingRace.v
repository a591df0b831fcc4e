(** The blocking calls of the ring buffer have no data races. *)
From Coq Require Import ZArith List Bool Lia ZifyBool ZifyNat.
From Verif Require Import GoBase GoLists ConcBase QueueProofs RingModel RingSpec RingProofs RaceSpec RaceBase RaceModel.
Import ListNotations.
Open Scope Z_scope.

Section RR.
Variable k : nat.
Let cap := 2 ^ Z.of_nat k.

Definition slot (a : acc rb_loc) : option Z := match loc_of a with RSlot c => Some c | _ => None end.
Definition wslot (a : acc rb_loc) : Prop := slot a <> None /\ writes a = true.
Definition var_ok (a : acc rb_loc) : Prop :=
  match a with
  | ALoad l | AStore l | ARmw l => match l with RHead | RHeadR | RTail | RTailR => True | _ => False end
  | PRead l => match l with RMask | RBuf | RSlot _ => True | _ => False end
  | PWrite l => match l with RSlot _ => True | _ => False end
  end.

Record G (g : nat -> Z) (s : cr_state) (tr : trace rb_loc) : Prop := {
  g_free : race_free tr;
  g_var : forall e u a, nth_error tr e = Some (u, a) -> var_ok a;
  g_w : forall e u c, nth_error tr e = Some (u, PWrite (RSlot c)) ->
    c = g e mod cap /\ g e < rb_head (cr_ring s) + cap /\ (g e < rb_tail (cr_ring s) \/ exists v, cr_pcs s u = CPushCas v (g e));
  g_r : forall e u c, nth_error tr e = Some (u, PRead (RSlot c)) ->
    c = g e mod cap /\ g e < rb_tail (cr_ring s) /\ (g e < rb_head (cr_ring s) \/ exists v, cr_pcs s u = CPopCas (g e) v);
  g_tail : forall e u a, nth_error tr e = Some (u, a) -> wslot a -> g e < rb_tail (cr_ring s) -> kx tr RTail e;
  g_head : forall e u a, nth_error tr e = Some (u, a) -> slot a <> None -> g e < rb_head (cr_ring s) -> kx tr RHead e;
  g_pop : forall t j e u a, ctk (cr_pcs s t) = Some j -> cr_pcs s t <> CPopWait j ->
    nth_error tr e = Some (u, a) -> wslot a -> g e <= j -> kn tr t e;
  g_push : forall t v i e u a, cr_pcs s t = CPushWrite v i ->
    nth_error tr e = Some (u, a) -> slot a <> None -> g e <= i - cap -> kn tr t e }.

Ltac split_nth H := apply nth_snoc in H; destruct H as [H|[-> H]]; [|injection H as -> ->].

Lemma slot_w a : var_ok a -> wslot a -> exists c, a = PWrite (RSlot c).
Proof. intros V [H1 H2]. destruct a as [l|l|l|l|l]; cbn in *; try discriminate; destruct l; try contradiction; eauto; exfalso; now apply H1. Qed.
Lemma slot_rw a : var_ok a -> slot a <> None -> exists c, a = PWrite (RSlot c) \/ a = PRead (RSlot c).
Proof. intros V H. destruct a as [l|l|l|l|l]; cbn in *; destruct l; try contradiction; eauto; exfalso; now apply H. Qed.

(** Accesses to anything but the slots. *)
Lemma g_ev g s tr t a : G g s tr -> var_ok a -> slot a = None -> (forall l, a <> AStore l) -> G g s (tr ++ [(t, a)]).
Proof.
  intros H V Sa Ns. constructor.
  - apply free_snoc; [apply H|]. intros i u b Hi Hu (Hl & Hw & Ha). exfalso. specialize (g_var _ _ _ H _ _ _ Hi) as Vb.
    destruct a as [l|l|l|l|l], b as [m|m|m|m|m]; cbn in *; subst; destruct l; cbn in *; try contradiction; try discriminate; intuition congruence.
  - intros e u b He. split_nth He; [now apply (g_var _ _ _ H e u)|exact V].
  - intros e u c He. apply nth_snoc in He. destruct He as [He|[_ He]]; [now apply (g_w _ _ _ H)|].
    injection He as <- <-. discriminate.
  - intros e u c He. apply nth_snoc in He. destruct He as [He|[_ He]]; [now apply (g_r _ _ _ H)|].
    injection He as <- <-. discriminate.
  - intros e u b He Hw Hg. split_nth He; [|destruct Hw; congruence].
    specialize (g_tail _ _ _ H _ _ _ He Hw Hg) as K. destruct a as [l|l|l|l|l].
    1-3: apply kx_other; auto; cbn; try discriminate; destruct l; cbn in *; try contradiction; discriminate.
    + now apply Ns in V || (exfalso; now apply (Ns l)).
    + destruct l; try (apply kx_other; auto; cbn; discriminate). apply kx_rmw. now left.
  - intros e u b He Hw Hg. split_nth He; [|congruence].
    specialize (g_head _ _ _ H _ _ _ He Hw Hg) as K. destruct a as [l|l|l|l|l].
    1-3: apply kx_other; auto; cbn; try discriminate; destruct l; cbn in *; try contradiction; discriminate.
    + exfalso; now apply (Ns l).
    + destruct l; try (apply kx_other; auto; cbn; discriminate). apply kx_rmw. now left.
  - intros w j e u b Hc Hn He Hw Hg. split_nth He; [|destruct Hw; congruence]. apply kn_snoc. now apply (g_pop _ _ _ H w j e u b).
  - intros w v i e u b Hc He Hs Hg. split_nth He; [|congruence]. apply kn_snoc. now apply (g_push _ _ _ H w v i e u b).
Qed.

(** Changes of place. *)
Lemma g_goto g s tr t r pc : G g s tr -> rb_head r = rb_head (cr_ring s) -> rb_tail r = rb_tail (cr_ring s) ->
  (forall v i, cr_pcs s t = CPushCas v i -> pc = CPushCas v i) ->
  (forall j v, cr_pcs s t = CPopCas j v -> pc = CPopCas j v) ->
  (forall j, ctk pc = Some j -> pc <> CPopWait j ->
     forall e u a, nth_error tr e = Some (u, a) -> wslot a -> g e <= j -> kn tr t e) ->
  (forall v i, pc = CPushWrite v i ->
     forall e u a, nth_error tr e = Some (u, a) -> slot a <> None -> g e <= i - cap -> kn tr t e) ->
  G g (CR r (fupd (cr_pcs s) t pc)) tr.
Proof.
  intros H E1 E2 P1 P2 K1 K2. constructor; cbn; rewrite ?E1, ?E2; try apply H.
  - intros e u c He. destruct (g_w _ _ _ H e u c He) as (A & B & C). split; [exact A|]. split; [exact B|].
    destruct C as [C|[v C]]; [now left|right]. exists v. unfold fupd. destruct (Nat.eqb_spec u t) as [->|]; auto.
  - intros e u c He. destruct (g_r _ _ _ H e u c He) as (A & B & C). split; [exact A|]. split; [exact B|].
    destruct C as [C|[v C]]; [now left|right]. exists v. unfold fupd. destruct (Nat.eqb_spec u t) as [->|]; auto.
  - intros w j e u a. unfold fupd. destruct (Nat.eqb_spec w t) as [->|]; intros Hc Hn He Hw Hg.
    + now apply (K1 j Hc Hn e u a).
    + now apply (g_pop _ _ _ H w j e u a).
  - intros w v i e u a. unfold fupd. destruct (Nat.eqb_spec w t) as [->|]; intros Hc He Hw Hg.
    + now apply (K2 v i Hc e u a).
    + now apply (g_push _ _ _ H w v i e u a).
Qed.

Lemma capP : 0 < cap.
Proof. apply Z.pow_pos_nonneg; lia. Qed.

Lemma mod_le a b : a mod cap = b mod cap -> a < b -> a <= b - cap.
Proof.
  intros E L. pose proof capP. destruct (Z.le_gt_cases a (b - cap)); [assumption|exfalso].
  assert (a = b) by (apply (mod_inj cap); auto; lia). lia.
Qed.

(** The write of line 67. *)
Lemma g_write g n s a st tr t v i d : cr_rel k n s a st -> G g s tr -> cr_pcs s t = CPushWrite v i ->
  G (fun e => if Nat.eqb e (length tr) then i else g e)
    (CR (RB (rb_head (cr_ring s)) (rb_head_r (cr_ring s)) (rb_tail (cr_ring s)) (rb_tail_r (cr_ring s)) (rb_busy (cr_ring s)) (rb_mask (cr_ring s)) d)
        (fupd (cr_pcs s) t (CPushCas v i))) (tr ++ [(t, PWrite (RSlot (i mod cap)))]).
Proof.
  intros R H E. pose proof R as (S & B & K & U1 & U2). pose proof (K t) as Kt. rewrite E in Kt. cbn in Kt. destruct Kt as (_ & Kt & Kr).
  fold cap in Kr. pose proof capP as Hc.
  destruct S as (_ & _ & S0 & St & Sc & _). fold cap in Sc. pose proof (zlen_nonneg a) as Ha.
  set (g' := fun e => if Nat.eqb e (length tr) then i else g e).
  assert (Gn : g' (length tr) = i) by (unfold g'; now rewrite Nat.eqb_refl).
  assert (Go : forall e x, nth_error tr e = Some x -> g' e = g e).
  { intros e x He. apply nth_lt in He. unfold g'. destruct (Nat.eqb_spec e (length tr)); [lia|reflexivity]. }
  constructor; cbn.
  - apply free_snoc; [apply H|]. intros e u b He Hu (Hl & Hw & _).
    assert (Hs : slot b = Some (i mod cap)) by (unfold slot; rewrite Hl; reflexivity).
    destruct (slot_rw b (g_var _ _ _ H _ _ _ He)) as [c [-> | ->]]; [congruence| |]; cbn in Hs; injection Hs as ->.
    + destruct (g_w _ _ _ H _ _ _ He) as (A1 & A2 & A3). apply (g_push _ _ _ H t v i e u _ E He); [discriminate|].
      assert (g e < i \/ g e = i \/ i < g e) as [L|[L|L]] by lia.
      * now apply mod_le.
      * exfalso. destruct A3 as [A3|[w A3]]; [lia|]. apply Hu. apply (U1 u t i); [rewrite A3; cbn; congruence|now rewrite E].
      * exfalso. symmetry in A1. apply eq_sym in A1. apply mod_le in A1; [lia|exact L].
    + destruct (g_r _ _ _ H _ _ _ He) as (A1 & A2 & A3). apply (g_push _ _ _ H t v i e u _ E He); [discriminate|].
      apply mod_le; [congruence|]. lia.
  - intros e u b He. split_nth He; [now apply (g_var _ _ _ H e u)|exact Logic.I].
  - intros e u c He. apply nth_snoc in He. destruct He as [He|[-> He]].
    + rewrite (Go e _ He). destruct (g_w _ _ _ H _ _ _ He) as (A1 & A2 & A3). split; [exact A1|]. split; [exact A2|].
      destruct A3 as [A3|[w A3]]; [now left|right]. exists w. unfold fupd. destruct (Nat.eqb_spec u t) as [->|]; [congruence|exact A3].
    + injection He as -> ->. rewrite Gn. split; [reflexivity|]. split; [lia|]. right. exists v. now rewrite fupd_same.
  - intros e u c He. apply nth_snoc in He. destruct He as [He|[-> He]]; [|discriminate].
    rewrite (Go e _ He). destruct (g_r _ _ _ H _ _ _ He) as (A1 & A2 & A3). split; [exact A1|]. split; [exact A2|].
    destruct A3 as [A3|[w A3]]; [now left|right]. exists w. unfold fupd. destruct (Nat.eqb_spec u t) as [->|]; [congruence|exact A3].
  - intros e u b He Hw Hg. split_nth He.
    + rewrite (Go e _ He) in Hg. apply kx_other; [cbn; discriminate|]. now apply (g_tail _ _ _ H e u b).
    + rewrite Gn in Hg. lia.
  - intros e u b He Hw Hg. split_nth He.
    + rewrite (Go e _ He) in Hg. apply kx_other; [cbn; discriminate|]. now apply (g_head _ _ _ H e u b).
    + rewrite Gn in Hg. lia.
  - intros w j e u b. unfold fupd at 1 2. destruct (Nat.eqb_spec w t) as [->|]; [cbn; discriminate|].
    intros Hcj Hn He Hw Hg. split_nth He.
    + rewrite (Go e _ He) in Hg. apply kn_snoc. now apply (g_pop _ _ _ H w j e u b).
    + rewrite Gn in Hg. exfalso. specialize (K w). destruct (cr_pcs s w); cbn in Hcj, K; try discriminate; injection Hcj as ->.
      * now apply Hn.
      * lia.
      * lia.
  - intros w v' i' e u b. unfold fupd at 1. destruct (Nat.eqb_spec w t) as [->|]; [discriminate|].
    intros Hcj He Hw Hg. split_nth He.
    + rewrite (Go e _ He) in Hg. apply kn_snoc. now apply (g_push _ _ _ H w v' i' e u b).
    + rewrite Gn in Hg. exfalso. specialize (K w). rewrite Hcj in K. cbn in K. fold cap in K. lia.
Qed.

(** The read of line 81. *)
Lemma g_read g n s a st tr t j val : cr_rel k n s a st -> G g s tr -> cr_pcs s t = CPopRead j ->
  G (fun e => if Nat.eqb e (length tr) then j else g e)
    (CR (cr_ring s) (fupd (cr_pcs s) t (CPopCas j val))) (tr ++ [(t, PRead (RSlot (j mod cap)))]).
Proof.
  intros R H E. pose proof R as (S & B & K & U1 & U2). pose proof (K t) as Kt. rewrite E in Kt. cbn in Kt. destruct Kt as (_ & Kt & Kr).
  pose proof capP as Hc.
  destruct S as (_ & _ & S0 & St & Sc & _). fold cap in Sc. pose proof (zlen_nonneg a) as Ha.
  set (g' := fun e => if Nat.eqb e (length tr) then j else g e).
  assert (Gn : g' (length tr) = j) by (unfold g'; now rewrite Nat.eqb_refl).
  assert (Go : forall e x, nth_error tr e = Some x -> g' e = g e).
  { intros e x He. apply nth_lt in He. unfold g'. destruct (Nat.eqb_spec e (length tr)); [lia|reflexivity]. }
  constructor; cbn.
  - apply free_snoc; [apply H|]. intros e u b He Hu (Hl & Hw & _). cbn in Hw. destruct Hw as [Hw|Hw]; [|discriminate].
    assert (Hs : slot b = Some (j mod cap)) by (unfold slot; rewrite Hl; reflexivity).
    assert (Wb : wslot b) by (split; congruence).
    destruct (slot_w b (g_var _ _ _ H _ _ _ He) Wb) as [c ->]. cbn in Hs; injection Hs as ->.
    destruct (g_w _ _ _ H _ _ _ He) as (A1 & A2 & A3). apply (g_pop _ _ _ H t j e u (PWrite (RSlot (j mod cap)))); rewrite ?E; auto; [discriminate|].
    destruct (Z.le_gt_cases (g e) j) as [L|L]; [exact L|exfalso]. apply mod_le in A1; [lia|exact L].
  - intros e u b He. split_nth He; [now apply (g_var _ _ _ H e u)|exact Logic.I].
  - intros e u c He. apply nth_snoc in He. destruct He as [He|[-> He]]; [|discriminate].
    rewrite (Go e _ He). destruct (g_w _ _ _ H _ _ _ He) as (A1 & A2 & A3). split; [exact A1|]. split; [exact A2|].
    destruct A3 as [A3|[w A3]]; [now left|right]. exists w. unfold fupd. destruct (Nat.eqb_spec u t) as [->|]; [congruence|exact A3].
  - intros e u c He. apply nth_snoc in He. destruct He as [He|[-> He]].
    + rewrite (Go e _ He). destruct (g_r _ _ _ H _ _ _ He) as (A1 & A2 & A3). split; [exact A1|]. split; [exact A2|].
      destruct A3 as [A3|[w A3]]; [now left|right]. exists w. unfold fupd. destruct (Nat.eqb_spec u t) as [->|]; [congruence|exact A3].
    + injection He as -> ->. rewrite Gn. split; [reflexivity|]. split; [lia|]. right. exists val. now rewrite fupd_same.
  - intros e u b He Hw Hg. split_nth He.
    + rewrite (Go e _ He) in Hg. apply kx_other; [cbn; discriminate|]. now apply (g_tail _ _ _ H e u b).
    + destruct Hw. discriminate.
  - intros e u b He Hw Hg. split_nth He.
    + rewrite (Go e _ He) in Hg. apply kx_other; [cbn; discriminate|]. now apply (g_head _ _ _ H e u b).
    + rewrite Gn in Hg. lia.
  - intros w j' e u b. unfold fupd. destruct (Nat.eqb_spec w t) as [->|]; intros Hcj Hn He Hw Hg.
    + cbn in Hcj. injection Hcj as <-. split_nth He; [|destruct Hw; discriminate].
      rewrite (Go e _ He) in Hg. apply kn_snoc. apply (g_pop _ _ _ H t j e u b); rewrite ?E; auto. discriminate.
    + split_nth He; [|destruct Hw; discriminate].
      rewrite (Go e _ He) in Hg. apply kn_snoc. now apply (g_pop _ _ _ H w j' e u b).
  - intros w v' i' e u b. unfold fupd. destruct (Nat.eqb_spec w t) as [->|]; [discriminate|].
    intros Hcj He Hw Hg. split_nth He.
    + rewrite (Go e _ He) in Hg. apply kn_snoc. now apply (g_push _ _ _ H w v' i' e u b).
    + rewrite Gn in Hg. exfalso. specialize (K w). rewrite Hcj in K. cbn in K. fold cap in K. lia.
Qed.

(** The CAS of line 68. *)
Lemma g_publish g n s a st tr t v r pc : cr_rel k n s a st -> G g s tr -> cr_pcs s t = CPushCas v (rb_tail (cr_ring s)) ->
  rb_head r = rb_head (cr_ring s) -> rb_tail r = rb_tail (cr_ring s) + 1 ->
  ptk pc = None -> ctk pc = None ->
  G g (CR r (fupd (cr_pcs s) t pc)) (tr ++ [(t, ARmw RTail)]).
Proof.
  intros R H0 E E1 E2 P1 P2. pose proof R as (S & B & K & U1 & U2).
  assert (H : G g s (tr ++ [(t, ARmw RTail)])) by (apply g_ev; [exact H0|exact Logic.I|reflexivity|discriminate]).
  constructor; cbn; rewrite ?E1, ?E2; try apply H.
  - intros e u c He. destruct (g_w _ _ _ H _ _ _ He) as (A1 & A2 & A3). split; [exact A1|]. split; [exact A2|].
    destruct A3 as [A3|[w A3]]; [left; lia|]. unfold fupd. destruct (Nat.eqb_spec u t) as [->|]; [left|right; eauto].
    rewrite E in A3. injection A3 as A3. lia.
  - intros e u c He. destruct (g_r _ _ _ H _ _ _ He) as (A1 & A2 & A3). split; [exact A1|]. split; [lia|].
    destruct A3 as [A3|[w A3]]; [left; lia|]. right. exists w. unfold fupd. destruct (Nat.eqb_spec u t) as [->|]; [congruence|exact A3].
  - intros e u b He Hw Hg. apply nth_snoc in He. destruct He as [He|[-> He]]; [|injection He as -> ->; destruct Hw as [Hw _]; now exfalso; apply Hw].
    apply kx_rmw. destruct (Z.lt_ge_cases (g e) (rb_tail (cr_ring s))) as [L|L]; [left; now apply (g_tail _ _ _ H0 e u b)|right].
    destruct (slot_w b (g_var _ _ _ H0 _ _ _ He) Hw) as [c ->].
    destruct (g_w _ _ _ H0 _ _ _ He) as (A1 & A2 & [A3|[w A3]]); [lia|].
    assert (u = t) as ->. { apply (U1 u t (g e)); [now rewrite A3|]. rewrite E. cbn. f_equal. lia. }
    now apply (kn_own tr t (PWrite (RSlot c))).
  - intros w j e u b. unfold fupd. destruct (Nat.eqb_spec w t) as [->|]; [congruence|]. intros Hcj Hn He Hw Hg.
    now apply (g_pop _ _ _ H w j e u b).
  - intros w v' i' e u b. unfold fupd. destruct (Nat.eqb_spec w t) as [->|]; [intros ->; discriminate|]. intros Hcj He Hw Hg.
    now apply (g_push _ _ _ H w v' i' e u b).
Qed.

(** The CAS of line 82. *)
Lemma g_take g n s a st tr t val r pc : cr_rel k n s a st -> G g s tr -> cr_pcs s t = CPopCas (rb_head (cr_ring s)) val ->
  rb_head r = rb_head (cr_ring s) + 1 -> rb_tail r = rb_tail (cr_ring s) ->
  ptk pc = None -> ctk pc = None ->
  G g (CR r (fupd (cr_pcs s) t pc)) (tr ++ [(t, ARmw RHead)]).
Proof.
  intros R H0 E E1 E2 P1 P2. pose proof R as (S & B & K & U1 & U2).
  assert (H : G g s (tr ++ [(t, ARmw RHead)])) by (apply g_ev; [exact H0|exact Logic.I|reflexivity|discriminate]).
  constructor; cbn; rewrite ?E1, ?E2; try apply H.
  - intros e u c He. destruct (g_w _ _ _ H _ _ _ He) as (A1 & A2 & A3). split; [exact A1|]. split; [lia|].
    destruct A3 as [A3|[w A3]]; [left; lia|]. right. exists w. unfold fupd. destruct (Nat.eqb_spec u t) as [->|]; [congruence|exact A3].
  - intros e u c He. destruct (g_r _ _ _ H _ _ _ He) as (A1 & A2 & A3). split; [exact A1|]. split; [exact A2|].
    destruct A3 as [A3|[w A3]]; [left; lia|]. unfold fupd. destruct (Nat.eqb_spec u t) as [->|]; [left|right; eauto].
    rewrite E in A3. injection A3 as A3. lia.
  - intros e u b He Hw Hg. apply nth_snoc in He. destruct He as [He|[-> He]]; [|injection He as -> ->; now exfalso; apply Hw].
    apply kx_rmw. destruct (Z.lt_ge_cases (g e) (rb_head (cr_ring s))) as [L|L]; [left; now apply (g_head _ _ _ H0 e u b)|right].
    destruct (slot_rw b (g_var _ _ _ H0 _ _ _ He) Hw) as [c [-> | ->]].
    + apply (g_pop _ _ _ H0 t (rb_head (cr_ring s)) e u (PWrite (RSlot c))); rewrite ?E; cbn; auto; [discriminate|split; [discriminate|reflexivity]|lia].
    + destruct (g_r _ _ _ H0 _ _ _ He) as (A1 & A2 & [A3|[w A3]]); [lia|].
      assert (u = t) as ->. { apply (U2 u t (g e)); [now rewrite A3|]. rewrite E. cbn. f_equal. lia. }
      now apply (kn_own tr t (PRead (RSlot c))).
  - intros w j e u b. unfold fupd. destruct (Nat.eqb_spec w t) as [->|]; [congruence|]. intros Hcj Hn He Hw Hg.
    now apply (g_pop _ _ _ H w j e u b).
  - intros w v' i' e u b. unfold fupd. destruct (Nat.eqb_spec w t) as [->|]; [intros ->; discriminate|]. intros Hcj He Hw Hg.
    now apply (g_push _ _ _ H w v' i' e u b).
Qed.

Lemma g_step n s a st g tr t op : cr_rel k n s a st -> G g s tr ->
  Z.of_nat (n + length (invs (snd (cr_step s t op)))) <= 2 ^ 64 - cap - 1 ->
  exists g', G g' (fst (cr_step s t op)) (tr ++ map (pair t) (cr_accs s t op)).
Proof.
  intros R H HB. pose proof R as (S & B & K & U1 & U2). pose proof (K t) as Kt. pose proof capP as Hc.
  pose proof S as (Sm & Sd & S0 & St & Sc & S1 & S2 & S3 & _). fold cap in Sm, Sd, Sc, B. pose proof (zlen_nonneg a) as Ha.
  assert (X : forall tr' pc, G g s tr' ->
     (forall v i, cr_pcs s t = CPushCas v i -> pc = CPushCas v i) -> (forall j v, cr_pcs s t = CPopCas j v -> pc = CPopCas j v) ->
     (forall j, ctk pc = Some j -> pc <> CPopWait j -> forall e u a, nth_error tr' e = Some (u, a) -> wslot a -> g e <= j -> kn tr' t e) ->
     (forall v i, pc = CPushWrite v i -> forall e u a, nth_error tr' e = Some (u, a) -> slot a <> None -> g e <= i - cap -> kn tr' t e) ->
     G g (CR (cr_ring s) (fupd (cr_pcs s) t pc)) tr') by (intros; now apply g_goto).
  unfold cr_step, cr_accs in *. destruct (cr_ring s) as [head head_r tail tail_r busy mask d] eqn:Er.
  cbn [rb_head rb_head_r rb_tail rb_tail_r rb_busy rb_mask rb_d] in *.
  assert (Mk : forall i, Z.land i mask = i mod cap) by (intros; rewrite Sm; apply mask_mod).
  assert (L1 : forall l, var_ok (ALoad l) -> G g s (tr ++ [(t, ALoad l)])).
  { intros l Hl. apply g_ev; [exact H|exact Hl|destruct l; try contradiction; reflexivity|discriminate]. }
  destruct (cr_pcs s t) as [|v i|v i|v i|j|j|j val|tl|op' r|] eqn:E; cbn in Kt; [| | | | | | | | |contradiction].
  - destruct op as [v| |]; cbn [fst map]; exists g.
    + apply g_goto; rewrite ?Er; auto; rewrite ?E; try discriminate. apply g_ev; [exact H|exact Logic.I|reflexivity|discriminate].
    + apply g_goto; rewrite ?Er; auto; rewrite ?E; try discriminate; [apply g_ev; [exact H|exact Logic.I|reflexivity|discriminate]|].
      intros j Ej Nj. cbn in Ej. injection Ej as <-. now exfalso; apply Nj.
    + apply X; try discriminate. now apply L1.
  - destruct Kt as [_ Kt]. cbn [map]. change [(t, ALoad RHead); (t, PRead RMask)] with ([(t, ALoad RHead)] ++ [(t, PRead RMask)]). rewrite app_assoc.
    assert (HE : G g s ((tr ++ [(t, ALoad RHead)]) ++ [(t, PRead RMask)])).
    { apply g_ev; [now apply L1|exact Logic.I|reflexivity|discriminate]. }
    rewrite (wrap_small 64 (head + mask)) by lia. rewrite !(wrap_small 64) by lia. exists g.
    destruct (Z.ltb_spec (head + mask + 1) (i + 1)) as [L|L]; cbn [fst]; apply X; try discriminate; auto.
    intros v' i' Ei e u b He Hs Hg. injection Ei as -> ->.
    apply nth_snoc in He. destruct He as [He|[-> He]]; [|injection He as -> ->; now exfalso; apply Hs].
    apply nth_snoc in He. destruct He as [He|[-> He]]; [|injection He as -> ->; now exfalso; apply Hs].
    apply kn_snoc. apply kn_load; [reflexivity|reflexivity|]. apply (g_head _ _ _ H e u b He Hs). rewrite Er. cbn. lia.
  - destruct Kt as (_ & Kt & Kr). rewrite Mk.
    assert (Hm : 0 <= i mod cap < zlen d) by (rewrite Sd; apply Z.mod_pos_bound; lia).
    rewrite (zget_Ok _ _ 0) by exact Hm. rewrite zset_Ok by exact Hm. cbn [fst map app].
    assert (HE : G g s ((tr ++ [(t, PRead RMask)]) ++ [(t, PRead RBuf)])).
    { apply g_ev; [apply g_ev; [exact H| | |]| | |]; try exact Logic.I; try reflexivity; discriminate. }
    pose proof (g_write g n s a st _ t v i (upd d (Z.to_nat (i mod cap)) v) R HE E) as W.
    rewrite Er in W. cbn [rb_head rb_head_r rb_tail rb_tail_r rb_busy rb_mask rb_d] in W. rewrite <- !app_assoc in W. eexists. exact W.
  - exists g. destruct (Z.eqb_spec tail i) as [Et|Et]; cbn [fst map].
    + subst i. apply (g_publish g n s a st tr t v); rewrite ?Er; auto. cbn. apply wrap_small. lia.
    + apply X; auto; try discriminate. now apply L1.
  - exists g. destruct (Z.leb_spec tail j) as [L|L]; cbn [fst map]; apply X; auto; try discriminate; try now apply L1.
    + intros j' Ej Nj. cbn in Ej. injection Ej as <-. now exfalso; apply Nj.
    + intros j' Ej _ e u b He Hw Hg. cbn in Ej. injection Ej as <-.
      apply nth_snoc in He. destruct He as [He|[-> He]]; [|injection He as -> ->; destruct Hw as [Hw _]; now exfalso; apply Hw].
      apply kn_load; [reflexivity|reflexivity|]. apply (g_tail _ _ _ H e u b He Hw). rewrite Er. cbn. lia.
  - destruct Kt as (_ & Kt & Kr). rewrite Mk.
    assert (Hm : 0 <= j mod cap < zlen d) by (rewrite Sd; apply Z.mod_pos_bound; lia).
    rewrite (zget_Ok _ _ 0) by exact Hm. cbn [fst map app].
    assert (HE : G g s ((tr ++ [(t, PRead RMask)]) ++ [(t, PRead RBuf)])).
    { apply g_ev; [apply g_ev; [exact H| | |]| | |]; try exact Logic.I; try reflexivity; discriminate. }
    pose proof (g_read g n s a st _ t j (nth (Z.to_nat (j mod cap)) d 0) R HE E) as W. rewrite Er in W.
    rewrite <- !app_assoc in W. eexists. exact W.
  - exists g. destruct (Z.eqb_spec head j) as [Et|Et]; cbn [fst map].
    + subst j. apply (g_take g n s a st tr t val); rewrite ?Er; auto. cbn. apply wrap_small. lia.
    + apply X; auto; try discriminate; [now apply L1|]. intros j' Ej Nj e u b He Hw Hg. cbn in Ej. injection Ej as <-.
      apply nth_snoc in He. destruct He as [He|[-> He]]; [|injection He as -> ->; destruct Hw as [Hw _]; now exfalso; apply Hw].
      apply kn_snoc. apply (g_pop _ _ _ H t j e u b); rewrite ?E; auto; discriminate.
  - exists g. cbn [fst map]. apply X; auto; try discriminate. now apply L1.
  - exists g. cbn [fst map]. rewrite app_nil_r. apply X; auto; discriminate.
Qed.

Lemma g_init g : G g (cr_init k) [].
Proof.
  constructor; cbn; try discriminate.
  - apply free_nil.
  - intros [|e]; discriminate.
  - intros [|e]; discriminate.
  - intros [|e]; discriminate.
  - intros [|e]; discriminate.
  - intros [|e]; discriminate.
Qed.

Lemma ring_run sched : forall n s a st g tr, cr_rel k n s a st -> G g s tr ->
  Z.of_nat (n + length (invs (snd (crun cr_step s sched)))) <= 2 ^ 64 - cap - 1 ->
  race_free (tr ++ trace_of cr_step cr_accs s sched).
Proof.
  induction sched as [|[t op] sched IH]; intros n s a st g tr R H HB.
  - cbn. rewrite app_nil_r. apply (g_free _ _ _ H).
  - cbn [trace_of crun] in *. destruct (cr_step s t op) as [s1 h1] eqn:ES. destruct (crun cr_step s1 sched) as [s2 h2] eqn:EC.
    cbn [snd fst] in *. rewrite invs_app, app_length in HB.
    assert (HB1 : Z.of_nat (n + length (invs (snd (cr_step s t op)))) <= 2 ^ 64 - cap - 1) by (rewrite ES; cbn [snd]; lia).
    destruct (cr_step_sim k n s a st t op R HB1) as (evs & a' & st' & _ & _ & R').
    destruct (g_step n s a st g tr t op R H HB1) as [g' H']. rewrite ES in R', H'. cbn [fst snd] in R', H'.
    rewrite app_assoc. apply (IH _ s1 a' st' g' _ R' H'). rewrite EC. cbn [snd]. lia.
Qed.
End RR.

Theorem ring_no_races k sched :
  Z.of_nat (length (invs (snd (crun cr_step (cr_init k) sched)))) + 2 ^ Z.of_nat k < 2 ^ 64 ->
  race_free (trace_of cr_step cr_accs (cr_init k) sched).
Proof.
  intros H. apply (ring_run k sched 0 (cr_init k) [] (fun _ => TIdle) (fun _ => 0) []).
  - apply cr_rel_init. lia.
  - apply g_init.
  - cbn [Nat.add]. lia.
Qed.
