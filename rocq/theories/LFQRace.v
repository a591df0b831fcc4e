(** The lock-free queue has no data races. *)
From Coq Require Import ZArith List Bool Arith Lia.
From Verif Require Import GoBase ConcBase SListModel LFQModel LFQProofs RaceSpec RaceBase RaceModel.
Import ListNotations.
Open Scope nat_scope.

Inductive rch (h : sheap) : option nat -> nat -> Prop :=
| rch_here n : rch h (Some n) n
| rch_next n m : rch h (snext (h n)) m -> rch h (Some n) m.

Definition node_of (l : lq_loc) : option nat := match l with QVal n | QNext n => Some n | _ => None end.
Definition wr (tr : trace lq_loc) (m e : nat) : Prop :=
  exists u a, nth_error tr e = Some (u, a) /\ writes a = true /\ node_of (loc_of a) = Some m.
Definition pub (s : lq_state) (m : nat) : Prop := m < lq_fresh s /\ forall u, priv (lq_pcs s u) <> Some m.

Record J (s : lq_state) (tr : trace lq_loc) : Prop := {
  j_free : race_free tr;
  j_priv : forall t n, priv (lq_pcs s t) = Some n -> n < lq_fresh s;
  j_uniq : forall t u n, priv (lq_pcs s t) = Some n -> priv (lq_pcs s u) = Some n -> t = u;
  j_hpub : forall m, rch (lq_heap s) (lq_head s) m -> pub s m;
  j_tpub : forall t n m, held (lq_pcs s t) = Some n -> rch (lq_heap s) (Some n) m -> pub s m;
  j_next : forall t n nx, lq_pcs s t = PcPopCas n nx -> snext (lq_heap s n) = nx;
  j_evs : forall e u a n, nth_error tr e = Some (u, a) -> node_of (loc_of a) = Some n -> n < lq_fresh s;
  j_own : forall t n e u a, priv (lq_pcs s t) = Some n -> nth_error tr e = Some (u, a) -> node_of (loc_of a) = Some n -> u = t;
  j_atom : forall e u a, nth_error tr e = Some (u, a) -> node_of (loc_of a) = None -> atomic a = true;
  j_head : forall m e, rch (lq_heap s) (lq_head s) m -> wr tr m e -> kx tr QHead e;
  j_held : forall t n m e, held (lq_pcs s t) = Some n -> rch (lq_heap s) (Some n) m -> wr tr m e -> kn tr t e }.

Lemma wr_snoc tr t a m e : wr (tr ++ [(t, a)]) m e ->
  wr tr m e \/ (e = length tr /\ writes a = true /\ node_of (loc_of a) = Some m).
Proof.
  intros (u & b & H & Hw & Hn). apply nth_snoc in H. destruct H as [H|[-> E]].
  - left. exists u, b. auto.
  - injection E as -> ->. auto.
Qed.

(** Accesses that leave the invariant alone. *)
Lemma j_ev s tr t a : J s tr ->
  (node_of (loc_of a) = None -> atomic a = true /\ a <> AStore QHead) ->
  (forall n, node_of (loc_of a) = Some n -> priv (lq_pcs s t) = Some n \/ (atomic a = false /\ writes a = false /\ held (lq_pcs s t) = Some n)) ->
  J s (tr ++ [(t, a)]).
Proof.
  intros H Ha Hn. constructor; try apply H.
  - destruct (node_of (loc_of a)) as [n|] eqn:E.
    + apply free_snoc; [apply H|]. intros i u b Hi Hu (Hl & Hw & Hat).
      assert (Hb : node_of (loc_of b) = Some n) by (rewrite Hl; exact E).
      destruct (Hn n eq_refl) as [Hp|(A1 & A2 & Hh)].
      * exfalso. apply Hu. now apply (j_own _ _ H t n i u b).
      * assert (Wb : writes b = true) by (destruct Hw; congruence).
        apply (j_held _ _ H t n n); [exact Hh|constructor|]. exists u, b. auto.
    + destruct (Ha eq_refl) as [A1 _]. apply free_atomic; [apply H|exact A1|].
      intros i u b Hi Hl. apply (j_atom _ _ H i u b Hi). now rewrite Hl.
  - intros e u b n He Hb. apply nth_snoc in He. destruct He as [He|[-> E]]; [now apply (j_evs _ _ H e u b n)|].
    injection E as -> ->. destruct (Hn n Hb) as [Hp|(_ & _ & Hh)].
    + now apply (j_priv _ _ H t).
    + apply (j_tpub _ _ H t n n Hh). constructor.
  - intros t' n e u b Hp He Hb. apply nth_snoc in He. destruct He as [He|[-> E]]; [now apply (j_own _ _ H t' n e u b)|].
    injection E as -> ->. destruct (Hn n Hb) as [Hp'|(_ & _ & Hh)].
    + now apply (j_uniq _ _ H t t' n).
    + exfalso. destruct (j_tpub _ _ H t n n Hh) as [_ K]; [constructor|]. now apply (K t').
  - intros e u b He Hb. apply nth_snoc in He. destruct He as [He|[-> E]]; [now apply (j_atom _ _ H e u b)|].
    injection E as -> ->. now apply Ha.
  - intros m e Hm Hw. assert (Hk : kx tr QHead e).
    { apply wr_snoc in Hw. destruct Hw as [Hw|(-> & Hw & Hnd)]; [now apply (j_head _ _ H m)|].
      exfalso. destruct (Hn m Hnd) as [Hp|(_ & Hf & _)]; [|congruence].
      destruct (j_hpub _ _ H m Hm) as [_ K]. now apply (K t). }
    destruct a as [l|l|l|l|l].
    1-3: apply kx_other; auto; cbn; try discriminate. { intros _ ->. destruct (Ha eq_refl). discriminate. }
    + apply kx_other; auto. intros _ E. cbn in E. subst l. destruct (Ha eq_refl). congruence.
    + destruct l; try (apply kx_other; auto; cbn; discriminate). apply kx_rmw. now left.
  - intros t' n m e Hh Hm Hw. apply wr_snoc in Hw. destruct Hw as [Hw|(-> & Hw & Hnd)].
    + apply kn_snoc. now apply (j_held _ _ H t' n m).
    + exfalso. destruct (Hn m Hnd) as [Hp|(_ & Hf & _)]; [|congruence].
      destruct (j_tpub _ _ H t' n m Hh Hm) as [_ K]. now apply (K t).
Qed.

Lemma rch_same h h' p m : (forall n, rch h p n -> snext (h' n) = snext (h n)) -> rch h p m -> rch h' p m.
Proof.
  intros E H. induction H as [n|n m H IH]; [constructor|].
  apply rch_next. rewrite E by constructor. apply IH. intros k Hk. apply E. now apply rch_next.
Qed.
Lemma rch_same_inv h h' p m : (forall n, rch h p n -> snext (h' n) = snext (h n)) -> rch h' p m -> rch h p m.
Proof.
  intros E H. induction H as [n|n m H IH]; [constructor|].
  rewrite E in IH by constructor. apply rch_next. apply IH. intros k Hk. apply E. now apply rch_next.
Qed.

(** Changes of place that keep the invariant: nothing new is held. *)
Lemma j_goto s tr t pc hd sz : J s tr ->
  (priv pc = priv (lq_pcs s t) \/ priv pc = None /\ priv (lq_pcs s t) = None) ->
  (forall n, held pc = Some n -> (forall m, rch (lq_heap s) (Some n) m -> pub s m) /\
     forall m e, rch (lq_heap s) (Some n) m -> wr tr m e -> kn tr t e) ->
  (forall n nx, pc = PcPopCas n nx -> snext (lq_heap s n) = nx) ->
  (hd = lq_head s \/ hd = None) ->
  J (LQ (lq_heap s) hd sz (lq_fresh s) (fupd (lq_pcs s) t pc)) tr.
Proof.
  intros H Hp Hh Hc Hd.
  assert (P : forall u, priv (fupd (lq_pcs s) t pc u) = priv (lq_pcs s u)).
  { intros u. unfold fupd. destruct (Nat.eqb_spec u t) as [->|]; [|reflexivity]. destruct Hp as [->|[-> ->]]; reflexivity. }
  assert (Q : forall m, pub s m -> pub (LQ (lq_heap s) hd sz (lq_fresh s) (fupd (lq_pcs s) t pc)) m).
  { intros m [Q1 Q2]. split; cbn; [exact Q1|]. intros u. rewrite P. apply Q2. }
  constructor; cbn; try apply H.
  - intros u n. rewrite P. apply H.
  - intros u w n. rewrite !P. apply H.
  - intros m Hm. apply Q. destruct Hd as [->| ->]; [now apply H|inversion Hm].
  - intros u n m. unfold fupd. destruct (Nat.eqb_spec u t) as [->|N]; intros E Hm; apply Q.
    + now apply (Hh n).
    + now apply (j_tpub _ _ H u n).
  - intros u n nx. unfold fupd. destruct (Nat.eqb_spec u t) as [->|N]; intros E.
    + now apply Hc.
    + now apply (j_next _ _ H u).
  - intros u n e w a. rewrite P. apply H.
  - intros m e Hm Hw. destruct Hd as [->| ->]; [now apply (j_head _ _ H m)|inversion Hm].
  - intros u n m e. unfold fupd. destruct (Nat.eqb_spec u t) as [->|N]; intros E Hm Hw.
    + now apply (Hh n) with m.
    + now apply (j_held _ _ H u n m).
Qed.

Lemma fr_not_rch s tr p : J s tr -> (p = lq_head s \/ exists t n, held (lq_pcs s t) = Some n /\ p = Some n) ->
  forall m, rch (lq_heap s) p m -> pub s m.
Proof.
  intros H [->|(t & n & Hh & ->)] m Hm; [now apply H|now apply (j_tpub _ _ H t n)].
Qed.

(** makeNode. *)
Lemma j_alloc s tr t v : J s tr -> priv (lq_pcs s t) = None -> 
  J (LQ (fupd (lq_heap s) (lq_fresh s) (SNode v None)) (lq_head s) (lq_size s) (S (lq_fresh s))
        (fupd (lq_pcs s) t (PcPushLoad v (lq_fresh s)))) tr.
Proof.
  intros H Ht.
  assert (P : forall u n, priv (fupd (lq_pcs s) t (PcPushLoad v (lq_fresh s)) u) = Some n ->
            (u = t /\ n = lq_fresh s) \/ (u <> t /\ priv (lq_pcs s u) = Some n)).
  { intros u n. unfold fupd. destruct (Nat.eqb_spec u t) as [->|N]; cbn; intros E; [left|right]; split; congruence. }
  assert (HE : forall p, (p = lq_head s \/ exists t n, held (lq_pcs s t) = Some n /\ p = Some n) ->
     forall n, rch (lq_heap s) p n -> snext (fupd (lq_heap s) (lq_fresh s) (SNode v None) n) = snext (lq_heap s n)).
  { intros p Hp n Hn. rewrite fupd_other; [reflexivity|]. destruct (fr_not_rch s tr p H Hp n Hn). lia. }
  assert (Q : forall m, pub s m -> pub (LQ (fupd (lq_heap s) (lq_fresh s) (SNode v None)) (lq_head s) (lq_size s) (S (lq_fresh s))
        (fupd (lq_pcs s) t (PcPushLoad v (lq_fresh s)))) m).
  { intros m [Q1 Q2]. split; cbn; [lia|]. intros u E. destruct (P u m E) as [[_ ->]|[_ E']]; [lia|now apply (Q2 u)]. }
  assert (U : forall u n, held (fupd (lq_pcs s) t (PcPushLoad v (lq_fresh s)) u) = Some n -> held (lq_pcs s u) = Some n).
  { intros u n. unfold fupd. destruct (Nat.eqb_spec u t); cbn; congruence. }
  constructor; cbn; try apply H.
  - intros u n E. destruct (P u n E) as [[_ ->]|[_ E']]; [lia|]. specialize (j_priv _ _ H u n E'). lia.
  - intros u w n E1 E2. destruct (P u n E1) as [[-> ->]|[_ E1']], (P w _ E2) as [[-> E]|[_ E2']]; auto.
    + specialize (j_priv _ _ H w _ E2'). lia.
    + subst n. specialize (j_priv _ _ H u _ E1'). lia.
    + now apply (j_uniq _ _ H u w n).
  - intros m Hm. apply Q. apply (rch_same_inv (lq_heap s)) in Hm; [now apply H|]. apply HE. now left.
  - intros u n m E Hm. apply U in E. apply Q. apply (rch_same_inv (lq_heap s)) in Hm; [now apply (j_tpub _ _ H u n)|].
    apply HE. right. eauto.
  - intros u n nx. unfold fupd at 1. destruct (Nat.eqb_spec u t); [discriminate|]. intros E.
    rewrite (HE (Some n)); [now apply (j_next _ _ H u)| |constructor]. right. exists u, n. split; [now rewrite E|reflexivity].
  - intros e u a n He Hn. specialize (j_evs _ _ H e u a n He Hn). lia.
  - intros w n e u a E He Hn. destruct (P w n E) as [[_ ->]|[_ E']].
    + specialize (j_evs _ _ H e u a _ He Hn). lia.
    + now apply (j_own _ _ H w n e u a).
  - intros m e Hm. apply (rch_same_inv (lq_heap s)) in Hm; [now apply (j_head _ _ H m)|]. apply HE. now left.
  - intros u n m e E Hm. apply U in E. apply (rch_same_inv (lq_heap s)) in Hm; [now apply (j_held _ _ H u n m)|].
    apply HE. right. eauto.
Qed.

(** The write to the private node. *)
Lemma j_setnext s tr t v n : J s tr -> lq_pcs s t = PcPushLoad v n -> forall q,
  J (LQ (set_next (lq_heap s) n q) (lq_head s) (lq_size s) (lq_fresh s) (fupd (lq_pcs s) t (PcPushCas v n))) tr.
Proof.
  intros H Ht q.
  assert (Pt : priv (lq_pcs s t) = Some n) by now rewrite Ht.
  assert (P : forall u, priv (fupd (lq_pcs s) t (PcPushCas v n) u) = priv (lq_pcs s u)).
  { intros u. unfold fupd. destruct (Nat.eqb_spec u t) as [->|]; [now rewrite Ht|reflexivity]. }
  assert (HE : forall p, (p = lq_head s \/ exists t n, held (lq_pcs s t) = Some n /\ p = Some n) ->
     forall m, rch (lq_heap s) p m -> snext (set_next (lq_heap s) n q m) = snext (lq_heap s m)).
  { intros p Hp m Hm. unfold set_next. rewrite fupd_other; [reflexivity|].
    destruct (fr_not_rch s tr p H Hp m Hm) as [_ K]. intros ->. now apply (K t). }
  assert (Q : forall m, pub s m -> pub (LQ (set_next (lq_heap s) n q) (lq_head s) (lq_size s) (lq_fresh s) (fupd (lq_pcs s) t (PcPushCas v n))) m).
  { intros m [Q1 Q2]. split; cbn; [exact Q1|]. intros u. rewrite P. apply Q2. }
  assert (U : forall u k, held (fupd (lq_pcs s) t (PcPushCas v n) u) = Some k -> held (lq_pcs s u) = Some k).
  { intros u k. unfold fupd. destruct (Nat.eqb_spec u t); cbn; congruence. }
  constructor; cbn; try apply H.
  - intros u k. rewrite P. apply H.
  - intros u w k. rewrite !P. apply H.
  - intros m Hm. apply Q. apply (rch_same_inv (lq_heap s)) in Hm; [now apply H|]. apply HE. now left.
  - intros u k m E Hm. apply U in E. apply Q. apply (rch_same_inv (lq_heap s)) in Hm; [now apply (j_tpub _ _ H u k)|].
    apply HE. right. eauto.
  - intros u k nx. unfold fupd at 1. destruct (Nat.eqb_spec u t); [discriminate|]. intros E.
    rewrite (HE (Some k)); [now apply (j_next _ _ H u)| |constructor]. right. exists u, k. split; [now rewrite E|reflexivity].
  - intros w k e u a. rewrite P. apply H.
  - intros m e Hm. apply (rch_same_inv (lq_heap s)) in Hm; [now apply (j_head _ _ H m)|]. apply HE. now left.
  - intros u k m e E Hm. apply U in E. apply (rch_same_inv (lq_heap s)) in Hm; [now apply (j_held _ _ H u k m)|].
    apply HE. right. eauto.
Qed.

(** A successful CAS: the new head is the private node before the old head, or
    what comes after the held node. *)
Lemma j_cas s tr t hd sz pc : J s tr ->
  priv pc = None ->
  (forall m, rch (lq_heap s) hd m -> priv (lq_pcs s t) = Some m \/ pub s m /\ forall e, wr tr m e -> kx tr QHead e \/ kn tr t e) ->
  (forall n, held pc = Some n -> held (lq_pcs s t) = Some n) -> (forall n nx, pc <> PcPopCas n nx) ->
  J (LQ (lq_heap s) hd sz (lq_fresh s) (fupd (lq_pcs s) t pc)) (tr ++ [(t, ARmw QHead)]).
Proof.
  intros H0 Hp Hr Hh Hc.
  assert (H : J s (tr ++ [(t, ARmw QHead)])).
  { apply j_ev; [exact H0|split; [reflexivity|discriminate]|cbn; discriminate]. }
  assert (P : forall u k, priv (fupd (lq_pcs s) t pc u) = Some k -> u <> t /\ priv (lq_pcs s u) = Some k).
  { intros u k. unfold fupd. destruct (Nat.eqb_spec u t) as [->|N]; [congruence|auto]. }
  assert (Q : forall m, pub s m -> pub (LQ (lq_heap s) hd sz (lq_fresh s) (fupd (lq_pcs s) t pc)) m).
  { intros m [Q1 Q2]. split; cbn; [exact Q1|]. intros u E. apply P in E as [_ E]. now apply (Q2 u). }
  assert (U : forall u k, held (fupd (lq_pcs s) t pc u) = Some k -> held (lq_pcs s u) = Some k).
  { intros u k. unfold fupd. destruct (Nat.eqb_spec u t) as [->|]; auto. }
  constructor; cbn; try apply H.
  - intros u k E. apply P in E as [_ E]. now apply (j_priv _ _ H u).
  - intros u w k E1 E2. apply P in E1 as [_ E1]. apply P in E2 as [_ E2]. now apply (j_uniq _ _ H u w k).
  - intros m Hm. destruct (Hr m Hm) as [E|[K _]]; [|now apply Q]. split; cbn; [now apply (j_priv _ _ H t)|].
    intros u E2. apply P in E2 as [N E2]. apply N. now apply (j_uniq _ _ H u t m).
  - intros u k m E Hm. apply U in E. apply Q. now apply (j_tpub _ _ H u k).
  - intros u k nx. unfold fupd. destruct (Nat.eqb_spec u t); [intros E; now apply Hc in E|]. apply (j_next _ _ H u).
  - intros w k e u a E. apply P in E as [_ E]. now apply (j_own _ _ H w k e u a).
  - intros m e Hm Hw. apply wr_snoc in Hw. destruct Hw as [Hw|(_ & _ & Hw)]; [|discriminate].
    apply kx_rmw. destruct (Hr m Hm) as [E|[_ K]]; [|now apply K]. right.
    destruct Hw as (u & a & He & _ & Hn). specialize (j_own _ _ H0 t m e u a E He Hn). intros ->. now apply (kn_own tr t a).
  - intros u k m e E. apply U in E. now apply (j_held _ _ H u k m).
Qed.

Lemma j_clear s tr t sz : J s tr -> priv (lq_pcs s t) = None ->
  J (LQ (lq_heap s) None sz (lq_fresh s) (fupd (lq_pcs s) t (PcRet QClear RUnit))) (tr ++ [(t, AStore QHead)]).
Proof.
  intros H0 Hp.
  assert (H : J (LQ (lq_heap s) None sz (lq_fresh s) (fupd (lq_pcs s) t (PcRet QClear RUnit))) tr).
  { apply j_goto; auto; cbn; discriminate. }
  constructor; try apply H.
  - apply free_atomic; [apply H|reflexivity|]. intros i u b Hi Hl. apply (j_atom _ _ H i u b Hi). now rewrite Hl.
  - intros e u b n He Hb. apply nth_snoc in He. destruct He as [He|[-> E]]; [now apply (j_evs _ _ H e u b n)|].
    injection E as -> ->. discriminate.
  - intros t' n e u b Hp' He Hb. apply nth_snoc in He. destruct He as [He|[-> E]]; [now apply (j_own _ _ H t' n e u b)|].
    injection E as -> ->. discriminate.
  - intros e u b He Hb. apply nth_snoc in He. destruct He as [He|[-> E]]; [now apply (j_atom _ _ H e u b)|].
    injection E as -> ->. reflexivity.
  - intros m e Hm. inversion Hm.
  - intros u k m e E Hm Hw. apply wr_snoc in Hw. destruct Hw as [Hw|(_ & _ & Hw)]; [|discriminate].
    apply kn_snoc. now apply (j_held _ _ H u k m).
Qed.

Lemma sp_eq_spec p q : sp_eq p q = true -> p = q.
Proof. apply sp_eq_true. Qed.

Lemma j_step s tr t op : J s tr -> J (fst (lq_step s t op)) (tr ++ map (pair t) (lq_accs s t op)).
Proof.
  intros H. unfold lq_step, lq_accs.
  destruct (lq_pcs s t) as [|v n|v n| |n|n nx|n|op' r d| | | |op' r] eqn:E.
  - destruct op as [v| | | |]; cbn [fst map].
    2-5: rewrite app_nil_r; apply j_goto; auto; rewrite ?E; cbn; auto; discriminate.
    assert (J1 : J (LQ (fupd (lq_heap s) (lq_fresh s) (SNode v None)) (lq_head s) (lq_size s) (S (lq_fresh s))
        (fupd (lq_pcs s) t (PcPushLoad v (lq_fresh s)))) tr) by (apply j_alloc; [exact H|now rewrite E]).
    change [(t, PWrite (QVal (lq_fresh s))); (t, PWrite (QNext (lq_fresh s)))] with ([(t, PWrite (QVal (lq_fresh s)))] ++ [(t, PWrite (QNext (lq_fresh s)))]).
    rewrite app_assoc. apply j_ev; [apply j_ev; [exact J1| |]| |].
    all: cbn; try discriminate; intros n En; left; rewrite fupd_same; cbn; congruence.
  - cbn [fst map]. change [(t, ALoad QHead); (t, PWrite (QNext n))] with ([(t, ALoad QHead)] ++ [(t, PWrite (QNext n))]).
    rewrite app_assoc. apply j_setnext; [|exact E]. apply j_ev; [apply j_ev; [exact H| |]| |].
    + split; [reflexivity|discriminate].
    + cbn; discriminate.
    + cbn; discriminate.
    + cbn. intros m Em. left. rewrite E. exact Em.
  - assert (HR : J s (tr ++ [(t, PRead (QNext n))])).
    { apply j_ev; [exact H|cbn; discriminate|]. cbn. intros m Em. left. rewrite E. exact Em. }
    destruct (sp_eq (lq_head s) (snext (lq_heap s n))) eqn:C; cbn [fst map].
    + apply sp_eq_spec in C.
      change [(t, PRead (QNext n)); (t, ARmw QHead)] with ([(t, PRead (QNext n))] ++ [(t, ARmw QHead)]).
      rewrite app_assoc. apply j_cas; [exact HR|reflexivity| |cbn; discriminate|discriminate].
      intros m Hm. inversion Hm as [k|k m' Hm' Ek Em].
      * left. rewrite E. cbn. congruence.
      * subst. right. rewrite <- C in Hm'. split; [now apply (j_hpub _ _ H)|]. intros e He. left.
        now apply (j_head _ _ HR m).
    + change [(t, PRead (QNext n)); (t, ALoad QHead)] with ([(t, PRead (QNext n))] ++ [(t, ALoad QHead)]).
      rewrite app_assoc. apply j_goto; [|left; now rewrite E|cbn; discriminate|discriminate|now left].
      apply j_ev; [exact HR|split; [reflexivity|discriminate]|cbn; discriminate].
  - assert (HL : J s (tr ++ [(t, ALoad QHead)])) by (apply j_ev; [exact H|split; [reflexivity|discriminate]|cbn; discriminate]).
    destruct (lq_head s) as [n|] eqn:Eh; cbn [fst map].
    + apply j_goto; [exact HL|right; rewrite E; auto| |discriminate|left; congruence].
      cbn. intros k Ek. injection Ek as <-. split; [rewrite <- Eh; apply H|].
      intros m e Hm Hw. apply wr_snoc in Hw. destruct Hw as [Hw|(_ & _ & Hw)]; [|discriminate].
      apply kn_load; [reflexivity|reflexivity|]. apply (j_head _ _ H m); [now rewrite Eh|exact Hw].
    + apply j_goto; [exact HL|right; rewrite E; auto|cbn; discriminate|discriminate|right; reflexivity].
  - cbn [fst map]. apply j_goto; [|right; rewrite E; auto| | |now left].
    + apply j_ev; [exact H|cbn; discriminate|]. cbn. intros m Em. right. rewrite E. auto.
    + cbn. intros k Ek. split; [intros m; apply (j_tpub _ _ H t); now rewrite E|].
      intros m e Hm Hw. apply wr_snoc in Hw. destruct Hw as [Hw|(_ & Hw & _)]; [|discriminate].
      apply kn_snoc. apply (j_held _ _ H t k m); [now rewrite E|exact Hm|exact Hw].
    + intros k nx Ek. injection Ek as <- <-. reflexivity.
  - destruct (sp_eq (lq_head s) (Some n)) eqn:C; cbn [fst map].
    + apply j_cas; [exact H|reflexivity| |rewrite E; auto|discriminate].
      intros m Hm. right. rewrite <- (j_next _ _ H t n nx E) in Hm. apply rch_next in Hm.
      split; [apply (j_tpub _ _ H t n); [now rewrite E|exact Hm]|].
      intros e He. right. apply (j_held _ _ H t n m); [now rewrite E|exact Hm|exact He].
    + apply j_goto; [|right; rewrite E; auto|cbn; discriminate|discriminate|now left].
      apply j_ev; [exact H|split; [reflexivity|discriminate]|cbn; discriminate].
  - cbn [fst map]. apply j_goto; [|right; rewrite E; auto|cbn; discriminate|discriminate|now left].
    apply j_ev; [exact H|cbn; discriminate|]. cbn. intros m Em. right. rewrite E. auto.
  - cbn [fst map]. apply j_goto; [|right; rewrite E; auto|cbn; discriminate|discriminate|now left].
    apply j_ev; [exact H|split; [reflexivity|discriminate]|cbn; discriminate].
  - cbn [fst map]. apply j_clear; [exact H|now rewrite E].
  - cbn [fst map]. apply j_goto; [|right; rewrite E; auto|cbn; discriminate|discriminate|now left].
    apply j_ev; [exact H|split; [reflexivity|discriminate]|cbn; discriminate].
  - cbn [fst map]. apply j_goto; [|right; rewrite E; auto|cbn; discriminate|discriminate|now left].
    apply j_ev; [exact H|split; [reflexivity|discriminate]|cbn; discriminate].
  - cbn [fst map]. rewrite app_nil_r. apply j_goto; [exact H|right; rewrite E; auto|cbn; discriminate|discriminate|now left].
Qed.

Lemma j_init : J lq_init [].
Proof.
  constructor; cbn; try discriminate.
  - apply free_nil.
  - intros m Hm. inversion Hm.
  - intros e u a n He. destruct e; discriminate.
  - intros e u a He. destruct e; discriminate.
  - intros m e Hm. inversion Hm.
Qed.

Theorem lq_race_free sched : race_free (trace_of lq_step lq_accs lq_init sched).
Proof.
  pose proof (trace_inv lq_step lq_accs J (fun s tr t op => j_step s tr t op) sched lq_init [] j_init) as H.
  apply (j_free _ _ H).
Qed.
