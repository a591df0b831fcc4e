From Coq Require Import ZArith List Bool Lia Arith ZifyBool.
From Verif Require Import GoBase ConcBase SpinModel SpinSpec SpinProofs.
Import ListNotations.
Open Scope Z_scope.

Lemma i32_small z : - 2147483648 <= z < 2147483648 -> i32 z = z.
Proof. intros H. unfold i32. rewrite Z.mod_small by lia. lia. Qed.

Lemma rw_step_one s t op : (length (snd (rw_step s t op)) <= 1)%nat.
Proof.
  unfold rw_step. destruct (rw_pcs s t); cbv zeta;
  repeat match goal with |- context [if ?c then (?a, ?b) else _] => destruct c end; cbn; auto.
Qed.

(** ** Sets of threads as lists *)
Definition b2z (b : bool) : Z := if b then 1 else 0.
Definition listed (P : nat -> bool) (l : list nat) : Prop := NoDup l /\ forall u, P u = true <-> In u l.
Lemma remove_len t l : NoDup l -> In t l -> zlen (remove Nat.eq_dec t l) = zlen l - 1.
Proof.
  unfold zlen. induction 1 as [|x l Hx _ IH]; [intros []|]. cbn [In remove]. intros [->|Hin].
  - destruct (Nat.eq_dec t t) as [_|]; [|congruence]. rewrite notin_remove by auto. cbn [length]; lia.
  - destruct (Nat.eq_dec t x) as [->|]; [tauto|]. cbn [length]. specialize (IH Hin). lia.
Qed.
Lemma listed_upd P P' l t : listed P l -> (forall u, u <> t -> P' u = P u) ->
  exists l', listed P' l' /\ zlen l' = zlen l + b2z (P' t) - b2z (P t).
Proof.
  intros (Hnd & Hl) Ho. destruct (P' t) eqn:E', (P t) eqn:E; cbn [b2z].
  - exists l. split; [|lia]. split; auto. intros u. rewrite <- Hl. destruct (Nat.eq_dec u t) as [->|N]; [rewrite E, E'; tauto|]. now rewrite Ho.
  - exists (t :: l). split; [|unfold zlen; cbn [length]; lia]. split.
    + constructor; auto. rewrite <- Hl. congruence.
    + intros u. cbn. rewrite <- Hl. destruct (Nat.eq_dec u t) as [->|N]; [rewrite E'; tauto|]. rewrite Ho by auto.
      split; [auto|intros [->|]; auto; congruence].
  - exists (remove Nat.eq_dec t l). split; [|rewrite remove_len; auto; [lia|now apply Hl]]. split.
    + clear - Hnd. induction Hnd as [|x l Hx _ IH]; cbn; [constructor|]. destruct (Nat.eq_dec t x); auto.
      constructor; auto. intros K. apply in_remove in K. tauto.
    + intros u. destruct (Nat.eq_dec u t) as [->|N].
      * rewrite E'. split; [discriminate|]. intros K. apply in_remove in K. tauto.
      * rewrite Ho, Hl by auto. split; [intros; now apply in_in_remove|intros K; apply in_remove in K; tauto].
  - exists l. split; [|lia]. split; auto. intros u. rewrite <- Hl. destruct (Nat.eq_dec u t) as [->|N]; [rewrite E, E'; tauto|]. now rewrite Ho.
Qed.
Lemma listed_pos P l t : listed P l -> P t = true -> 1 <= zlen l.
Proof. intros (_ & H) K. apply H in K. unfold zlen. destruct l; [destruct K|cbn [length]; lia]. Qed.

(** ** The invariant *)
Inductive gw := GFree | GWriter (t : nat) (added : bool) | GReader.
Definition wphase (pc : rw_pc) (wr : bool) : option bool :=
  match pc with
  | PWAdd | PWUCas => Some false
  | PRet WLock LOk | PWUAdd => Some true
  | PIdle => if wr then Some true else None
  | _ => None
  end.
Definition rphase (pc : rw_pc) (rd : bool) : bool :=
  match pc with
  | PRSpin _ | PRet RLock LOk | PRUAdd => true
  | PIdle => rd
  | _ => false
  end.
Definition pphase (pc : rw_pc) : bool := match pc with PLoad _ | PAdd => true | _ => false end.
Definition gadd (g : gw) : Z := match g with GWriter _ true => rw_max | _ => 0 end.
Definition gword (g : gw) : Z := match g with GFree => 0 | _ => 1 end.
Definition pcok (pc : rw_pc) (wr rd : bool) : Prop :=
  (wr || rd = true -> pc = PIdle) /\ wr && rd = false /\
  pc <> PRUCas /\ pc <> PRet WUnlock LPanic /\ pc <> PRet RUnlock LPanic.

Definition rw_inv (g : gw) (s : rw_state) (h : list (ext rw_op sl_res)) : Prop :=
  exists rs ps leaked,
  rw_w s = gword g /\
  (forall t b, wphase (rw_pcs s t) (writing h t) = Some b <-> g = GWriter t b) /\
  listed (fun t => rphase (rw_pcs s t) (reading h t)) rs /\
  listed (fun t => pphase (rw_pcs s t)) ps /\
  0 <= leaked /\ rw_rc s = zlen rs + leaked - gadd g /\
  zlen rs + leaked + zlen ps <= rlocks h /\
  (forall t, pcok (rw_pcs s t) (writing h t) (reading h t)) /\
  (forall t, ~ In (Ret t WUnlock LPanic) h /\ ~ In (Ret t RUnlock LPanic) h).

Lemma writing_snoc h e t : writing (h ++ [e]) t = writing_after t (writing h t) e.
Proof. unfold writing. now rewrite fold_left_app. Qed.
Lemma reading_snoc h e t : reading (h ++ [e]) t = reading_after t (reading h t) e.
Proof. unfold reading. now rewrite fold_left_app. Qed.
Lemma rlocks_app h1 h2 : rlocks (h1 ++ h2) = rlocks h1 + rlocks h2.
Proof. induction h1 as [|[t []|t o r] h1 IH]; cbn [rlocks app]; lia. Qed.
Lemma rlocks_nonneg h : 0 <= rlocks h.
Proof. induction h as [|[t []|t o r] h IH]; cbn [rlocks]; lia. Qed.
Lemma well_nested_app h1 h2 : well_nested (h1 ++ h2) -> well_nested h1.
Proof. intros H a t op b E. apply (H a t op (b ++ h2)). rewrite E, <- app_assoc. reflexivity. Qed.

(** The ways a step changes who owns w. *)
Inductive gmove (t : nat) : gw -> option bool -> option bool -> gw -> Prop :=
| gm_same g x : gmove t g x x g
| gm_take b : gmove t GFree None (Some b) (GWriter t b)
| gm_read : gmove t GFree None None GReader
| gm_change g b b' : gmove t g (Some b) (Some b') (GWriter t b')
| gm_leave g b : gmove t g (Some b) None GFree.

Lemma wphase_upd (W W' : nat -> option bool) g t g' :
  (forall u b, W u = Some b <-> g = GWriter u b) -> (forall u, u <> t -> W' u = W u) ->
  gmove t g (W t) (W' t) g' ->
  forall u b, W' u = Some b <-> g' = GWriter u b.
Proof.
  intros HW Ho Hm u b. destruct (Nat.eq_dec u t) as [->|N].
  - remember (W t) as x eqn:Ex. remember (W' t) as y eqn:Ey. destruct Hm.
    + rewrite Ex. apply HW.
    + split; congruence.
    + split; congruence.
    + split; congruence.
    + split; congruence.
  - rewrite Ho by auto. remember (W t) as x eqn:Ex. destruct Hm as [ | | |g b0 b'|g b0]; rewrite HW.
    + tauto.
    + split; [discriminate|congruence].
    + split; discriminate.
    + symmetry in Ex. apply HW in Ex. subst g. split; congruence.
    + symmetry in Ex. apply HW in Ex. subst g. split; congruence.
Qed.

Lemma rw_build g s h t g' w' rc' pc' e op0 :
  rw_inv g s h -> 
  (forall x, e = Some x -> (exists o, x = Inv t o) \/ (exists o r, x = Ret t o r /\ rw_pcs s t = PRet o r)) ->
  let h' := match e with None => h | Some x => h ++ [x] end in
  gmove t g (wphase (rw_pcs s t) (writing h t)) (wphase pc' (writing h' t)) g' ->
  w' = gword g' ->
  rc' = rw_rc s + gadd g - gadd g' + op0 ->
  (b2z (rphase pc' (reading h' t)) = b2z (rphase (rw_pcs s t) (reading h t)) + op0 \/
   (op0 = 0 /\ rphase pc' (reading h' t) = false)) ->
  b2z (pphase pc') + op0 <= b2z (pphase (rw_pcs s t)) + (rlocks h' - rlocks h) ->
  pcok pc' (writing h' t) (reading h' t) ->
  rw_inv g' (RW w' rc' (fupd (rw_pcs s) t pc')) h'.
Proof.
  intros (rs & ps & lk & Hw & HW & HR & HP & Hl & Hrc & Hn & Hok & Hno) He h' Gm Ew Erc Hr Hp Hpc.
  assert (Ho : forall u, u <> t -> writing h' u = writing h u /\ reading h' u = reading h u).
  { intros u N. unfold h'. destruct e as [x|]; auto. rewrite writing_snoc, reading_snoc.
    assert (E : Nat.eqb t u = false) by (apply Nat.eqb_neq; auto).
    destruct (He x eq_refl) as [(o & ->)|(o & r & -> & _)]; cbn; rewrite E; destruct o; try destruct r; auto. }
  destruct (listed_upd _ (fun u => rphase (fupd (rw_pcs s) t pc' u) (reading h' u)) rs t HR) as (rs' & HR' & Lr).
  { intros u N. rewrite fupd_other by auto. now rewrite (proj2 (Ho u N)). }
  destruct (listed_upd _ (fun u => pphase (fupd (rw_pcs s) t pc' u)) ps t HP) as (ps' & HP' & Lp).
  { intros u N. now rewrite fupd_other by auto. }
  cbv beta in Lr, Lp. rewrite fupd_same in Lr, Lp.
  exists rs', ps', (lk + b2z (rphase (rw_pcs s t) (reading h t)) + op0 - b2z (rphase pc' (reading h' t))).
  cbn [rw_w rw_rc rw_pcs].
  split; [auto|]. split.
  { apply (wphase_upd (fun u => wphase (rw_pcs s u) (writing h u)) (fun u => wphase (fupd (rw_pcs s) t pc' u) (writing h' u)) g t g' HW).
    - intros u N. rewrite fupd_other by auto. now rewrite (proj1 (Ho u N)).
    - cbv beta. now rewrite fupd_same. }
  split; [auto|]. split; [auto|]. split; [destruct (rphase (rw_pcs s t) (reading h t)), (rphase pc' (reading h' t)); cbn [b2z] in *; destruct Hr as [Hr|[? Hr]]; try discriminate Hr; lia|].
  split; [lia|]. split; [lia|]. split.
  - intros u. unfold fupd. destruct (Nat.eqb_spec u t) as [->|N]; auto.
    destruct (Ho u N) as [-> ->]. auto.
  - intros u. unfold h'. destruct e as [x|]; auto.
    destruct (Hno u) as [K1 K2]. destruct (Hok t) as (_ & _ & _ & Q1 & Q2).
    rewrite !in_app_iff. cbn. destruct (He x eq_refl) as [(o & ->)|(o & r & -> & Ep)].
    + split; intros [|[|[]]]; auto; congruence.
    + split; intros [|[E|[]]]; auto; injection E as -> -> ->; congruence.
Qed.

Definition not_writer (g : gw) : Prop := forall t b, g <> GWriter t b.
Ltac solve_b :=
  cbn [wphase rphase pphase b2z gadd gword rlocks] in *;
  lazymatch goal with
  | |- pcok _ _ _ => unfold pcok; cbn [orb andb]; repeat split; intros; try discriminate; congruence
  | |- gmove _ _ _ _ _ => once constructor
  | |- _ \/ _ => first [left; lia | right; split; [lia|reflexivity]]
  | |- forall x, None = Some x -> _ => intros ? ?; discriminate
  | |- _ => try (first [lia | congruence | auto])
  end.
Ltac flags h t Ok1 :=
  assert (Hwr : writing h t = false) by (destruct (writing h t); [discriminate (Ok1 eq_refl)|reflexivity]);
  assert (Hrd : reading h t = false) by (destruct (reading h t); [discriminate (Ok1 (orb_true_r _))|reflexivity]);
  rewrite ?Hwr, ?Hrd in *.
Ltac fin B g k := exists g; split; [|auto]; apply (B g _ _ _ None k); cbv iota; repeat match goal with H : _ = false |- _ => rewrite H end; solve_b.
Lemma rw_inv_step g s h t op : rw_inv g s h -> well_nested (h ++ snd (rw_step s t op)) ->
  rlocks (h ++ snd (rw_step s t op)) < rw_max ->
  exists g', rw_inv g' (fst (rw_step s t op)) (h ++ snd (rw_step s t op)) /\ (g = GReader -> g' = GReader).
Proof.
  intros HI Hd Hb. pose proof HI as (rs & ps & lk & Hw & HW & HR & HP & Hl & Hrc & Hn & Hok & Hno).
  pose proof (Hok t) as (Ok1 & Ok2 & Ok3 & Ok4 & Ok5). pose proof (HW t) as HWt.
  assert (Hlen : 0 <= zlen rs /\ 0 <= zlen ps) by (unfold zlen; lia).
  assert (Hlt : rlocks h < rw_max).
  { rewrite rlocks_app in Hb. pose proof (rlocks_nonneg (snd (rw_step s t op))). lia. }
  assert (Ga : 0 <= gadd g <= rw_max) by (unfold gadd, rw_max; destruct g as [|? []|]; lia).
  pose proof (fun g' w' rc' pc' e op0 => rw_build g s h t g' w' rc' pc' e op0 HI) as B.
  unfold rw_step in *. cbv zeta in *.
  destruct (rw_pcs s t) as [|i| | | |i| |i| | |o r] eqn:Ep; cbn [fst snd] in Hd, Hb |- *.
  - (* a call *)
    assert (Hm : may_call h t op) by (apply (Hd h t op []); reflexivity).
    assert (Fl : match op with WUnlock => writing h t = true /\ reading h t = false | RUnlock => writing h t = false /\ reading h t = true
                 | _ => writing h t = false /\ reading h t = false end).
    { destruct op; cbn [may_call] in Hm; auto; rewrite Hm in Ok2; rewrite ?andb_true_r in Ok2; auto. }
    exists g. split; [|auto].
    destruct op; destruct Fl as [Hwr Hrd]; [pose (pc := PWSpin 0)|pose (pc := PWUAdd)|pose (pc := PLoad 0)|pose (pc := PRUAdd)];
    match goal with |- rw_inv _ _ (h ++ [?e]) => apply (B g _ _ pc (Some e) 0) end; subst pc;
    cbv iota; rewrite ?writing_snoc, ?reading_snoc, ?rlocks_app; cbn [writing_after reading_after]; rewrite ?Nat.eqb_refl, ?Hwr, ?Hrd;
    try (intros x E; injection E as <-; left; eexists; reflexivity); solve_b.
  - (* PWSpin *)
    flags h t Ok1. destruct (Z.ltb_spec spin_max i); [|destruct (Z.eqb_spec (rw_w s) 0) as [E0|E0]]; cbn [fst snd]; rewrite app_nil_r in *.
    + fin B g 0.
    + rewrite Hw in E0. destruct g; [|discriminate E0|discriminate E0]. exists (GWriter t false). split; [|discriminate].
      apply (B (GWriter t false) _ _ PWAdd None 0); cbv iota; rewrite ?Hwr, ?Hrd; solve_b.
    + fin B g 0.
  - (* PWAdd *)
    flags h t Ok1. rewrite app_nil_r in *. destruct (HWt false) as [HWt1 _]. specialize (HWt1 eq_refl). subst g.
    exists (GWriter t true). split; [|discriminate]. rewrite i32_small by (cbn [gadd] in *; unfold rw_max in *; lia).
    apply (B (GWriter t true) _ _ (PRet WLock LOk) None 0); cbv iota; rewrite ?Hwr, ?Hrd; solve_b.
  - (* PWUAdd *)
    flags h t Ok1. rewrite app_nil_r in *. destruct (HWt true) as [HWt1 _]. specialize (HWt1 eq_refl). subst g.
    exists (GWriter t false). split; [|discriminate]. cbn [gadd] in *.
    rewrite i32_small by (unfold rw_max in *; lia).
    destruct (Z.leb_spec rw_max (rw_rc s + rw_max)) as [Hle|Hgt]; [unfold rw_max in *; lia|].
    apply (B (GWriter t false) _ _ PWUCas None 0); cbv iota; rewrite ?Hwr, ?Hrd; solve_b.
  - (* PWUCas *)
    flags h t Ok1. rewrite app_nil_r in *. destruct (HWt false) as [HWt1 _]. specialize (HWt1 eq_refl). subst g.
    cbn [gword] in Hw. rewrite Hw. cbn [Z.eqb spin_locked Pos.eqb]. exists GFree. split; [|discriminate].
    apply (B GFree _ _ (PRet WUnlock LOk) None 0); cbv iota; rewrite ?Hwr, ?Hrd; solve_b.
  - (* PLoad *)
    flags h t Ok1. destruct (Z.ltb_spec spin_max i); [|destruct (Z.leb_spec 0 (rw_rc s)) as [E0|E0]]; cbn [fst snd]; rewrite app_nil_r in *;
    fin B g 0.
  - (* PAdd *)
    flags h t Ok1. rewrite app_nil_r in *. rewrite i32_small by (unfold rw_max in *; lia).
    destruct (rw_rc s + 1 =? 1); fin B g 1.
  - (* PRSpin *)
    flags h t Ok1. destruct (Z.ltb_spec spin_max i); [|destruct (Z.eqb_spec (rw_w s) 0) as [E0|E0]]; cbn [fst snd]; rewrite app_nil_r in *.
    + fin B g 0.
    + rewrite Hw in E0. destruct g; [|discriminate E0|discriminate E0]. exists GReader. split; [|auto].
      apply (B GReader _ _ (PRet RLock LOk) None 0); cbv iota; rewrite ?Hwr, ?Hrd; solve_b.
    + fin B g 0.
  - (* PRUAdd *)
    flags h t Ok1. rewrite app_nil_r in *. assert (Hpos : 1 <= zlen rs).
    { apply (listed_pos _ _ t HR). rewrite Ep. reflexivity. }
    rewrite i32_small by (unfold rw_max in *; lia).
    destruct (Z.ltb_spec (rw_rc s - 1) 0) as [Hneg|Hnn].
    + assert (R0 : rw_rc s <> 0 /\ rw_rc s <> - rw_max).
      { unfold rw_max in *. destruct g as [|? []|]; cbn [gadd] in Hrc; unfold rw_max in Hrc; lia. }
      assert (R1 : (rw_rc s - 1 + 1 =? 0) = false) by (apply Z.eqb_neq; lia).
      assert (R2 : (rw_rc s - 1 + 1 =? - rw_max) = false) by (apply Z.eqb_neq; lia).
      assert (R3 : (rw_rc s - 1 =? 0) = false) by (apply Z.eqb_neq; lia).
      rewrite R1, R2, R3. cbn [orb]. fin B g (-1).
    + fin B g (-1).
  - congruence.
  - (* PRet *)
    flags h t Ok1. exists g. split; [|auto].
    apply (B g _ _ PIdle (Some (Ret t o r)) 0); cbv iota; rewrite ?writing_snoc, ?reading_snoc, ?rlocks_app;
      try (destruct o, r; cbn [writing_after reading_after]; rewrite ?Nat.eqb_refl, ?Hwr, ?Hrd; solve_b).
    all: try reflexivity.
    all: intros x E; injection E as <-; right; eauto.
Qed.

Lemma rw_inv_init : rw_inv GFree rw_init [].
Proof.
  exists [], [], 0. cbn. repeat split; auto; try discriminate; try lia; try constructor; try tauto; intros [].
Qed.
Lemma rw_inv_from sched : forall g s h, rw_inv g s h -> well_nested (h ++ snd (crun rw_step s sched)) ->
  rlocks (h ++ snd (crun rw_step s sched)) < rw_max ->
  exists g', rw_inv g' (fst (crun rw_step s sched)) (h ++ snd (crun rw_step s sched)) /\ (g = GReader -> g' = GReader).
Proof.
  induction sched as [|[t op] l IH] using rev_ind; intros g s h HI Hd Hb.
  - exists g. cbn. rewrite app_nil_r. auto.
  - rewrite crun_snoc in *. cbn [fst snd] in *. rewrite app_assoc in *.
    destruct (IH g s h HI) as (g1 & H1 & G1).
    + eapply well_nested_app; eauto.
    + rewrite rlocks_app in Hb. pose proof (rlocks_nonneg (snd (rw_step (fst (crun rw_step s l)) t op))). lia.
    + destruct (rw_inv_step g1 _ _ t op H1 Hd Hb) as (g2 & H2 & G2). exists g2. auto.
Qed.
Lemma rw_inv_run sched : let h := snd (crun rw_step rw_init sched) in well_nested h -> rlocks h < rw_max ->
  exists g, rw_inv g (fst (crun rw_step rw_init sched)) h.
Proof.
  intros h Hd Hb. destruct (rw_inv_from sched GFree rw_init [] rw_inv_init Hd Hb) as (g & H & _). eauto.
Qed.

(** ** Two writers are never inside together, and the unlocking calls never panic. *)
Lemma writing_ghost g s h t : rw_inv g s h -> writing h t = true -> g = GWriter t true.
Proof.
  intros (rs & ps & lk & _ & HW & _ & _ & _ & _ & _ & Hok & _) H. apply HW.
  destruct (Hok t) as (K & _). rewrite H in K. rewrite (K eq_refl), H. reflexivity.
Qed.
Lemma rw_writers : forall sched, let h := snd (crun rw_step rw_init sched) in well_nested h -> rlocks h < rw_max ->
  (forall h1 h2 t u, h = h1 ++ h2 -> writing h1 t = true -> writing h1 u = true -> t = u) /\
  (forall t, ~ In (Ret t WUnlock LPanic) h /\ ~ In (Ret t RUnlock LPanic) h).
Proof.
  intros sched h Hd Hb. split.
  - intros h1 h2 t u E Ht Hu.
    destruct (crun_prefix rw_step rw_init rw_step_one sched h1 h2 E) as (l1 & l2 & -> & E1 & _).
    destruct (rw_inv_run l1) as (g & HI).
    + rewrite E1. apply (well_nested_app h1 h2). rewrite <- E. auto.
    + rewrite E1. rewrite E, rlocks_app in Hb. pose proof (rlocks_nonneg h2). lia.
    + rewrite E1 in HI. pose proof (writing_ghost _ _ _ _ HI Ht). pose proof (writing_ghost _ _ _ _ HI Hu). congruence.
  - destruct (rw_inv_run sched Hd Hb) as (g & rs & ps & lk & H). apply H.
Qed.

(** ** A reader that arrives while a writer is inside stays out *)
Definition kept_out (pc : rw_pc) : Prop := match pc with PAdd | PRSpin _ | PRet RLock LOk => False | _ => True end.
Lemma rc_neg g s h t : rw_inv g s h -> rlocks h < rw_max -> writing h t = true -> rw_rc s < 0.
Proof.
  intros HI Hb Ht. pose proof (writing_ghost _ _ _ _ HI Ht) as ->.
  destruct HI as (rs & ps & lk & _ & _ & _ & _ & Hl & Hrc & Hn & _). cbn [gadd] in Hrc. unfold zlen in *. lia.
Qed.
Lemma writing_stays h t : writing h t = true -> forall h1, ~ In (Inv t WUnlock) h1 -> writing (h ++ h1) t = true.
Proof.
  intros H h1. induction h1 as [|e h1 IH] using rev_ind; intros Hn.
  - now rewrite app_nil_r.
  - rewrite app_assoc, writing_snoc, IH by (intros K; apply Hn; apply in_app_iff; auto).
    destruct e as [u o|u o r]; cbn; [destruct o|destruct o, r]; auto.
    + destruct (Nat.eqb_spec u t) as [->|]; auto. exfalso. apply Hn. apply in_app_iff. cbn. auto.
    + now destruct (u =? t)%nat.
Qed.
Lemma rw_late_from tw tr : forall sched g s h, rw_inv g s h -> writing h tw = true -> kept_out (rw_pcs s tr) ->
  let h2 := snd (crun rw_step s sched) in well_nested (h ++ h2) -> rlocks (h ++ h2) < rw_max ->
  ~ In (Inv tw WUnlock) h2 -> ~ In (Ret tr RLock LOk) h2.
Proof.
  induction sched as [|[t op] l IH]; intros g s h HI Hw Hk h2 Hd Hb Hno; [intros []|].
  unfold h2 in *. cbn [crun] in *.
  assert (X : rw_pcs s t = PRet RLock LOk \/ ~ In (Ret tr RLock LOk) (snd (rw_step s t op))).
  { unfold rw_step. destruct (rw_pcs s t) as [|i| | | |i| |i| | |o r]; cbv zeta;
    repeat match goal with |- context [if ?c then (?a, ?b) else _] => destruct c end; cbn [snd].
    all: try (right; cbn; tauto).
    - right. intros [E|[]]. discriminate.
    - destruct o, r; auto; right; intros [E|[]]; congruence. }
  assert (X2 : ~ In (Ret tr RLock LOk) (snd (rw_step s t op))).
  { destruct X as [X|X]; auto. unfold rw_step. rewrite X. cbn. intros [E|[]]. injection E as <-. rewrite X in Hk. auto. }
  assert (Kp : rw_rc s < 0 -> kept_out (rw_pcs (fst (rw_step s t op)) tr)).
  { intros Hneg. unfold rw_step. destruct (Nat.eq_dec t tr) as [->|N].
    - destruct (rw_pcs s tr) as [|i| | | |i| |i| | |o r]; cbn [kept_out] in Hk; try tauto; cbv zeta; cbn [fst snd rw_pcs];
      repeat match goal with |- context [if ?c then _ else _] => destruct c eqn:? end; cbn [fst rw_pcs]; rewrite ?fupd_same; cbn; auto; try lia.
      destruct op; cbn; auto.
    - destruct (rw_pcs s t) as [|i| | | |i| |i| | |o r]; cbv zeta; cbn [fst snd rw_pcs];
      repeat match goal with |- context [if ?c then _ else _] => destruct c end; cbn [fst rw_pcs]; rewrite ?fupd_other by auto; auto. }
  destruct (rw_step s t op) as [s1 h1] eqn:Es.
  destruct (crun rw_step s1 l) as [s2 h2'] eqn:Ec. cbn [fst snd] in *.
  assert (Hb0 : rlocks h < rw_max /\ rlocks (h ++ h1) < rw_max).
  { rewrite !rlocks_app in *. pose proof (rlocks_nonneg h1). pose proof (rlocks_nonneg h2'). lia. }
  rewrite app_assoc in Hd, Hb.
  destruct (rw_inv_step g s h t op HI) as (g1 & HI1 & _); rewrite ?Es in *; cbn [fst snd] in *; try tauto.
  { eapply well_nested_app; eauto. }
  rewrite in_app_iff in *. intros [K|K]; [tauto|].
  refine (IH g1 s1 (h ++ h1) HI1 _ _ _ _ _ _); rewrite ?Ec; cbn [snd]; auto.
  - apply writing_stays; tauto.
  - apply Kp. eapply rc_neg; eauto. tauto.
Qed.

Lemma rw_next_inv tr op : forall l s h2, snd (crun rw_step s l) = Inv tr op :: h2 -> rw_pcs s tr = PIdle.
Proof.
  induction l as [|[u o] l IH]; intros s h2 E; cbn [crun] in E; [discriminate|].
  assert (S1 : match snd (rw_step s u o) with
          | [] => rw_pcs (fst (rw_step s u o)) tr = PIdle -> rw_pcs s tr = PIdle
          | [Inv t _] => rw_pcs s t = PIdle | _ => True end).
  { unfold rw_step. destruct (rw_pcs s u) as [|i| | | |i| |i| | |o' r] eqn:Ep; cbv zeta;
    repeat match goal with |- context [if ?c then (?a, ?b) else _] => destruct c end; cbn [fst snd rw_pcs]; auto.
    all: repeat match goal with |- context [if ?c then _ else _] => destruct c end; cbn [fst snd rw_pcs].
    all: unfold fupd; destruct (Nat.eqb_spec tr u) as [->|]; auto; discriminate. }
  destruct (rw_step s u o) as [s1 h1] eqn:Es. destruct (crun rw_step s1 l) as [s2 h2'] eqn:Ec. cbn [fst snd] in *.
  destruct h1 as [|e h1].
  - apply S1. apply (IH s1 h2). rewrite Ec. exact E.
  - cbn in E. injection E as -> E. pose proof (rw_step_one s u o) as L. rewrite Es in L. cbn in L. destruct h1; [|cbn in L; lia].
    exact S1.
Qed.
Lemma rw_late : forall sched tw tr h1 h2, snd (crun rw_step rw_init sched) = h1 ++ Inv tr RLock :: h2 ->
  well_nested (h1 ++ Inv tr RLock :: h2) -> rlocks (h1 ++ Inv tr RLock :: h2) < rw_max ->
  writing h1 tw = true -> ~ In (Inv tw WUnlock) h2 -> ~ In (Ret tr RLock LOk) h2.
Proof.
  intros sched tw tr h1 h2 E Hd Hb Hw Hno.
  destruct (crun_prefix rw_step rw_init rw_step_one sched _ _ E) as (l1 & l2 & -> & E1 & E2).
  assert (Hd1 : well_nested h1) by (eapply well_nested_app; eauto).
  destruct (rw_inv_run l1) as (g & HI).
  { now rewrite E1. }
  { rewrite E1. rewrite rlocks_app in Hb. pose proof (rlocks_nonneg (Inv tr RLock :: h2)). lia. }
  rewrite E1 in HI.
  pose proof (rw_late_from tw tr l2 g _ h1 HI Hw) as K. rewrite E2 in K. cbv zeta in K.
  rewrite (rw_next_inv tr RLock l2 _ h2 E2) in K. cbn [kept_out In] in K.
  intros Hin. apply K; auto. intros [X|X]; [discriminate|auto].
Qed.

(** ** Readers alone: w is taken and stays taken *)
Definition no_writer_pc (pc : rw_pc) : Prop :=
  match pc with PWSpin _ | PWAdd | PWUAdd | PWUCas | PRet WLock _ | PRet WUnlock _ => False | _ => True end.
Definition no_lock (h : list (ext rw_op sl_res)) : Prop := forall t, ~ In (Inv t WLock) h.
Definition ro_inv (s : rw_state) (h : list (ext rw_op sl_res)) : Prop :=
  (forall t, no_writer_pc (rw_pcs s t) /\ writing h t = false) /\
  (rw_w s = 1 \/ (rw_w s = 0 /\ rw_rc s = 0 /\ (forall t, ~ In (Ret t RLock LOk) h) /\
                   forall t, rphase (rw_pcs s t) (reading h t) = false) \/
   (rw_w s = 0 /\ exists t, rw_pcs s t = PRSpin 0)).
Lemma ro_step g s h t op : rw_inv g s h -> ro_inv s h -> well_nested (h ++ snd (rw_step s t op)) ->
  rlocks (h ++ snd (rw_step s t op)) < rw_max -> no_lock (h ++ snd (rw_step s t op)) ->
  ro_inv (fst (rw_step s t op)) (h ++ snd (rw_step s t op)).
Proof.
  intros HI (Hn & Hc) Hd Hb Hno.
  assert (Hnt := Hn t). destruct Hnt as (Hnt & Hwt).
  destruct HI as (rs & ps & lk & _ & _ & _ & _ & _ & _ & _ & Hok & _). pose proof (Hok t) as (Ok1 & _ & Ok3 & _).
  assert (K : forall w' rc' pc' (e : option (ext rw_op sl_res)),
     (forall x, e = Some x -> (exists o, x = Inv t o) \/ (exists o r, x = Ret t o r)) ->
     let h' := match e with None => h | Some x => h ++ [x] end in
     no_writer_pc pc' -> writing h' t = false ->
     (rw_w s = 1 -> w' = 1) ->
     (rw_w s = 0 -> rw_rc s = 0 -> (forall u, ~ In (Ret u RLock LOk) h) -> rphase (rw_pcs s t) (reading h t) = false ->
        (w' = 0 /\ rc' = 0 /\ (forall u, e <> Some (Ret u RLock LOk)) /\ rphase pc' (reading h' t) = false) \/ (w' = 0 /\ pc' = PRSpin 0)) ->
     (rw_w s = 0 -> w' = 1 \/ (w' = 0 /\ rw_pcs s t <> PRSpin 0)) ->
     ro_inv (RW w' rc' (fupd (rw_pcs s) t pc')) h').
  { intros w' rc' pc' e He h' N1 N2 C1 C2 C3.
    assert (Ho : forall u, u <> t -> writing h' u = writing h u /\ reading h' u = reading h u).
    { intros u N. unfold h'. destruct e as [x|]; auto. rewrite writing_snoc, reading_snoc.
      assert (E : Nat.eqb t u = false) by (apply Nat.eqb_neq; auto).
      destruct (He x eq_refl) as [(o & ->)|(o & r & ->)]; cbn; rewrite E; destruct o; try destruct r; auto. }
    split.
    - intros u. cbn. unfold fupd. destruct (Nat.eqb_spec u t) as [->|N]; auto. rewrite (proj1 (Ho u N)). auto.
    - cbn [rw_w rw_rc rw_pcs]. destruct Hc as [Hc|[(W0 & R0 & F0 & P0)|(W0 & t0 & T0)]].
      + auto.
      + right. destruct (C2 W0 R0 F0 (P0 t)) as [(-> & -> & Fe & Pe)|(-> & ->)].
        * left. repeat split; auto.
          -- intros u. unfold h'. destruct e as [x|]; auto. rewrite in_app_iff. cbn. intros [X|[X|[]]]; [eapply F0; eauto|].
             apply (Fe u). congruence.
          -- intros u. unfold fupd. destruct (Nat.eqb_spec u t) as [->|N]; auto. rewrite (proj2 (Ho u N)). auto.
        * right. split; auto. exists t. apply fupd_same.
      + destruct (C3 W0) as [->|(-> & Hne)]; auto. right. right. split; auto. exists t0. rewrite fupd_other; auto.
        intros ->. auto. }
  unfold rw_step in *. cbv zeta in *.
  destruct (rw_pcs s t) as [|i| | | |i| |i| | |o r] eqn:Ep; cbn [no_writer_pc] in Hnt; try tauto; cbn [fst snd] in *.
  - assert (Hm : may_call h t op) by (apply (Hd h t op []); reflexivity).
    destruct op; cbn [may_call] in Hm.
    + exfalso. apply (Hno t). apply in_app_iff. cbn. auto.
    + congruence.
    + apply (K _ _ (PLoad 0) (Some (Inv t RLock))); rewrite ?writing_snoc, ?reading_snoc; cbn; auto.
      * intros x E. injection E as <-. left. eauto.
      * intros. left. repeat split; auto. discriminate.
      * intros. right. split; auto. discriminate.
    + apply (K _ _ PRUAdd (Some (Inv t RUnlock))); rewrite ?writing_snoc, ?reading_snoc; cbn; auto.
      * intros x E. injection E as <-. left. eauto.
      * intros. congruence.
      * intros. right. split; auto. discriminate.
  - destruct (spin_max <? i); [|destruct (0 <=? rw_rc s)]; cbn [fst snd]; rewrite app_nil_r in *.
    all: eapply (K _ _ _ None); try discriminate; cbn; auto.
    all: try (intros; left; repeat split; auto; discriminate).
    all: intros; right; split; auto; discriminate.
  - rewrite app_nil_r in *. apply (K _ _ _ None); try discriminate; auto.
    + destruct (_ =? 1); exact I.
    + intros W0 R0 _ _. right. rewrite R0. split; auto.
    + intros. right. split; auto. discriminate.
  - destruct (Z.ltb_spec spin_max i); [|destruct (Z.eqb_spec (rw_w s) 0) as [E0|E0]]; cbn [fst snd]; rewrite app_nil_r in *.
    all: eapply (K _ _ _ None); try discriminate; cbn; auto.
    intros. right. split; auto. intros X. injection X as ->. unfold spin_max in *. lia.
  - rewrite app_nil_r in *. eapply (K _ _ _ None); try discriminate; auto.
    + repeat match goal with |- context [if ?c then _ else _] => destruct c end; exact I.
    + intros. right. split; auto. discriminate.
  - assert (Hrd : reading h t = false) by (destruct (reading h t); [discriminate (Ok1 (orb_true_r _))|reflexivity]).
    apply (K _ _ PIdle (Some (Ret t o r))).
    + intros x E. injection E as <-. right. eauto.
    + exact I.
    + rewrite writing_snoc, Hwt. destruct o, r; cbn; auto; tauto.
    + auto.
    + rewrite reading_snoc, Hrd. cbn. intros W0 R0 F0 P0. left. repeat split; auto.
      * intros u X. injection X as -> -> ->. discriminate.
      * destruct o, r; auto. discriminate.
    + intros. right. split; auto. discriminate.
Qed.
Lemma ro_run sched : let h := snd (crun rw_step rw_init sched) in well_nested h -> rlocks h < rw_max -> no_lock h ->
  ro_inv (fst (crun rw_step rw_init sched)) h.
Proof.
  cbv zeta. induction sched as [|[t op] l IH] using rev_ind.
  - intros _ _ _. cbn. split; [cbn; auto|]. right. left. cbn. repeat split; auto.
  - rewrite crun_snoc. cbn [fst snd]. intros Hd Hb Hn.
    assert (Hd1 : well_nested (snd (crun rw_step rw_init l))) by (eapply well_nested_app; eauto).
    assert (Hb1 : rlocks (snd (crun rw_step rw_init l)) < rw_max).
    { rewrite rlocks_app in Hb. pose proof (rlocks_nonneg (snd (rw_step (fst (crun rw_step rw_init l)) t op))). lia. }
    assert (Hn1 : no_lock (snd (crun rw_step rw_init l))).
    { intros u K. apply (Hn u). apply in_app_iff. auto. }
    destruct (rw_inv_run l Hd1 Hb1) as (g & HI). eapply ro_step; eauto.
Qed.
Lemma rw_running sched t : let s := fst (crun rw_step rw_init sched) in let h := snd (crun rw_step rw_init sched) in
  running h t = true <-> rw_pcs s t <> PIdle.
Proof.
  induction sched as [|[u op] l IH] using rev_ind; cbv zeta in *.
  - cbn. split; [discriminate|congruence].
  - rewrite crun_snoc. cbn [fst snd]. destruct (crun rw_step rw_init l) as [s h]. cbn [fst snd] in *.
    unfold rw_step. destruct (Nat.eq_dec u t) as [->|N].
    + destruct (rw_pcs s t) as [|i| | | |i| |i| | |o r]; cbv zeta;
      repeat match goal with |- context [if ?c then _ else _] => destruct c end; cbn [fst snd rw_pcs];
        rewrite ?fupd_same, ?app_nil_r, ?running_app; cbn [running_after]; rewrite ?Nat.eqb_refl; try destruct op.
      all: split; try discriminate; try (intros; apply IH; discriminate); try congruence; auto.
    + assert (E : (u =? t)%nat = false) by (now apply Nat.eqb_neq).
      assert (F : forall pc, fupd (rw_pcs s) u pc t = rw_pcs s t) by (intros; apply fupd_other; auto).
      destruct (rw_pcs s u) as [|i| | | |i| |i| | |o r]; cbv zeta;
      repeat match goal with |- context [if ?c then _ else _] => destruct c end; cbn [fst snd rw_pcs];
        rewrite ?F, ?app_nil_r, ?running_app; cbn [running_after]; rewrite ?E; auto.
Qed.
(** Once a reader got in while no writer had come, no Lock ever succeeds. *)
Lemma rw_stuck : forall l1 l2 tr, let h1 := snd (crun rw_step rw_init l1) in
  let h := snd (crun rw_step rw_init (l1 ++ l2)) in
  well_nested h -> rlocks h < rw_max -> (forall t, ~ In (Inv t WLock) h1) -> (forall t, running h1 t = false) ->
  In (Ret tr RLock LOk) h1 -> forall t, ~ In (Ret t WLock LOk) h.
Proof.
  intros l1 l2 tr h1 h Hd Hb Hn Hq Hin t.
  assert (E : h = h1 ++ snd (crun rw_step (fst (crun rw_step rw_init l1)) l2)) by (unfold h; rewrite crun_app; reflexivity).
  set (h2 := snd (crun rw_step (fst (crun rw_step rw_init l1)) l2)) in *.
  assert (Hd1 : well_nested h1) by (rewrite E in Hd; eapply well_nested_app; eauto).
  assert (Hb1 : rlocks h1 < rw_max) by (rewrite E, rlocks_app in Hb; pose proof (rlocks_nonneg h2); lia).
  destruct (ro_run l1 Hd1 Hb1 Hn) as (Nw & C).
  destruct (rw_inv_run l1 Hd1 Hb1) as (g & HI). fold h1 in HI, C, Nw.
  assert (Hpc : forall u, rw_pcs (fst (crun rw_step rw_init l1)) u = PIdle).
  { intros u. destruct (rw_pcs _ u) eqn:Ep; auto; exfalso; specialize (Hq u);
    assert (K : running h1 u = true) by (apply rw_running; rewrite Ep; discriminate); congruence. }
  assert (W1 : rw_w (fst (crun rw_step rw_init l1)) = 1).
  { destruct C as [C|[(_ & _ & F & _)|(_ & t0 & C)]]; auto; [exfalso; eapply F; eauto|]. rewrite Hpc in C. discriminate. }
  assert (G : g = GReader).
  { destruct HI as (rs & ps & lk & Hw & HW & _). rewrite W1 in Hw. destruct g as [|u b|]; [discriminate| |auto].
    exfalso. destruct (HW u b) as [_ K]. specialize (K eq_refl). rewrite Hpc in K. cbn in K. rewrite (proj2 (Nw u)) in K. discriminate. }
  subst g.
  assert (Ew : forall a, writing (a ++ [Ret t WLock LOk]) t = true).
  { intros a. rewrite writing_snoc. cbn. now rewrite Nat.eqb_refl. }
  rewrite E, in_app_iff. intros [K|K]; apply in_split in K as (a & b & K).
  - replace (a ++ Ret t WLock LOk :: b) with ((a ++ [Ret t WLock LOk]) ++ b) in K by (rewrite <- app_assoc; reflexivity).
    destruct (crun_prefix rw_step rw_init rw_step_one l1 _ _ K) as (m1 & m2 & -> & E1 & _).
    destruct (ro_run m1) as (Nm & _); rewrite ?E1 in *.
    + rewrite K in Hd1. eapply well_nested_app; eauto.
    + rewrite K, rlocks_app in Hb1. pose proof (rlocks_nonneg b). lia.
    + intros u X. apply (Hn u). rewrite K. apply in_app_iff. auto.
    + specialize (Ew a). rewrite (proj2 (Nm t)) in Ew. discriminate.
  - replace (a ++ Ret t WLock LOk :: b) with ((a ++ [Ret t WLock LOk]) ++ b) in K by (rewrite <- app_assoc; reflexivity).
    destruct (crun_prefix rw_step _ rw_step_one l2 _ _ K) as (m1 & m2 & -> & E1 & _).
    destruct (rw_inv_from m1 GReader _ h1 HI) as (g' & HI' & G'); rewrite ?E1 in *.
    + rewrite E, K, app_assoc in Hd. eapply well_nested_app; eauto.
    + rewrite E, K, app_assoc, rlocks_app in Hb. pose proof (rlocks_nonneg b). lia.
    + rewrite (G' eq_refl) in HI'. pose proof (writing_ghost _ _ _ t HI') as X. rewrite app_assoc in X.
      specialize (X (Ew _)). discriminate.
Qed.

(** ** Every call ends *)
Definition rw_left (s : rw_state) (t : nat) : Z :=
  match rw_pcs s t with
  | PIdle => 0 | PRet _ _ => 1 | PWUCas | PRUCas | PWAdd => 2 | PWUAdd | PRUAdd => 3
  | PRSpin i => Z.max 2 (spin_max + 3 - i) | PWSpin i => Z.max 3 (spin_max + 4 - i)
  | PAdd => spin_max + 4 | PLoad i => Z.max (spin_max + 5) (2 * spin_max + 10 - i)
  end.
Lemma rw_left_ok t : forall sched s, 0 < rw_left s t -> rw_left s t <= mine t sched ->
  exists o r, In (Ret t o r) (snd (crun rw_step s sched)).
Proof.
  apply bounded_calls.
  - intros s op H. unfold rw_left in H |- *. unfold rw_step. unfold spin_max in *.
    destruct (rw_pcs s t) as [|i| | | |i| |i| | |o r]; [lia| | | | | | | | | |right; exists o, r; cbn; auto]; left; cbv zeta; cbn [fst rw_pcs];
    repeat match goal with |- context [if ?c then _ else _] => destruct c eqn:? end; cbn [fst rw_pcs]; rewrite fupd_same; lia.
  - intros s u op N. unfold rw_left.
    assert (E : rw_pcs (fst (rw_step s u op)) t = rw_pcs s t); [|now rewrite E].
    unfold rw_step. destruct (rw_pcs s u); cbv zeta;
    repeat match goal with |- context [if ?c then _ else _] => destruct c end; cbn [fst rw_pcs]; apply fupd_other; auto.
Qed.
Lemma rw_counts sched t : match rw_pcs (fst (crun rw_step rw_init sched)) t with PWSpin i | PLoad i | PRSpin i => 0 <= i | _ => True end.
Proof.
  induction sched as [|[u op] l IH] using rev_ind; [exact I|].
  rewrite crun_snoc. cbn [fst]. destruct (crun rw_step rw_init l) as [s h]. cbn [fst] in *.
  unfold rw_step. destruct (Nat.eq_dec u t) as [->|N].
  - destruct (rw_pcs s t) as [|i| | | |i| |i| | |o r]; cbv zeta;
    repeat match goal with |- context [if ?c then _ else _] => destruct c end; cbn [fst rw_pcs]; rewrite ?fupd_same; auto; try lia.
    destruct op; auto; lia.
  - destruct (rw_pcs s u) as [|i| | | |i| |i| | |o r]; cbv zeta;
    repeat match goal with |- context [if ?c then _ else _] => destruct c end; cbn [fst rw_pcs]; rewrite ?fupd_other by auto; auto.
Qed.
Lemma rw_ends : forall l1 l2 t, running (snd (crun rw_step rw_init l1)) t = true -> 2 * spin_max + 10 <= mine t l2 ->
  exists o r, In (Ret t o r) (snd (crun rw_step (fst (crun rw_step rw_init l1)) l2)).
Proof.
  intros l1 l2 t H Hm. apply rw_running in H. pose proof (rw_counts l1 t) as Hc.
  apply rw_left_ok; auto.
  - unfold rw_left. destruct (rw_pcs _ t); try congruence; unfold spin_max; lia.
  - unfold rw_left. unfold spin_max in *. destruct (rw_pcs _ t); lia.
Qed.

(** ** Counterexamples *)
Fixpoint nestb (pre h : list (ext rw_op sl_res)) : bool :=
  match h with
  | [] => true
  | e :: t =>
      match e with
      | Inv u WUnlock => writing pre u
      | Inv u RUnlock => reading pre u
      | Inv u _ => negb (writing pre u) && negb (reading pre u)
      | _ => true
      end && nestb (pre ++ [e]) t
  end.
Lemma nestb_ok h : forall pre, nestb pre h = true ->
  forall h1 t op h2, h = h1 ++ Inv t op :: h2 -> may_call (pre ++ h1) t op.
Proof.
  induction h as [|e h IH]; intros pre H h1 t op h2 E; [destruct h1; discriminate|].
  cbn in H. apply andb_true_iff in H as [H1 H2]. destruct h1 as [|e' h1]; cbn in E; injection E as -> E.
  - rewrite app_nil_r. destruct op; cbn; auto; apply andb_true_iff in H1 as [A B]; apply negb_true_iff in A, B; auto.
  - replace (pre ++ e' :: h1) with ((pre ++ [e']) ++ h1) by (rewrite <- app_assoc; reflexivity). eapply IH; eauto.
Qed.
Lemma well_nested_by h : nestb [] h = true -> well_nested h.
Proof. intros H h1 t op h2 E. now apply (nestb_ok h [] H h1 t op h2). Qed.

Definition race : list (nat * rw_op) :=
  [(1%nat, RLock); (1%nat, RLock); (0%nat, WLock); (0%nat, WLock); (0%nat, WLock); (0%nat, WLock); (1%nat, RLock); (1%nat, RLock)].
Lemma rw_race : exists sched, let h := snd (crun rw_step rw_init sched) in well_nested h /\ rlocks h = 1 /\
  writing h 0 = true /\ reading h 1 = true.
Proof. exists race. cbv zeta. split; [apply well_nested_by; reflexivity|]. repeat split; reflexivity. Qed.

Definition read_once : list (nat * rw_op) :=
  [(0%nat, RLock); (0%nat, RLock); (0%nat, RLock); (0%nat, RLock); (0%nat, RLock); (0%nat, RUnlock); (0%nat, RUnlock); (0%nat, RUnlock)].
Lemma rw_no_release : exists l1, let h1 := snd (crun rw_step rw_init l1) in
  well_nested h1 /\ (forall t, running h1 t = false /\ reading h1 t = false /\ writing h1 t = false) /\
  forall l2, let h := snd (crun rw_step rw_init (l1 ++ l2)) in well_nested h -> rlocks h < rw_max ->
    forall t, ~ In (Ret t WLock LOk) h.
Proof.
  exists read_once. cbv zeta.
  assert (E : snd (crun rw_step rw_init read_once) = [Inv 0%nat RLock; Ret 0%nat RLock LOk; Inv 0%nat RUnlock; Ret 0%nat RUnlock LOk]) by reflexivity.
  split; [apply well_nested_by; rewrite E; reflexivity|]. split.
  - rewrite E. intros [|t]; repeat split; reflexivity.
  - intros l2 Hd Hb. apply (rw_stuck read_once l2 0%nat Hd Hb); rewrite E.
    + intros t. cbn. intuition discriminate.
    + intros [|t]; reflexivity.
    + cbn. auto.
Qed.
