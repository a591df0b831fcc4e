(** Proofs about the ring buffer. *)
From Coq Require Import ZArith List Bool Lia ZifyBool ZifyNat Permutation.
From Verif Require Import GoBase GoLists ConcBase QueueProofs RingModel RingSpec.
Import ListNotations.
Open Scope Z_scope.

Lemma mask_mod k i : Z.land i (2 ^ Z.of_nat k - 1) = i mod 2 ^ Z.of_nat k.
Proof. rewrite <- Z.land_ones by lia. f_equal. rewrite Z.ones_equiv. lia. Qed.

Lemma mod_inj m a b : 0 < m -> a mod m = b mod m -> -m < a - b < m -> a = b.
Proof. intros Hm E H. pose proof (Z.div_mod a m ltac:(lia)). pose proof (Z.div_mod b m ltac:(lia)). assert (a - b = m * (a / m - b / m)) by (rewrite Z.mul_sub_distr_l; lia). assert (a / m - b / m = 0) by nia. nia. Qed.

Lemma wrap_small w x : 0 <= x < 2 ^ w -> wrap w x = x.
Proof. intros. now apply Z.mod_small. Qed.

Section Ring.
Variable k : nat.
Let cap := 2 ^ Z.of_nat k.

Definition ptk (pc : cr_pc) : option Z :=
  match pc with CPushWait _ i | CPushWrite _ i | CPushCas _ i => Some i | _ => None end.
Definition ctk (pc : cr_pc) : option Z :=
  match pc with CPopWait j | CPopRead j | CPopCas j _ => Some j | _ => None end.

Definition cok (r : rb) (a : list Z) (pc : cr_pc) (x : @tstat cr_op rb_res) : Prop :=
  match pc with
  | CIdle => x = TIdle
  | CPushWait v i => x = TPend (CPush v) /\ rb_tail r <= i < rb_tail_r r
  | CPushWrite v i => x = TPend (CPush v) /\ rb_tail r <= i < rb_tail_r r /\ i < rb_head r + cap
  | CPushCas v i => x = TPend (CPush v) /\ rb_tail r <= i < rb_tail_r r /\ i < rb_head r + cap /\ zn (rb_d r) (i mod cap) = v
  | CPopWait j => x = TPend CPop /\ rb_head r <= j < rb_head_r r
  | CPopRead j => x = TPend CPop /\ rb_head r <= j < rb_head_r r /\ j < rb_tail r
  | CPopCas j val => x = TPend CPop /\ rb_head r <= j < rb_head_r r /\ j < rb_tail r /\ val = zn a (j - rb_head r)
  | CSizeHead _ => x = TPend CSize
  | CRet op r => x = TDone op r
  | CPanic => False
  end.

Definition shape (n : nat) (r : rb) (a : list Z) : Prop :=
  rb_mask r = cap - 1 /\ zlen (rb_d r) = cap /\ 0 <= rb_head r /\ rb_tail r = rb_head r + zlen a /\ zlen a <= cap /\
  rb_tail r <= rb_tail_r r /\ rb_head r <= rb_head_r r /\ rb_tail_r r + rb_head_r r <= Z.of_nat n /\
  (forall x, 0 <= x < zlen a -> zn (rb_d r) ((rb_head r + x) mod cap) = zn a x).

Definition cr_rel (n : nat) (s : cr_state) (a : list Z) (st : nat -> @tstat cr_op rb_res) : Prop :=
  shape n (cr_ring s) a /\ (Z.of_nat n + cap < 2 ^ 64) /\
  (forall t, cok (cr_ring s) a (cr_pcs s t) (st t)) /\
  (forall t u i, ptk (cr_pcs s t) = Some i -> ptk (cr_pcs s u) = Some i -> t = u) /\
  (forall t u j, ctk (cr_pcs s t) = Some j -> ctk (cr_pcs s u) = Some j -> t = u).

Lemma uniq_upd (f : cr_pc -> option Z) pcs t pc :
  (forall t u i, f (pcs t) = Some i -> f (pcs u) = Some i -> t = u) ->
  (forall i, f pc = Some i -> forall u, u <> t -> f (pcs u) <> Some i) ->
  forall u w i, f (fupd pcs t pc u) = Some i -> f (fupd pcs t pc w) = Some i -> u = w.
Proof.
  intros U H u w i. unfold fupd. destruct (Nat.eqb_spec u t) as [->|Nu], (Nat.eqb_spec w t) as [->|Nw]; auto; intros E1 E2.
  - exfalso. now apply (H i E1 w).
  - exfalso. now apply (H i E2 u).
  - now apply (U u w i).
Qed.

(** A step of [t] that leaves the ring in shape and the others' knowledge true. *)
Lemma rel_step n n' s a st t r' a' pc x :
  cr_rel n s a st -> shape n' r' a' -> Z.of_nat n' + cap < 2 ^ 64 ->
  (forall u, u <> t -> cok (cr_ring s) a (cr_pcs s u) (st u) -> cok r' a' (cr_pcs s u) (st u)) ->
  cok r' a' pc x ->
  (forall i, ptk pc = Some i -> ptk (cr_pcs s t) = Some i \/ forall u, ptk (cr_pcs s u) <> Some i) ->
  (forall i, ctk pc = Some i -> ctk (cr_pcs s t) = Some i \/ forall u, ctk (cr_pcs s u) <> Some i) ->
  cr_rel n' (CR r' (fupd (cr_pcs s) t pc)) a' (fupd st t x).
Proof.
  intros (_ & _ & K & U1 & U2) S B H C P1 P2. split; [exact S|]. split; [exact B|]. cbn. split; [|split].
  - intros u. unfold fupd. destruct (Nat.eqb_spec u t) as [->|N]; auto.
  - apply uniq_upd; auto. intros i E u N Eu. destruct (P1 i E) as [Q|Q]; [|now apply (Q u)]. apply N. now apply (U1 u t i).
  - apply uniq_upd; auto. intros i E u N Eu. destruct (P2 i E) as [Q|Q]; [|now apply (Q u)]. apply N. now apply (U2 u t i).
Qed.

Lemma rel_ext n s a st st' : (forall u, st' u = st u) -> cr_rel n s a st -> cr_rel n s a st'.
Proof. intros E (S & B & K & U). split; auto. split; auto. split; auto. intros t. rewrite E. apply K. Qed.

Lemma fupd_same_fun {X} (f : nat -> X) t : forall u, f u = fupd f t (f t) u.
Proof. intros u. unfold fupd. destruct (Nat.eqb_spec u t) as [->|]; auto. Qed.

(** Only the place changes. *)
Lemma rel_stay n s a st t pc x : cr_rel n s a st -> cok (cr_ring s) a pc x ->
  (forall i, ptk pc = Some i -> ptk (cr_pcs s t) = Some i) ->
  (forall i, ctk pc = Some i -> ctk (cr_pcs s t) = Some i) ->
  cr_rel n (CR (cr_ring s) (fupd (cr_pcs s) t pc)) a (fupd st t x).
Proof. intros R C P1 P2. pose proof R as (S & B & _). eapply rel_step; eauto. Qed.

Ltac sc := cbn [cok ptk ctk rb_head rb_head_r rb_tail rb_tail_r rb_busy rb_mask rb_d] in *.
Ltac ands := repeat match goal with H : _ /\ _ |- _ => destruct H end.

Lemma cr_step_sim n s a st t op : cr_rel n s a st ->
  Z.of_nat (n + length (invs (snd (cr_step s t op)))) <= 2 ^ 64 - cap - 1 -> exists evs a' st',
  erase evs = snd (cr_step s t op) /\ lin_run (ring_spec cap) a st evs a' st' /\
  cr_rel (n + length (invs (snd (cr_step s t op)))) (fst (cr_step s t op)) a' st'.
Proof.
  intros R HB. assert (Hcap : 0 < cap) by (apply Z.pow_pos_nonneg; lia).
  pose proof R as (S & B & K & U1 & U2).
  pose proof (zlen_nonneg a) as Hna. pose proof (K t) as Ht. pose proof S as (Sm & Sd & S0 & St & Sc & S1 & S2 & S3 & Sv).
  unfold cr_step in *. destruct (cr_ring s) as [head head_r tail tail_r busy mask d] eqn:Er.
  cbn [rb_head rb_head_r rb_tail rb_tail_r rb_busy rb_mask rb_d] in *.
  assert (Mk : forall i, Z.land i mask = i mod cap) by (intros; rewrite Sm; apply mask_mod).
  destruct (cr_pcs s t) as [|v i|v i|v i|j|j|j val|tl|op' r|] eqn:E; cbn in Ht; [| | | | | | | | |contradiction].
  - (* call *)
    destruct op as [v| |]; cbn [fst snd invs length] in *.
    + exists [AInv t (CPush v)], a, (fupd st t (TPend (CPush v))). split; [reflexivity|].
      split; [apply lr_inv; [auto|constructor]|]. rewrite (wrap_small 64 (tail_r + 1)) by lia. rewrite (wrap_small 64) by lia.
      eapply rel_step; eauto.
      * repeat split; sc; auto; try lia.
      * lia.
      * rewrite Er. intros u N Cu. destruct (cr_pcs s u); sc; auto; ands; repeat split; auto; lia.
      * cbn. split; auto. lia.
      * intros i Ei. cbn in Ei. injection Ei as <-. right. intros u Eu. specialize (K u).
        destruct (cr_pcs s u); sc; try discriminate; injection Eu as ->; lia.
      * discriminate.
    + exists [AInv t CPop], a, (fupd st t (TPend CPop)). split; [reflexivity|].
      split; [apply lr_inv; [auto|constructor]|]. rewrite (wrap_small 64 (head_r + 1)) by lia. rewrite (wrap_small 64) by lia.
      eapply rel_step; eauto.
      * repeat split; sc; auto; try lia.
      * lia.
      * rewrite Er. intros u N Cu. destruct (cr_pcs s u); sc; auto; ands; repeat split; auto; lia.
      * cbn. split; auto. lia.
      * discriminate.
      * intros i Ei. cbn in Ei. injection Ei as <-. right. intros u Eu. specialize (K u).
        destruct (cr_pcs s u); sc; try discriminate; injection Eu as ->; lia.
    + exists [AInv t CSize], a, (fupd st t (TPend CSize)). split; [reflexivity|].
      split; [apply lr_inv; [auto|constructor]|]. rewrite <- Er.
      eapply rel_step with (n := n); eauto; rewrite ?Er; sc; auto; try discriminate.
      * repeat split; sc; auto; try lia.
      * lia.
  - (* wait for room *)
    destruct Ht as [Hx Hi]. cbn [fst snd] in *.
    rewrite (wrap_small 64 (head + mask)) by lia. rewrite !(wrap_small 64) by lia.
    destruct (Z.ltb_spec (head + mask + 1) (i + 1)); cbn [fst snd invs length]; rewrite Nat.add_0_r;
      (exists [], a, st; split; [reflexivity|]; split; [constructor|]; rewrite <- Er;
       eapply rel_ext; [apply (fupd_same_fun st t)|]; apply rel_stay; auto; rewrite ?Er; sc; rewrite ?E; sc;
       try discriminate; auto; repeat split; auto; lia).
  - (* write *)
    destruct Ht as (Hx & Hi & Hr). rewrite Mk.
    assert (Hm : 0 <= i mod cap < zlen d) by (rewrite Sd; apply Z.mod_pos_bound; lia).
    rewrite zset_Ok by exact Hm. cbn [fst snd invs length]. rewrite Nat.add_0_r.
    assert (Hz : forall x, x <> i -> -cap < x - i < cap -> zn (upd d (Z.to_nat (i mod cap)) v) (x mod cap) = zn d (x mod cap)).
    { intros x Nx Hx'. assert (0 <= x mod cap < zlen d) by (rewrite Sd; apply Z.mod_pos_bound; lia).
      rewrite zn_upd by lia. destruct (Z.eq_dec (i mod cap) (x mod cap)) as [Em|]; auto.
      exfalso. apply Nx. apply (mod_inj cap); auto. }
    exists [], a, st. split; [reflexivity|]. split; [constructor|].
    eapply rel_ext; [apply (fupd_same_fun st t)|].
    eapply rel_step; eauto; sc.
    + repeat split; sc; auto; try lia.
      * unfold zlen. rewrite upd_length. exact Sd.
      * intros x Hx'. rewrite Hz by lia. auto.
    + rewrite Er. intros u N Cu. destruct (cr_pcs s u) as [|v' i'|v' i'|v' i'|j|j|j val|tl|op' r|] eqn:Eu; sc; auto.
      destruct Cu as (C1 & C2 & C3 & C4). repeat split; auto; try lia. rewrite Hz; auto; [|lia].
      intros ->. apply N. apply (U1 u t i); [now rewrite Eu|now rewrite E].
    + repeat split; auto; try lia. rewrite zn_upd by lia. destruct (Z.eq_dec _ _); congruence.
    + intros i' Ei. injection Ei as <-. left. now rewrite E.
    + discriminate.
  - (* publish *)
    destruct Ht as (Hx & Hi & Hr & Hv).
    destruct (Z.eqb_spec tail i) as [Et|Et]; cbn [fst snd invs length]; rewrite Nat.add_0_r.
    + subst i. exists [ALin t (CPush v) (ObsBool true)], (a ++ [v]), (fupd st t (TDone (CPush v) (ObsBool true))).
      split; [reflexivity|]. split; [eapply lr_lin; [eauto|split; [lia|auto]|constructor]|].
      rewrite (wrap_small 64) by lia.
      assert (Hl : zlen (a ++ [v]) = zlen a + 1) by (unfold zlen; rewrite app_length; cbn; lia).
      eapply rel_step; eauto; sc; try discriminate; auto.
      * repeat split; sc; auto; try lia. intros x Hx'. rewrite Hl in Hx'.
        destruct (Z.eq_dec x (zlen a)) as [->|].
        -- rewrite zn_app2 by lia. rewrite Z.sub_diag. rewrite <- St. exact Hv.
        -- rewrite zn_app1 by lia. apply Sv. lia.
      * rewrite Er. intros u N Cu. assert (Hn : forall i', ptk (cr_pcs s u) = Some i' -> i' <> tail).
        { intros i' E1 ->. apply N. apply (U1 u t tail); auto. now rewrite E. }
        destruct (cr_pcs s u) as [|v' i'|v' i'|v' i'|j|j|j val|tl|op' r|] eqn:Eu; sc; auto;
          try specialize (Hn _ eq_refl); try (ands; repeat split; auto; lia).
        destruct Cu as (C1 & C2 & C3 & C4). repeat split; auto; try lia. rewrite zn_app1 by lia. auto.
    + exists [], a, st. split; [reflexivity|]. split; [constructor|]. rewrite <- Er.
      eapply rel_ext; [apply (fupd_same_fun st t)|]. apply rel_stay; auto; rewrite ?Er; sc; rewrite ?E; sc; try discriminate; auto.
  - (* wait for a value *)
    destruct Ht as [Hx Hi].
    destruct (Z.leb_spec tail j); cbn [fst snd invs length]; rewrite Nat.add_0_r;
      (exists [], a, st; split; [reflexivity|]; split; [constructor|]; rewrite <- Er;
       eapply rel_ext; [apply (fupd_same_fun st t)|]; apply rel_stay; auto; rewrite ?Er; sc; rewrite ?E; sc;
       try discriminate; auto; repeat split; auto; lia).
  - (* read *)
    destruct Ht as (Hx & Hi & Hr). rewrite Mk.
    assert (Hm : 0 <= j mod cap < zlen d) by (rewrite Sd; apply Z.mod_pos_bound; lia).
    rewrite (zget_Ok _ _ 0) by exact Hm. cbn [fst snd invs length]. rewrite Nat.add_0_r.
    exists [], a, st. split; [reflexivity|]. split; [constructor|]. rewrite <- Er.
    eapply rel_ext; [apply (fupd_same_fun st t)|]. apply rel_stay; auto; rewrite ?Er; sc; rewrite ?E; sc; try discriminate; auto.
    repeat split; auto; try lia. rewrite <- (Sv (j - head)) by lia. unfold zn. f_equal. do 2 f_equal. lia.
  - (* take *)
    destruct Ht as (Hx & Hi & Hr & Hv).
    destruct (Z.eqb_spec head j) as [Et|Et]; cbn [fst snd invs length]; rewrite Nat.add_0_r.
    + subst j. destruct a as [|w b]; [change (zlen (@nil Z)) with 0 in *; lia|].
      rewrite Z.sub_diag in Hv. cbn in Hv. subst val.
      exists [ALin t CPop (ObsVal w true)], b, (fupd st t (TDone CPop (ObsVal w true))).
      split; [reflexivity|]. split; [eapply lr_lin; [eauto|exists w; auto|constructor]|].
      rewrite (wrap_small 64) by lia.
      assert (Hl : zlen (w :: b) = zlen b + 1) by (unfold zlen; cbn [length]; lia).
      eapply rel_step; eauto; sc; try discriminate; auto.
      * repeat split; sc; auto; try lia. intros x Hx'.
        specialize (Sv (x + 1) ltac:(lia)). rewrite zn_cons_S in Sv by lia.
        replace (x + 1 - 1) with x in Sv by lia. rewrite <- Sv. f_equal. f_equal. lia.
      * rewrite Er. intros u N Cu. assert (Hn : forall i', ctk (cr_pcs s u) = Some i' -> i' <> head).
        { intros i' E1 ->. apply N. apply (U2 u t head); auto. now rewrite E. }
        destruct (cr_pcs s u) as [|v' i'|v' i'|v' i'|j|j|j val|tl|op' r|] eqn:Eu; sc; auto;
          try specialize (Hn _ eq_refl); try (ands; repeat split; auto; lia).
        destruct Cu as (C1 & C2 & C3 & C4). repeat split; auto; try lia.
        rewrite C4, zn_cons_S by lia. f_equal. lia.
    + exists [], a, st. split; [reflexivity|]. split; [constructor|]. rewrite <- Er.
      eapply rel_ext; [apply (fupd_same_fun st t)|]. apply rel_stay; auto; rewrite ?Er; sc; rewrite ?E; sc; try discriminate; auto.
  - cbn [fst snd invs length]. rewrite Nat.add_0_r. set (r := ObsInt _).
    exists [ALin t CSize r], a, (fupd st t (TDone CSize r)). split; [reflexivity|].
    split; [eapply lr_lin; [eauto|reflexivity|constructor]|]. rewrite <- Er.
    apply rel_stay; auto; try discriminate. cbn. auto.
  - cbn [fst snd invs length]. rewrite Nat.add_0_r.
    exists [ARet t op' r], a, (fupd st t TIdle). split; [reflexivity|].
    split; [eapply lr_ret; [eauto|constructor]|]. rewrite <- Er.
    apply rel_stay; auto; try discriminate. cbn. auto.
Qed.

Lemma cr_rel_init : cap < 2 ^ 64 -> cr_rel 0 (cr_init k) [] (fun _ => TIdle).
Proof.
  intros Hc. assert (Hcap : 0 < cap) by (apply Z.pow_pos_nonneg; lia).
  split; [|split; [cbn; lia|split; [intros t; reflexivity|split; cbn; discriminate]]].
  unfold shape. cbn. repeat split; auto; try lia.
  - unfold zlen. rewrite repeat_length. unfold cap. now rewrite Nat2Z.inj_pow.
Qed.

Lemma cr_sim sched :
  Z.of_nat (length (invs (snd (crun cr_step (cr_init k) sched)))) + cap < 2 ^ 64 ->
  exists evs a st, erase evs = snd (crun cr_step (cr_init k) sched) /\
  lin_run (ring_spec cap) [] (fun _ => TIdle) evs a st /\
  cr_rel (length (invs (snd (crun cr_step (cr_init k) sched)))) (fst (crun cr_step (cr_init k) sched)) a st.
Proof.
  intros H. apply (lin_sim_upto (ring_spec cap) cr_step cr_rel (2 ^ 64 - cap - 1)) with (n := O).
  - intros. now apply cr_step_sim.
  - apply cr_rel_init. lia.
  - cbn [Nat.add]. lia.
Qed.
End Ring.

Lemma ring_linearizable k sched :
  Z.of_nat (length (invs (snd (crun cr_step (cr_init k) sched)))) + 2 ^ Z.of_nat k < 2 ^ 64 ->
  linearizable (ring_spec (2 ^ Z.of_nat k)) [] (snd (crun cr_step (cr_init k) sched)).
Proof. intros H. destruct (cr_sim k sched H) as (evs & a & st & E & L & _). exists evs, a, st. auto. Qed.

Lemma ring_safe k sched :
  Z.of_nat (length (invs (snd (crun cr_step (cr_init k) sched)))) + 2 ^ Z.of_nat k < 2 ^ 64 ->
  let s := fst (crun cr_step (cr_init k) sched) in
  (forall t, cr_pcs s t <> CPanic) /\
  (forall t u i w j w', t <> u -> access k (cr_pcs s t) = Some (i, w) -> access k (cr_pcs s u) = Some (j, w') ->
     w = true -> i <> j).
Proof.
  intros H s. destruct (cr_sim k sched H) as (evs & a & st & E & L & S & B & K & U1 & U2). fold s in S, K, U1, U2.
  split.
  - intros t Et. specialize (K t). rewrite Et in K. exact K.
  - intros t u i w j w' N Et Eu -> Eij. destruct S as (_ & _ & S0 & St & Sc & _).
    assert (Hcap : 0 < 2 ^ Z.of_nat k) by (apply Z.pow_pos_nonneg; lia).
    pose proof (K t) as Kt. pose proof (K u) as Ku.
    destruct (cr_pcs s t) as [|v x|v x|v x|y|y|y val|tl|op' r|] eqn:Pt; try discriminate. injection Et as <-.
    destruct (cr_pcs s u) as [|v' x'|v' x'|v' x'|y|y|y val|tl|op' r|] eqn:Pu; try discriminate;
      injection Eu as <- <-; cbn in Kt, Ku; pose proof (zlen_nonneg a).
    + assert (x = x') as -> by (apply (mod_inj (2 ^ Z.of_nat k)); lia).
      apply N. apply (U1 t u x'); [now rewrite Pt|now rewrite Pu].
    + assert (x = y) by (apply (mod_inj (2 ^ Z.of_nat k)); lia). lia.
Qed.

(** ** Size *)
Lemma zn_int64_wrap x : - 2 ^ 63 <= x < 2 ^ 63 -> int64 (wrap 64 x) = x.
Proof. intros H. unfold int64, wrap. rewrite Z.add_mod_idemp_l by lia. rewrite Z.mod_small; lia. Qed.

Lemma size_call s t n : cr_pcs s t = CIdle -> rb_tail (cr_ring s) - rb_head (cr_ring s) = n -> 0 <= n < 2 ^ 63 ->
  snd (crun cr_step s [(t, CSize); (t, CSize); (t, CSize)]) = [Inv t CSize; Ret t CSize (ObsInt n)].
Proof.
  intros H E Hn. destruct s as [[head head_r tail tail_r busy mask d] pcs]. cbn [cr_pcs cr_ring rb_tail rb_head] in *.
  cbn [crun]. unfold cr_step at 1. cbn [cr_ring cr_pcs]. rewrite H.
  unfold cr_step at 1. cbn [cr_ring cr_pcs]. rewrite fupd_same.
  unfold cr_step at 1. cbn [cr_ring cr_pcs]. rewrite fupd_same. cbn.
  rewrite zn_int64_wrap by lia. now rewrite E.
Qed.

Definition cntr (f : cr_op -> bool) (l : list (nat * cr_op * rb_res)) : nat := length (filter (fun e => f (snd (fst e))) l).
Definition ispush (op : cr_op) : bool := match op with CPush _ => true | _ => false end.
Definition ispop (op : cr_op) : bool := match op with CPop => true | _ => false end.

Lemma filter_perm_len {X} (f : X -> bool) l l' : Permutation l l' -> length (filter f l) = length (filter f l').
Proof.
  induction 1 as [|x l l' _ IH|x y l|l l1 l2 _ IH1 _ IH2]; cbn; auto.
  - destruct (f x); cbn; congruence.
  - destruct (f x), (f y); auto.
  - congruence.
Qed.

Lemma ring_balance cap a st h a' st' : lin_run (ring_spec cap) a st h a' st' ->
  zlen a + Z.of_nat (cntr ispush (lins h)) = zlen a' + Z.of_nat (cntr ispop (lins h)).
Proof.
  unfold cntr. induction 1 as [a st|a st t op h a' st' Ht Hr IH|a st t op r b h a' st' Ht Hs Hr IH|a st t op r h a' st' Ht Hr IH];
    cbn [lins]; auto.
  destruct op as [v| |]; cbn [ring_spec] in Hs.
  - destruct Hs as (_ & _ & ->). unfold zlen in *. rewrite app_length in IH. cbn [filter ispush ispop fst snd length] in *. lia.
  - destruct Hs as (v & -> & _). unfold zlen in *. cbn [filter ispush ispop fst snd length] in *. lia.
  - subst b. cbn. auto.
Qed.

Lemma count_push_rets h : count_push h = cntr ispush (rets h).
Proof. unfold count_push, cntr. induction h as [|[t op|t op r] h IH]; cbn; auto. destruct op; cbn; auto. Qed.
Lemma count_pop_rets h : count_pop h = cntr ispop (rets h).
Proof. unfold count_pop, cntr. induction h as [|[t op|t op r] h IH]; cbn; auto. destruct op; cbn; auto. Qed.

Lemma ring_size k sched t : (k < 63)%nat ->
  Z.of_nat (length (invs (snd (crun cr_step (cr_init k) sched)))) + 2 ^ Z.of_nat k < 2 ^ 64 ->
  let s := fst (crun cr_step (cr_init k) sched) in let h := snd (crun cr_step (cr_init k) sched) in
  cr_pcs s t = CIdle ->
  exists n, 0 <= n <= 2 ^ Z.of_nat k /\
    snd (crun cr_step s [(t, CSize); (t, CSize); (t, CSize)]) = [Inv t CSize; Ret t CSize (ObsInt n)] /\
    ((forall u, cr_pcs s u = CIdle) -> n = Z.of_nat (count_push h) - Z.of_nat (count_pop h)).
Proof.
  intros Hk H s h Ht. destruct (cr_sim k sched H) as (evs & a & st & E & L & S & B & K & U1 & U2).
  fold s in S, K. fold h in E. destruct S as (_ & _ & S0 & St & Sc & _).
  assert (2 ^ Z.of_nat k < 2 ^ 63) by (apply Z.pow_lt_mono_r; lia). pose proof (zlen_nonneg a).
  exists (zlen a). split; [lia|]. split; [apply size_call; auto; lia|].
  intros Hq. assert (Q : forall u, st u = TIdle) by (intros u; specialize (K u); rewrite Hq in K; exact K).
  pose proof (quiescent_rets _ _ _ _ _ L Q) as P. rewrite E in P.
  pose proof (ring_balance _ _ _ _ _ _ L) as V. change (zlen (@nil Z)) with 0 in V.
  rewrite count_push_rets, count_pop_rets. unfold cntr in *. rewrite !(filter_perm_len _ _ _ P). lia.
Qed.
