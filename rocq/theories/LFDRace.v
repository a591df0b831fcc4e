(** The lock-free deque with one pushing and one popping goroutine has no data
    races. *)
From Coq Require Import ZArith List Bool Lia ZifyBool ZifyNat.
From Verif Require Import GoBase GoLists ConcBase QueueProofs RingProofs LFDModel LFDSpec LFDProofs LFDConc RaceSpec RaceBase RaceModel.
Import ListNotations.
Open Scope Z_scope.

Section LR.
Variables (n : Z) (p c : nat).
Definition hd (s : cd_state) : Z := head_of (fd_ht (cd_q s)).
Definition tl (s : cd_state) : Z := tail_of (fd_ht (cd_q s)).

Definition acc_ok (u : nat) (a : acc fd_loc) : Prop :=
  match a with
  | ALoad l => match l with DWord => True | _ => False end
  | ARmw l => match l with DWord => True | DBusy => u = p | _ => False end
  | AStore _ => False
  | PRead l => match l with DBuf => True | DCell _ => u = c | _ => False end
  | PWrite l => match l with DCell _ => u = p | _ => False end
  end.

Record D (s : cd_state) (tr : trace fd_loc) : Prop := {
  d_free : race_free tr;
  d_acc : forall e u a, nth_error tr e = Some (u, a) -> acc_ok u a;
  d_w : forall e x, nth_error tr e = Some (p, PWrite (DCell x)) -> kx tr DWord e \/ x = tl s;
  d_r : forall e x, nth_error tr e = Some (c, PRead (DCell x)) -> kx tr DWord e \/ (x = hd s /\ hd s <> tl s);
  d_push : forall v h0 t0 e, cd_pcs s p = DPushWrite v h0 t0 -> nth_error tr e = Some (c, PRead (DCell t0)) -> kn tr p e;
  d_pop : forall h0 t0 e, cd_pcs s c = DPopRead h0 t0 -> nth_error tr e = Some (p, PWrite (DCell h0)) -> kn tr c e }.

Definition plain (a : acc fd_loc) : Prop := match loc_of a with DCell _ => False | _ => True end.

Lemma d_ev s tr t a : D s tr -> plain a -> acc_ok t a -> D s (tr ++ [(t, a)]).
Proof.
  intros H Hp Ha. constructor.
  - apply free_snoc; [apply H|]. intros i u b Hi Hu (Hl & Hw & Hat). exfalso. specialize (d_acc _ _ H _ _ _ Hi) as Vb.
    destruct a as [l|l|l|l|l], b as [m|m|m|m|m]; cbn in *; subst; destruct l; cbn in *; try contradiction; try discriminate; intuition congruence.
  - intros e u b He. apply nth_snoc in He. destruct He as [He|[-> He]]; [now apply (d_acc _ _ H e)|]. injection He as -> ->. exact Ha.
  - intros e x He. apply nth_snoc in He. destruct He as [He|[-> He]]; [|injection He as -> <-; destruct Hp].
    destruct (d_w _ _ H e x He) as [K|K]; [left|now right]. destruct a as [l|l|l|l|l]; destruct l; try contradiction;
      first [apply kx_rmw; now left|apply kx_other; [cbn; discriminate|exact K]].
  - intros e x He. apply nth_snoc in He. destruct He as [He|[-> He]]; [|injection He as -> <-; destruct Hp].
    destruct (d_r _ _ H e x He) as [K|K]; [left|now right]. destruct a as [l|l|l|l|l]; destruct l; try contradiction;
      first [apply kx_rmw; now left|apply kx_other; [cbn; discriminate|exact K]].
  - intros v h0 t0 e Hc He. apply nth_snoc in He. destruct He as [He|[-> He]]; [|injection He as -> <-; destruct Hp].
    apply kn_snoc. now apply (d_push _ _ H v h0 t0).
  - intros h0 t0 e Hc He. apply nth_snoc in He. destruct He as [He|[-> He]]; [|injection He as -> <-; destruct Hp].
    apply kn_snoc. now apply (d_pop _ _ H h0 t0).
Qed.

Lemma d_goto s tr t q pc : D s tr -> fd_ht q = fd_ht (cd_q s) ->
  (forall v h0 t0, t = p -> pc = DPushWrite v h0 t0 -> forall e, nth_error tr e = Some (c, PRead (DCell t0)) -> kn tr p e) ->
  (forall h0 t0, t = c -> pc = DPopRead h0 t0 -> forall e, nth_error tr e = Some (p, PWrite (DCell h0)) -> kn tr c e) ->
  D (CD q (fupd (cd_pcs s) t pc)) tr.
Proof.
  intros H E K1 K2. constructor; unfold hd, tl; cbn; rewrite ?E; try apply H.
  - intros v h0 t0 e. unfold fupd. destruct (Nat.eqb_spec p t) as [<-|]; intros Hc He; [now apply (K1 v h0 t0)|now apply (d_push _ _ H v h0 t0)].
  - intros h0 t0 e. unfold fupd. destruct (Nat.eqb_spec c t) as [<-|]; intros Hc He; [now apply (K2 h0 t0)|now apply (d_pop _ _ H h0 t0)].
Qed.

(** The write of a cell. *)
Lemma d_write s a st tr v h0 t0 d : cd_rel n p c s a st -> D s tr -> cd_pcs s p = DPushWrite v h0 t0 ->
  D (CD (LFD (fd_ht (cd_q s)) (fd_busy (cd_q s)) d) (fupd (cd_pcs s) p (DPushCas v h0 t0))) (tr ++ [(p, PWrite (DCell t0))]).
Proof.
  intros (h & L & K) H E. pose proof (K p) as Kp. rewrite E in Kp. cbn in Kp. destruct Kp as (_ & _ & K0 & K1 & K2).
  destruct (lay_ends _ _ _ _ _ L) as (Eh & Et & _).
  constructor; unfold hd, tl; cbn.
  - apply free_snoc; [apply H|]. intros e u b He Hu (Hl & _). cbn in Hl. specialize (d_acc _ _ H _ _ _ He) as Vb.
    destruct b as [m|m|m|m|m]; cbn in Hl; subst m; cbn in Vb; try contradiction. subst u.
    now apply (d_push _ _ H v h0 t0).
  - intros e u b He. apply nth_snoc in He. destruct He as [He|[-> He]]; [now apply (d_acc _ _ H e)|]. injection He as -> ->. reflexivity.
  - intros e x He. apply nth_snoc in He. destruct He as [He|[-> He]].
    + destruct (d_w _ _ H e x He) as [Kx|Kx]; [left; apply kx_other; [cbn; discriminate|exact Kx]|now right].
    + injection He as ->. right. congruence.
  - intros e x He. apply nth_snoc in He. destruct He as [He|[-> He]]; [|discriminate].
    destruct (d_r _ _ H e x He) as [Kx|Kx]; [left; apply kx_other; [cbn; discriminate|exact Kx]|now right].
  - intros v' h' t' e. rewrite fupd_same. discriminate.
  - intros h' t' e. unfold fupd. destruct (Nat.eqb_spec c p); [discriminate|]. intros Hc He.
    apply nth_snoc in He. destruct He as [He|[-> He]]; [apply kn_snoc; now apply (d_pop _ _ H h' t')|]. injection He as ->.
    exfalso. specialize (K c). rewrite Hc in K. cbn in K. destruct K as (_ & _ & E2 & _ & Na).
    destruct L as (Hn & _ & Hh & Hl & _). pose proof (zlen_nonneg a).
    assert (zlen a <> 0) by (intros Z0; apply Na; destruct a; [reflexivity|unfold zlen in Z0; cbn in Z0; lia]).
    assert (X : h = (h + zlen a) mod n) by congruence. apply mod_eq_head in X; lia.
Qed.

Lemma d_read s a st tr h0 t0 f : cd_rel n p c s a st -> D s tr -> cd_pcs s c = DPopRead h0 t0 ->
  D (CD (cd_q s) (fupd (cd_pcs s) c (DPopCas h0 t0 f))) (tr ++ [(c, PRead (DCell h0))]).
Proof.
  intros (h & L & K) H E. pose proof (K c) as Kp. rewrite E in Kp. cbn in Kp. destruct Kp as (_ & _ & K0 & K1 & Na). subst h0.
  destruct (lay_ends _ _ _ _ _ L) as (Eh & Et & _).
  destruct L as (Hn & _ & Hh & Hl & _). pose proof (zlen_nonneg a).
  assert (zlen a <> 0) by (intros Z0; apply Na; destruct a; [reflexivity|unfold zlen in Z0; cbn in Z0; lia]).
  assert (Ne : h <> (h + zlen a) mod n) by (intros X; apply mod_eq_head in X; lia).
  constructor; unfold hd, tl; cbn.
  - apply free_snoc; [apply H|]. intros e u b He Hu (Hl' & Hw & _). cbn in Hl', Hw. specialize (d_acc _ _ H _ _ _ He) as Vb.
    destruct b as [m|m|m|m|m]; cbn in Hl'; subst m; cbn in Vb; try contradiction. subst u.
    now apply (d_pop _ _ H h t0).
  - intros e u b He. apply nth_snoc in He. destruct He as [He|[-> He]]; [now apply (d_acc _ _ H e)|]. injection He as -> ->. reflexivity.
  - intros e x He. apply nth_snoc in He. destruct He as [He|[-> He]]; [|discriminate].
    destruct (d_w _ _ H e x He) as [Kx|Kx]; [left; apply kx_other; [cbn; discriminate|exact Kx]|now right].
  - intros e x He. apply nth_snoc in He. destruct He as [He|[-> He]].
    + destruct (d_r _ _ H e x He) as [Kx|Kx]; [left; apply kx_other; [cbn; discriminate|exact Kx]|now right].
    + injection He as ->. right. rewrite Eh, Et. auto.
  - intros v' h' t' e. unfold fupd. destruct (Nat.eqb_spec p c); [discriminate|]. intros Hc He.
    apply nth_snoc in He. destruct He as [He|[-> He]]; [apply kn_snoc; now apply (d_push _ _ H v' h' t')|]. injection He as ->.
    exfalso. specialize (K p). rewrite Hc in K. cbn in K. destruct K as (_ & _ & _ & E2 & _). congruence.
  - intros h' t' e. rewrite fupd_same. discriminate.
Qed.

(** A successful CAS of the pusher or of the popper: all that it did is passed on. *)
Lemma d_cas s tr t q pc : D s tr -> t = p \/ t = c ->
  (t <> c -> hd s <> tl s -> head_of (fd_ht q) = hd s /\ hd s <> tail_of (fd_ht q)) ->
  (t <> p -> tail_of (fd_ht q) = tl s) ->
  (forall v h0 t0, pc <> DPushWrite v h0 t0) -> (forall h0 t0, pc <> DPopRead h0 t0) ->
  D (CD q (fupd (cd_pcs s) t pc)) (tr ++ [(t, ARmw DWord)]).
Proof.
  intros H0 Ht H1 H2 N1 N2.
  assert (H : D s (tr ++ [(t, ARmw DWord)])) by (apply d_ev; [exact H0|exact Logic.I|exact Logic.I]).
  constructor; unfold hd, tl; cbn; try apply H.
  - intros e x He. apply nth_snoc in He. destruct He as [He|[-> He]]; [|discriminate].
    destruct (Nat.eq_dec t p) as [->|Np].
    + left. apply kx_rmw. right. now apply (kn_own tr p (PWrite (DCell x))).
    + rewrite H2 by exact Np. destruct (d_w _ _ H0 e x He) as [Kx|Kx]; [left; apply kx_rmw; now left|now right].
  - intros e x He. apply nth_snoc in He. destruct He as [He|[-> He]]; [|discriminate].
    destruct (Nat.eq_dec t c) as [->|Nc].
    + left. apply kx_rmw. right. now apply (kn_own tr c (PRead (DCell x))).
    + destruct (d_r _ _ H0 e x He) as [Kx|[Kx Kn]]; [left; apply kx_rmw; now left|right]. destruct (H1 Nc Kn) as [A B]. rewrite A. auto.
  - intros v h0 t0 e. unfold fupd. destruct (Nat.eqb_spec p t) as [<-|]; [intros Hc; now apply N1 in Hc|]. apply (d_push _ _ H v h0 t0).
  - intros h0 t0 e. unfold fupd. destruct (Nat.eqb_spec c t) as [<-|]; [intros Hc; now apply N2 in Hc|]. apply (d_pop _ _ H h0 t0).
Qed.

Lemma tail_of_make h t : 0 <= h < 2 ^ 32 -> 0 <= t < 2 ^ 32 -> tail_of (make_ht h t) = t.
Proof. intros A B. now destruct (pack_round h t A B) as (_ & _ & ->). Qed.
Lemma head_of_make h t : 0 <= h < 2 ^ 32 -> 0 <= t < 2 ^ 32 -> head_of (make_ht h t) = h.
Proof. intros A B. now destruct (pack_round h t A B) as (_ & -> & _). Qed.

Lemma d_step s a st tr t op : cd_rel n p c s a st -> D s tr ->
  match op with DPush _ => t = p | DPop => t = c | DSize => True end ->
  D (fst (cd_step s t op)) (tr ++ map (pair t) (cd_accs s t op)).
Proof.
  intros R H Hr. pose proof R as (h & L & K). pose proof (K t) as Kt. destruct (lay_ends _ _ _ _ _ L) as (Eh & Et & _).
  pose proof L as (Hn & Hd & Hh & Hl & _ & Hs). pose proof (zlen_nonneg a) as Ha.
  assert (B : D s (tr ++ [(t, PRead DBuf)])) by (apply d_ev; [exact H|exact Logic.I|exact Logic.I]).
  assert (W : D s (tr ++ [(t, ALoad DWord)])) by (apply d_ev; [exact H|exact Logic.I|exact Logic.I]).
  assert (C2 : forall (x y : acc fd_loc), tr ++ map (pair t) [x; y] = (tr ++ [(t, x)]) ++ [(t, y)]) by (intros; now rewrite <- app_assoc).
  assert (BW : D s ((tr ++ [(t, PRead DBuf)]) ++ [(t, ALoad DWord)])) by (apply d_ev; [exact B|exact Logic.I|exact Logic.I]).
  unfold cd_step, cd_accs. destruct (cd_pcs s t) as [|v|v|v h0 t0|v h0 t0|f|h0 t0|h0 t0 f| |op' r|] eqn:E; cbn [dok] in Kt; [| | | | | | | | | |contradiction].
  - cbn [fst]. destruct op; cbn [map]; rewrite ?app_nil_r; apply d_goto; auto; discriminate.
  - cbn [fst]. rewrite C2. assert (WB : D s ((tr ++ [(t, ALoad DWord)]) ++ [(t, PRead DBuf)])) by (apply d_ev; [exact W|exact Logic.I|exact Logic.I]).
    destruct Kt as [_ ->]. apply d_goto; auto.
    + rewrite (lay_full_eq _ _ _ _ _ L). destruct (Z.eqb_spec (zlen a) (n - 1)); [discriminate|].
      intros v' h0 t0 _ Ep e He. assert (t0 = tl s) as -> by (unfold tl; congruence).
      apply nth_snoc in He. destruct He as [He|[-> He]]; [|discriminate].
      apply nth_snoc in He. destruct He as [He|[-> He]]; [|discriminate].
      destruct (d_r _ _ H e _ He) as [Kx|[Kx Kn]]; [apply kn_snoc; apply kn_load; [reflexivity|reflexivity|exact Kx]|congruence].
    + destruct (_ =? _); discriminate.
  - cbn [fst map]. apply d_goto; auto; try discriminate. apply d_ev; [exact H|exact Logic.I|apply Kt].
  - destruct Kt as (_ & -> & K0 & K1 & K2). assert (Hi : 0 <= t0 < zlen (fd_d (cd_q s))).
    { rewrite Hd, K1. apply Z.mod_pos_bound. lia. }
    rewrite (zget_Ok _ _ 0) by exact Hi. rewrite zset_Ok by exact Hi. cbn [fst]. rewrite C2.
    now apply (d_write s a st).
  - destruct Kt as (_ & -> & K0 & K1 & K2 & _). destruct (Z.eqb_spec (fd_ht (cd_q s)) (make_ht h0 t0)) as [Ec|Ec]; cbn [fst]; rewrite C2.
    + assert (T0 : 0 <= t0 < n) by (rewrite K1; apply Z.mod_pos_bound; lia).
      rewrite (lay_word _ _ _ _ _ L) in Ec. apply make_ht_inj in Ec; try lia. destruct Ec as [<- _].
      assert (N0 : 0 <= fd_next (fd_d (cd_q s)) t0 < n) by (rewrite fd_next_mod, Hd by lia; apply Z.mod_pos_bound; lia).
      apply d_cas; auto; try discriminate.
      * intros _ Ne. cbn [fd_ht]. rewrite head_of_make, tail_of_make by lia. unfold hd in *. rewrite Eh in *. split; [reflexivity|].
        intros X. rewrite K1, (lay_next _ _ _ _ _ L) in X. apply mod_eq_head in X; lia.
      * intros X. now exfalso; apply X.
    + apply d_goto; auto; discriminate.
  - destruct Kt as [_ ->]. cbn [fst map]. apply d_goto; auto.
    + destruct (_ =? _); discriminate.
    + rewrite (lay_empty_eq _ _ _ _ _ L). destruct (Z.eqb_spec (zlen a) 0) as [|Nz]; [discriminate|].
      intros h0 t0 _ Ep e He. assert (h0 = hd s) as -> by (unfold hd; congruence).
      apply nth_snoc in He. destruct He as [He|[-> He]]; [|discriminate].
      destruct (d_w _ _ H e _ He) as [Kx|Kx]; [apply kn_load; [reflexivity|reflexivity|exact Kx]|].
      exfalso. unfold hd, tl in Kx. rewrite Eh, Et in Kx. apply mod_eq_head in Kx; lia.
  - destruct Kt as (_ & -> & K0 & K1 & K2). assert (Hi : 0 <= h0 < zlen (fd_d (cd_q s))) by (rewrite Hd; lia).
    rewrite (zget_Ok _ _ 0) by exact Hi. cbn [fst]. rewrite C2. now apply (d_read s a st).
  - destruct Kt as (_ & -> & K0 & K1 & rest & K2). destruct (Z.eqb_spec (fd_ht (cd_q s)) (make_ht h0 t0)) as [Ec|Ec]; cbn [fst]; rewrite C2.
    + rewrite (lay_word _ _ _ _ _ L) in Ec. subst h0. assert (T0 : 0 <= (h + zlen a) mod n < n) by (apply Z.mod_pos_bound; lia).
      apply make_ht_inj in Ec; try lia. destruct Ec as [_ <-].
      assert (N0 : 0 <= fd_next (fd_d (cd_q s)) h < n) by (rewrite fd_next_mod, Hd by lia; apply Z.mod_pos_bound; lia).
      apply d_cas; auto; try discriminate.
      * intros X. now exfalso; apply X.
      * intros _. cbn [fd_ht]. rewrite tail_of_make by lia. unfold tl. congruence.
    + apply d_goto; auto; discriminate.
  - cbn [fst]. apply d_goto; auto; try discriminate. destruct (_ <=? _); [exact W|]. rewrite C2. apply d_ev; [exact W|exact Logic.I|exact Logic.I].
  - cbn [fst map]. rewrite app_nil_r. apply d_goto; auto; discriminate.
Qed.

Lemma d_nil s : D s [].
Proof.
  constructor.
  - apply free_nil.
  - intros [|e]; discriminate.
  - intros [|e]; discriminate.
  - intros [|e]; discriminate.
  - intros v h0 t0 [|e]; discriminate.
  - intros h0 t0 [|e]; discriminate.
Qed.
Lemma d_init : D (cd_init n) [].
Proof. apply d_nil. Qed.

Lemma d_run_state sched : roles p c sched -> forall s a st tr, cd_rel n p c s a st -> D s tr -> exists s', D s' (tr ++ trace_of cd_step cd_accs s sched).
Proof.
  induction 1 as [|[t op] sched Ho Hs IH]; intros s a st tr R H.
  - cbn. rewrite app_nil_r. now exists s.
  - cbn [trace_of]. rewrite app_assoc. destruct (cd_step_sim n p c s a st t op Ho R) as (evs & a' & st' & _ & _ & R').
    apply (IH _ a' st'); [exact R'|]. now apply (d_step s a st).
Qed.
Lemma d_run sched : roles p c sched -> forall s a st tr, cd_rel n p c s a st -> D s tr -> race_free (tr ++ trace_of cd_step cd_accs s sched).
Proof. intros Hr s a st tr R H. destruct (d_run_state sched Hr s a st tr R H) as (s' & H'). apply (d_free _ _ H'). Qed.
End LR.

Theorem lfd_no_races n p c sched : 0 < n < 2 ^ 31 -> roles p c sched ->
  race_free (trace_of cd_step cd_accs (cd_init n) sched).
Proof.
  intros Hn Hr. apply (d_run n p c sched Hr (cd_init n) [] (fun _ => TIdle) []); [|apply d_init].
  exists 0. cbn [cd_init cd_q cd_pcs]. unfold fd_init, lfd_zero. cbn [fd_d]. cbv zeta. cbn [fd_ht fd_d].
  destruct (Z.leb_spec n 0); [lia|]. split; [apply lay_fresh; auto; apply zlen_repeat; lia|]. intros t. reflexivity.
Qed.
