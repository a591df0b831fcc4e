(** Proofs about the lock-free deque with one pushing and one popping
    goroutine. *)
From Coq Require Import ZArith List Bool Lia ZifyBool ZifyNat.
From Verif Require Import GoBase GoLists ConcBase QueueProofs RingProofs LFDModel LFDSpec LFDProofs.
Import ListNotations.
Open Scope Z_scope.

Section Spsc.
Variables (n : Z) (p c : nat).

Definition dok (h : Z) (a d : list Z) (t : nat) (pc : cd_pc) (x : @tstat cd_op fd_res) : Prop :=
  match pc with
  | DIdle => x = TIdle
  | DPushLoad v | DPushFull v => x = TPend (DPush v) /\ t = p
  | DPushWrite v h0 t0 => x = TPend (DPush v) /\ t = p /\ 0 <= h0 < n /\ t0 = (h + zlen a) mod n /\ zlen a < n - 1
  | DPushCas v h0 t0 => x = TPend (DPush v) /\ t = p /\ 0 <= h0 < n /\ t0 = (h + zlen a) mod n /\ zlen a < n - 1 /\ zn d t0 = v
  | DPopLoad _ => x = TPend DPop /\ t = c
  | DPopRead h0 t0 => x = TPend DPop /\ t = c /\ h0 = h /\ 0 <= t0 < n /\ a <> []
  | DPopCas h0 t0 front => x = TPend DPop /\ t = c /\ h0 = h /\ 0 <= t0 < n /\ exists rest, a = front :: rest
  | DSizeLoad => x = TPend DSize
  | DRet op r => x = TDone op r
  | DPanic => False
  end.

Definition cd_rel (s : cd_state) (a : list Z) (st : nat -> @tstat cd_op fd_res) : Prop :=
  exists h, lay n h a (fd_ht (cd_q s)) (fd_d (cd_q s)) /\ forall t, dok h a (fd_d (cd_q s)) t (cd_pcs s t) (st t).

Lemma cd_put s a st t q' a' pc x h h' :
  (forall u, dok h a (fd_d (cd_q s)) u (cd_pcs s u) (st u)) ->
  lay n h' a' (fd_ht q') (fd_d q') ->
  (forall u, u <> t -> dok h a (fd_d (cd_q s)) u (cd_pcs s u) (st u) -> dok h' a' (fd_d q') u (cd_pcs s u) (st u)) ->
  dok h' a' (fd_d q') t pc x ->
  cd_rel (CD q' (fupd (cd_pcs s) t pc)) a' (fupd st t x).
Proof.
  intros K L H D. exists h'. split; [exact L|]. intros u. cbn. unfold fupd. destruct (Nat.eqb_spec u t) as [->|]; auto.
Qed.
Lemma cd_put0 s a st t q' pc h :
  (forall u, dok h a (fd_d (cd_q s)) u (cd_pcs s u) (st u)) ->
  lay n h a (fd_ht q') (fd_d q') ->
  (forall u, u <> t -> dok h a (fd_d (cd_q s)) u (cd_pcs s u) (st u) -> dok h a (fd_d q') u (cd_pcs s u) (st u)) ->
  dok h a (fd_d q') t pc (st t) ->
  cd_rel (CD q' (fupd (cd_pcs s) t pc)) a st.
Proof.
  intros K L H D. exists h. split; [exact L|]. intros u. cbn. unfold fupd. destruct (Nat.eqb_spec u t) as [->|]; auto.
Qed.

Lemma make_ht_inj h t h' t' : 0 <= h < 2 ^ 32 -> 0 <= t < 2 ^ 32 -> 0 <= h' < 2 ^ 32 -> 0 <= t' < 2 ^ 32 ->
  make_ht h t = make_ht h' t' -> h = h' /\ t = t'.
Proof.
  intros. destruct (pack_round h t) as (_ & A & B); auto. destruct (pack_round h' t') as (_ & A' & B'); auto.
  rewrite H3 in A, B. split; congruence.
Qed.
Lemma lay_word h l w d : lay n h l w d -> w = make_ht h ((h + zlen l) mod n).
Proof.
  intros (Hn & Hd & Hh & Hl & -> & _). rewrite make_ht_val; auto; [lia|].
  pose proof (Z.mod_pos_bound (h + zlen l) n ltac:(lia)). lia.
Qed.

Lemma cd_step_sim s a st t op :
  match op with DPush _ => t = p | DPop => t = c | DSize => True end -> cd_rel s a st -> exists evs a' st',
  erase evs = snd (cd_step s t op) /\ lin_run (cd_spec (n - 1)) a st evs a' st' /\ cd_rel (fst (cd_step s t op)) a' st'.
Proof.
  intros Hr (h & L & K). pose proof (K t) as Ht. pose proof L as (Hn & Hd & Hh & Hl & Hw & S).
  pose proof (zlen_nonneg a) as Hna. destruct (lay_ends _ _ _ _ _ L) as (Eh & Et & Hb).
  unfold cd_step. destruct (cd_pcs s t) as [|v|v|v h0 t0|v h0 t0|f|h0 t0|h0 t0 f| |op' r|] eqn:E; cbn [dok] in Ht; [| | | | | | | | | |contradiction].
  - exists [AInv t op], a, (fupd st t (TPend op)). split; [reflexivity|]. split; [apply lr_inv; [auto|constructor]|].
    eapply cd_put; eauto. destruct op; cbn; auto.
  - destruct Ht as [Hx Hp]. exists [], a, st. split; [reflexivity|]. split; [constructor|].
    cbn [fst]. eapply cd_put0; eauto. rewrite (lay_full_eq _ _ _ _ _ L), Eh, Et.
    destruct (Z.eqb_spec (zlen a) (n - 1)); cbn; auto. repeat split; auto; lia.
  - destruct Ht as [Hx Hp]. exists [], a, st. split; [reflexivity|]. split; [constructor|].
    cbn [fst]. eapply cd_put0; cbn; eauto.
  - destruct Ht as (Hx & Hp & H0 & H1 & H2). subst t0. rewrite zset_Ok by lia. cbn [fst snd].
    exists [], a, st. split; [reflexivity|]. split; [constructor|].
    eapply cd_put0; eauto; cbn [fd_ht fd_d].
    + now apply lay_write.
    + intros u N Ku. destruct (cd_pcs s u); cbn [dok] in *; auto. destruct Ku as (_ & Up & _). congruence.
    + cbn [dok]. repeat split; auto; try lia. rewrite zn_upd by lia. destruct (Z.eq_dec _ _); congruence.
  - destruct Ht as (Hx & Hp & H0 & H1 & H2 & H3).
    destruct (Z.eqb_spec (fd_ht (cd_q s)) (make_ht h0 t0)) as [Ec|Ec]; cbn [fst snd].
    + rewrite (lay_word _ _ _ _ L) in Ec. apply make_ht_inj in Ec; try lia. destruct Ec as [<- _]. subst t0.
      exists [ALin t (DPush v) (FBool true)], (a ++ [v]), (fupd st t (TDone (DPush v) (FBool true))).
      split; [reflexivity|]. split; [eapply lr_lin; [eauto|split; [lia|auto]|constructor]|].
      eapply cd_put with (h := h) (h' := h); eauto; cbn [fd_ht fd_d].
      * now apply (lay_publish _ _ _ (fd_ht (cd_q s))).
      * intros u N Ku. destruct (cd_pcs s u); cbn [dok] in *; auto; try (destruct Ku as (_ & Up & _); congruence).
        -- destruct Ku as (U1 & U2 & U3 & U4 & U5). repeat split; auto; try lia. destruct a; discriminate.
        -- destruct Ku as (U1 & U2 & U3 & U4 & rest & U5). repeat split; auto; try lia. exists (rest ++ [v]). now rewrite U5.
      * reflexivity.
    + exists [], a, st. split; [reflexivity|]. split; [constructor|]. eapply cd_put0; eauto. cbn. auto.
  - destruct Ht as [Hx Hc]. rewrite (lay_empty_eq _ _ _ _ _ L), Eh, Et. cbn [fst snd].
    destruct (Z.eqb_spec (zlen a) 0) as [Ez|Nz].
    + apply zlen_zero in Ez. subst a.
      exists [ALin t DPop (FVal f false)], [], (fupd st t (TDone DPop (FVal f false))).
      split; [reflexivity|]. split; [eapply lr_lin; [eauto|split; [reflexivity|eauto]|constructor]|].
      eapply cd_put; eauto. reflexivity.
    + exists [], a, st. split; [reflexivity|]. split; [constructor|]. eapply cd_put0; eauto.
      cbn [dok]. repeat split; auto; try lia. intros ->. now apply Nz.
  - destruct Ht as (Hx & Hc & H0 & H1 & H2). subst h0. destruct a as [|f rest]; [congruence|].
    rewrite (lay_front _ _ _ _ _ _ L). cbn [fst snd].
    exists [], (f :: rest), st. split; [reflexivity|]. split; [constructor|]. eapply cd_put0; eauto.
    cbn [dok]. repeat split; auto; try lia. eauto.
  - destruct Ht as (Hx & Hc & H0 & H1 & rest & H2). subst h0 a.
    destruct (Z.eqb_spec (fd_ht (cd_q s)) (make_ht h t0)) as [Ec|Ec]; cbn [fst snd].
    + rewrite (lay_word _ _ _ _ L) in Ec. apply make_ht_inj in Ec; try lia. destruct Ec as [_ <-].
      exists [ALin t DPop (FVal f true)], rest, (fupd st t (TDone DPop (FVal f true))).
      split; [reflexivity|]. split; [eapply lr_lin; [eauto|split; reflexivity|constructor]|].
      eapply cd_put with (h := h) (h' := (h + 1) mod n); eauto; cbn [fd_ht fd_d].
      * now apply (lay_pop _ _ _ _ (fd_ht (cd_q s))).
      * assert (Em : (h + zlen (f :: rest)) mod n = ((h + 1) mod n + zlen rest) mod n).
        { rewrite zlen_cons', Z.add_mod_idemp_l by lia. f_equal. lia. }
        rewrite zlen_cons' in Hl. intros u N Ku.
        destruct (cd_pcs s u); cbn [dok] in *; auto; try (destruct Ku as (_ & Up & _); congruence);
          rewrite Em, zlen_cons' in Ku; intuition lia.
      * reflexivity.
    + exists [], (f :: rest), st. split; [reflexivity|]. split; [constructor|]. eapply cd_put0; eauto. cbn. auto.
  - rewrite (lay_size _ _ _ _ _ L). exists [ALin t DSize (FInt (zlen a))], a, (fupd st t (TDone DSize (FInt (zlen a)))).
    split; [reflexivity|]. split; [eapply lr_lin; [eauto|split; reflexivity|constructor]|].
    cbn [fst]. eapply cd_put; eauto. reflexivity.
  - exists [ARet t op' r], a, (fupd st t TIdle). split; [reflexivity|]. split; [eapply lr_ret; [eauto|constructor]|].
    cbn [fst]. eapply cd_put; eauto. reflexivity.
Qed.
End Spsc.

Lemma lfd_spsc n p c sched : 0 < n < 2 ^ 31 -> roles p c sched ->
  linearizable (cd_spec (n - 1)) [] (snd (crun cd_step (cd_init n) sched)) /\
  forall t, cd_pcs (fst (crun cd_step (cd_init n) sched)) t <> DPanic.
Proof.
  intros Hn Hr. destruct (lin_sim_on (cd_spec (n - 1)) cd_step (cd_rel n p c)
    (fun t op => match op with DPush _ => t = p | DPop => t = c | DSize => True end)) with
    (sched := sched) (s := cd_init n) (a := @nil Z) (st := fun _ : nat => @TIdle cd_op fd_res) as (evs & a & st & E & L & (h & _ & K)).
  - intros. now apply cd_step_sim.
  - exact Hr.
  - exists 0. cbn [cd_init cd_q cd_pcs]. unfold fd_init, lfd_zero. cbn [fd_d]. cbv zeta. cbn [fd_ht fd_d].
    destruct (Z.leb_spec n 0); [lia|]. split; [apply lay_fresh; auto; apply zlen_repeat; lia|]. intros t. reflexivity.
  - split; [exists evs, a, st; auto|]. intros t Et. specialize (K t). rewrite Et in K. exact K.
Qed.
