(** Proofs: package errors step by step does what package errors does with whole critical sections. *)
From Coq Require Import ZArith List Bool Arith Lia.
From Verif Require Import GoBase GoLists GoStrings MathModel ConcBase RegModel RegSpec RaceSpec ErrConcModel ErrConcSpec ErrConcProofs ErrFineModel ErrFineRace.
Import ListNotations.
Open Scope Z_scope.

Definition elems (s : ef_state) : list (list Z) := map (ef_mem s (ef_arr s)) (seq 0 (ef_len s)).
Definition kx_of (k : ef_for) : ec_pc := match k with FCall op => XCall op | FShow buf id => XStr buf id end.
Definition look (k : ef_for) : Prop := match k with FCall (EGet _) | FCall (EString _) | FCall (EText _ _) | FShow _ _ => True | _ => False end.
Definition next_of (k : ef_for) (n : list Z) (ok : bool) : ec_pc :=
  match for_next k n ok with FRet op r => XRet op r | FLoop buf id => XLoop buf id | _ => XDead end.
Definition pcr (e : errs) (p : ef_pc) (x : ec_pc) : Prop :=
  match p with
  | FIdle => x = XIdle
  | FLock n | FCheck n => x = XCall (EReg n)
  | FAppend n | FInc n => x = XCall (EReg n) /\ er_cur e <? g_id_max = true
  | FId n => x = XRet (EReg n) (EId (er_cur e) true)
  | FUnlock n r => x = XRet (EReg n) r
  | FRLock k | FValid k => look k /\ x = kx_of k
  | FIndex k => look k /\ x = kx_of k /\ err_valid e (for_id k) = true
  | FRUnlock k n ok => look k /\ x = next_of k n ok
  | FHead => x = XCall EShowAll
  | FLoop buf id => x = XLoop buf id
  | FRet op r => x = XRet op r
  | FDead => x = XDead
  end.
Definition names_rel (s : ef_state) (l : list (list Z)) : Prop :=
  match ef_w s with
  | Some t => match ef_pcs s t with FInc n => elems s = l ++ [n] | _ => elems s = l end
  | None => elems s = l
  end.
Record rel (s : ef_state) (c : ec_state) : Prop := {
  r_cur : ef_cur s = er_cur (ec_errs c);
  r_names : names_rel s (er_names (ec_errs c));
  r_pcs : forall t, pcr (ec_errs c) (ef_pcs s t) (ec_pcs c t) }.

Lemma rel_init : rel ef_init ec_init.
Proof. constructor; reflexivity. Qed.

Lemma pcr_other e e' p x : wpc p = false -> rpc p = false -> pcr e p x -> pcr e' p x.
Proof. destruct p; cbn; try discriminate; auto. Qed.

Lemma elems_append grow s n : elems (ef_append grow s n) = elems s ++ [n].
Proof.
  unfold elems, ef_append. destruct (_ <? _)%nat; cbn [ef_mem ef_arr ef_len]; rewrite seq_S, map_app; cbn [map Nat.add]; f_equal.
  - apply map_ext_in. intros i Hi. apply in_seq in Hi. rewrite fupd_same, fupd_other; [reflexivity|lia].
  - now rewrite !fupd_same.
  - apply map_ext_in. intros i Hi. apply in_seq in Hi. rewrite fupd_same. assert (i <? ef_len s = true)%nat as -> by (apply Nat.ltb_lt; lia). reflexivity.
  - rewrite fupd_same, Nat.ltb_irrefl, Nat.eqb_refl. reflexivity.
Qed.

Lemma zget_elems s i :
  zget (elems s) i = if (0 <=? i) && (i <? Z.of_nat (ef_len s)) then Ok (ef_mem s (ef_arr s) (Z.to_nat i)) else Panic.
Proof.
  unfold zget, aget. destruct (Z.ltb_spec i 0) as [H|H].
  - assert (0 <=? i = false) as -> by lia. reflexivity.
  - assert (0 <=? i = true) as -> by lia. cbn [andb]. unfold elems.
    destruct (Z.ltb_spec i (Z.of_nat (ef_len s))) as [K|K].
    + erewrite map_nth_error; [reflexivity|].
      rewrite nth_error_nth' with (d := O) by (rewrite seq_length; lia). rewrite seq_nth by lia. reflexivity.
    + assert (nth_error (map (ef_mem s (ef_arr s)) (seq 0 (ef_len s))) (Z.to_nat i) = None) as ->; [|reflexivity].
      apply nth_error_None. rewrite map_length, seq_length. lia.
Qed.

(** A step that changes neither the variables nor what the lock says. *)
Lemma rel_go s c t pc x : rel s c -> pcr (ec_errs c) pc x ->
  (forall n, ef_w s = Some t -> ef_pcs s t = FInc n -> False) -> (forall n, ef_w s = Some t -> pc = FInc n -> False) ->
  rel (ef_go s t pc) (EcState (ec_errs c) (fupd (ec_pcs c) t x)).
Proof.
  intros [A B C] Hp N1 N2. constructor; cbn.
  - exact A.
  - unfold names_rel in *. cbn. destruct (ef_w s) as [u|] eqn:E; [|exact B]. destruct (Nat.eq_dec u t) as [->|Nu].
    + rewrite fupd_same. change (elems (ef_go s t pc)) with (elems s).
      assert (K : elems s = er_names (ec_errs c)). { destruct (ef_pcs s t) eqn:Ep; auto. exfalso. now eapply N1. }
      destruct pc; auto. exfalso. now eapply N2.
    + rewrite fupd_other by exact Nu. exact B.
  - intros u. unfold fupd. destruct (u =? t)%nat; auto.
Qed.
(** The same when the lock changes hands: nobody is between append and the increment. *)
Lemma rel_lock s c t w rs seen pc x : rel s c -> pcr (ec_errs c) pc x ->
  (forall u n, ef_w s = Some u -> ef_pcs s u = FInc n -> False) -> (forall u, w = Some u -> u = t) -> (forall n, pc <> FInc n) ->
  rel (ef_go (ef_set_lock s w rs seen) t pc) (EcState (ec_errs c) (fupd (ec_pcs c) t x)).
Proof.
  intros [A B C] Hp N1 N2 N3.
  assert (K : elems s = er_names (ec_errs c)).
  { unfold names_rel in B. destruct (ef_w s) as [u|] eqn:E; [|exact B]. destruct (ef_pcs s u) eqn:Ep; auto. exfalso. eapply (N1 u); eauto. }
  constructor; cbn.
  - exact A.
  - unfold names_rel. cbn. change (elems (ef_go (ef_set_lock s w rs seen) t pc)) with (elems s). destruct w as [u|]; [|exact K].
    rewrite (N2 u eq_refl), fupd_same. destruct pc; auto. now edestruct N3.
  - intros u. unfold fupd. destruct (u =? t)%nat; auto.
Qed.
(** A step of which the other model knows nothing. *)
Lemma rel_stay s c t : rel s (EcState (ec_errs c) (fupd (ec_pcs c) t (ec_pcs c t))) -> rel s c.
Proof.
  intros [A B C]. constructor; [exact A|exact B|]. intros u. pose proof (C u) as K. cbn [ec_errs ec_pcs] in K. unfold fupd in K.
  destruct (Nat.eqb_spec u t) as [E|N]; [rewrite E in *|]; exact K.
Qed.

Lemma sim1 grow s c t op : li s -> rel s c ->
  (rel (fst (ef_step grow s t op)) c /\ snd (ef_step grow s t op) = []) \/
  (rel (fst (ef_step grow s t op)) (fst (ec_step c t op)) /\ snd (ef_step grow s t op) = snd (ec_step c t op)).
Proof.
  intros Hli H. pose proof (r_pcs s c H t) as Hp.
  assert (Hw : wpc (ef_pcs s t) = true -> ef_w s = Some t) by apply (li_w s Hli).
  assert (Hr : rpc (ef_pcs s t) = true -> ef_w s = None /\ In t (ef_rs s)).
  { intros E. apply (li_r s Hli) in E. split; [|exact E]. destruct (ef_w s) eqn:Ew; [|reflexivity].
    rewrite (li_x s Hli) in E by congruence. contradiction. }
  assert (Hnw : wpc (ef_pcs s t) = false -> ef_w s <> Some t). { intros E K. apply (li_w s Hli) in K. congruence. }
  assert (Hone : forall u n, ef_w s = Some u -> ef_pcs s u = FInc n -> wpc (ef_pcs s u) = true) by (intros u n _ ->; reflexivity).
  unfold ef_step. destruct (ef_pcs s t) eqn:E; cbn [pcr wpc rpc] in *.
  - right. unfold ec_step. rewrite Hp. split; [|reflexivity].
    apply rel_go; auto; try (intros n Hx; now apply Hnw in Hx). destruct op; cbn; auto.
  - left. destruct (ef_w s) eqn:Ew; [now split|]. destruct (ef_rs s) eqn:Er; [|now split]. split; [|reflexivity].
    apply (rel_stay _ c t). rewrite Hp. apply rel_lock; auto; try congruence; try (now (cbn; auto)).
  - destruct (Z.ltb_spec (ef_cur s) g_id_max) as [L|L].
    + left. split; [|reflexivity]. apply (rel_stay _ c t). rewrite Hp. apply rel_go; auto; try congruence. cbn. split; [reflexivity|].
      rewrite <- (r_cur s c H). now apply Z.ltb_lt.
    + right. unfold ec_step. rewrite Hp. cbn [er_step]. unfold err_reg. rewrite <- (r_cur s c H).
      assert (ef_cur s <? g_id_max = false) as -> by (apply Z.ltb_ge; exact L). cbn [fst snd]. split; [|reflexivity].
      apply rel_go; auto; try congruence; try (now (cbn; auto)).
  - left. split; [|reflexivity]. destruct Hp as [Hp Hc]. specialize (Hw eq_refl). destruct H as [A B C].
    assert (Ew : ef_w (ef_append grow s name) = ef_w s) by (unfold ef_append; now destruct (_ <? _)%nat).
    assert (Ec : ef_cur (ef_append grow s name) = ef_cur s) by (unfold ef_append; now destruct (_ <? _)%nat).
    assert (Ep : ef_pcs (ef_append grow s name) = ef_pcs s) by (unfold ef_append; now destruct (_ <? _)%nat).
    constructor; cbn.
    + now rewrite Ec.
    + unfold names_rel in *. cbn. rewrite Ew, Hw in *. rewrite fupd_same. rewrite E in B.
      fold (elems (ef_append grow s name)). rewrite elems_append. now f_equal.
    + intros u. rewrite Ep. unfold fupd. destruct (Nat.eqb_spec u t) as [->|N]; [cbn; auto|apply C].
  - right. destruct Hp as [Hp Hc]. specialize (Hw eq_refl). destruct H as [A B C].
    unfold ec_step. rewrite Hp. cbn [er_step]. unfold err_reg. rewrite Hc. cbn [fst snd]. split; [|reflexivity].
    constructor; cbn.
    + now rewrite A.
    + unfold names_rel in *. cbn. rewrite Hw in *. rewrite fupd_same. rewrite E in B. exact B.
    + intros u. unfold fupd. destruct (Nat.eqb_spec u t) as [->|N]; [cbn; reflexivity|].
      apply (pcr_other (ec_errs c)); [| |apply C].
      * destruct (wpc (ef_pcs s u)) eqn:Ku; [|reflexivity]. apply (li_w s Hli) in Ku. congruence.
      * destruct (rpc (ef_pcs s u)) eqn:Ku; [|reflexivity]. apply (li_r s Hli) in Ku. rewrite (li_x s Hli) in Ku by congruence. contradiction.
  - left. split; [|reflexivity]. apply (rel_stay _ c t). rewrite Hp. apply rel_go; auto; try congruence. cbn. now rewrite (r_cur s c H).
  - left. split; [|reflexivity]. apply (rel_stay _ c t). rewrite Hp. specialize (Hw eq_refl).
    apply rel_lock; auto; try congruence; try (now (cbn; auto)).
  - left. destruct Hp as [Hk Hp]. destruct (ef_w s) eqn:Ew; [now split|]. split; [|reflexivity].
    apply (rel_stay _ c t). rewrite Hp. apply rel_lock; auto; try congruence; try (now (cbn; auto)).
  - destruct Hp as [Hk Hp]. destruct (Hr eq_refl) as [Hn _].
    assert (Ev : (g_id_min <=? for_id k) && (for_id k <=? ef_cur s) = err_valid (ec_errs c) (for_id k)) by (unfold err_valid; now rewrite (r_cur s c H)).
    rewrite Ev. destruct (err_valid (ec_errs c) (for_id k)) eqn:V.
    + left. split; [|reflexivity]. apply (rel_stay _ c t). rewrite Hp. apply rel_go; auto; try congruence; try (now (cbn; auto)).
    + right. assert (G : err_get (ec_errs c) (for_id k) = Ok ([], false)) by (unfold err_get; now rewrite V).
      unfold ec_step. rewrite Hp. destruct k as [[n|id|id|id msg|]|buf id]; try contradiction; cbn [kx_of er_step for_id] in *;
        unfold err_string, err_text; rewrite G; cbn [bind fst snd]; (split; [|reflexivity]);
        apply rel_go; auto; try congruence; cbn; auto.
  - right. destruct Hp as (Hk & Hp & V). destruct (Hr eq_refl) as [Hn _].
    assert (Hnames : elems s = er_names (ec_errs c)). { pose proof (r_names s c H) as B. unfold names_rel in B. now rewrite Hn in B. }
    assert (G : err_get (ec_errs c) (for_id k) =
      if (0 <=? wrap 32 (for_id k - g_id_min)) && (wrap 32 (for_id k - g_id_min) <? Z.of_nat (ef_len s))
      then Ok (ef_mem s (ef_arr s) (Z.to_nat (wrap 32 (for_id k - g_id_min))), true) else Panic).
    { unfold err_get. rewrite V, <- Hnames, zget_elems. now destruct (_ && _). }
    cbv zeta. cbn [fst snd]. destruct ((0 <=? wrap 32 (for_id k - g_id_min)) && (wrap 32 (for_id k - g_id_min) <? Z.of_nat (ef_len s))) eqn:Hi.
    + unfold ec_step. rewrite Hp. destruct k as [[n|id|id|id msg|]|buf id]; try contradiction; cbn [kx_of er_step for_id] in *;
        unfold err_string, err_text; rewrite G; cbn [bind fst snd]; (split; [|reflexivity]);
        apply rel_go; auto; try congruence; cbn; auto.
    + unfold ec_step. rewrite Hp. destruct k as [[n|id|id|id msg|]|buf id]; try contradiction; cbn [kx_of er_step for_id] in *;
        unfold err_string, err_text; rewrite G; cbn [bind fst snd]; (split; [|reflexivity]);
        apply rel_go; auto; try congruence; cbn; auto.
  - left. split; [|reflexivity]. destruct Hp as [Hk Hp]. destruct (Hr eq_refl) as [Hn _].
    apply (rel_stay _ c t). rewrite Hp. apply rel_lock; auto; try congruence.
    + destruct k as [[]|]; try contradiction; cbn; reflexivity.
    + intros m. destruct k as [[]|]; discriminate.
  - right. unfold ec_step. rewrite Hp. cbn [fst snd]. split; [|reflexivity]. rewrite (r_cur s c H).
    apply rel_go; auto; try congruence; try (now (cbn; auto)).
  - right. unfold ec_step. rewrite Hp. rewrite (r_cur s c H). cbn [fst snd].
    destruct (id <=? er_cur (ec_errs c)); (split; [|reflexivity]); apply rel_go; auto; try congruence; cbn; auto.
  - right. unfold ec_step. rewrite Hp. cbn [fst snd]. split; [|reflexivity]. apply rel_go; auto; try congruence; try (now (cbn; auto)).
  - left. now split.
Qed.

Lemma sim_run grow sched : forall s c, li s -> rel s c ->
  exists sched', incl sched' sched /\ snd (crun (ef_step grow) s sched) = snd (crun ec_step c sched') /\
    rel (fst (crun (ef_step grow) s sched)) (fst (crun ec_step c sched')).
Proof.
  induction sched as [|[t op] sched IH]; intros s c Hli H.
  - exists []. cbn. split; [apply incl_refl|]. auto.
  - cbn [crun]. pose proof (li_step grow s t op Hli) as Hli'. destruct (sim1 grow s c t op Hli H) as [[A B]|[A B]].
    + destruct (ef_step grow s t op) as [s1 h1]. cbn [fst snd] in *. subst h1.
      destruct (IH s1 c Hli' A) as (sc & I1 & I2 & I3). exists sc.
      destruct (crun (ef_step grow) s1 sched) as [s2 h2]. cbn [fst snd app] in *. split; [intros x Hx; right; now apply I1|auto].
    + destruct (ef_step grow s t op) as [s1 h1]. destruct (ec_step c t op) as [c1 g1] eqn:Ec. cbn [fst snd] in *. subst h1.
      destruct (IH s1 c1 Hli' A) as (sc & I1 & I2 & I3). exists ((t, op) :: sc). cbn [crun]. rewrite Ec.
      destruct (crun (ef_step grow) s1 sched) as [s2 h2]. destruct (crun ec_step c1 sc) as [c2 g2]. cbn [fst snd] in *.
      split; [|split; [now f_equal|exact I3]]. intros x [<-|Hx]; [now left|right; now apply I1].
Qed.

Theorem fine_refines grow sched : exists sched', incl sched' sched /\
  snd (crun (ef_step grow) ef_init sched) = snd (crun ec_step ec_init sched').
Proof. destruct (sim_run grow sched ef_init ec_init li_init rel_init) as (sc & A & B & _). eauto. Qed.
Theorem fine_lin grow sched : Forall (fun e => er_ok (snd e) /\ snd e <> EShowAll) sched ->
  linearizable er_seq [] (snd (crun (ef_step grow) ef_init sched)).
Proof.
  intros H. destruct (fine_refines grow sched) as (sc & A & ->). apply ec_lin. apply Forall_forall. intros x Hx.
  rewrite Forall_forall in H. apply H. now apply A.
Qed.
Theorem fine_no_panic grow sched t : sched_ok sched -> ef_pcs (fst (crun (ef_step grow) ef_init sched)) t <> FDead.
Proof.
  intros H E. destruct (sim_run grow sched ef_init ec_init li_init rel_init) as (sc & A & _ & R).
  pose proof (r_pcs _ _ R t) as Hp. rewrite E in Hp. cbn in Hp. apply (no_dead sc t); [|exact Hp].
  apply Forall_forall. intros x Hx. unfold sched_ok in H. rewrite Forall_forall in H. apply H. now apply A.
Qed.
