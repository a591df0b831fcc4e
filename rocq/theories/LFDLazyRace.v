(** The deque without Init has no data race, if one goroutine pushes and one pops. *)
From Coq Require Import ZArith List Bool Lia.
From Verif Require Import GoBase ConcBase LFDModel LFDSpec LFDProofs LFDConc RaceSpec RaceBase RaceModel LFDRace LFDLazyModel LFDLazyProofs.
Import ListNotations.
Open Scope Z_scope.

(** The order of a part of a trace is that of the whole. *)
Lemma hb_shift {L} (tr0 tr : trace L) i j : hb tr i j -> hb (tr0 ++ tr) (length tr0 + i)%nat (length tr0 + j)%nat.
Proof.
  assert (N : forall k x, nth_error tr k = Some x -> nth_error (tr0 ++ tr) (length tr0 + k)%nat = Some x).
  { intros k x H. rewrite nth_error_app2 by lia. replace (length tr0 + k - length tr0)%nat with k by lia. exact H. }
  induction 1 as [i j t a b H1 H2 H3 | i j (t & u & a & b & H1 & H2 & H3 & H4 & H5 & H6 & H7 & H8 & H9) | i j k H1 IH1 H2 IH2].
  - apply (hb_po _ _ _ t a b); [lia | now apply N | now apply N].
  - apply hb_sync. exists t, u, a, b. repeat split; auto; [lia |]. intros k v c Hk Hc Hl.
    rewrite nth_error_app2 in Hc by lia. apply (H9 (k - length tr0)%nat v c); [lia | exact Hc | exact Hl].
  - eapply hb_trans; eauto.
Qed.

Section LZ.
Variables (p c : nat).
Notation reader pc := (match pc with DPopRead _ _ | DPopCas _ _ _ => True | _ => False end).
Notation pusher pc := (match pc with DPushLoad _ | DPushFull _ | DPushWrite _ _ _ | DPushCas _ _ _ => True | _ => False end).

(** Accesses before the buffer is ready. *)
Definition early (u : nat) (a : acc fd_loc) : Prop :=
  (u = p /\ (a = PRead DBuf \/ a = PWrite DBuf \/ a = AStore DWord \/ a = PWrite DBusy)) \/ a = ALoad DWord.
Definition all_early (tr : trace fd_loc) : Prop := forall e u a, nth_error tr e = Some (u, a) -> early u a.
(** Who reads the field d knows that it has been written. *)
Definition known (tr : trace fd_loc) : Prop := forall e u, nth_error tr e = Some (u, PWrite DBuf) -> u = p /\ kx tr DWord e.
Definition ordered (tr : trace fd_loc) : Prop :=
  forall i j t u, (i < j)%nat -> nth_error tr i = Some (t, PWrite DBuf) -> nth_error tr j = Some (u, PRead DBuf) -> t <> u -> hb tr i j.
Definition knows (tr : trace fd_loc) (u : nat) : Prop := forall e w, nth_error tr e = Some (w, PWrite DBuf) -> kn tr u e.
Record KI (f : nat -> cd_pc) (tr : trace fd_loc) : Prop := {
  k_known : known tr;
  k_ord : ordered tr;
  k_read : forall u, reader (f u) -> u = p \/ knows tr u }.

Lemma ki_ev f tr t a : KI f tr -> a <> PWrite DBuf -> (writes a = true -> loc_of a = DWord -> a = ARmw DWord) ->
  (a = PRead DBuf -> t = p \/ knows tr t) -> KI f (tr ++ [(t, a)]).
Proof.
  intros H N W R. constructor.
  - intros e u He. apply nth_snoc in He. destruct He as [He | [-> He]]; [| congruence]. destruct (k_known _ _ H e u He) as (E & K).
    split; [exact E |]. destruct (writes a) eqn:Ew.
    + assert (D : loc_of a = DWord \/ loc_of a <> DWord) by (destruct (loc_of a); (now left) || (right; discriminate)).
      destruct D as [D | D]; [rewrite (W eq_refl D); apply kx_rmw; now left | apply kx_other; [now intros _ | exact K]].
    + apply kx_other; [congruence | exact K].
  - intros i j v u Hij Hi Hj Hvu. apply nth_snoc in Hi, Hj. destruct Hi as [Hi | [-> Hi]]; [| congruence].
    destruct Hj as [Hj | [-> Hj]]; [apply hb_snoc; now apply (k_ord _ _ H i j v u) |]. injection Hj as -> <-.
    apply kn_hb. destruct (R eq_refl) as [-> | K]; [| now apply (K i v)].
    destruct (k_known _ _ H i v Hi) as (E & _). congruence.
  - intros u Hu. destruct (k_read _ _ H u Hu) as [-> | K]; [now left | right]. intros e w He.
    apply nth_snoc in He. destruct He as [He | [-> He]]; [apply kn_snoc; now apply (K e w) | congruence].
Qed.
Lemma ki_goto f tr t pc : KI f tr -> (reader pc -> t = p \/ knows tr t) -> KI (fupd f t pc) tr.
Proof.
  intros H R. constructor; try apply H. intros u. unfold fupd. destruct (Nat.eqb_spec u t) as [-> | N]; [exact R | apply (k_read _ _ H)].
Qed.
Lemma knows_load f tr t : KI f tr -> knows (tr ++ [(t, ALoad DWord)]) t.
Proof.
  intros H e w He. apply nth_snoc in He. destruct He as [He | [-> He]]; [| congruence].
  apply kn_load; [reflexivity | reflexivity |]. apply (k_known _ _ H e w He).
Qed.
Lemma knows_snoc tr t x : x <> (fst x, PWrite DBuf) -> knows tr t -> knows (tr ++ [x]) t.
Proof.
  intros N K e w He. apply nth_snoc in He. destruct He as [He | [-> He]]; [apply kn_snoc; now apply (K e w) |]. subst x. now elim N.
Qed.

Lemma ki_step s tr t op : (forall u, pusher (cd_pcs s u) -> u = p) -> (match op with DPush _ => t = p | _ => True end) -> KI (cd_pcs s) tr ->
  KI (cd_pcs (fst (cd_step s t op))) (tr ++ map (pair t) (cd_accs s t op)).
Proof.
  intros Hp Ho H. pose proof (Hp t) as Hpt. pose proof (k_read _ _ H t) as Hr.
  assert (C2 : forall (x y : acc fd_loc), tr ++ map (pair t) [x; y] = (tr ++ [(t, x)]) ++ [(t, y)]) by (intros; now rewrite <- app_assoc).
  assert (Ev : forall f tr a, KI f tr -> match a with PRead l => l = DBuf -> t = p \/ knows tr t | PWrite l => match l with DCell _ => True | _ => False end | ALoad _ | ARmw _ => True | AStore _ => False end ->
    KI f (tr ++ [(t, a)])).
  { intros f tr' a K E. apply ki_ev; [exact K | | |]; destruct a as [l | l | l | l | l]; cbn in *; try discriminate; try contradiction.
    - intros X. injection X as ->. contradiction.
    - intros _ ->. contradiction.
    - intros _ ->. reflexivity.
    - intros X. injection X as ->. now apply E. }
  unfold cd_step, cd_accs. destruct (cd_pcs s t) as [|v|v|v h0 t0|v h0 t0|f|h0 t0|h0 t0 f| |op' r|] eqn:E.
  - cbn [fst]. destruct op; cbn [map]; rewrite ?app_nil_r; apply ki_goto; try contradiction; try exact H. apply Ev; [exact H |]. intros _. now left.
  - cbn [fst]. rewrite C2. assert (t = p) by now apply Hpt. apply ki_goto; [| now left].
    apply Ev; [| now left]. now apply Ev.
  - cbn [fst map]. apply ki_goto; [| contradiction]. now apply Ev.
  - assert (t = p) by now apply Hpt. destruct (zset (fd_d (cd_q s)) t0 v); destruct (zget (fd_d (cd_q s)) t0); cbn [fst]; (apply ki_goto; [| now left]);
      first [rewrite C2; apply Ev; [| exact Logic.I] | cbn [map]]; (apply Ev; [exact H | now left]).
  - assert (t = p) by now apply Hpt. destruct (_ =? _); cbn [fst]; rewrite C2; (apply ki_goto; [| now left]); (apply Ev; [| exact Logic.I]); (apply Ev; [exact H | now left]).
  - cbn [fst map]. apply ki_goto; [now apply Ev |]. intros _. right. now apply (knows_load (cd_pcs s)).
  - assert (K : t = p \/ knows tr t) by now apply Hr.
    assert (B : KI (cd_pcs s) (tr ++ [(t, PRead DBuf)])) by (apply Ev; [exact H | now intros _]).
    assert (K2 : t = p \/ knows (tr ++ [(t, PRead DBuf)]) t) by (destruct K; [now left | right; apply knows_snoc; [discriminate | assumption]]).
    destruct (zget (fd_d (cd_q s)) h0); cbn [fst].
    + rewrite C2. apply ki_goto; [apply Ev; [exact B | discriminate] |]. intros _. destruct K2; [now left | right]. apply knows_snoc; [discriminate | assumption].
    + apply ki_goto; [exact B | contradiction].
    + apply ki_goto; [exact B | contradiction].
  - assert (K : t = p \/ knows tr t) by now apply Hr.
    assert (B : KI (cd_pcs s) (tr ++ [(t, PRead DBuf)])) by (apply Ev; [exact H | now intros _]).
    destruct (_ =? _); cbn [fst]; rewrite C2; (apply ki_goto; [now apply Ev | contradiction]).
  - cbn [fst]. apply ki_goto; [| contradiction]. destruct (_ <=? _); [now apply Ev |]. rewrite C2. apply Ev; [now apply Ev |].
    intros _. right. now apply (knows_load (cd_pcs s)).
  - cbn [fst map]. rewrite app_nil_r. apply ki_goto; [exact H | contradiction].
  - cbn [fst map]. rewrite app_nil_r. apply ki_goto; [exact H | contradiction].
Qed.

Lemma rel_pusher s a st u : cd_rel 8 p c s a st -> pusher (cd_pcs s u) -> u = p.
Proof. intros (h & _ & K) H. specialize (K u). destruct (cd_pcs s u); try contradiction; cbn in K; tauto. Qed.
Lemma ki_run sched : roles p c sched -> forall s a st tr, cd_rel 8 p c s a st -> KI (cd_pcs s) tr -> ordered (tr ++ trace_of cd_step cd_accs s sched).
Proof.
  induction 1 as [| [t op] sched Ho Hs IH]; intros s a st tr R H.
  - cbn. rewrite app_nil_r. apply (k_ord _ _ H).
  - cbn [trace_of]. rewrite app_assoc. destruct (cd_step_sim 8 p c s a st t op Ho R) as (evs & a' & st' & _ & _ & R').
    apply (IH _ a' st'); [exact R' |]. apply ki_step; [intros u; now apply (rel_pusher s a st) | now destruct op | exact H].
Qed.

(** After the buffer is ready the two machines make the same accesses. *)
Lemma after_trace sched : forall s b, after s b -> trace_of cz_step cz_accs s sched = trace_of cd_step cd_accs b sched.
Proof.
  induction sched as [| [t op] sched IH]; intros s b A; [reflexivity |]. cbn [trace_of]. destruct (after_step s b t op A) as (_ & A').
  rewrite (IH _ _ A'). f_equal. f_equal. destruct A as (Q & _ & P). unfold cz_accs. rewrite (P t). unfold cd_accs, cz_at_pc. cbn [cd_q cd_pcs].
  now rewrite Q.
Qed.

(** All of it. *)
Lemma early_free tr : all_early tr -> race_free tr.
Proof.
  intros H i j (t & u & a & b & _ & Hi & Hj & Ne & (Hl & Hw & Ha) & _).
  destruct (H _ _ _ Hi) as [(-> & A) | ->], (H _ _ _ Hj) as [(-> & B) | ->]; try congruence.
  - destruct A as [-> | [-> | [-> | ->]]]; cbn in *; try discriminate; intuition discriminate.
  - destruct B as [-> | [-> | [-> | ->]]]; cbn in *; try discriminate; intuition discriminate.
  - cbn in *. intuition discriminate.
Qed.
Lemma join_free tr0 tr1 s' : all_early tr0 -> D p c s' tr1 -> ordered (tr0 ++ tr1) -> race_free (tr0 ++ tr1).
Proof.
  intros H D1 O i j (t & u & a & b & Hij & Hi & Hj & Ne & Hc & Hn).
  destruct (Nat.lt_ge_cases j (length tr0)) as [Lj | Lj].
  - apply (early_free tr0 H i j). rewrite nth_error_app1 in Hi, Hj by lia. exists t, u, a, b. repeat split; auto; try apply Hc.
    intros Hh. apply Hn. clear - Hh Lj. revert Lj. induction tr1 as [| x tr1 IH] using rev_ind; [now rewrite app_nil_r |].
    intros L. rewrite app_assoc. apply hb_snoc. now apply IH.
  - rewrite nth_error_app2 in Hj by lia. pose proof (d_acc _ _ _ _ D1 _ _ _ Hj) as Vj.
    destruct (Nat.lt_ge_cases i (length tr0)) as [Li | Li].
    + pose proof Hi as Hi'. rewrite nth_error_app1 in Hi' by lia. destruct Hc as (Hl & Hw & Ha).
      destruct (H _ _ _ Hi') as [(-> & [-> | [-> | [-> | ->]]]) | ->]; destruct b as [l | l | l | l | l]; cbn in Hl, Hw, Ha, Vj; subst l; cbn in Vj;
        try contradiction; try (intuition discriminate); try congruence.
      apply Hn. apply (O i j p u Hij Hi); [rewrite nth_error_app2 by lia; exact Hj | exact Ne].
    + rewrite nth_error_app2 in Hi by lia. apply (d_free _ _ _ _ D1 (i - length tr0) (j - length tr0))%nat.
      exists t, u, a, b. repeat split; auto; try apply Hc; [lia |]. intros Hh. apply Hn. apply (hb_shift tr0) in Hh.
      replace (length tr0 + (i - length tr0))%nat with i in Hh by lia. replace (length tr0 + (j - length tr0))%nat with j in Hh by lia. exact Hh.
Qed.
Lemma after_free sched s b a st tr : roles p c sched -> after s b -> cd_rel 8 p c b a st -> all_early tr -> KI (cd_pcs b) tr ->
  race_free (tr ++ trace_of cz_step cz_accs s sched).
Proof.
  intros R A Rel E K. rewrite (after_trace sched s b A).
  destruct (d_run_state 8 p c sched R b a st [] Rel (d_nil p c b)) as (s' & D'). cbn in D'.
  apply (join_free _ _ s'); [exact E | exact D' |]. now apply (ki_run sched R b a st).
Qed.

(** The part before. *)
Definition nowrite (tr : trace fd_loc) : Prop := forall e u, nth_error tr e <> Some (u, PWrite DBuf).
Lemma early_snoc tr t a : all_early tr -> early t a -> all_early (tr ++ [(t, a)]).
Proof. intros H A e u b He. apply nth_snoc in He. destruct He as [He | [-> He]]; [now apply (H e) |]. injection He as -> ->. exact A. Qed.
Lemma nowrite_snoc tr t a : nowrite tr -> a <> PWrite DBuf -> nowrite (tr ++ [(t, a)]).
Proof. intros H A e u He. apply nth_snoc in He. destruct He as [He | [-> He]]; [now apply (H e u) |]. congruence. Qed.
Lemma early_ordered tr : all_early tr -> ordered tr.
Proof.
  intros H i j t u _ Hi Hj N. exfalso. destruct (H _ _ _ Hi) as [(-> & _) | E]; [| discriminate]. destruct (H _ _ _ Hj) as [(-> & _) | E]; [now apply N | discriminate].
Qed.
Definition first_phase (s : cz_state) : Prop :=
  cz_q s = lfd_zero /\ forall t, match cz_pcs s t with ZBase pc => quiet pc | ZInit _ | ZMake _ => t = p | _ => False end.
Definition second_phase (s : cz_state) : Prop :=
  cz_q s = fresh8 /\ (exists v, cz_pcs s p = ZStore v \/ cz_pcs s p = ZBusy v) /\ forall t, t <> p -> match cz_pcs s t with ZBase pc => quiet pc | _ => False end.

Lemma quiet_accs s t op pc : cz_pcs s t = ZBase pc -> quiet pc -> fd_ht (cz_q s) = 0 -> (forall v, pc = DIdle -> op <> DPush v) ->
  (cz_accs s t op = [] \/ cz_accs s t op = [ALoad DWord]) /\
  exists pc', quiet pc' /\ cz_q (fst (cz_step s t op)) = cz_q s /\ forall u, cz_pcs (fst (cz_step s t op)) u = fupd (cz_pcs s) t (ZBase pc') u.
Proof.
  intros E Q W N. split.
  - unfold cz_accs. rewrite E. unfold cd_accs, cz_at_pc. cbn [cd_q cd_pcs]. rewrite W.
    destruct pc; try contradiction; try (now right); try (now left). destruct op as [v | |]; [now elim (N v) | now left | now left].
  - destruct (quiet_step s (cz_at_pc s pc) t op) as (pc' & Q' & _ & E2 & _); cbn; try assumption.
    exists pc'. rewrite E2. now repeat split.
Qed.

Lemma phase_free sched : roles p c sched -> forall s b a st tr, sim p s b -> cd_rel 8 p c b a st -> all_early tr ->
  (first_phase s /\ nowrite tr) \/
  (second_phase s /\ (forall v, cz_pcs s p = ZBusy v -> known tr)) ->
  race_free (tr ++ trace_of cz_step cz_accs s sched).
Proof.
  induction 1 as [| [t op] sched Ho Hs IH]; intros s b a st tr S Rel E Ph; [cbn; rewrite app_nil_r; now apply early_free |].
  cbn [trace_of]. rewrite app_assoc.
  destruct (sim_step p c s b t op Ho S) as (l & Hl & _ & S').
  assert (Rel' : exists a' st', cd_rel 8 p c (fst (crun cd_step b l)) a' st').
  { destruct Hl as [-> | ->]; [now exists a, st |]. destruct (cd_step_sim 8 p c b a st t op Ho Rel) as (evs & a' & st' & _ & _ & R').
    exists a', st'. cbn. destruct (cd_step b t op). exact R'. }
  destruct Rel' as (a' & st' & Rel'). set (b' := fst (crun cd_step b l)) in *.
  destruct Ph as [((Q & P) & Nw) | ((Q & (v & Ev) & P) & Kn)].
  - pose proof (P t) as Pt. destruct (cz_pcs s t) as [pc | v | v | v | v] eqn:Es; [| | | contradiction | contradiction].
    + assert (Dp : (exists v, pc = DIdle /\ op = DPush v) \/ forall v, pc = DIdle -> op <> DPush v).
      { destruct op; [| right; discriminate | right; discriminate]. destruct pc; try (right; discriminate). left. now exists v. }
      destruct Dp as [(v & -> & ->) | Dp].
      * assert (Ea : cz_accs s t (DPush v) = [PRead DBuf]) by (unfold cz_accs; rewrite Es; reflexivity). rewrite Ea. cbn [map].
        eapply IH; [exact S' | exact Rel' | |].
        -- apply early_snoc; [exact E |]. left. split; [exact Ho | now left].
        -- left. split; [| apply nowrite_snoc; [exact Nw | discriminate]]. unfold cz_step. rewrite Es, Q. cbn. split; [reflexivity |].
           intros u. cbn. unfold fupd. destruct (Nat.eqb_spec u t) as [-> | Nu]; [exact Ho | apply P].
      * destruct (quiet_accs s t op pc) as (Ha & pc' & Q' & E1 & E2); try assumption; [now rewrite Q |].
        eapply IH; [exact S' | exact Rel' | |].
        -- destruct Ha as [-> | ->]; cbn; [now rewrite app_nil_r |]. apply early_snoc; [exact E | now right].
        -- left. split; [| destruct Ha as [-> | ->]; cbn; [now rewrite app_nil_r | apply nowrite_snoc; [exact Nw | discriminate]]].
           split; [now rewrite E1 |]. intros u. rewrite E2. unfold fupd. destruct (Nat.eqb_spec u t); [exact Q' | apply P].
    + assert (Ea : cz_accs s t op = [PRead DBuf]) by (unfold cz_accs; rewrite Es; reflexivity). rewrite Ea. cbn [map].
      eapply IH; [exact S' | exact Rel' | |].
      * apply early_snoc; [exact E |]. left. split; [exact Pt | now left].
      * left. split; [| apply nowrite_snoc; [exact Nw | discriminate]]. unfold cz_step. rewrite Es, Q. cbn. split; [reflexivity |].
        intros u. cbn. unfold fupd. destruct (Nat.eqb_spec u t) as [-> | Nu]; [exact Pt | apply P].
    + assert (Ea : cz_accs s t op = [PWrite DBuf]) by (unfold cz_accs; rewrite Es; reflexivity). rewrite Ea. cbn [map]. subst t.
      eapply IH; [exact S' | exact Rel' | |].
      * apply early_snoc; [exact E |]. left. split; [reflexivity | right; now left].
      * right. unfold cz_step. rewrite Es, Q. cbn [fst lfd_zero fd_ht fd_busy]. split.
        -- split; [reflexivity |]. cbn. split; [exists v; left; apply fupd_same |]. intros u Nu. rewrite fupd_other by exact Nu.
           specialize (P u). destruct (cz_pcs s u); auto; congruence.
        -- cbn. rewrite fupd_same. discriminate.
  - destruct (Nat.eq_dec t p) as [-> | Nt].
    + destruct Ev as [Es | Es].
      * assert (Ea : cz_accs s p op = [AStore DWord]) by (unfold cz_accs; rewrite Es; reflexivity). rewrite Ea. cbn [map].
        assert (E' : all_early (tr ++ [(p, AStore DWord)])) by (apply early_snoc; [exact E |]; left; split; [reflexivity | right; right; now left]).
        eapply IH; [exact S' | exact Rel' | exact E' |].
        right. unfold cz_step. rewrite Es, Q. cbn [fst]. split.
        -- split; [reflexivity |]. cbn. split; [exists v; right; apply fupd_same |]. intros u Nu. rewrite fupd_other by exact Nu. now apply P.
        -- intros _ _ e u He. destruct (E' _ _ _ He) as [(Eu & _) | Eu]; [| discriminate]. split; [exact Eu |]. subst u.
           apply (kx_store tr p (AStore DWord)); [reflexivity | reflexivity |]. now apply (kn_own _ p (PWrite DBuf)).
      * assert (Ea : cz_accs s p op = [PWrite DBusy]) by (unfold cz_accs; rewrite Es; reflexivity). rewrite Ea. cbn [map].
        assert (E' : all_early (tr ++ [(p, PWrite DBusy)])) by (apply early_snoc; [exact E |]; left; split; [reflexivity | right; right; now right]).
        assert (Ez : fst (cz_step s p op) = CZ fresh8 (fupd (cz_pcs s) p (ZBase (DPushLoad v)))) by (unfold cz_step; rewrite Es, Q; reflexivity).
        rewrite Ez in *. destruct S' as [(X & _) | [(_ & _ & (w & _ & X) & _) | A]]; [discriminate | cbn in X; rewrite fupd_same in X; destruct X; discriminate |].
        apply (after_free sched _ b' a' st'); try assumption. constructor.
        -- intros e u He. destruct (E' _ _ _ He) as [(Eu & _) | Eu]; [| discriminate]. split; [exact Eu |].
           apply nth_snoc in He. destruct He as [He | [-> He]]; [| congruence]. apply kx_other; [cbn; discriminate |].
           exact (proj2 (Kn v Es e u He)).
        -- now apply early_ordered.
        -- intros u Hu. exfalso. destruct A as (_ & _ & A). specialize (A u). cbn [cz_pcs] in A.
           destruct (Nat.eq_dec u p) as [Eu | Nu]; [rewrite Eu, fupd_same in A; rewrite Eu in Hu | rewrite fupd_other in A by exact Nu].
           ++ injection A as A. now rewrite <- A in Hu.
           ++ specialize (P u Nu). rewrite A in P. destruct (cd_pcs b' u); contradiction.
    + pose proof (P t Nt) as Pt. destruct (cz_pcs s t) as [pc | | | |] eqn:Es; try contradiction.
      destruct (quiet_accs s t op pc) as (Ha & pc' & Q' & E1 & E2); try assumption; [now rewrite Q | intros v' _ ->; exact (Nt Ho) |].
      eapply IH; [exact S' | exact Rel' | |].
      * destruct Ha as [-> | ->]; cbn; [now rewrite app_nil_r |]. apply early_snoc; [exact E | now right].
      * right. split.
        -- split; [now rewrite E1 |]. rewrite (E2 p), fupd_other by congruence. split; [now exists v |].
           intros u Nu. rewrite E2. unfold fupd. destruct (Nat.eqb_spec u t); [exact Q' | now apply P].
        -- intros w Hw. rewrite (E2 p), fupd_other in Hw by congruence. specialize (Kn w Hw).
           destruct Ha as [-> | ->]; cbn [map]; [now rewrite app_nil_r |]. intros e u He. apply nth_snoc in He. destruct He as [He | [-> He]]; [| congruence].
           destruct (Kn e u He) as (A & B). split; [exact A |]. apply kx_other; [discriminate | exact B].
Qed.
End LZ.

Theorem lazy_no_races p c sched : roles p c sched -> race_free (trace_of cz_step cz_accs cz_init sched).
Proof.
  intros R. apply (phase_free p c sched R cz_init (cd_init 8) [] (fun _ => TIdle) []).
  - apply sim_init.
  - exists 0. split; [| intros t; reflexivity]. apply lay_fresh; [lia |]. reflexivity.
  - intros [|]; discriminate.
  - left. split; [| intros [|]; discriminate]. split; [reflexivity |]. intros t. exact Logic.I.
Qed.
