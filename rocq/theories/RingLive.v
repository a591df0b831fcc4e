(** Progress of the blocking calls of the ring buffer: proofs for RingLiveProps. *)
From Coq Require Import ZArith List Bool Arith Lia ZifyBool ZifyNat.
From Verif Require Import GoBase GoLists ConcBase QueueProofs SpinProofs ProgSpec ProgBase RingModel RingSpec RingProofs RingLiveSpec.
Import ListNotations.
Open Scope Z_scope.

Definition bleft (pc : cr_pc) : nat :=
  match pc with
  | CIdle | CPanic => 0
  | CRet _ _ => 1
  | CSizeHead _ | CPushCas _ _ | CPopCas _ _ => 2
  | CPushWrite _ _ | CPopRead _ => 3
  | CPushWait _ _ | CPopWait _ => 4
  end%nat.
Definition stuck (s : cr_state) (t : nat) : Prop := cr_pcs (fst (cr_step s t CSize)) t = cr_pcs s t.
Definition seq_st (s s' : cr_state) : Prop := cr_ring s = cr_ring s' /\ forall u, cr_pcs s u = cr_pcs s' u.

Lemma others : forall s t op u, u <> t -> cr_pcs (fst (cr_step s t op)) u = cr_pcs s u.
Proof.
  intros s t op u N. unfold cr_step. destruct (cr_ring s) as [head head_r tail tail_r busy mask d].
  destruct (cr_pcs s t); try destruct op;
  repeat match goal with |- context [if ?c then _ else _] => destruct c | |- context [match zset ?a ?b ?c with _ => _ end] => destruct (zset a b c)
    | |- context [match zget ?a ?b with _ => _ end] => destruct (zget a b) end; cbn [fst cr_pcs]; apply fupd_other; auto.
Qed.

(** A goroutine in a call moves on or changes nothing. *)
Lemma move : forall s t op, cr_pcs s t <> CIdle ->
  invs (snd (cr_step s t op)) = [] /\
  ((stuck s t /\ seq_st s (fst (cr_step s t op))) \/
   (~ stuck s t /\ (bleft (cr_pcs (fst (cr_step s t op)) t) < bleft (cr_pcs s t))%nat)).
Proof.
  intros s t op Hb. unfold stuck, cr_step, seq_st. destruct (cr_ring s) as [head head_r tail tail_r busy mask d] eqn:Er.
  destruct (cr_pcs s t) as [|v i|v i|v i|j|j|j val|tl|op' r|] eqn:E; [congruence| | | | | | | | | ];
  repeat match goal with |- context [if ?c then _ else _] => destruct c | |- context [match zset ?a ?b ?c with _ => _ end] => destruct (zset a b c)
    | |- context [match zget ?a ?b with _ => _ end] => destruct (zget a b) end;
  cbn [fst snd cr_pcs cr_ring invs bleft]; rewrite fupd_same; (split; [reflexivity|]);
  first [ right; split; [discriminate|cbn [bleft]; lia]
        | left; split; [reflexivity|]; split; [congruence|]; intro u; rewrite <- E; apply fupd_same_fun ].
Qed.

Lemma stuck_seq : forall s s' t, seq_st s s' -> stuck s t <-> stuck s' t.
Proof.
  intros s s' t [R Q]. unfold stuck, cr_step. rewrite <- R, <- (Q t). destruct (cr_ring s) as [head head_r tail tail_r busy mask d].
  destruct (cr_pcs s t);
  repeat match goal with |- context [if ?c then _ else _] => destruct c | |- context [match zset ?a ?b ?c with _ => _ end] => destruct (zset a b c)
    | |- context [match zget ?a ?b with _ => _ end] => destruct (zget a b) end;
  cbn [fst cr_pcs]; rewrite !fupd_same; reflexivity.
Qed.
Lemma seq_trans : forall a b c, seq_st a b -> seq_st b c -> seq_st a c.
Proof. intros a b c [R Q] [R' Q']. split; [congruence|]. intro u. now rewrite Q. Qed.
Lemma seq_sym : forall a b, seq_st a b -> seq_st b a.
Proof. intros a b [R Q]. split; auto. Qed.
Lemma seq_refl : forall a, seq_st a a.
Proof. split; auto. Qed.

Lemma no_call : forall s t op rest, invs (snd (crun cr_step s ((t, op) :: rest))) = [] ->
  cr_pcs s t <> CIdle /\ invs (snd (crun cr_step (fst (cr_step s t op)) rest)) = [].
Proof.
  intros s t op rest. cbn [crun]. destruct (cr_step s t op) as [s1 e] eqn:E. destruct (crun cr_step s1 rest) as [s2 h] eqn:E2.
  cbn [fst snd]. rewrite invs_app. intro H. apply app_eq_nil in H. destruct H as [H1 H2]. split.
  - intro K. unfold cr_step in E. rewrite K in E. destruct (cr_ring s). destruct op; injection E as <- <-; discriminate.
  - rewrite E2. exact H2.
Qed.

Section Fair.
Variable P : nat.
Variable stop : nat -> bool.
Definition live (sched : list (nat * cr_op)) : Prop := forall t, In t (map fst sched) -> stop t = false.
Definition all_stuck (s : cr_state) : Prop := forall t, stop t = false -> cr_pcs s t <> CIdle -> stuck s t.
Lemma all_stuck_seq : forall s s', seq_st s s' -> all_stuck s -> all_stuck s'.
Proof. intros s s' E H t Hs Ht. apply (stuck_seq s s' t E). apply H; auto. destruct E as [_ Q]. now rewrite Q. Qed.
Lemma all_stuck_run : forall sched s, all_stuck s -> live sched -> invs (snd (crun cr_step s sched)) = [] -> seq_st s (fst (crun cr_step s sched)).
Proof.
  induction sched as [|[t op] l IH]; intros s H HL Hi; [apply seq_refl|].
  destruct (no_call _ _ _ _ Hi) as [Hb Hi'].
  destruct (move s t op Hb) as [_ [[_ E]|[K _]]]; [|exfalso; apply K; apply H; auto; apply HL; left; reflexivity].
  pose proof (IH _ (all_stuck_seq _ _ E H) ltac:(intros u Hu; apply HL; right; exact Hu) Hi') as E2.
  cbn [crun]. destruct (cr_step s t op) as [s1 e]. cbn [fst] in *.
  destruct (crun cr_step s1 l) as [s2 h]. cbn [fst] in *. now apply (seq_trans _ s1).
Qed.

Definition W (s : cr_state) : nat := sumP P (fun u => if stop u then 0%nat else bleft (cr_pcs s u)).

Lemma W_step : forall s t op, (t < P)%nat -> stop t = false -> cr_pcs s t <> CIdle ->
  (W (fst (cr_step s t op)) < W s)%nat \/ (stuck s t /\ seq_st s (fst (cr_step s t op))).
Proof.
  intros s t op Ht Hs Hb. destruct (move s t op Hb) as [_ [K|[_ K]]]; [right; exact K|left].
  unfold W. pose proof (sumP_upd P t (fun u => if stop u then 0%nat else bleft (cr_pcs s u))
    (fun u => if stop u then 0%nat else bleft (cr_pcs (fst (cr_step s t op)) u)) Ht) as U.
  cbv beta in U. rewrite Hs in U. specialize (U ltac:(intros u _ N; now rewrite others)). lia.
Qed.
Lemma W_seq : forall s s', seq_st s s' -> W s = W s'.
Proof.
  intros s s' [_ Q]. unfold W. apply Nat.le_antisymm; apply sumP_le; intros u _; rewrite Q; auto.
Qed.

Lemma round_progress : forall r s, members P r -> live r -> invs (snd (crun cr_step s r)) = [] ->
  (W (fst (crun cr_step s r)) < W s)%nat \/
  (seq_st s (fst (crun cr_step s r)) /\ forall t, In t (map fst r) -> stuck s t).
Proof.
  induction r as [|[t op] l IH]; intros s HM HL Hi; [right; split; [apply seq_refl|intros t []]|].
  inversion HM as [|? ? Ht HM']; subst. cbn [fst] in Ht. destruct (no_call _ _ _ _ Hi) as [Hb Hi'].
  pose proof (W_step s t op Ht (HL t (or_introl eq_refl)) Hb) as HW.
  specialize (IH (fst (cr_step s t op)) HM' ltac:(intros u Hu; apply HL; right; exact Hu) Hi').
  cbn [crun]. destruct (cr_step s t op) as [s1 e]. cbn [fst] in *. destruct (crun cr_step s1 l) as [s2 h]. cbn [fst map] in *.
  destruct HW as [HW|[HS E]].
  - left. destruct IH as [IH|[IH _]]; [lia|]. rewrite <- (W_seq _ _ IH). exact HW.
  - destruct IH as [IH|[IH HA]].
    + left. rewrite (W_seq _ _ E). exact IH.
    + right. split; [now apply (seq_trans _ s1)|]. intros u [->|Hu]; [exact HS|]. apply (stuck_seq s s1 u E). now apply HA.
Qed.

Lemma invs_nil_app : forall s a b, invs (snd (crun cr_step s (a ++ b))) = [] ->
  invs (snd (crun cr_step s a)) = [] /\ invs (snd (crun cr_step (fst (crun cr_step s a)) b)) = [].
Proof. intros s a b. rewrite crun_app. cbn [snd]. rewrite invs_app. apply app_eq_nil. Qed.

Lemma sum_zero : forall Q f, sumP Q f = 0%nat -> forall u, (u < Q)%nat -> f u = 0%nat.
Proof. induction Q; cbn [sumP]; intros f H u Hu; [lia|]. destruct (Nat.eq_dec u Q) as [->|]; [lia|]. apply IHQ; lia. Qed.

Lemma fair_live : forall rs s, fair_rounds stop s rs -> live (concat rs).
Proof.
  induction rs as [|r rs IH]; intros s H t Ht; [destruct Ht|]. destruct H as (_ & H1 & H2). cbn [concat] in Ht. rewrite map_app in Ht.
  apply in_app_or in Ht. destruct Ht as [Ht|Ht]; [auto|]. now apply (IH _ H2).
Qed.
Lemma fair_stuck : forall rs s, members P (concat rs) -> fair_rounds stop s rs -> invs (snd (crun cr_step s (concat rs))) = [] ->
  (forall u, (P <= u)%nat -> cr_pcs s u = CIdle) ->
  (W s <= length rs)%nat -> all_stuck (fst (crun cr_step s (concat rs))).
Proof.
  induction rs as [|r rs IH]; intros s HM HF Hi HP HW.
  - cbn [concat crun fst]. intros t Hs Ht. destruct (Nat.lt_ge_cases t P) as [L|L]; [|exfalso; auto].
    cbn [length] in HW. assert (HW0 : W s = 0%nat) by lia.
    pose proof (sum_zero P (fun u => if stop u then 0%nat else bleft (cr_pcs s u)) HW0 t L) as Z. cbv beta in Z. rewrite Hs in Z.
    unfold stuck, cr_step. destruct (cr_ring s). destruct (cr_pcs s t); cbn in Z; try lia; [congruence|].
    cbn [fst cr_pcs]. apply fupd_same.
  - pose proof (fair_live rs _ (proj2 (proj2 HF))) as HL2.
    cbn [concat] in *. apply members_app in HM. destruct HM as [M1 M2]. destruct HF as (F1 & F0 & F2).
    destruct (invs_nil_app _ _ _ Hi) as [I1 I2]. rewrite crun_app. cbn [fst].
    assert (HP' : forall u, (P <= u)%nat -> cr_pcs (fst (crun cr_step s r)) u = CIdle).
    { clear - M1 HP. revert s HP. induction r as [|[t op] l IHl]; intros s HP u Hu; [apply HP; auto|]. inversion M1 as [|? ? Ht M]; subst.
      cbn [fst] in Ht. cbn [crun]. specialize (IHl M (fst (cr_step s t op))). destruct (cr_step s t op) as [s1 e] eqn:E. cbn [fst] in *.
      destruct (crun cr_step s1 l). cbn [fst] in *. apply IHl; auto. intros w Hw.
      replace s1 with (fst (cr_step s t op)) by (now rewrite E). rewrite others by lia. auto. }
    destruct (round_progress r s M1 F0 I1) as [L|[E HA]].
    + apply IH; auto. cbn [length] in HW. lia.
    + assert (A : all_stuck (fst (crun cr_step s r))).
      { apply (all_stuck_seq s); auto. intros t Hs Ht. apply HA. now apply F1. }
      apply (all_stuck_seq (fst (crun cr_step s r))); auto. now apply all_stuck_run.
Qed.

(** A stopped goroutine stays where it is. *)
Lemma stop_stays : forall sched s t, live sched -> stop t = true -> cr_pcs (fst (crun cr_step s sched)) t = cr_pcs s t.
Proof.
  induction sched as [|[u op] l IH]; intros s t HL Ht; [reflexivity|]. cbn [crun].
  specialize (IH (fst (cr_step s u op)) t ltac:(intros w Hw; apply HL; right; exact Hw) Ht).
  rewrite others in IH by (intros ->; specialize (HL u (or_introl eq_refl)); congruence).
  destruct (cr_step s u op) as [s1 e]. cbn [fst] in *. destruct (crun cr_step s1 l). cbn [fst] in *. exact IH.
Qed.

(** ** Counting *)
Definition frp (pc : cr_pc) : nat := match pc with CRet (CPush _) _ => 1 | _ => 0 end%nat.
Definition frq (pc : cr_pc) : nat := match pc with CRet CPop _ => 1 | _ => 0 end%nat.
Definition fsz (pc : cr_pc) : nat := match pc with CSizeHead _ | CRet CSize _ => 1 | _ => 0 end%nat.
Definition sumpc (f : cr_pc -> nat) (s : cr_state) : nat := sumP P (fun u => f (cr_pcs s u)).

Record tally (s : cr_state) (h : list (ext cr_op rb_res)) : Prop := {
  ta_push : rb_tail_r (cr_ring s) = Z.of_nat (began_push h);
  ta_pop : rb_head_r (cr_ring s) = Z.of_nat (began_pop h);
  ta_tail : rb_tail (cr_ring s) = Z.of_nat (count_push h + sumpc frp s);
  ta_head : rb_head (cr_ring s) = Z.of_nat (count_pop h + sumpc frq s);
  ta_size : (began_size h = count_size h + sumpc fsz s)%nat;
  ta_pt : forall i, rb_tail (cr_ring s) <= i < rb_tail_r (cr_ring s) -> exists t, ptk (cr_pcs s t) = Some i;
  ta_ct : forall i, rb_head (cr_ring s) <= i < rb_head_r (cr_ring s) -> exists t, ctk (cr_pcs s t) = Some i;
  ta_out : forall u, (P <= u)%nat -> cr_pcs s u = CIdle }.

Lemma count_app : forall X (f : X -> bool) a b, length (filter f (a ++ b)) = (length (filter f a) + length (filter f b))%nat.
Proof. intros. rewrite filter_app, app_length. reflexivity. Qed.

Lemma sumpc_upd : forall f s r t pc, (t < P)%nat ->
  (sumpc f (CR r (fupd (cr_pcs s) t pc)) + f (cr_pcs s t) = sumpc f s + f pc)%nat.
Proof.
  intros f s r t pc Ht. unfold sumpc. cbn [cr_pcs].
  pose proof (sumP_upd P t (fun u => f (cr_pcs s u)) (fun u => f (fupd (cr_pcs s) t pc u)) Ht) as U. cbv beta in U.
  rewrite fupd_same in U. apply U. intros u _ N. now rewrite fupd_other.
Qed.

Lemma tally_goto : forall s h t r pc e, tally s h -> (t < P)%nat ->
  rb_tail_r r = rb_tail_r (cr_ring s) + Z.of_nat (began_push e) ->
  rb_head_r r = rb_head_r (cr_ring s) + Z.of_nat (began_pop e) ->
  rb_tail r + Z.of_nat (frp (cr_pcs s t)) = rb_tail (cr_ring s) + Z.of_nat (count_push e + frp pc) ->
  rb_head r + Z.of_nat (frq (cr_pcs s t)) = rb_head (cr_ring s) + Z.of_nat (count_pop e + frq pc) ->
  (began_size e + fsz (cr_pcs s t) = count_size e + fsz pc)%nat ->
  (forall i, rb_tail r <= i < rb_tail_r r -> ptk pc = Some i \/
     (rb_tail (cr_ring s) <= i < rb_tail_r (cr_ring s) /\ ptk (cr_pcs s t) <> Some i)) ->
  (forall i, rb_head r <= i < rb_head_r r -> ctk pc = Some i \/
     (rb_head (cr_ring s) <= i < rb_head_r (cr_ring s) /\ ctk (cr_pcs s t) <> Some i)) ->
  tally (CR r (fupd (cr_pcs s) t pc)) (h ++ e).
Proof.
  intros s h t r pc e [T1 T2 T3 T4 T5 T6 T7 T8] Ht A1 A2 A3 A4 A5 A6 A7.
  pose proof (sumpc_upd frp s r t pc Ht). pose proof (sumpc_upd frq s r t pc Ht). pose proof (sumpc_upd fsz s r t pc Ht).
  unfold began_push, began_pop, began_size, count_push, count_pop, count_size in *.
  constructor; cbn [cr_ring cr_pcs];
  unfold began_push, began_pop, began_size, count_push, count_pop, count_size; rewrite ?count_app.
  - lia.
  - lia.
  - lia.
  - lia.
  - lia.
  - intros i Hi. destruct (A6 i Hi) as [E|[E N]]; [exists t; rewrite fupd_same; exact E|].
    destruct (T6 i E) as [u Hu]. exists u. rewrite fupd_other; auto. intros ->. auto.
  - intros i Hi. destruct (A7 i Hi) as [E|[E N]]; [exists t; rewrite fupd_same; exact E|].
    destruct (T7 i E) as [u Hu]. exists u. rewrite fupd_other; auto. intros ->. auto.
  - intros u Hu. rewrite fupd_other by lia. auto.
Qed.

Variable k : nat.
Lemma tally_step : forall n s a st h t op, cr_rel k n s a st -> tally s h -> (t < P)%nat ->
  Z.of_nat (n + length (invs (snd (cr_step s t op)))) + 2 ^ Z.of_nat k < 2 ^ 64 ->
  tally (fst (cr_step s t op)) (h ++ snd (cr_step s t op)).
Proof.
  intros n s a st h t op R T Ht HB.
  pose proof R as (S & B & K & U1 & U2). pose proof (K t) as Kt. destruct S as (Sm & Sd & S0 & St & Sc & S1 & S2 & S3 & Sv).
  assert (Hcap : 0 < 2 ^ Z.of_nat k) by (apply Z.pow_pos_nonneg; lia).
  pose proof (zlen_nonneg a) as Hna. clear U1 U2 Sv K R.
  pose proof (fun r pc e => tally_goto s h t r pc e T Ht) as G. clear T.
  unfold cr_step in *. destruct (cr_ring s) as [head head_r tail tail_r busy mask d] eqn:Er.
  cbn [rb_head rb_head_r rb_tail rb_tail_r rb_busy rb_mask rb_d] in *.
  assert (Mk : forall i, 0 <= Z.land i mask < zlen d) by (intro i; rewrite Sd, Sm, mask_mod; apply Z.mod_pos_bound; lia).
  assert (HZ : forall i v, exists d', zset d (Z.land i mask) v = Ok d') by (intros i v; rewrite zset_Ok by apply Mk; eauto).
  assert (HG : forall i, exists v, zget d (Z.land i mask) = Ok v) by (intros i; rewrite (zget_Ok _ _ 0) by apply Mk; eauto).
  destruct (cr_pcs s t) as [|v i|v i|v i|j|j|j val|tl|op' r|] eqn:E; try destruct op; try destruct op';
  try match goal with |- context [match zset d (Z.land ?i mask) ?c with _ => _ end] => destruct (HZ i c) as [d' ->]
    | |- context [match zget d (Z.land ?i mask) with _ => _ end] => destruct (HG i) as [w ->] end;
  repeat match goal with |- context [if ?c then _ else _] => destruct c eqn:? end;
  cbn [fst snd invs length cok rb_head rb_head_r rb_tail rb_tail_r] in *; try contradiction;
  rewrite ?(wrap_small 64) by (rewrite ?(wrap_small 64) by lia; lia);
  (apply G; cbn [rb_head rb_head_r rb_tail rb_tail_r]; try (cbn; lia);
   intros x Hx; cbn [ptk ctk];
   try match type of E with
   | _ = CPushWait _ ?i => destruct (Z.eq_dec x i) | _ = CPushWrite _ ?i => destruct (Z.eq_dec x i) | _ = CPushCas _ ?i => destruct (Z.eq_dec x i)
   | _ = CPopWait ?i => destruct (Z.eq_dec x i) | _ = CPopRead ?i => destruct (Z.eq_dec x i) | _ = CPopCas ?i _ => destruct (Z.eq_dec x i)
   | _ = CIdle => destruct (Z.eq_dec x tail_r), (Z.eq_dec x head_r) end;
   first [ left; f_equal; lia | right; split; [lia|first [discriminate | intro Q; injection Q; lia]]]).
Qed.

Lemma sum_const0 : forall Q f, (forall u, (u < Q)%nat -> f u = 0%nat) -> sumP Q f = 0%nat.
Proof. induction Q; cbn [sumP]; intros f H; [reflexivity|]. rewrite IHQ, H; auto. Qed.

Lemma tally_run : forall sched, members P sched ->
  Z.of_nat (length (invs (snd (crun cr_step (cr_init k) sched)))) + 2 ^ Z.of_nat k < 2 ^ 64 ->
  tally (fst (crun cr_step (cr_init k) sched)) (snd (crun cr_step (cr_init k) sched)).
Proof.
  induction sched as [|[t op] l IH] using rev_ind; intros HM HB.
  - constructor; cbn; unfold sumpc; rewrite ?sum_const0; auto; lia.
  - apply members_app in HM. destruct HM as [HM Ht]. inversion Ht as [|? ? Ht' _]; subst. cbn [fst] in Ht'.
    rewrite crun_snoc in *. cbn [fst snd] in *. rewrite invs_app, app_length in HB.
    destruct (cr_sim k l) as (evs & a & st & _ & _ & R); [lia|].
    refine (tally_step _ _ a st _ t op R _ Ht' _); [apply IH; auto; lia|lia].
Qed.

(** Where everybody waits. *)
Lemma stuck_counts : forall n s a st h, cr_rel k n s a st -> tally s h -> all_stuck s ->
  (forall t, stop t = true -> outside (cr_pcs s t)) ->
  Z.of_nat (count_push h) = Z.min (Z.of_nat (began_push h)) (Z.of_nat (began_pop h) + 2 ^ Z.of_nat k) /\
  Z.of_nat (count_pop h) = Z.min (Z.of_nat (began_push h)) (Z.of_nat (began_pop h)) /\
  ((forall t, stop t = false) -> count_size h = began_size h).
Proof.
  intros n s a st h R [T1 T2 T3 T4 T5 T6 T7 T8] A0 HO.
  assert (A : forall t, ~ outside (cr_pcs s t) -> stuck s t).
  { intros t Ht. destruct (stop t) eqn:X; [exfalso; auto|]. apply A0; auto. intro Y. rewrite Y in Ht. now apply Ht. }
  pose proof R as ((Sm & Sd & S0 & St & Sc & S1 & S2 & S3 & Sv) & B & K & U1 & U2).
  assert (Hcap : 0 < 2 ^ Z.of_nat k) by (apply Z.pow_pos_nonneg; lia).
  pose proof (zlen_nonneg a) as Hna.
  assert (NR : forall t op r, cr_pcs s t = CRet op r -> ~ stuck s t).
  { intros t op r E Q. unfold stuck, cr_step in Q. rewrite E in Q. destruct (cr_ring s). cbn [fst cr_pcs] in Q.
    rewrite fupd_same in Q. discriminate. }
  assert (NS : forall t tl, cr_pcs s t = CSizeHead tl -> ~ stuck s t).
  { intros t tl E Q. unfold stuck, cr_step in Q. rewrite E in Q. destruct (cr_ring s). cbn [fst cr_pcs] in Q.
    rewrite fupd_same in Q. discriminate. }
  assert (Z1 : sumpc frp s = 0%nat).
  { apply sum_const0. intros u _. destruct (cr_pcs s u) as [| | | | | | | |op r|] eqn:E; try reflexivity.
    destruct op; try reflexivity. exfalso. apply (NR u _ _ E). apply A. rewrite E. cbn. auto. }
  assert (Z2 : sumpc frq s = 0%nat).
  { apply sum_const0. intros u _. destruct (cr_pcs s u) as [| | | | | | | |op r|] eqn:E; try reflexivity.
    destruct op; try reflexivity. exfalso. apply (NR u _ _ E). apply A. rewrite E. cbn. auto. }
  assert (Z3 : (forall t, stop t = false) -> sumpc fsz s = 0%nat).
  { intro HS. apply sum_const0. intros u _. destruct (cr_pcs s u) as [| | | | | | |tl|op r|] eqn:E; try reflexivity; exfalso.
    - apply (NS u _ E). apply A0; auto. congruence.
    - destruct op; try (apply (NR u _ _ E); apply A0; auto; congruence). }
  rewrite Z1 in T3. rewrite Z2 in T4.
  assert (PU : rb_tail (cr_ring s) < rb_tail_r (cr_ring s) -> rb_head (cr_ring s) + 2 ^ Z.of_nat k <= rb_tail (cr_ring s)).
  { intro L. destruct (T6 (rb_tail (cr_ring s)) ltac:(lia)) as [t Ht]. specialize (K t).
    specialize (A t). unfold stuck, cr_step in A. destruct (cr_ring s) as [head head_r tail tail_r busy mask d] eqn:Er.
    cbn [rb_head rb_head_r rb_tail rb_tail_r rb_busy rb_mask rb_d] in *.
    destruct (cr_pcs s t) as [|v i|v i|v i|j|j|j val|tl|op' r|] eqn:E; cbn [ptk] in Ht; try discriminate; injection Ht as ->;
    specialize (A ltac:(cbn; auto)).
    - rewrite !(wrap_small 64) in A by (rewrite ?(wrap_small 64) by lia; lia).
      destruct (Z.ltb_spec (head + mask + 1) (tail + 1)); [lia|]. cbn [fst cr_pcs] in A. rewrite fupd_same in A. discriminate.
    - destruct (zset _ _ _); cbn [fst cr_pcs] in A; rewrite fupd_same in A; discriminate.
    - rewrite Z.eqb_refl in A. cbn [fst cr_pcs] in A; rewrite fupd_same in A; discriminate. }
  assert (PO : rb_head (cr_ring s) < rb_head_r (cr_ring s) -> rb_tail (cr_ring s) <= rb_head (cr_ring s)).
  { intro L. destruct (T7 (rb_head (cr_ring s)) ltac:(lia)) as [t Ht]. specialize (K t).
    specialize (A t). unfold stuck, cr_step in A. destruct (cr_ring s) as [head head_r tail tail_r busy mask d] eqn:Er.
    cbn [rb_head rb_head_r rb_tail rb_tail_r rb_busy rb_mask rb_d] in *.
    destruct (cr_pcs s t) as [|v i|v i|v i|j|j|j val|tl|op' r|] eqn:E; cbn [ctk] in Ht; try discriminate; injection Ht as ->;
    specialize (A ltac:(cbn; auto)).
    - destruct (Z.leb_spec tail head); [lia|]. cbn [fst cr_pcs] in A. rewrite fupd_same in A. discriminate.
    - destruct (zget _ _); cbn [fst cr_pcs] in A; rewrite fupd_same in A; discriminate.
    - rewrite Z.eqb_refl in A. cbn [fst cr_pcs] in A; rewrite fupd_same in A; discriminate. }
  split; [lia|]. split; [lia|]. intro HS. rewrite (Z3 HS) in T5. lia.
Qed.

Lemma ring_rounds : forall before rs, members P (before ++ concat rs) ->
  let s := fst (crun cr_step (cr_init k) before) in
  let h := snd (crun cr_step (cr_init k) (before ++ concat rs)) in
  Z.of_nat (length (invs h)) + 2 ^ Z.of_nat k < 2 ^ 64 ->
  (forall t, stop t = true -> outside (cr_pcs s t)) ->
  fair_rounds stop s rs -> invs (snd (crun cr_step s (concat rs))) = [] -> (4 * P <= length rs)%nat ->
  Z.of_nat (count_push h) = Z.min (Z.of_nat (began_push h)) (Z.of_nat (began_pop h) + 2 ^ Z.of_nat k) /\
  Z.of_nat (count_pop h) = Z.min (Z.of_nat (began_push h)) (Z.of_nat (began_pop h)) /\
  ((forall t, stop t = false) -> count_size h = began_size h).
Proof.
  intros before rs HM s h HB HO HF Hi HL. destruct (cr_sim k (before ++ concat rs) HB) as (evs & a & st & _ & _ & R).
  pose proof (tally_run _ HM HB) as T. fold h in R, T.
  apply (stuck_counts _ _ a st h R T); rewrite crun_app; cbn [fst]; fold s; apply members_app in HM; destruct HM as [M1 M2].
  - apply fair_stuck; auto.
    + intros u Hu. assert (HB' : Z.of_nat (length (invs (snd (crun cr_step (cr_init k) before)))) + 2 ^ Z.of_nat k < 2 ^ 64).
      { unfold h in HB. rewrite crun_app in HB. cbn [snd] in HB. rewrite invs_app, app_length in HB. lia. }
      exact (ta_out _ _ (tally_run _ M1 HB') u Hu).
    + enough (W s <= P * 4)%nat by lia. unfold W. rewrite <- sumP_const. apply sumP_le. intros u _.
      destruct (stop u), (cr_pcs s u); cbn; lia.
  - intros t Ht. rewrite stop_stays; auto. now apply (fair_live rs s).
Qed.
End Fair.

(** A stopped push stops all later ones. *)
Lemma ring_stopped : forall k v w m, (1 <= k < 63)%nat ->
  let s := fst (crun cr_step (cr_init k) [(0%nat, CPush v)]) in
  rets (snd (crun cr_step s (repeat (1%nat, CPush w) m))) = [].
Proof.
  intros k v w m Hk s.
  assert (Hc : 2 ^ 1 <= 2 ^ Z.of_nat k < 2 ^ 63) by (split; [apply Z.pow_le_mono_r|apply Z.pow_lt_mono_r]; lia).
  assert (G : forall m st, (cr_pcs st 1%nat = CPushWait w 1 \/ cr_pcs st 1%nat = CPushWrite w 1 \/ cr_pcs st 1%nat = CPushCas w 1) ->
    rb_head (cr_ring st) = 0 -> rb_tail (cr_ring st) = 0 -> rb_mask (cr_ring st) = 2 ^ Z.of_nat k - 1 -> zlen (rb_d (cr_ring st)) = 2 ^ Z.of_nat k ->
    rets (snd (crun cr_step st (repeat (1%nat, CPush w) m))) = []).
  { clear m. induction m as [|m IH]; intros st HP Hh Ht Hm Hd; [reflexivity|]. cbn [repeat crun].
    assert (Q : exists st', cr_step st 1 (CPush w) = (st', []) /\
      (cr_pcs st' 1%nat = CPushWait w 1 \/ cr_pcs st' 1%nat = CPushWrite w 1 \/ cr_pcs st' 1%nat = CPushCas w 1) /\
      rb_head (cr_ring st') = 0 /\ rb_tail (cr_ring st') = 0 /\ rb_mask (cr_ring st') = 2 ^ Z.of_nat k - 1 /\ zlen (rb_d (cr_ring st')) = 2 ^ Z.of_nat k).
    { unfold cr_step. destruct (cr_ring st) as [head head_r tail tail_r busy mask d] eqn:Er.
      cbn [rb_head rb_head_r rb_tail rb_tail_r rb_busy rb_mask rb_d] in *. subst head tail.
      destruct HP as [HP|[HP|HP]]; rewrite HP.
      - rewrite !(wrap_small 64) by (rewrite ?(wrap_small 64) by lia; lia).
        destruct (Z.ltb_spec (0 + mask + 1) (1 + 1)); [lia|]. eexists. split; [reflexivity|]. cbn. rewrite ?Er, ?fupd_same. cbn. auto 10.
      - rewrite zset_Ok.
        2:{ rewrite Hm, Hd, mask_mod. apply Z.mod_pos_bound. lia. }
        eexists. split; [reflexivity|]. cbn. rewrite ?Er, ?fupd_same. cbn. repeat split; auto. unfold zlen in *. now rewrite upd_length.
      - cbn [Z.eqb]. eexists. split; [reflexivity|]. cbn. rewrite ?Er, ?fupd_same. cbn. auto 10. }
    destruct Q as (st' & -> & Q1 & Q2 & Q3 & Q4 & Q5). specialize (IH st' Q1 Q2 Q3 Q4 Q5).
    destruct (crun cr_step st' (repeat (1%nat, CPush w) m)) as [s2 h]. cbn [snd app] in *. exact IH. }
  destruct m as [|m]; [reflexivity|]. change (repeat (1%nat, CPush w) (S m)) with ([(1%nat, CPush w)] ++ repeat (1%nat, CPush w) m).
  rewrite crun_app. cbn [snd]. rewrite rets_app.
  assert (D : zlen (repeat 0 (2 ^ k)) = 2 ^ Z.of_nat k) by (unfold zlen; rewrite repeat_length, Nat2Z.inj_pow; reflexivity).
  rewrite (G m); unfold s; cbn; auto.
Qed.
