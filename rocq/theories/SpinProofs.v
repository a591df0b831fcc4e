From Coq Require Import ZArith List Bool Lia Arith ZifyBool.
From Verif Require Import GoBase ConcBase SpinModel SpinSpec.
Import ListNotations.
Open Scope Z_scope.

(** ** Runs *)
Lemma crun_snoc {Op Res S} (step : S -> nat -> Op -> S * list (ext Op Res)) s sched t op :
  crun step s (sched ++ [(t, op)]) =
  (fst (step (fst (crun step s sched)) t op), snd (crun step s sched) ++ snd (step (fst (crun step s sched)) t op)).
Proof.
  revert s. induction sched as [|[u o] l IH]; intros s; cbn [crun app fst snd].
  - destruct (step s t op). cbn. now rewrite app_nil_r.
  - destruct (step s u o) as [s1 h1]. rewrite IH. destruct (crun step s1 l) as [s2 h2]. cbn. now rewrite app_assoc.
Qed.
Lemma crun_app {Op Res S} (step : S -> nat -> Op -> S * list (ext Op Res)) s l1 l2 :
  crun step s (l1 ++ l2) =
  (fst (crun step (fst (crun step s l1)) l2), snd (crun step s l1) ++ snd (crun step (fst (crun step s l1)) l2)).
Proof.
  revert s. induction l1 as [|[u o] l IH]; intros s; cbn [crun app fst snd].
  - now destruct (crun step s l2).
  - destruct (step s u o) as [s1 h1]. rewrite IH. destruct (crun step s1 l) as [s2 h2]. cbn. now rewrite app_assoc.
Qed.
(** A history prefix is the history of a schedule prefix, for steps that emit at
    most one event. *)
Lemma crun_prefix {Op Res S} (step : S -> nat -> Op -> S * list (ext Op Res)) s :
  (forall s t op, (length (snd (step s t op)) <= 1)%nat) ->
  forall sched h1 h2, snd (crun step s sched) = h1 ++ h2 ->
  exists l1 l2, sched = l1 ++ l2 /\ snd (crun step s l1) = h1 /\ snd (crun step (fst (crun step s l1)) l2) = h2.
Proof.
  intros Hs. induction sched as [|[t op] sched IH] using rev_ind; intros h1 h2 E.
  - cbn in E. symmetry in E. apply app_eq_nil in E as [-> ->]. exists [], []. auto.
  - rewrite crun_snoc in E. cbn [snd] in E.
    destruct h2 as [|e h2].
    { exists (sched ++ [(t, op)]), []. rewrite app_nil_r. rewrite crun_snoc. cbn [snd crun]. rewrite app_nil_r in E. auto. }
    specialize (Hs (fst (crun step s sched)) t op).
    destruct (snd (step (fst (crun step s sched)) t op)) as [|x [|y l]] eqn:Es; [| |cbn in Hs; lia].
    + rewrite app_nil_r in E. destruct (IH _ _ E) as (l1 & l2 & -> & E1 & E2).
      exists l1, (l2 ++ [(t, op)]). rewrite app_assoc. split; [auto|]. split; [auto|].
      rewrite crun_snoc. cbn [snd]. rewrite crun_app in Es. cbn [fst] in Es. rewrite Es, app_nil_r. auto.
    + destruct (exists_last (l := e :: h2)) as (h2' & x' & E'); [discriminate|]. rewrite E' in E.
      rewrite app_assoc in E. apply app_inj_tail in E as [E ->].
      destruct (IH _ _ E) as (l1 & l2 & -> & E1 & E2).
      exists l1, (l2 ++ [(t, op)]). rewrite app_assoc. split; [auto|]. split; [auto|].
      rewrite crun_snoc. cbn [snd]. rewrite crun_app in Es. cbn [fst] in Es. rewrite Es, E2. auto.
Qed.

(** ** SpinLock *)
Lemma sl_step_one s t op : (length (snd (sl_step s t op)) <= 1)%nat.
Proof.
  unfold sl_step. destruct (sl_pcs s t) as [|i| |o r]; [destruct op| | |]; cbn; auto;
  repeat match goal with |- context [if ?c then _ else _] => destruct c end; cbn; auto.
Qed.

(** Linearizability. *)
Definition sl_stat (pc : sl_pc) (st : tstat sl_op sl_res) : Prop :=
  match pc with
  | SIdle => st = TIdle
  | SLock i => if spin_max <? i then st = TDone LLock LPanic else st = TPend LLock
  | SUnlock => st = TPend LUnlock
  | SRet op r => st = TDone op r
  end.
Definition sl_rel (s : sl_state) (a : bool) (st : nat -> tstat sl_op sl_res) : Prop :=
  sl_word s = (if a then 1 else 0) /\ forall t, sl_stat (sl_pcs s t) (st t).

Lemma sl_lin : forall sched, linearizable lock_spec false (snd (crun sl_step sl_init sched)).
Proof.
  intros sched.
  destruct (lin_sim lock_spec sl_step sl_rel) with (sched := sched) (s := sl_init) (a := false)
    (st := fun _ : nat => @TIdle sl_op sl_res) as (evs & a' & st' & E & L & _).
  - clear. intros s a st t op (Hw & Hst). pose proof (Hst t) as Ht.
    assert (K : forall (a' : bool) (st' : nat -> tstat sl_op sl_res) w' pc', w' = (if a' then 1 else 0) ->
       sl_stat pc' (st' t) -> (forall u, u <> t -> st' u = st u) ->
       sl_rel (SL w' (fupd (sl_pcs s) t pc')) a' st').
    { intros a' st' w' pc' Ew Hpc Ho. split; auto. cbn. intros u. unfold fupd. destruct (Nat.eqb_spec u t) as [->|N]; auto.
      rewrite Ho by auto. specialize (Hst u). destruct (sl_pcs s u); auto. }
    assert (F : forall (x : tstat sl_op sl_res) u, u <> t -> fupd st t x u = st u) by (intros; now apply fupd_other).
    unfold sl_step. destruct (sl_pcs s t) as [|i| |o r] eqn:Ep; cbn [sl_stat] in Ht.
    + destruct op; [exists [AInv t LLock], a, (fupd st t (TPend LLock))|exists [AInv t LUnlock], a, (fupd st t (TPend LUnlock))];
        (split; [reflexivity|]; split; [eapply lr_inv; [auto|constructor]|]; apply K; auto; rewrite fupd_same; reflexivity).
    + destruct (Z.ltb_spec spin_max i) as [Hi|Hi].
      * exists [], a, st. split; [reflexivity|]. split; [constructor|]. apply K; auto.
      * destruct a; rewrite Hw; cbn [Z.eqb fst snd].
        -- destruct (Z.eq_dec i spin_max) as [->|Hne].
           ++ exists [ALin t LLock LPanic], true, (fupd st t (TDone LLock LPanic)). split; [reflexivity|].
              split; [eapply lr_lin; [eauto|constructor|constructor]|]. apply K; auto. rewrite fupd_same. cbn [sl_stat].
              destruct (Z.ltb_spec spin_max (spin_max + 1)); auto; lia.
           ++ exists [], true, st. split; [reflexivity|]. split; [constructor|]. apply K; auto. cbn [sl_stat].
              destruct (Z.ltb_spec spin_max (i + 1)); auto; lia.
        -- exists [ALin t LLock LOk], true, (fupd st t (TDone LLock LOk)). split; [reflexivity|].
           split; [eapply lr_lin; [eauto|constructor|constructor]|]. apply K; auto. rewrite fupd_same. reflexivity.
    + destruct a; rewrite Hw; unfold spin_locked; cbn [Z.eqb Pos.eqb fst snd].
      * exists [ALin t LUnlock LOk], false, (fupd st t (TDone LUnlock LOk)). split; [reflexivity|].
        split; [eapply lr_lin; [eauto|constructor|constructor]|]. apply K; auto. rewrite fupd_same. reflexivity.
      * exists [ALin t LUnlock LPanic], false, (fupd st t (TDone LUnlock LPanic)). split; [reflexivity|].
        split; [eapply lr_lin; [eauto|constructor|constructor]|]. apply K; auto. rewrite fupd_same. reflexivity.
    + exists [ARet t o r], a, (fupd st t TIdle). split; [reflexivity|].
      split; [eapply lr_ret; [auto|constructor]|]. apply K; auto. rewrite fupd_same. reflexivity.
  - split; cbn; auto.
  - exists evs, a', st'. auto.
Qed.

(** Mutual exclusion. *)
Definition sl_tok (pc : sl_pc) (ins : bool) : bool :=
  match pc with SRet LLock LOk | SUnlock => true | _ => ins end.
Definition sl_inv (s : sl_state) (h : list (ext sl_op sl_res)) : Prop :=
  (sl_word s = 0 \/ sl_word s = 1) /\
  (forall t, sl_tok (sl_pcs s t) (inside h t) = true -> sl_word s = 1) /\
  (forall t u, sl_tok (sl_pcs s t) (inside h t) = true -> sl_tok (sl_pcs s u) (inside h u) = true -> t = u) /\
  (forall t, match sl_pcs s t with SUnlock | SRet LUnlock _ => inside h t = false | _ => True end) /\
  (forall t, sl_pcs s t <> SRet LUnlock LPanic) /\ (forall t, ~ In (Ret t LUnlock LPanic) h).

Lemma inside_snoc h e t : inside (h ++ [e]) t = inside_after t (inside h t) e.
Proof. unfold inside. now rewrite fold_left_app. Qed.
Lemma disciplined_app h1 h2 : disciplined (h1 ++ h2) -> disciplined h1.
Proof. intros H a t b E. apply (H a t (b ++ h2)). rewrite E, <- app_assoc. reflexivity. Qed.

Lemma sl_inv_step s h t op : sl_inv s h -> disciplined (h ++ snd (sl_step s t op)) ->
  sl_inv (fst (sl_step s t op)) (h ++ snd (sl_step s t op)).
Proof.
  intros (Hw & Ht1 & Hu & Hp & Hq & Hh) Hd.
  assert (Ins : forall u e, u <> t -> (exists o, e = Inv t o) \/ (exists o r, e = Ret t o r) -> inside (h ++ [e]) u = inside h u).
  { intros u e N [[o ->]|[o [r ->]]]; rewrite inside_snoc; cbn; [destruct o|destruct o, r]; auto;
    destruct (Nat.eqb_spec t u); congruence. }
  assert (K : forall w' pc' h', (forall u, u <> t -> inside h' u = inside h u) ->
     (w' = 0 \/ w' = 1) ->
     (sl_tok pc' (inside h' t) = true -> w' = 1) ->
     (forall u, u <> t -> sl_tok (sl_pcs s u) (inside h u) = true -> w' = 1 /\ sl_tok pc' (inside h' t) = false) ->
     match pc' with SUnlock | SRet LUnlock _ => inside h' t = false | _ => True end ->
     pc' <> SRet LUnlock LPanic -> (forall u, ~ In (Ret u LUnlock LPanic) h') ->
     sl_inv (SL w' (fupd (sl_pcs s) t pc')) h').
  { intros w' pc' h' E W T1 T2 P Q HH. unfold sl_inv. cbn [sl_word sl_pcs]. split; [auto|]. split; [|split; [|split; [|split]]].
    - intros u. unfold fupd. destruct (Nat.eqb_spec u t) as [->|N]; auto. rewrite E by auto. intros X. now apply (T2 u N).
    - intros u v. unfold fupd. destruct (Nat.eqb_spec u t) as [->|N], (Nat.eqb_spec v t) as [->|N']; auto; intros X Y.
      + rewrite E in Y by auto. destruct (T2 v N' Y). congruence.
      + rewrite E in X by auto. destruct (T2 u N X). congruence.
      + rewrite E in X, Y by auto. auto.
    - intros u. unfold fupd. destruct (Nat.eqb_spec u t) as [->|N]; auto. rewrite E by auto. apply Hp.
    - intros u. unfold fupd. destruct (Nat.eqb_spec u t) as [->|N]; auto.
    - auto. }
  pose proof (Hp t) as Hpt. pose proof (Hq t) as Hqt. pose proof (Ht1 t) as Htt.
  assert (T2 : forall u, u <> t -> sl_tok (sl_pcs s u) (inside h u) = true -> sl_word s = 1 /\ sl_tok (sl_pcs s t) (inside h t) = false).
  { intros u N X. split; [eauto|]. destruct (sl_tok (sl_pcs s t) (inside h t)) eqn:Y; auto. exfalso. apply N. eauto. }
  unfold sl_step in *. destruct (sl_pcs s t) as [|i| |o r] eqn:Ep; cbn [sl_tok] in *.
  - destruct op; cbn [fst snd] in *.
    + apply K; auto; cbn [sl_tok]; rewrite ?inside_snoc; cbn [inside_after]; auto; try discriminate.
      * intros u N. apply Ins; eauto.
      * intros u X. apply in_app_iff in X as [X|[X|[]]]; [firstorder|discriminate].
    + assert (Hin : inside h t = true) by (apply (Hd h t []); reflexivity).
      rewrite Hin in *. apply K; auto; cbn [sl_tok]; rewrite ?inside_snoc; cbn [inside_after]; rewrite ?Nat.eqb_refl; auto; try discriminate.
      * intros u N. apply Ins; eauto.
      * intros u X. apply in_app_iff in X as [X|[X|[]]]; [firstorder|discriminate].
  - destruct (Z.ltb_spec spin_max i).
    { cbn [fst snd] in *. rewrite app_nil_r in *. apply K; auto. discriminate. }
    destruct (Z.eqb_spec (sl_word s) 0) as [E0|E0]; cbn [fst snd] in *; rewrite app_nil_r in *.
    + apply K; auto; try discriminate. intros u N X. exfalso. destruct (T2 u N X). congruence.
    + apply K; auto; discriminate.
  - specialize (Htt eq_refl). rewrite Htt in *. cbn [Z.eqb Pos.eqb spin_locked fst snd] in *. rewrite app_nil_r in *.
    apply K; auto; cbn [sl_tok]; try discriminate.
    + intros X. congruence.
    + intros u N X. destruct (T2 u N X). discriminate.
  - cbn [fst snd] in *.
    apply K; auto; try discriminate.
    + intros u N. apply Ins; eauto.
    + rewrite inside_snoc. cbn [sl_tok inside_after]. destruct o, r; auto.
    + intros u N X. destruct (T2 u N X) as [Y Z]. split; auto. rewrite inside_snoc. cbn [inside_after].
      destruct o, r; auto; try discriminate.
    + intros u X. apply in_app_iff in X as [X|[X|[]]]; [firstorder|]. congruence.
Qed.
Lemma sl_inv_run : forall sched, disciplined (snd (crun sl_step sl_init sched)) ->
  sl_inv (fst (crun sl_step sl_init sched)) (snd (crun sl_step sl_init sched)).
Proof.
  induction sched as [|[t op] sched IH] using rev_ind.
  - intros _. cbn. unfold sl_inv. cbn. split; [auto|]. split; [discriminate|]. split; [discriminate|]. split; [auto|]. split; [discriminate|auto].
  - rewrite crun_snoc. cbn [fst snd]. intros H. apply sl_inv_step; auto. apply IH. eapply disciplined_app; eauto.
Qed.
Lemma sl_exclusion : forall sched, let h := snd (crun sl_step sl_init sched) in disciplined h ->
  (forall h1 h2 t u, h = h1 ++ h2 -> inside h1 t = true -> inside h1 u = true -> t = u) /\
  (forall t, ~ In (Ret t LUnlock LPanic) h).
Proof.
  intros sched h Hd. split.
  - intros h1 h2 t u E Ht Hu.
    destruct (crun_prefix sl_step sl_init sl_step_one sched h1 h2 E) as (l1 & l2 & -> & E1 & _).
    pose proof (sl_inv_run l1) as H. rewrite E1 in H. unfold h in Hd. rewrite crun_app in Hd. cbn [snd] in Hd. rewrite E1 in Hd.
    apply disciplined_app in Hd. destruct (H Hd) as (_ & _ & HU & Hp & _).
    assert (Tok : forall x, inside h1 x = true -> sl_tok (sl_pcs (fst (crun sl_step sl_init l1)) x) (inside h1 x) = true).
    { intros x Hx. rewrite Hx. destruct (sl_pcs _ x) as [|i| |[] []]; reflexivity. }
    apply HU; auto.
  - apply (sl_inv_run sched Hd).
Qed.

(** ** Every call ends after boundedly many of its own steps *)
Lemma mine_cons {Op} t u (op : Op) l : mine t ((u, op) :: l) = (if Nat.eqb u t then 1 else 0) + mine t l.
Proof. unfold mine, zlen. cbn. destruct (u =? t)%nat; cbn [length]; lia. Qed.
Lemma running_app {Op Res} (h : list (ext Op Res)) e t : running (h ++ [e]) t = running_after t (running h t) e.
Proof. unfold running. now rewrite fold_left_app. Qed.

Lemma bounded_calls {Op Res S} (step : S -> nat -> Op -> S * list (ext Op Res)) (left : S -> nat -> Z) t :
  (forall s op, 0 < left s t -> 0 < left (fst (step s t op)) t < left s t \/ exists o r, In (Ret t o r) (snd (step s t op))) ->
  (forall s u op, u <> t -> left (fst (step s u op)) t = left s t) ->
  forall sched s, 0 < left s t -> left s t <= mine t sched -> exists o r, In (Ret t o r) (snd (crun step s sched)).
Proof.
  intros H1 H2. induction sched as [|[u op] l IH]; intros s Hl Hm.
  - unfold mine, zlen in Hm. cbn in Hm. lia.
  - rewrite mine_cons in Hm. cbn [crun].
    destruct (Nat.eqb_spec u t) as [->|N].
    + destruct (H1 s op Hl) as [Hlt|(o & r & Hin)].
      * specialize (IH (fst (step s t op))). destruct (step s t op) as [s1 h1]. cbn [fst snd] in *.
        destruct IH as (o & r & Hin); [lia|lia|].
        destruct (crun step s1 l). cbn in *. exists o, r. apply in_app_iff. auto.
      * destruct (step s t op) as [s1 h1]. cbn [fst snd] in *. destruct (crun step s1 l). cbn. exists o, r. apply in_app_iff. auto.
    + specialize (IH (fst (step s u op))). rewrite (H2 s u op N) in IH. destruct (step s u op) as [s1 h1]. cbn [fst snd] in *.
      destruct IH as (o & r & Hin); [lia|lia|]. destruct (crun step s1 l). cbn in *. exists o, r. apply in_app_iff. auto.
Qed.

Definition sl_left (s : sl_state) (t : nat) : Z :=
  match sl_pcs s t with SIdle => 0 | SLock i => Z.max 2 (spin_max + 3 - i) | SUnlock => 2 | SRet _ _ => 1 end.
Lemma sl_left_ok t : forall sched s, 0 < sl_left s t -> sl_left s t <= mine t sched ->
  exists o r, In (Ret t o r) (snd (crun sl_step s sched)).
Proof.
  apply bounded_calls.
  - intros s op H. unfold sl_left in H |- *. unfold sl_step.
    destruct (sl_pcs s t) as [|i| |o r]; [lia| | |]; cbn [fst snd]; cbv zeta.
    + left. destruct (Z.ltb_spec spin_max i); [|destruct (sl_word s =? 0)]; cbn [fst sl_pcs]; rewrite fupd_same; lia.
    + left. destruct (sl_word s =? spin_locked); cbn [fst sl_pcs]; rewrite fupd_same; lia.
    + right. exists o, r. cbn. auto.
  - intros s u op N. unfold sl_left. f_equal. unfold sl_step.
    assert (E : sl_pcs (fst (sl_step s u op)) t = sl_pcs s t); [|unfold sl_step in E; now rewrite E].
    unfold sl_step. destruct (sl_pcs s u); [destruct op| | |]; cbv zeta;
    repeat match goal with |- context [if ?c then _ else _] => destruct c end; cbn [fst sl_pcs]; apply fupd_other; auto.
Qed.
Lemma sl_running sched t : let s := fst (crun sl_step sl_init sched) in let h := snd (crun sl_step sl_init sched) in
  (running h t = true <-> sl_pcs s t <> SIdle) /\ match sl_pcs s t with SLock i => 0 <= i | _ => True end.
Proof.
  induction sched as [|[u op] l IH] using rev_ind; cbv zeta in *.
  - cbn. split; [split; [discriminate|congruence]|auto].
  - rewrite crun_snoc. cbn [fst snd]. destruct (crun sl_step sl_init l) as [s h]. cbn [fst snd] in *. destruct IH as [IH Hi].
    unfold sl_step. destruct (Nat.eq_dec u t) as [->|N].
    + destruct (sl_pcs s t) as [|i| |o r]; [destruct op| | |]; cbv zeta.
      all: repeat match goal with |- context [if ?c then _ else _] => destruct c end; cbn [fst snd sl_pcs];
        rewrite ?fupd_same, ?app_nil_r, ?running_app; cbn [running_after]; rewrite ?Nat.eqb_refl.
      all: split; [split; [try discriminate|]|]; try lia; try (intros; apply IH; discriminate); try congruence; auto.
      all: try (intros; discriminate).
    + assert (E : (u =? t)%nat = false) by (now apply Nat.eqb_neq).
      assert (F : forall pc, fupd (sl_pcs s) u pc t = sl_pcs s t) by (intros; apply fupd_other; auto).
      destruct (sl_pcs s u) as [|i| |o r]; [destruct op| | |]; cbv zeta;
      repeat match goal with |- context [if ?c then _ else _] => destruct c end; cbn [fst snd sl_pcs];
        rewrite ?F, ?app_nil_r, ?running_app; cbn [running_after]; rewrite ?E; auto.
Qed.
Lemma sl_ends : forall l1 l2 t, running (snd (crun sl_step sl_init l1)) t = true -> spin_max + 3 <= mine t l2 ->
  exists o r, In (Ret t o r) (snd (crun sl_step (fst (crun sl_step sl_init l1)) l2)).
Proof.
  intros l1 l2 t H Hm. destruct (sl_running l1 t) as [E Hi]. cbv zeta in *. apply E in H.
  apply sl_left_ok.
  - unfold sl_left. destruct (sl_pcs _ t); [congruence|lia|lia|lia].
  - unfold sl_left. unfold spin_max in *. destruct (sl_pcs _ t); lia.
Qed.
