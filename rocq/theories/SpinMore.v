(** How long the locks try before they give up. *)
From Coq Require Import ZArith List Bool Lia ZifyBool.
From Verif Require Import GoBase ConcBase SpinModel SpinSpec SpinProofs SpinRW.
Import ListNotations.
Open Scope Z_scope.

(** If every step of [t] lowers [need] by at most one, and those of others do not
    lower it, an event that needs it to be at most one takes that many steps. *)
Lemma patience {Op Res S} (step : S -> nat -> Op -> S * list (ext Op Res)) (need : S -> Z) (t : nat) (e : ext Op Res) :
  (forall s op, need s <= 1 + need (fst (step s t op))) ->
  (forall s u op, u <> t -> need s <= need (fst (step s u op))) ->
  (forall s op, In e (snd (step s t op)) -> need s <= 1) ->
  (forall s u op, u <> t -> ~ In e (snd (step s u op))) ->
  forall sched s, In e (snd (crun step s sched)) -> need s <= mine t sched.
Proof.
  intros H1 H2 H3 H4. induction sched as [|[u op] l IH]; intros s Hin; [destruct Hin|].
  cbn [crun] in Hin. rewrite mine_cons.
  assert (Z0 : 0 <= mine t l) by (unfold mine, zlen; lia).
  destruct (step s u op) as [s1 h1] eqn:E. specialize (IH s1). destruct (crun step s1 l) as [s2 h2]. cbn [snd] in *.
  apply in_app_or in Hin. destruct (Nat.eqb_spec u t) as [->|N].
  - specialize (H1 s op). specialize (H3 s op). rewrite E in *. cbn [fst snd] in *. destruct Hin as [Hin|Hin]; [specialize (H3 Hin); lia|].
    specialize (IH Hin). lia.
  - specialize (H2 s u op N). specialize (H4 s u op N). rewrite E in *. cbn [fst snd] in *. destruct Hin as [Hin|Hin]; [contradiction|].
    specialize (IH Hin). lia.
Qed.

Definition sl_need (t : nat) (s : sl_state) : Z :=
  match sl_pcs s t with
  | SIdle => spin_max + 4
  | SLock i => Z.min (spin_max + 4) (spin_max + 3 - i)
  | SUnlock => spin_max + 4
  | SRet LLock LPanic => 1
  | SRet _ _ => spin_max + 4
  end.
Lemma sl_patient l1 l2 t : running (snd (crun sl_step sl_init l1)) t = false ->
  In (Ret t LLock LPanic) (snd (crun sl_step (fst (crun sl_step sl_init l1)) l2)) -> spin_max + 4 <= mine t l2.
Proof.
  intros R Hin. destruct (sl_running l1 t) as [E _]. cbv zeta in E.
  assert (I : sl_pcs (fst (crun sl_step sl_init l1)) t = SIdle).
  { destruct (sl_pcs (fst (crun sl_step sl_init l1)) t) eqn:P; auto; exfalso; assert (running (snd (crun sl_step sl_init l1)) t = true) by (apply E; congruence); congruence. }
  transitivity (sl_need t (fst (crun sl_step sl_init l1))). { unfold sl_need. rewrite I. lia. }
  revert Hin. apply (patience sl_step (sl_need t) t).
  - intros s op. unfold sl_need at 1. unfold sl_step. destruct (sl_pcs s t) as [|i| |o r] eqn:P.
    + destruct op; unfold sl_need; cbn [fst sl_pcs]; rewrite fupd_same; unfold spin_max; lia.
    + destruct (spin_max <? i) eqn:B; [|destruct (sl_word s =? 0)]; unfold sl_need; cbn [fst sl_pcs]; rewrite fupd_same; unfold spin_max in *; lia.
    + destruct (sl_word s =? spin_locked); unfold sl_need; cbn [fst sl_pcs]; rewrite fupd_same; unfold spin_max; lia.
    + destruct o, r; unfold sl_need; cbn [fst sl_pcs]; rewrite fupd_same; unfold spin_max; lia.
  - intros s u op N. enough (sl_pcs (fst (sl_step s u op)) t = sl_pcs s t) as Q by (unfold sl_need; rewrite Q; lia).
    unfold sl_step. destruct (sl_pcs s u); [destruct op|..]; repeat match goal with |- context [if ?c then _ else _] => destruct c end;
      cbn [fst sl_pcs]; apply fupd_other; auto.
  - intros s op. unfold sl_need, sl_step. destruct (sl_pcs s t) as [|i| |o r]; [destruct op|..]; repeat match goal with |- context [if ?c then _ else _] => destruct c end;
      cbn [snd In]; intros Q; try contradiction; destruct Q as [Q|[]]; try discriminate; try (injection Q; intros; subst); lia.
  - intros s u op N. unfold sl_step. destruct (sl_pcs s u) as [|i| |o r]; [destruct op|..]; repeat match goal with |- context [if ?c then _ else _] => destruct c end;
      cbn [snd In]; intros Q; try contradiction; destruct Q as [Q|[]]; try discriminate; injection Q; intros; subst; congruence.
Qed.

Definition rw_need (o : rw_op) (t : nat) (s : rw_state) : Z :=
  match rw_pcs s t with
  | PWSpin i => match o with WLock => Z.min (spin_max + 4) (spin_max + 3 - i) | _ => spin_max + 4 end
  | PLoad i | PRSpin i => match o with RLock => Z.min (spin_max + 4) (spin_max + 3 - i) | _ => spin_max + 4 end
  | PRet WLock LPanic => match o with WLock => 1 | _ => spin_max + 4 end
  | PRet RLock LPanic => match o with RLock => 1 | _ => spin_max + 4 end
  | _ => spin_max + 4
  end.
Lemma rw_patient o l1 l2 t : o = WLock \/ o = RLock -> running (snd (crun rw_step rw_init l1)) t = false ->
  In (Ret t o LPanic) (snd (crun rw_step (fst (crun rw_step rw_init l1)) l2)) -> spin_max + 4 <= mine t l2.
Proof.
  intros Ho R Hin. pose proof (rw_running l1 t) as E. cbv zeta in E.
  assert (I : rw_pcs (fst (crun rw_step rw_init l1)) t = PIdle).
  { destruct (rw_pcs (fst (crun rw_step rw_init l1)) t) eqn:P; auto; exfalso; assert (running (snd (crun rw_step rw_init l1)) t = true) by (apply E; congruence); congruence. }
  transitivity (rw_need o t (fst (crun rw_step rw_init l1))). { unfold rw_need. rewrite I. lia. }
  revert Hin. apply (patience rw_step (rw_need o t) t).
  - intros s op. unfold rw_need at 1. unfold rw_step. destruct (rw_pcs s t) as [|i| | | |i| |i| | |q r] eqn:P; [destruct op|..];
    repeat match goal with |- context [if ?c then _ else _] => destruct c eqn:? end; unfold rw_need; cbn [fst rw_pcs]; rewrite fupd_same;
      try (destruct q, r); destruct Ho as [-> | ->]; unfold spin_max in *; lia.
  - intros s u op N. enough (rw_pcs (fst (rw_step s u op)) t = rw_pcs s t) as Q by (unfold rw_need; rewrite Q; lia).
    unfold rw_step. destruct (rw_pcs s u); repeat match goal with |- context [if ?c then _ else _] => destruct c end;
      cbn [fst rw_pcs]; apply fupd_other; auto.
  - intros s op. unfold rw_need, rw_step. destruct (rw_pcs s t) as [|i| | | |i| |i| | |q r]; repeat match goal with |- context [if ?c then _ else _] => destruct c end;
      cbn [snd In]; intros Q; try contradiction; destruct Q as [Q|[]]; try discriminate; try (injection Q; intros; subst); destruct Ho as [-> | ->]; try discriminate; lia.
  - intros s u op N. unfold rw_step. destruct (rw_pcs s u) as [|i| | | |i| |i| | |q r]; repeat match goal with |- context [if ?c then _ else _] => destruct c end;
      cbn [snd In]; intros Q; try contradiction; destruct Q as [Q|[]]; try discriminate; injection Q; intros; subst; congruence.
Qed.

(** The bound is reached. *)
Lemma sl_spin t n : forall s i, sl_pcs s t = SLock i -> sl_word s = 1 -> i + Z.of_nat n <= spin_max + 1 ->
  exists s', crun sl_step s (repeat (t, LLock) n) = (s', []) /\ sl_pcs s' t = SLock (i + Z.of_nat n) /\ sl_word s' = 1.
Proof.
  induction n as [|n IH]; intros s i P W B.
  - exists s. repeat split; auto. rewrite P. f_equal. lia.
  - cbn [repeat crun]. unfold sl_step at 1. rewrite P.
    destruct (Z.ltb_spec spin_max i) as [Q|Q]; [lia|]. rewrite W. change (1 =? 0) with false. cbv iota.
    destruct (IH (SL 1 (fupd (sl_pcs s) t (SLock (i + 1)))) (i + 1)) as (s' & E & P' & W'); [apply fupd_same|reflexivity|lia|].
    exists s'. rewrite E. repeat split; auto. rewrite P'. f_equal. lia.
Qed.
Lemma mine_repeat {Op} t (op : Op) n : mine t (repeat (t, op) n) = Z.of_nat n.
Proof. induction n; [reflexivity|]. cbn [repeat]. rewrite mine_cons, Nat.eqb_refl, IHn. lia. Qed.
Lemma mine_app {Op} t (l1 l2 : list (nat * Op)) : mine t (l1 ++ l2) = mine t l1 + mine t l2.
Proof. unfold mine, zlen. rewrite filter_app, app_length. lia. Qed.
Definition sl_held : list (nat * sl_op) := [(1%nat, LLock); (1%nat, LLock); (1%nat, LLock)].
Definition sl_wait : list (nat * sl_op) := (2%nat, LLock) :: repeat (2%nat, LLock) (Z.to_nat (spin_max + 1)) ++ [(2%nat, LLock); (2%nat, LLock)].
Lemma sl_gives_up : mine 2 sl_wait = spin_max + 4 /\ running (snd (crun sl_step sl_init sl_held)) 2 = false /\
  snd (crun sl_step (fst (crun sl_step sl_init sl_held)) sl_wait) = [Inv 2%nat LLock; Ret 2%nat LLock LPanic].
Proof.
  split; [|split; [reflexivity|]].
  - unfold sl_wait. rewrite mine_cons, mine_app, mine_repeat. rewrite Z2Nat.id by (unfold spin_max; lia). cbn. lia.
  - unfold sl_wait. set (s0 := fst (crun sl_step sl_init sl_held)).
    assert (P0 : sl_pcs s0 2%nat = SIdle) by reflexivity. assert (W0 : sl_word s0 = 1) by reflexivity. clearbody s0.
    cbn [crun]. unfold sl_step at 1. rewrite P0.
    destruct (sl_spin 2 (Z.to_nat (spin_max + 1)) (SL (sl_word s0) (fupd (sl_pcs s0) 2 (SLock 0))) 0) as (s' & E & P' & W');
      [apply fupd_same|exact W0| |].
    { rewrite Z2Nat.id; unfold spin_max; lia. }
    rewrite crun_app, E. cbn [fst snd crun]. unfold sl_step at 1. rewrite P'. rewrite Z2Nat.id by (unfold spin_max; lia).
    replace (spin_max <? 0 + (spin_max + 1)) with true by (symmetry; apply Z.ltb_lt; lia).
    unfold sl_step. cbn [sl_pcs]. rewrite fupd_same. reflexivity.
Qed.
