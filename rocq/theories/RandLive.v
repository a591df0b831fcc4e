(** Progress of concurrent calls of the generators: proofs for RandLiveProps. *)
From Coq Require Import ZArith List Bool Arith Lia.
From Verif Require Import GoBase ConcBase SpinProofs ProgSpec ProgBase LFQLive2 RandModel.
Import ListNotations.
Local Open Scope nat_scope.

(** Steps that the call still needs if nobody interferes. *)
Definition rleft (seed : Z) (pc : rnd_pc) : nat :=
  match pc with
  | PIdle => 0
  | PCall ORand => 3
  | PCall _ => 2
  | PLoaded o => if Z.eqb seed o then 2 else 4
  | PRet _ _ => 1
  end.
(** The call may still change the seed. *)
Definition rchg (pc : rnd_pc) : nat := match pc with PCall _ | PLoaded _ => 1 | _ => 0 end.
Definition rbusy (s : rnd_state) (u : nat) : nat := match rpc s u with PIdle => 0 | _ => 1 end.
Definition rmoves (seed : Z) (pc : rnd_pc) : nat :=
  match pc with PCall (OSrand _) => 1 | PLoaded o => if Z.eqb seed o then 1 else 0 | _ => 0 end.
Definition rch (s : rnd_state) (u : nat) : nat := rchg (rpc s u).

Section Live.
Variable g : gen.

Lemma rstep_others : forall s t op u, u <> t ->
  let s' := fst (rnd_step g s t op) in
  rpc s' u = rpc s u /\ rleft (rseed s') (rpc s u) <= rleft (rseed s) (rpc s u) + 2 * rmoves (rseed s) (rpc s t).
Proof.
  intros s t op u N s'. unfold s', rnd_step. clear s'.
  destruct (rpc s t) as [| [|x|] | o | op' r]; cbn [fst rpc rseed rmoves]; try destruct (Z.eqb_spec (rseed s) o);
  cbn [fst rpc rseed]; rewrite fupd_other by auto; (split; [reflexivity|]); try lia;
  destruct (rpc s u) as [| [|y|] | o' | op'' r']; cbn [rleft]; try lia;
  repeat match goal with |- context [if ?c then _ else _] => destruct c end; lia.
Qed.

Lemma rstep_self : forall s t op,
  let s' := fst (rnd_step g s t op) in
  rleft (rseed s') (rpc s' t) + 1 <= rleft (rseed s) (rpc s t) + 4 * length (invs (snd (rnd_step g s t op))) /\
  rch s' t + rmoves (rseed s) (rpc s t) <= rch s t + length (invs (snd (rnd_step g s t op))) /\
  rbusy s' t + length (rets (snd (rnd_step g s t op))) = rbusy s t + length (invs (snd (rnd_step g s t op))).
Proof.
  intros s t op s'. unfold s', rnd_step, rch, rbusy. clear s'.
  destruct (rpc s t) as [| [|x|] | o | op' r] eqn:E; cbn [fst snd rpc rseed rmoves];
  try (destruct (Z.eqb (rseed s) o) eqn:Q); cbn [fst snd rpc rseed]; rewrite fupd_same; cbn [rleft rchg invs rets length];
  rewrite ?Q, ?Z.eqb_refl; try destruct op; lia.
Qed.

Lemma rstep_events : forall s t op u,
  invs_of u (snd (rnd_step g s t op)) = (if u =? t then length (invs (snd (rnd_step g s t op))) else 0) /\
  rets_of u (snd (rnd_step g s t op)) = (if u =? t then length (rets (snd (rnd_step g s t op))) else 0).
Proof.
  intros s t op u. unfold rnd_step, invs_of, rets_of.
  destruct (rpc s t) as [| [|x|] | o | op' r]; try destruct (Z.eqb (rseed s) o);
  cbn [snd invs rets filter fst]; try rewrite (Nat.eqb_sym t u); destruct (u =? t); cbn; auto.
Qed.

Section All.
Variable P : nat.
Definition rweight (s : rnd_state) (u : nat) : nat := rleft (rseed s) (rpc s u) + 2 * (P - 1) * rch s u.

Lemma rweight_step : forall s t op, True -> t < P -> True /\
  sumP P (rweight (fst (rnd_step g s t op))) + 1 <= sumP P (rweight s) + (4 + 2 * (P - 1)) * length (invs (snd (rnd_step g s t op))).
Proof.
  intros s t op _ Ht. split; [exact Logic.I|].
  apply (sumP_step P t (rweight s) (rweight (fst (rnd_step g s t op))) (2 * rmoves (rseed s) (rpc s t))); auto.
  - intros u Hu N. destruct (rstep_others s t op u N) as [E L]. unfold rweight, rch. rewrite E. lia.
  - destruct (rstep_self s t op) as (L1 & L2 & _). unfold rweight in *.
    set (i := length (invs (snd (rnd_step g s t op)))) in *. set (p := P - 1) in *. clearbody i p.
    set (a := rch (fst (rnd_step g s t op)) t) in *. set (b := rch s t) in *. set (m := rmoves (rseed s) (rpc s t)) in *.
    clearbody a b m. nia.
Qed.
Lemma rbusy_step : forall s t op, True -> t < P -> True /\
  sumP P (rbusy (fst (rnd_step g s t op))) + length (rets (snd (rnd_step g s t op))) = sumP P (rbusy s) + length (invs (snd (rnd_step g s t op))).
Proof.
  intros s t op _ Ht. split; [exact Logic.I|].
  pose proof (sumP_upd P t (rbusy s) (rbusy (fst (rnd_step g s t op))) Ht) as U.
  destruct (rstep_self s t op) as (_ & _ & L3).
  specialize (U ltac:(intros u Hu N; destruct (rstep_others s t op u N) as [E _]; unfold rbusy; rewrite E; reflexivity)).
  lia.
Qed.
Lemma rbusy_max : forall s, sumP P (rbusy s) <= P.
Proof.
  intro s. rewrite <- (Nat.mul_1_r P) at 2. rewrite <- (sumP_const P 1). apply sumP_le. intros u _. unfold rbusy.
  destruct (rpc s u); lia.
Qed.
Lemma rleft_max : forall z pc, rleft z pc <= 4.
Proof. intros z [| [|x|] | o | op r]; cbn [rleft]; try destruct (Z.eqb z o); lia. Qed.
Lemma rch_max : forall s u, rch s u <= 1.
Proof. intros s u. unfold rch. destruct (rpc s u); cbn; lia. Qed.
Lemma rweight_max : forall s, sumP P (rweight s) <= P * (4 + 2 * (P - 1)).
Proof.
  intro s. rewrite <- sumP_const. apply sumP_le. intros u _. unfold rweight. pose proof (rleft_max (rseed s) (rpc s u)).
  pose proof (rch_max s u). nia.
Qed.

Lemma rnd_lock_free : forall s sched, members P sched ->
  length sched <= (2 * P + 2) * (length (rets (snd (crun (rnd_step g) s sched))) + 2 * P).
Proof.
  intros s sched HM.
  destruct (progress_bound (rnd_step g) (fun _ => True) P rweight (4 + 2 * (P - 1)) rweight_step sched s Logic.I HM) as [_ A].
  pose proof (calls_bound (rnd_step g) (fun _ => True) P rbusy rbusy_step sched s Logic.I HM) as B.
  pose proof (rbusy_max s). pose proof (rbusy_max (fst (crun (rnd_step g) s sched))). pose proof (rweight_max s).
  set (i := length (invs (snd (crun (rnd_step g) s sched)))) in *. set (r := length (rets (snd (crun (rnd_step g) s sched)))) in *.
  assert (i <= r + P) by lia. clearbody i r.
  destruct P as [|p]; [destruct sched; [cbn; lia|inversion HM; lia]|]. replace (S p - 1) with p in * by lia. nia.
Qed.

Variable t : nat.
Hypothesis Ht : t < P.
Lemma rsingle_run : forall sched s, members P sched ->
  let s' := fst (crun (rnd_step g) s sched) in let h := snd (crun (rnd_step g) s sched) in
  rleft (rseed s') (rpc s' t) + steps_of t sched + 2 * sumP P (rch s') <=
  rleft (rseed s) (rpc s t) + 4 * invs_of t h + 2 * (sumP P (rch s) + length (invs h)) /\
  rbusy s' t + rets_of t h = rbusy s t + invs_of t h.
Proof.
  intros sched s. cbv zeta. induction sched as [|[u op] l IH] using rev_ind; intro HM.
  - cbn. lia.
  - apply members_app in HM. destruct HM as [HM He]. inversion He as [|? ? Hu _]; subst. cbn [fst] in Hu.
    destruct (IH HM) as [IH1 IH2]. rewrite crun_snoc. cbn [fst snd].
    set (a := fst (crun (rnd_step g) s l)) in *. set (h := snd (crun (rnd_step g) s l)) in *.
    rewrite steps_app, invs_of_app, rets_of_app, invs_app, app_length.
    destruct (rstep_events a u op t) as [-> ->].
    destruct (rstep_self a u op) as (L1 & L2 & L3).
    assert (HC : sumP P (rch (fst (rnd_step g a u op))) + rmoves (rseed a) (rpc a u) <=
                 sumP P (rch a) + length (invs (snd (rnd_step g a u op)))).
    { pose proof (sumP_upd P u (rch a) (rch (fst (rnd_step g a u op))) Hu) as U.
      assert (U' : sumP P (rch (fst (rnd_step g a u op))) + rch a u = sumP P (rch a) + rch (fst (rnd_step g a u op)) u).
      { apply U. intros v Hv N. destruct (rstep_others a u op v N) as [E _]. unfold rch. rewrite E. reflexivity. }
      lia. }
    change (steps_of t [(u, op)]) with (length (if u =? t then [(u, op)] else [])). destruct (Nat.eqb_spec t u) as [->|N].
    + rewrite Nat.eqb_refl. cbn [length]. lia.
    + destruct (Nat.eqb_spec u t); [congruence|]. cbn [length].
      destruct (rstep_others a u op t N) as [E L]. unfold rbusy in *. rewrite !E. lia.
Qed.

Lemma rch_busy : forall s, sumP P (rch s) <= sumP P (rbusy s).
Proof. intros. apply sumP_le. intros u _. unfold rch, rbusy. destruct (rpc s u); cbn; lia. Qed.
Lemma rnd_call_bound : forall s sched, members P sched ->
  let h := snd (crun (rnd_step g) s sched) in
  rets_of t h = 0 -> steps_of t sched <= 4 + 2 * (length (rets h) + P).
Proof.
  intros s sched HM h HR.
  destruct (rsingle_run sched s HM) as [A B]. fold h in A, B.
  pose proof (calls_bound (rnd_step g) (fun _ => True) P rbusy rbusy_step sched s Logic.I HM) as C. fold h in C.
  pose proof (rbusy_max (fst (crun (rnd_step g) s sched))). pose proof (rch_busy s).
  assert (D : rleft (rseed s) (rpc s t) + 4 * invs_of t h <= 4).
  { rewrite HR in B. pose proof (rleft_max (rseed s) (rpc s t)).
    assert (rbusy (fst (crun (rnd_step g) s sched)) t <= 1) by (unfold rbusy; destruct (rpc _ t); lia).
    unfold rbusy at 2 in B. destruct (rpc s t); cbn [rleft] in *; lia. }
  lia.
Qed.
End All.

(** ** A goroutine alone *)
Lemma rnd_solo : forall s t op, exists n, n <= 4 /\
  rets_of t (snd (crun (rnd_step g) s (repeat (t, op) n))) = 1.
Proof.
  intros s t op.
  assert (G : forall m s, rpc s t <> PIdle -> rleft (rseed s) (rpc s t) <= m ->
    exists n, n <= m /\ rets_of t (snd (crun (rnd_step g) s (repeat (t, op) n))) = 1).
  { clear s. induction m as [|m IH]; intros s Hb HL.
    - exfalso. destruct (rpc s t) as [| [|x|] | o | op' r]; cbn [rleft] in HL; try destruct (Z.eqb (rseed s) o); try lia; congruence.
    - destruct (rstep_self s t op) as (L1 & _ & L3).
      assert (HN : invs (snd (rnd_step g s t op)) = []).
      { unfold rnd_step. destruct (rpc s t) as [| [|x|] | o | op' r]; try congruence; try destruct (Z.eqb (rseed s) o); reflexivity. }
      rewrite HN in L1, L3. cbn [length] in L1, L3. unfold rbusy in L3.
      destruct (rets (snd (rnd_step g s t op))) as [|r l] eqn:ER.
      + destruct (IH (fst (rnd_step g s t op))) as (n & Hn & E).
        * intro K. rewrite K in L3. cbn in L3. destruct (rpc s t); cbn in L3; try lia. congruence.
        * lia.
        * exists (S n). split; [lia|]. cbn [repeat crun]. destruct (rnd_step g s t op) as [s1 h1] eqn:E1. cbn [fst snd] in *.
          destruct (crun (rnd_step g) s1 (repeat (t, op) n)) as [s2 h2] eqn:E2. cbn [snd] in *. rewrite rets_of_app, E.
          unfold rets_of. rewrite ER. reflexivity.
      + exists 1. split; [lia|]. cbn [repeat crun]. destruct (rstep_events s t op t) as [_ E]. rewrite Nat.eqb_refl in E.
        destruct (rnd_step g s t op) as [s1 h1] eqn:E1. cbn [fst snd] in *. rewrite rets_of_app, E, ER.
        cbn [length] in *. unfold rets_of. cbn.
        destruct (rpc s t), (rpc s1 t); cbn in L3; lia. }
  destruct (rpc s t) eqn:PC; try (apply (G 4 s); [congruence|apply rleft_max]).
  destruct (G 3 (fst (rnd_step g s t op))) as (n & Hn & E).
  - unfold rnd_step. rewrite PC. cbn [fst rpc]. rewrite fupd_same. discriminate.
  - unfold rnd_step. rewrite PC. cbn [fst rpc rseed]. rewrite fupd_same. cbn [rleft]. destruct op; lia.
  - exists (S n). split; [lia|]. cbn [repeat crun]. destruct (rnd_step g s t op) as [s1 h1] eqn:E1. cbn [fst snd] in *.
    destruct (crun (rnd_step g) s1 (repeat (t, op) n)) as [s2 h2] eqn:E2. cbn [snd] in *. rewrite rets_of_app, E.
    unfold rnd_step in E1. rewrite PC in E1. injection E1 as _ <-. reflexivity.
Qed.
End Live.

(** ** A goroutine that never gets through *)
Definition rovertake : list (nat * rnd_op) := [(0, ORand); (1, ORand); (1, ORand); (1, ORand); (1, ORand); (0, ORand)].
Lemma odd_moves : forall w a c o, (1 <= w)%Z -> Z.odd a = true -> Z.odd c = true ->
  Z.eqb (wrap w (wrap w (o * a) + c)) o = false.
Proof.
  intros w a c o Hw Ha Hc. apply Z.eqb_neq. intro E.
  assert (HW : (2 ^ w = 2 * 2 ^ (w - 1))%Z).
  { replace w with (Z.succ (w - 1)) at 1 by lia. rewrite Z.pow_succ_r by lia. reflexivity. }
  assert (OM : forall x, Z.odd (wrap w x) = Z.odd x).
  { intro x. unfold wrap. rewrite HW, Z.mod_eq by lia.
    rewrite Z.odd_sub. replace (2 * 2 ^ (w - 1) * (x / (2 * 2 ^ (w - 1))))%Z with (2 * (2 ^ (w - 1) * (x / (2 * 2 ^ (w - 1)))))%Z by ring.
    rewrite Z.odd_mul. cbn. apply xorb_false_r. }
  apply (f_equal Z.odd) in E. rewrite OM, Z.odd_add, OM, Z.odd_mul, Ha, Hc, andb_true_r in E. destruct (Z.odd o); discriminate.
Qed.
Lemma gen_moves : forall g o, g = gen32 \/ g = gen64 -> Z.eqb (rand_next g o) o = false.
Proof. intros g o [->| ->]; apply odd_moves; reflexivity || (cbn; lia). Qed.

Section Starve.
Variable g : gen.
Hypothesis Hg : g = gen32 \/ g = gen64.
Definition rstarving (s : rnd_state) : Prop := rpc s 0 = PCall ORand /\ rpc s 1 = PIdle.
Lemma rovertake_ok : forall s, rstarving s -> rstarving (fst (crun (rnd_step g) s rovertake)) /\
  rets_of 0 (snd (crun (rnd_step g) s rovertake)) = 0.
Proof.
  intros [z pc] [P0 P1]. cbn [rpc] in *. unfold rovertake.
  assert (E : exists s', crun (rnd_step g) (RndState z pc) rovertake = (s', [Inv 1 ORand; Ret 1 ORand (rand_next g z)]) /\ rstarving s').
  { eexists. split.
    - unfold rovertake. cbn [crun]. unfold rnd_step at 1. cbn [rpc rseed]. rewrite P0.
      unfold rnd_step at 1. cbn [rpc rseed]. rewrite fupd_other by lia. rewrite P1.
      unfold rnd_step at 1. cbn [rpc rseed]. rewrite fupd_same.
      unfold rnd_step at 1. cbn [rpc rseed]. rewrite fupd_same. rewrite Z.eqb_refl.
      unfold rnd_step at 1. cbn [rpc rseed]. rewrite fupd_same.
      unfold rnd_step at 1. cbn [rpc rseed]. repeat (rewrite fupd_other by lia). rewrite fupd_same.
      rewrite gen_moves by exact Hg. cbn [app]. reflexivity.
    - split; cbn [rpc]; [apply fupd_same|]. rewrite fupd_other by lia. apply fupd_same. }
  destruct E as (s' & E & A). unfold rovertake in E. rewrite E. cbn [fst snd]. split; [exact A|reflexivity].
Qed.
Fixpoint rrounds (k : nat) : list (nat * rnd_op) := match k with O => [] | S k => rrounds k ++ rovertake end.
Lemma rrounds_ok : forall k seed, let s := fst (crun (rnd_step g) (rnd_init seed) [(0, ORand)]) in
  rstarving (fst (crun (rnd_step g) s (rrounds k))) /\ rets_of 0 (snd (crun (rnd_step g) s (rrounds k))) = 0 /\
  steps_of 0 (rrounds k) = 2 * k /\ members 2 (rrounds k).
Proof.
  intros k seed s. induction k as [|k (A & B & C & D)].
  - cbn [rrounds crun fst snd]. repeat split; constructor.
  - cbn [rrounds]. rewrite crun_app. cbn [fst snd]. destruct (rovertake_ok _ A) as [E F]. split; auto.
    rewrite rets_of_app, B, F. split; auto. rewrite steps_app, C. split; [cbn; lia|]. apply Forall_app. split; auto.
    unfold rovertake. repeat constructor; cbn; lia.
Qed.
Lemma rnd_starves : forall seed N, exists sched, members 2 sched /\ N <= steps_of 0 sched /\
  rets_of 0 (snd (crun (rnd_step g) (rnd_init seed) sched)) = 0 /\
  invs_of 0 (snd (crun (rnd_step g) (rnd_init seed) sched)) = 1.
Proof.
  intros seed N. exists ([(0, ORand)] ++ rrounds N). destruct (rrounds_ok N seed) as (A & B & C & D).
  assert (HM : members 2 ([(0, ORand)] ++ rrounds N)) by (apply Forall_app; split; [repeat constructor; cbn; lia|exact D]).
  split; auto.
  split; [rewrite steps_app; lia|].
  assert (R0 : rets_of 0 (snd (crun (rnd_step g) (rnd_init seed) ([(0, ORand)] ++ rrounds N))) = 0).
  { rewrite crun_app. cbn [fst snd]. rewrite rets_of_app, B. reflexivity. }
  split; auto.
  destruct (rsingle_run g 2 0 ltac:(lia) _ (rnd_init seed) HM) as [_ E]. rewrite R0 in E.
  assert (E1 : rbusy (fst (crun (rnd_step g) (rnd_init seed) ([(0, ORand)] ++ rrounds N))) 0 = 1).
  { rewrite crun_app. cbn [fst]. destruct A as (A & _). unfold rbusy. rewrite A. reflexivity. }
  rewrite E1 in E. change (rbusy (rnd_init seed) 0) with 0 in E. lia.
Qed.
End Starve.

(** ** Seed and Srand need no luck *)
Definition plain_pc (pc : rnd_pc) : Prop := match pc with PCall ORand | PLoaded _ => False | _ => True end.
Definition plain_left (pc : rnd_pc) : nat := match pc with PIdle => 0 | PCall _ => 2 | PLoaded _ => 2 | PRet _ _ => 1 end.
Lemma rnd_plain : forall g t sched s, plain_pc (rpc s t) -> (forall op, In (t, op) sched -> op <> ORand) ->
  let s' := fst (crun (rnd_step g) s sched) in let h := snd (crun (rnd_step g) s sched) in
  plain_pc (rpc s' t) /\ plain_left (rpc s' t) + steps_of t sched = plain_left (rpc s t) + 3 * invs_of t h /\
  rbusy s' t + rets_of t h = rbusy s t + invs_of t h.
Proof.
  intros g t sched s Hs. cbv zeta. induction sched as [|[u op] l IH] using rev_ind; intro HP.
  - cbn. split; auto.
  - destruct IH as (A & B & C); [intros o Ho; apply HP; apply in_or_app; auto|].
    rewrite crun_snoc. cbn [fst snd]. rewrite steps_app, invs_of_app, rets_of_app.
    set (a := fst (crun (rnd_step g) s l)) in *. set (h := snd (crun (rnd_step g) s l)) in *. clearbody a h.
    destruct (rstep_events g a u op t) as [-> ->].
    change (steps_of t [(u, op)]) with (length (if u =? t then [(u, op)] else [])). destruct (Nat.eqb_spec t u) as [<-|N].
    + rewrite Nat.eqb_refl. cbn [length].
      assert (Hop : op <> ORand) by (apply HP; apply in_or_app; right; left; reflexivity).
      unfold rbusy in *. unfold rnd_step. destruct (rpc a t) as [| [|x|] | o | op' r]; cbn [plain_pc] in A; try contradiction;
      cbn [fst snd rpc]; rewrite fupd_same; cbn [plain_pc plain_left invs rets length] in *;
      (split; [first [exact Logic.I | destruct op; congruence || exact Logic.I]|]); lia.
    + destruct (Nat.eqb_spec u t); [congruence|]. cbn [length].
      destruct (rstep_others g a u op t N) as [E L]. unfold rbusy in *. rewrite !E. split; [exact A|]. lia.
Qed.
Lemma rnd_seed_wait_free : forall g seed before sched t,
  (forall op, In (t, op) (before ++ sched) -> op <> ORand) ->
  rets_of t (snd (crun (rnd_step g) (fst (crun (rnd_step g) (rnd_init seed) before)) sched)) = 0 -> steps_of t sched <= 2.
Proof.
  intros g seed before sched t HP HR.
  destruct (rnd_plain g t before (rnd_init seed) Logic.I) as (A & _); [intros o Ho; apply HP; apply in_or_app; auto|].
  destruct (rnd_plain g t sched _ A) as (B & C & D); [intros o Ho; apply HP; apply in_or_app; auto|].
  rewrite HR in D. unfold rbusy in D.
  destruct (rpc (fst (crun (rnd_step g) (rnd_init seed) before)) t), (rpc (fst (crun (rnd_step g) (fst (crun (rnd_step g) (rnd_init seed) before)) sched)) t);
  cbn [plain_left] in C; lia.
Qed.
