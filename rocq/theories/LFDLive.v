From Coq Require Import ZArith List Bool Arith Lia ZifyBool ZifyNat.
From Verif Require Import GoBase GoLists ConcBase QueueProofs RingProofs SpinProofs LFDModel LFDSpec LFDProofs LFDConc ProgSpec ProgBase LFQLive2 LFDLiveSpec.
Import ListNotations.
Open Scope Z_scope.

(** ** The two ends *)
Definition shape (n h k w : Z) (d : list Z) : Prop :=
  0 < n < 2 ^ 31 /\ zlen d = n /\ 0 <= h < n /\ 0 <= k <= n - 1 /\ w = make_ht h ((h + k) mod n).

Lemma shape_lay : forall n h k w d, shape n h k w d -> exists l, zlen l = k /\ lay n h l w d.
Proof.
  intros n h k w d (Hn & Hd & Hh & Hk & Hw).
  exists (map (fun x => zn d ((h + Z.of_nat x) mod n)) (seq 0 (Z.to_nat k))).
  assert (HL : zlen (map (fun x => zn d ((h + Z.of_nat x) mod n)) (seq 0 (Z.to_nat k))) = k).
  { unfold zlen. rewrite map_length, seq_length. lia. }
  split; [exact HL|]. unfold lay. rewrite HL. pose proof (Z.mod_pos_bound (h + k) n ltac:(lia)).
  repeat split; try lia.
  - rewrite Hw. apply make_ht_val; lia.
  - intros x Hx. rewrite HL in Hx. unfold zn at 2.
    set (F := fun x => zn d ((h + Z.of_nat x) mod n)) in *.
    rewrite (nth_indep _ 0 (F 0%nat)) by (rewrite map_length, seq_length; lia).
    rewrite map_nth, seq_nth by lia. unfold F. f_equal. f_equal. lia.
Qed.

Lemma shape_ends : forall n h k w d, shape n h k w d -> head_of w = h /\ tail_of w = (h + k) mod n /\ 0 <= (h + k) mod n < n.
Proof. intros n h k w d S. destruct (shape_lay _ _ _ _ _ S) as (l & <- & L). eapply lay_ends; eauto. Qed.
Lemma shape_next : forall n h k w d, shape n h k w d -> fd_next d ((h + k) mod n) = (h + (k + 1)) mod n.
Proof. intros n h k w d S. destruct (shape_lay _ _ _ _ _ S) as (l & <- & L). eapply lay_next; eauto. Qed.
Lemma shape_empty : forall n h k w d, shape n h k w d -> (head_of w =? tail_of w) = (k =? 0).
Proof. intros n h k w d S. destruct (shape_lay _ _ _ _ _ S) as (l & <- & L). eapply lay_empty_eq; eauto. Qed.
Lemma shape_full : forall n h k w d, shape n h k w d -> (head_of w =? fd_next d (tail_of w)) = (k =? n - 1).
Proof. intros n h k w d S. destruct (shape_lay _ _ _ _ _ S) as (l & <- & L). eapply lay_full_eq; eauto. Qed.
Lemma shape_size : forall n h k w d, shape n h k w d -> fd_size d w = k.
Proof. intros n h k w d S. destruct (shape_lay _ _ _ _ _ S) as (l & <- & L). eapply lay_size; eauto. Qed.

Lemma shape_upd : forall n h k w d i v, shape n h k w d -> shape n h k w (upd d i v).
Proof.
  intros n h k w d i v (A & B & C & D & E). repeat split; auto; try lia. unfold zlen in *. rewrite upd_length. lia.
Qed.
Lemma shape_push : forall n h k w d, shape n h k w d -> k < n - 1 -> shape n h (k + 1) (make_ht h (fd_next d ((h + k) mod n))) d.
Proof.
  intros n h k w d S Hk. rewrite (shape_next _ _ _ _ _ S). destruct S as (A & B & C & D & E). repeat split; auto; lia.
Qed.
Lemma shape_pop : forall n h k w d, shape n h k w d -> 0 < k -> shape n ((h + 1) mod n) (k - 1) (make_ht (fd_next d h) ((h + k) mod n)) d.
Proof.
  intros n h k w d (A & B & C & D & E) Hk. rewrite fd_next_mod by lia. rewrite B.
  pose proof (Z.mod_pos_bound (h + 1) n ltac:(lia)).
  repeat split; auto; try lia. f_equal. rewrite Z.add_mod_idemp_l by lia. f_equal. lia.
Qed.
Lemma shape_word : forall n h k w d h0 t0, shape n h k w d -> 0 <= h0 < n -> 0 <= t0 < n -> (w =? make_ht h0 t0) = true ->
  h0 = h /\ t0 = (h + k) mod n.
Proof.
  intros n h k w d h0 t0 S H0 H1 E. destruct (shape_ends _ _ _ _ _ S) as (_ & _ & B).
  destruct S as (Hn & Hd & Hh & Hk & Hw). apply Z.eqb_eq in E. subst w.
  apply make_ht_inj in E; lia.
Qed.

(** ** Values and counts *)
Definition pushed (hist : list (ext cd_op fd_res)) (v : Z) : Prop := exists t, In (Inv t (DPush v)) hist.
Lemma pushed_app : forall a b v, pushed a v -> pushed (a ++ b) v.
Proof. intros a b v (t & H). exists t. apply in_or_app. auto. Qed.

Definition pc_ok (n : Z) (d : list Z) (G : Z -> Prop) (pc : cd_pc) : Prop :=
  match pc with
  | DIdle | DPopLoad _ | DSizeLoad => True
  | DPushLoad v | DPushFull v => G v
  | DPushWrite v h t => G v /\ 0 <= h < n /\ 0 <= t < n /\ (t + 1) mod n <> h
  | DPushCas v h t => G v /\ 0 <= h < n /\ 0 <= t < n /\ (t + 1) mod n <> h /\ G (zn d t)
  | DPopRead h t => 0 <= h < n /\ 0 <= t < n /\ h <> t /\ G (zn d h)
  | DPopCas h t f => 0 <= h < n /\ 0 <= t < n /\ h <> t /\ G f
  | DRet DPop (FVal v true) => G v
  | DRet (DPush _) r => r = FBool true
  | DRet DPop r => match r with FVal _ false => True | _ => False end
  | DRet DSize _ => True
  | DPanic => False
  end.
Lemma pc_ok_mono : forall n d (G G' : Z -> Prop) pc, (forall v, G v -> G' v) -> pc_ok n d G pc -> pc_ok n d G' pc.
Proof. intros n d G G' pc H. destruct pc; cbn; try tauto; intuition. destruct op; auto. destruct r; auto. destruct ok; auto. Qed.
Lemma pc_ok_upd : forall n d (G : Z -> Prop) pc i v, zlen d = n -> 0 <= i < n -> G v -> pc_ok n d G pc -> pc_ok n (upd d (Z.to_nat i) v) G pc.
Proof.
  intros n d G pc i v Hd Hi Hv H. destruct pc; cbn in *; auto.
  - destruct H as (A & B & C & D & E). repeat split; auto; try lia. rewrite zn_upd by lia. match goal with |- context [if ?c then _ else _] => destruct c end; auto.
  - destruct H as (A & B & C & D). repeat split; auto; try lia. rewrite zn_upd by lia. match goal with |- context [if ?c then _ else _] => destruct c end; auto.
Qed.

Definition live (n h k : Z) (d : list Z) (G : Z -> Prop) : Prop := forall x, 0 <= x < k -> G (zn d ((h + x) mod n)).

(** Pushes and pops that took effect and have not returned. *)
Definition push_done (pc : cd_pc) : nat := match pc with DRet (DPush _) _ => 1%nat | _ => 0%nat end.
Definition pop_done (pc : cd_pc) : nat := match pc with DRet DPop (FVal _ true) => 1%nat | _ => 0%nat end.

Lemma pushes_app : forall a b, pushes (a ++ b) = pushes a ++ pushes b.
Proof. induction a as [|[t o|t o r] a IH]; intro b; cbn; auto. destruct o; cbn; rewrite IH; auto. Qed.
Lemma pops_app : forall a b, pops (a ++ b) = pops a ++ pops b.
Proof. induction a as [|[t o|t o r] a IH]; intro b; cbn; auto. destruct o; auto. destruct r; auto. destruct ok; cbn; rewrite IH; auto. Qed.

Section Inv.
Variables (n : Z) (P : nat).
Definition inv (s : cd_state) (hist : list (ext cd_op fd_res)) : Prop :=
  exists h k, shape n h k (fd_ht (cd_q s)) (fd_d (cd_q s)) /\
    live n h k (fd_d (cd_q s)) (pushed hist) /\ (forall t, pc_ok n (fd_d (cd_q s)) (pushed hist) (cd_pcs s t)) /\
    (forall v, In v (pops hist) -> pushed hist v) /\
    k + zlen (pops hist) + Z.of_nat (sumP P (fun t => pop_done (cd_pcs s t))) =
    zlen (pushes hist) + Z.of_nat (sumP P (fun t => push_done (cd_pcs s t))).

Lemma inv_put : forall s hist t q' pc evs h k h' k', (t < P)%nat ->
  (forall u, pc_ok n (fd_d (cd_q s)) (pushed hist) (cd_pcs s u)) ->
  k + zlen (pops hist) + Z.of_nat (sumP P (fun t => pop_done (cd_pcs s t))) =
    zlen (pushes hist) + Z.of_nat (sumP P (fun t => push_done (cd_pcs s t))) ->
  (forall v, In v (pops hist) -> pushed hist v) ->
  shape n h k (fd_ht (cd_q s)) (fd_d (cd_q s)) ->
  shape n h' k' (fd_ht q') (fd_d q') -> live n h' k' (fd_d q') (pushed (hist ++ evs)) ->
  (forall u, pc_ok n (fd_d (cd_q s)) (pushed (hist ++ evs)) (cd_pcs s u) -> pc_ok n (fd_d q') (pushed (hist ++ evs)) (cd_pcs s u)) ->
  pc_ok n (fd_d q') (pushed (hist ++ evs)) pc -> (forall v, In v (pops evs) -> pushed hist v) ->
  k' + zlen (pops evs) + Z.of_nat (pop_done pc) + Z.of_nat (push_done (cd_pcs s t)) =
  k + zlen (pushes evs) + Z.of_nat (push_done pc) + Z.of_nat (pop_done (cd_pcs s t)) ->
  inv (CD q' (fupd (cd_pcs s) t pc)) (hist ++ evs).
Proof.
  intros s hist t q' pc evs h k h' k' Ht HP HC HV HS HS' HL HO HN HE HK.
  exists h', k'. cbn [cd_q cd_pcs]. split; [exact HS'|]. split; [exact HL|]. split; [|split].
  - intro u. unfold fupd. destruct (Nat.eqb_spec u t); auto. apply HO. eapply pc_ok_mono; [|apply HP]. intros; apply pushed_app; auto.
  - intros v Hv. rewrite pops_app in Hv. apply pushed_app. apply in_app_or in Hv. destruct Hv; auto.
  - rewrite pops_app, pushes_app. unfold zlen in *. rewrite !app_length.
    pose proof (sumP_upd P t (fun u => pop_done (cd_pcs s u)) (fun u => pop_done (fupd (cd_pcs s) t pc u)) Ht) as U1.
    pose proof (sumP_upd P t (fun u => push_done (cd_pcs s u)) (fun u => push_done (fupd (cd_pcs s) t pc u)) Ht) as U2.
    cbv beta in U1, U2. rewrite fupd_same in U1, U2.
    specialize (U1 ltac:(intros; rewrite fupd_other by auto; reflexivity)).
    specialize (U2 ltac:(intros; rewrite fupd_other by auto; reflexivity)). lia.
Qed.

Lemma live_mono : forall h k d (G G' : Z -> Prop), (forall v, G v -> G' v) -> live n h k d G -> live n h k d G'.
Proof. intros h k d G G' H L x Hx. auto. Qed.

Ltac triv := try solve [auto | intros ? [] | cbn; auto | cbn; lia | apply (live_mono _ _ _ _ _ (fun v => pushed_app _ _ v)); auto].

Lemma inv_step : forall s hist t op, (t < P)%nat -> inv s hist -> inv (fst (cd_step s t op)) (hist ++ snd (cd_step s t op)).
Proof.
  intros s hist t op Ht (h & k & S & L & HP & HV & HC). pose proof (HP t) as Hpc. pose proof S as (Hn & Hd & Hh & Hk & Hw).
  destruct (shape_ends _ _ _ _ _ S) as (Eh & Et & Hb).
  assert (HM : forall evs v, pushed hist v -> pushed (hist ++ evs) v) by (intros; apply pushed_app; auto).
  unfold cd_step. destruct (cd_pcs s t) as [|v|v|v h0 t0|v h0 t0|f|h0 t0|h0 t0 f| |op' r|] eqn:E; cbn [pc_ok] in Hpc; [| | | | | | | | | |contradiction].
  - cbn [fst snd]. apply inv_put with h k h k; auto; triv.
    + destruct op; cbn [pc_ok]; try exact Logic.I. exists t. apply in_or_app. right. left. reflexivity.
    + rewrite E. cbn. destruct op; cbn; lia.
  - cbn [fst snd]. apply inv_put with h k h k; auto; try (rewrite E); triv.
    + rewrite (shape_full _ _ _ _ _ S), Eh, Et. destruct (Z.eqb_spec k (n - 1)); cbn [pc_ok]; auto.
      repeat split; auto; try lia. pose proof (shape_next _ _ _ _ _ S) as N. rewrite fd_next_mod in N by lia. rewrite Hd in N. rewrite N.
      pose proof (mod_eq_head n h (k + 1) ltac:(lia) ltac:(lia) ltac:(lia)). intro X. symmetry in X. apply H in X. lia.
    + destruct (_ =? _); cbn; lia.
  - cbn [fst snd]. apply inv_put with h k h k; auto; try (rewrite E); cbn [fd_d fd_ht]; triv.
  - destruct Hpc as (Hv & H0 & H1 & H2). rewrite zset_Ok by lia. cbn [fst snd].
    apply inv_put with h k h k; auto; try (rewrite E); cbn [fd_d fd_ht]; triv.
    + apply shape_upd. auto.
    + intros x Hx. rewrite zn_upd by (pose proof (Z.mod_pos_bound (h + x) n ltac:(lia)); lia). match goal with |- context [if ?c then _ else _] => destruct c end; auto.
    + intros u Hu. apply pc_ok_upd; auto; lia.
    + cbn [pc_ok]. repeat split; auto; try lia. rewrite zn_upd by lia. destruct (Z.eq_dec t0 t0); [auto|congruence].
  - destruct Hpc as (Hv & H0 & H1 & H2 & H3). destruct (_ =? _) eqn:EQ.
    + destruct (shape_word _ _ _ _ _ _ _ S H0 H1 EQ) as [-> ->].
      assert (Hk' : k < n - 1).
      { destruct (Z.eq_dec k (n - 1)) as [->|]; [|lia]. exfalso. apply H2. rewrite Z.add_mod_idemp_l by lia.
        replace (h + (n - 1) + 1) with (h + 1 * n) by lia. rewrite Z.mod_add, Z.mod_small; lia. }
      cbn [fst snd]. apply inv_put with h k h (k + 1); auto; try (rewrite E); cbn [fd_d fd_ht]; triv.
      * apply shape_push with (fd_ht (cd_q s)); auto.
      * intros x Hx. destruct (Z.eq_dec x k) as [->|]; [auto|]. apply HM, L. lia.
    + cbn [fst snd]. apply inv_put with h k h k; auto; try (rewrite E); cbn [fd_d fd_ht]; triv.
  - cbn [fst snd]. apply inv_put with h k h k; auto; try (rewrite E); triv.
    + rewrite (shape_empty _ _ _ _ _ S), Eh, Et. destruct (Z.eqb_spec k 0); cbn [pc_ok]; auto.
      repeat split; auto; try lia.
      * pose proof (mod_eq_head n h k ltac:(lia) ltac:(lia) ltac:(lia)). intro X. apply H in X. lia.
      * apply HM. replace h with ((h + 0) mod n) by (rewrite Z.add_0_r; apply Z.mod_small; lia). apply L. lia.
    + destruct (_ =? _); cbn; lia.
  - destruct Hpc as (H0 & H1 & H2 & H3). rewrite (zget_Ok _ _ 0) by lia. cbn [fst snd].
    apply inv_put with h k h k; auto; try (rewrite E); cbn [fd_d fd_ht]; triv.
  - destruct Hpc as (H0 & H1 & H2 & H3). destruct (_ =? _) eqn:EQ.
    + destruct (shape_word _ _ _ _ _ _ _ S H0 H1 EQ) as [-> ->].
      assert (Hk' : 0 < k).
      { destruct (Z.eq_dec k 0) as [->|]; [|lia]. exfalso. apply H2. rewrite Z.add_0_r, Z.mod_small; lia. }
      cbn [fst snd]. apply inv_put with h k ((h + 1) mod n) (k - 1); auto; try (rewrite E); cbn [fd_d fd_ht]; triv.
      * apply shape_pop with (fd_ht (cd_q s)); auto.
      * intros x Hx. rewrite Z.add_mod_idemp_l by lia. replace (h + 1 + x) with (h + (x + 1)) by lia. apply HM, L. lia.
    + cbn [fst snd]. apply inv_put with h k h k; auto; try (rewrite E); cbn [fd_d fd_ht]; triv.
  - cbn [fst snd]. apply inv_put with h k h k; auto; try (rewrite E); triv.
  - cbn [fst snd]. apply inv_put with h k h k; auto; try (rewrite E); triv.
    + intros v0. destruct op'; cbn; try tauto. destruct r; cbn; try tauto. destruct ok; cbn; [|tauto].
      intros [<-|[]]. auto.
    + destruct op'; cbn; try lia. destruct r; cbn; try lia. destruct ok; cbn; lia.
Qed.

Lemma inv_init : 0 < n < 2 ^ 31 -> inv (cd_init n) [].
Proof.
  intro Hn. exists 0, 0. unfold cd_init. cbn [cd_q cd_pcs]. unfold fd_init. cbn [fd_d lfd_zero].
  replace (n <=? 0) with false by lia. cbn [fd_d fd_ht]. split; [|split; [|split; [|split]]].
  - unfold shape. rewrite zlen_repeat by lia. rewrite Z.add_0_l, Z.mod_0_l by lia. change (make_ht 0 0) with 0. lia.
  - intros x Hx. lia.
  - intro t. exact Logic.I.
  - intros v [].
  - cbn. rewrite !sumP_const. lia.
Qed.

Lemma inv_run : forall sched, 0 < n < 2 ^ 31 -> members P sched -> inv (fst (crun cd_step (cd_init n) sched)) (snd (crun cd_step (cd_init n) sched)).
Proof.
  intros sched Hn. induction sched as [|[t op] l IH] using rev_ind; intro HM; [apply inv_init; auto|].
  apply members_app in HM. destruct HM as [HM He]. inversion He as [|? ? Hu _]; subst. rewrite crun_snoc. cbn [fst snd] in *. apply inv_step; auto.
Qed.
End Inv.

Lemma members_exist : forall {X} (sched : list (nat * X)), exists P, members P sched.
Proof.
  induction sched as [|[t x] l [P H]]; [exists 0%nat; constructor|].
  exists (S (Nat.max P t)). constructor; [cbn; lia|]. eapply Forall_impl; [|exact H]. cbn. intros; lia.
Qed.

Lemma lfd_mpmc : forall n sched, 0 < n < 2 ^ 31 ->
  let s := fst (crun cd_step (cd_init n) sched) in let hist := snd (crun cd_step (cd_init n) sched) in
  (forall t, cd_pcs s t <> DPanic) /\
  (forall v, In v (pops hist) -> exists t, In (Inv t (DPush v)) hist) /\
  0 <= size_now s <= n - 1 /\
  (quiet s -> size_now s = zlen (pushes hist) - zlen (pops hist)).
Proof.
  intros n sched Hn. cbv zeta. destruct (members_exist sched) as [P HM].
  destruct (inv_run n P sched Hn HM) as (h & k & S & L & HP & HV & HC).
  assert (HZ : size_now (fst (crun cd_step (cd_init n) sched)) = k) by (eapply shape_size; eauto).
  split; [|split; [exact HV|split]].
  - intros t E. specialize (HP t). rewrite E in HP. exact HP.
  - rewrite HZ. destruct S as (_ & _ & _ & Hk & _). lia.
  - intro Q. rewrite HZ.
    assert (E1 : sumP P (fun t => pop_done (cd_pcs (fst (crun cd_step (cd_init n) sched)) t)) = 0%nat).
    { apply Nat.le_0_r. rewrite <- (Nat.mul_0_r P), <- (sumP_const P 0). apply sumP_le. intros u _. rewrite Q. cbn. lia. }
    assert (E2 : sumP P (fun t => push_done (cd_pcs (fst (crun cd_step (cd_init n) sched)) t)) = 0%nat).
    { apply Nat.le_0_r. rewrite <- (Nat.mul_0_r P), <- (sumP_const P 0). apply sumP_le. intros u _. rewrite Q. cbn. lia. }
    lia.
Qed.
