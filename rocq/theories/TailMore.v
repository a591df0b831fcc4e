(** Regular histories keep the tail pointer; what irregular calls do. *)
From Coq Require Import ZArith List Bool Arith Lia.
From Verif Require Import GoBase GoLists ConcBase ListSpec SListModel SListSpec SListProofs SListRefine TailModel TailSpec TailProofs.
Import ListNotations.
Open Scope nat_scope.

(** ** The last node of edited sequences *)
Lemma ln_cons x l : l <> [] -> last_node (x :: l) = last_node l.
Proof.
  destruct l as [|y l _] using rev_ind; [congruence|]. intros _. change (x :: l ++ [y]) with ((x :: l) ++ [y]).
  now rewrite !last_hd_rev.
Qed.
Lemma ln_rev l : last_node (rev l) = hd_error l.
Proof. unfold last_node. now rewrite rev_involutive. Qed.
Lemma ln_app l l' : l' <> [] -> last_node (l ++ l') = last_node l'.
Proof. destruct l' as [|y t _] using rev_ind; [congruence|]. intros _. now rewrite app_assoc, !last_hd_rev. Qed.
Lemma last_false n l x : is_last n (l ++ [x]) = false -> x <> n.
Proof. unfold is_last. rewrite rev_app_distr. cbn. intros H ->. rewrite Nat.eqb_refl in H. discriminate. Qed.
Lemma without_app n l l' : without n (l ++ l') = without n l ++ without n l'.
Proof. unfold without. apply filter_app. Qed.
Lemma ln_without n l : is_last n l = false -> last_node (without n l) = last_node l.
Proof.
  destruct l as [|x l _] using rev_ind; auto. intros H. apply last_false in H. rewrite without_app. cbn.
  destruct (Nat.eqb_spec x n); [congruence|]. cbn. now rewrite !last_hd_rev.
Qed.
Lemma ln_after n m l : is_last m l = false -> last_node (after n m l) = last_node l.
Proof.
  destruct l as [|x l _] using rev_ind; auto. intros H. apply last_false in H. unfold after. rewrite flat_map_app. cbn.
  destruct (Nat.eqb_spec x m); [congruence|]. cbn. now rewrite !last_hd_rev.
Qed.
Lemma pred_mid n d l l2 : ~ In n l -> pred_of n d (l ++ n :: l2) = last l d.
Proof.
  revert d. induction l as [|x t IH]; intros d H; cbn [pred_of app]; [now rewrite Nat.eqb_refl|].
  cbn in H. destruct (Nat.eqb_spec x n); [tauto|]. rewrite IH by tauto. now rewrite last_cons.
Qed.
Local Arguments after : simpl never.
Local Arguments without : simpl never.
Local Arguments last_node : simpl never.
Local Arguments is_last : simpl never.

Definition TGood (w : tworld) (a : sabs) : Prop :=
  SRel (t_base w) a /\ forall k, qlive a k = true -> t_tail w k = last_node (qseq a k).

Lemma treg_step w a op : TGood w a -> tpre a op -> tregular a op ->
  exists w', tstep w op = Ok (w', snd (twant a op)) /\ TGood w' (fst (twant a op)).
Proof.
  intros (R & HT) Hp Hr. set (s := TAbs a (t_tail w)).
  assert (RR : TRel w s) by (split; [exact R|reflexivity]).
  assert (Hs : tsafe s op).
  { split; [exact Hp|]. destruct op as [o|k|k|k v|k j|k n]; cbn in *; auto.
    - destruct o; auto. apply HT, Hp.
    - apply HT; auto.
    - split; apply HT; tauto.
    - apply HT; auto. }
  destruct (tstep_ok w s op RR Hs) as (w' & E & R1 & T1).
  exists w'. rewrite E. clear E.
  (* the answer and the sequences are the promised ones *)
  assert (EX : snd (texact s op) = snd (twant a op) /\ SRel (t_base w') (fst (twant a op))).
  { destruct op as [o|k|k|k v|k j|k n].
    - cbn [tregular] in Hr. destruct Hr as (Hr & _). cbn [tpre] in Hp.
      assert (Q : snd (texact s (TBase o)) = snd (sexact a o) /\ tq (fst (texact s (TBase o))) = fst (sexact a o)).
      { unfold s. destruct o; try (split; reflexivity).
        - destruct n; split; reflexivity.
        - destruct n, m; split; reflexivity. }
      cbn [twant]. rewrite (swant_exact a o Hp Hr). destruct Q as (Q1 & Q2). rewrite Q2 in R1. auto.
    - cbn in *. split; [now rewrite HT|auto].
    - cbn [tregular tpre] in *. cbn [texact twant tback tq] in *. subst s. cbn [tback tq] in *. rewrite (HT k Hp), Hr in *. cbn in *. auto.
    - cbn in *. auto.
    - cbn [tpre] in Hp. destruct Hp as (Lk & Lj & N). subst s. cbn [texact tback tq] in *. rewrite (HT j Lj) in *.
      destruct (last_node (qseq a j)) eqn:Ej; [auto|]. split; [reflexivity|]. apply last_node_nil in Ej.
      cbn in R1. eapply SRel_ext; [exact R1|..]; cbn; auto. intros i. unfold fupd. rewrite Ej, app_nil_r.
      destruct (Nat.eqb_spec i j); subst; auto. destruct (Nat.eqb_spec i k); subst; auto.
    - destruct n as [n|]; [|cbn in *; auto]. cbn [tregular tpre] in Hr, Hp. subst s. cbn [texact twant tq] in *.
      destruct (member n (qseq a k)) eqn:M; cbn [andb] in *; [|auto].
      destruct (is_first n (qseq a k)) eqn:F; cbn [negb andb] in *.
      + destruct Hr as [Hr|Hr]; [discriminate|]. destruct (qseq a k) as [|x [|y t]]; cbn in *; try lia.
        unfold is_last. cbn. rewrite F. cbn. auto.
      + destruct (is_last n (qseq a k)); cbn in *; auto. }
  destruct EX as (-> & R2). split; [reflexivity|]. split; [exact R2|].
  (* the tail pointers *)
  intros i Li. rewrite T1. clear T1 R1 Hs RR R2. subst s.
  destruct op as [o|k|k|k v|k j|k n].
  - cbn [tregular tpre twant] in *. destruct Hr as (Hr & Hq).
    assert (Hd : forall k, qlive a k = true -> k < qfresh a) by (intros k L; apply (r_head _ _ R), (r_live _ _ R); auto).
    assert (ND : forall k, qlive a k = true -> NoDup (qseq a k)) by (apply R).
    destruct o as [ |k v|k|k v m|k n m|k n|k|k n|k n|k n m|k|k|k j|k|k|k|k|k|k n|k n|n|n v|k|k]; cbn [spre] in Hp.
    + cbn in *. unfold fupd in *. destruct (i =? qfresh a); [reflexivity|auto].
    + cbn in *. unfold fupd in *. destruct (Nat.eqb_spec i k) as [->|]; [|auto]. rewrite (HT k Hp).
      destruct (last_node (qseq a k)) eqn:El; cbn.
      * rewrite ln_cons; [auto|]. intros K. rewrite K in El. discriminate.
      * apply last_node_nil in El. now rewrite El.
    + cbn in *. destruct (qseq a k) as [|x t] eqn:Eq; cbn in *; [auto|]. unfold fupd. destruct (Nat.eqb_spec i k) as [->|]; [|auto].
      rewrite (HT k Hp), Eq. destruct t as [|y t]; [cbn in Hq; lia|]. pose proof (ND k Hp) as N. rewrite Eq in N.
      change (without x (x :: y :: t)) with (if negb (x =? x) then x :: without x (y :: t) else without x (y :: t)).
      rewrite Nat.eqb_refl. cbn [negb]. rewrite ln_cons by discriminate. symmetry. apply ln_without. inversion N as [|? ? K1 K2]; subst.
      destruct (is_last x (y :: t)) eqn:Q; auto. apply is_last_spec in Q. apply (last_node_some _ _ y) in Q. exfalso. apply K1.
      rewrite <- Q. rewrite last_cons. apply last_in.
    + destruct Hp as (Lk & Hm). destruct m as [m|]; cbn in *; [|auto]. unfold fupd. destruct (Nat.eqb_spec i k) as [->|]; [|auto].
      rewrite ln_after by auto. auto.
    + destruct Hp as (Lk & Hm). destruct n as [n|], m as [m|]; cbn in *; auto. destruct (Nat.eqb_spec n m); cbn in *; auto.
      unfold fupd. destruct (Nat.eqb_spec i k) as [->|]; [|auto]. destruct Hq as [Hq|Hq]; [congruence|]. rewrite ln_after; auto.
    + destruct Hp as (Lk & Hm). destruct n as [n|]; cbn in *; auto. unfold fupd. destruct (Nat.eqb_spec i k) as [->|]; [|auto].
      rewrite ln_cons; auto.
    + cbn in *. destruct (qseq a k) as [|x t] eqn:Eq; cbn in *; [auto|]. unfold fupd. destruct (Nat.eqb_spec i k) as [->|]; [|auto].
      rewrite (HT k Hp), Eq. destruct t as [|y t]; [cbn in Hq; lia|]. pose proof (ND k Hp) as N. rewrite Eq in N.
      change (without x (x :: y :: t)) with (if negb (x =? x) then x :: without x (y :: t) else without x (y :: t)).
      rewrite Nat.eqb_refl. cbn [negb]. rewrite ln_cons by discriminate. symmetry. apply ln_without. inversion N as [|? ? K1 K2]; subst.
      destruct (is_last x (y :: t)) eqn:Q; auto. apply is_last_spec in Q. apply (last_node_some _ _ y) in Q. exfalso. apply K1.
      rewrite <- Q. rewrite last_cons. apply last_in.
    + destruct n as [n|]; cbn [texact fst tback tq sexact swant] in *; [|auto].
      destruct (member n (qseq a k)); cbn in *; [|auto]. unfold fupd. destruct (Nat.eqb_spec i k) as [->|]; [|auto].
      rewrite ln_without; auto.
    + destruct n as [n|]; cbn [texact fst tback tq sexact swant] in *; [|auto].
      destruct (member n (qseq a k)) eqn:M; cbn [andb] in *; [|auto].
      destruct (is_first n (qseq a k)) eqn:F; cbn [negb andb] in *; [auto|]. cbn [fst qseq sput qlive] in *.
      rewrite (HT k Hp). apply member_In in M. destruct (in_split _ _ M) as (l1 & l2 & Eq). pose proof (ND k Hp) as N.
      rewrite Eq in N. destruct (nodup_mid _ _ _ N) as (N1 & N2 & N3).
      destruct l1 as [|x0 l1]; [rewrite Eq in F; cbn in F; rewrite Nat.eqb_refl in F; discriminate|].
      destruct (is_back (last_node (qseq a k)) n) eqn:B.
      * unfold fupd. destruct (Nat.eqb_spec i k) as [->|]; [|auto]. unfold is_back in B.
        destruct (last_node (qseq a k)) as [z|] eqn:El; [|discriminate]. apply Nat.eqb_eq in B. subst z.
        assert (l2 = []) as ->.
        { destruct l2 as [|z l2 _] using rev_ind; auto. exfalso. apply N2. rewrite Eq in El.
          change ((x0 :: l1) ++ n :: l2 ++ [z]) with ((x0 :: l1) ++ (n :: l2) ++ [z]) in El. rewrite app_assoc, last_hd_rev in El.
          injection El as ->. apply in_or_app; cbn; auto. }
        rewrite Eq, pred_mid, without_mid, app_nil_r by auto. rewrite ln_cons by discriminate. rewrite last_cons. now rewrite last_node_last.
      * unfold fupd. destruct (Nat.eqb_spec i k) as [->|]; [|auto]. rewrite (HT k Hp).
        assert (L : is_last n (qseq a k) = false).
        { destruct (is_last n (qseq a k)) eqn:Q; auto. apply is_last_spec in Q. rewrite Q in B. cbn in B. rewrite Nat.eqb_refl in B. discriminate. }
        rewrite ln_cons; [now rewrite ln_without|]. rewrite Eq, without_mid by auto. discriminate.
    + destruct Hp as (Lk & Hm). destruct n as [n|], m as [m|]; cbn [texact fst tback tq sexact swant] in *; auto.
      destruct (member n (qseq a k)) eqn:M; cbn [andb] in *; [|auto].
      destruct (Nat.eqb_spec n m) as [->|Nnm]; cbn [negb andb] in *; [auto|].
      destruct Hq as [Hq|[Hq|Hq]]; [congruence| |congruence].
      destruct (is_first n (tl (from m (qseq a k)))) eqn:F; cbn [negb andb] in *; [auto|]. cbn [fst qseq sput qlive] in *.
      rewrite (HT k Lk). apply member_In in M. destruct (in_split _ _ M) as (l1 & l2 & Eq). pose proof (ND k Lk) as N.
      rewrite Eq in N. destruct (nodup_mid _ _ _ N) as (N1 & N2 & N3).
      destruct (is_back (last_node (qseq a k)) n) eqn:B.
      * unfold fupd. destruct (Nat.eqb_spec i k) as [->|]; [|auto]. unfold is_back in B.
        destruct (last_node (qseq a k)) as [z|] eqn:El; [|discriminate]. apply Nat.eqb_eq in B. subst z.
        assert (l2 = []) as ->.
        { destruct l2 as [|z l2 _] using rev_ind; auto. exfalso. apply N2. rewrite Eq in El.
          change (l1 ++ n :: l2 ++ [z]) with (l1 ++ (n :: l2) ++ [z]) in El. rewrite app_assoc, last_hd_rev in El.
          injection El as ->. apply in_or_app; cbn; auto. }
        rewrite Eq, pred_mid, without_mid, app_nil_r by auto.
        destruct l1 as [|z l1 _] using rev_ind.
        { rewrite Eq in Hm. cbn in Hm. destruct Hm as [Hm|[]]. congruence. }
        rewrite last_last. rewrite ln_after; [now rewrite last_hd_rev|].
        destruct (is_last m (l1 ++ [z])) eqn:Q; auto. apply is_last_spec in Q. rewrite last_hd_rev in Q. injection Q as ->.
        rewrite Eq, <- app_assoc in F. cbn in F. rewrite from_mid in F; [cbn in F; rewrite Nat.eqb_refl in F; discriminate|].
        rewrite app_nil_r in N3. apply nodup_mid in N3. tauto.
      * unfold fupd. destruct (Nat.eqb_spec i k) as [->|]; [|auto]. rewrite (HT k Lk).
        assert (L : is_last n (qseq a k) = false).
        { destruct (is_last n (qseq a k)) eqn:Q; auto. apply is_last_spec in Q. rewrite Q in B. cbn in B. rewrite Nat.eqb_refl in B. discriminate. }
        rewrite ln_after; [now rewrite ln_without|].
        destruct (is_last m (without n (qseq a k))) eqn:Q; auto. apply is_last_spec in Q. rewrite ln_without in Q by auto.
        apply is_last_spec in Q. congruence.
    + cbn in *. unfold fupd. destruct (Nat.eqb_spec i k) as [->|]; [|auto]. now rewrite ln_rev.
    + cbn in Li |- *. unfold fupd in *. destruct (Nat.eqb_spec i k) as [Ei|]; [reflexivity|auto].
    + destruct Hp as (Lk & Lj & N). cbn [texact fst tback tq sexact swant] in *. rewrite (HT k Lk), (HT j Lj).
      destruct (qseq a j) as [|x t] eqn:Eq; cbn [fst qseq qlive last_node] in *.
      * unfold fupd. destruct (Nat.eqb_spec i k) as [->|]; [|auto]. unfold behind. cbn. now destruct (last_node (qseq a k)).
      * unfold fupd in *. destruct (Nat.eqb_spec i j) as [->|]; [discriminate|]. destruct (Nat.eqb_spec i k) as [->|]; [|auto].
        unfold behind. destruct (last_node (qseq a k)) eqn:El.
        -- rewrite ln_app; [auto|]. intros K. rewrite K in El. discriminate.
        -- apply last_node_nil in El. rewrite El, app_nil_r. now rewrite last_node_last.
    + destruct Hp as (Lk & Hl). cbn in *. unfold fupd. destruct (Nat.eqb_spec i k) as [->|]; [|auto]. rewrite (HT k Lk).
      destruct (qseq a k) as [|x [|y t]]; cbn in *; auto. lia.
    + cbn in *; auto.
    + cbn in *; auto.
    + cbn in *; auto.
    + cbn in *; auto.
    + destruct n; cbn in *; auto.
    + cbn in *; auto.
    + cbn in *; auto.
    + cbn in *; auto.
    + cbn in *; auto.
    + cbn in *; auto.
  - cbn in *. auto.
  - cbn [tregular tpre] in *. cbn [texact twant tback tq] in *. rewrite (HT k Hp), Hr. rewrite Hr in Li.
    change (last_node []) with (@None nat) in *. cbn in *. auto.
  - cbn in *. unfold fupd. destruct (Nat.eqb_spec i k) as [->|]; [|auto]. now rewrite last_hd_rev.
  - cbn [tpre] in Hp. destruct Hp as (Lk & Lj & N). cbn [texact tback tq] in *. rewrite (HT j Lj) in *.
    destruct (last_node (qseq a j)) as [t|] eqn:Ej; cbn in *; unfold fupd.
    + destruct (Nat.eqb_spec i j) as [->|]; [reflexivity|]. destruct (Nat.eqb_spec i k) as [->|]; [|auto].
      rewrite ln_app; auto. intros K. rewrite K in Ej. discriminate.
    + apply last_node_nil in Ej. destruct (Nat.eqb_spec i j) as [->|]; [rewrite (HT j Lj), Ej; reflexivity|].
      destruct (Nat.eqb_spec i k) as [->|]; [|auto]. rewrite Ej, app_nil_r. auto.
  - destruct n as [n|]; [|cbn in *; auto]. cbn [tregular tpre] in Hr, Hp. cbn [texact twant tq] in *.
    destruct (member n (qseq a k)) eqn:M; cbn [andb] in *; [|cbn in *; auto].
    destruct (is_last n (qseq a k)) eqn:L; cbn [negb andb] in *.
    + rewrite andb_false_r. cbn in *. auto.
    + destruct (is_first n (qseq a k)) eqn:F; cbn [negb andb] in *; cbn in *.
      * destruct Hr as [Hr|Hr]; [discriminate|]. destruct (qseq a k) as [|x [|y t]]; cbn in *; try lia.
        unfold is_last in L. cbn in L. congruence.
      * unfold fupd. destruct (Nat.eqb_spec i k) as [->|]; [|auto]. now rewrite last_hd_rev.
Qed.

Lemma TGood0 : TGood tworld0 sabs0.
Proof. split; [exact SRel0|]. discriminate. Qed.
Lemma trun_regular ops : forall w a, TGood w a -> run_meets twant (fun a op => tpre a op /\ tregular a op) a ops ->
  exists w', run_ops tstep w ops = Ok (w', snd (spec_ops twant a ops)) /\ TGood w' (fst (spec_ops twant a ops)).
Proof.
  induction ops as [|op ops IH]; intros w a R H; cbn in *; [eauto|].
  destruct H as ((Hp & Hr) & H). destruct (treg_step w a op R Hp Hr) as (w1 & -> & R1). cbn.
  destruct (twant a op) as [a1 o]. cbn in *. destruct (IH w1 a1 R1 H) as (w2 & -> & R2). cbn.
  destruct (spec_ops twant a1 ops). cbn in *. eauto.
Qed.

(** ** Through a tail pointer that is not the last node *)
Lemma tgood_history ops : run_meets twant (fun a op => tpre a op /\ tregular a op) sabs0 ops ->
  exists w, run_ops tstep tworld0 ops = Ok (w, snd (spec_ops twant sabs0 ops)) /\ TGood w (fst (spec_ops twant sabs0 ops)).
Proof. apply trun_regular. exact TGood0. Qed.

Lemma without_last l n : NoDup (l ++ [n]) -> without n (l ++ [n]) = l.
Proof. intros H. apply nodup_mid in H. rewrite without_mid by (cbn; tauto). apply app_nil_r. Qed.

Lemma pop_back_loses ops k l n v : run_meets twant (fun a op => tpre a op /\ tregular a op) sabs0 ops ->
  let a := fst (spec_ops twant sabs0 ops) in
  qlive a k = true -> qseq a k = l ++ [n] ->
  exists w, run_ops tstep tworld0 (ops ++ [TPopBack k; TBack k; TPushBack k v; TBase (SWalk k)]) =
    Ok (w, snd (spec_ops twant sabs0 ops) ++ [SoVal (qval a n) true; SoNode (Some n); SoNode (Some (qfresh a)); SoNodes l]).
Proof.
  intros H a L E. destruct (tgood_history ops H) as (w & Ew & R & HT). fold a in R, HT.
  assert (Hn : In n (qseq a k)) by (rewrite E; apply in_or_app; cbn; auto).
  destruct (tstep_ok w (TAbs a (t_tail w)) (TPopBack k)) as (w1 & E1 & R1 & T1); [split; [exact R|reflexivity]|split; [exact L|exact I]|].
  cbn [texact tback tq] in *. rewrite (HT k L), E, last_hd_rev in *. rewrite <- E in *.
  assert (M : member n (qseq a k) = true) by now apply member_In. rewrite M in *. cbn [fst snd tback tq] in *.
  pose proof (r_seg _ _ R1 k L) as Hs. pose proof (SRel_len _ _ k R1 L) as Hl. pose proof (r_fresh _ _ R1) as Ef.
  pose proof (SRel_nodup _ _ k R1 L) as ND1.
  pose proof (fun y => SRel_lt _ _ k y R1 L) as Hlt.
  pose proof (r_nodup _ _ R k L) as ND. rewrite E in ND.
  cbn [stake sput qseq qlive qval qfresh] in Hs, Hl, Ef, Hlt, ND1. rewrite fupd_same, E, without_last in Hs, Hl, Hlt, ND1 by auto.
  rewrite run_ops_app, Ew. cbn [bind run_ops]. rewrite E1. cbn [bind]. cbn [tstep bind]. rewrite T1.
  cbn [t_push_back t_base t_tail]. unfold t_push_back. rewrite T1, (HT k L), E, last_hd_rev. cbn [bind t_base sstep s_heap s_fresh].
  rewrite Ef. rewrite (walk_loop_ok _ l).
  - cbn [bind]. eexists. reflexivity.
  - lia.
  - assert (Nk : k <> n) by (intros ->; apply (r_in _ _ R) in Hn; auto; apply (r_live _ _ R) in L; intuition congruence).
    assert (Nl : ~ In n l) by (apply nodup_mid in ND; tauto).
    assert (Hh : forall y, In y (k :: l) -> snext (set_next (fupd (s_heap (t_base w1)) (qfresh a) (SNode v None)) n (Some (qfresh a)) y) = snext (s_heap (t_base w1) y)).
    { intros y Hy. pose proof (Hlt y Hy). rewrite set_next_other by (intros ->; destruct Hy; congruence). rewrite fupd_other by lia. reflexivity. }
    unfold s_front. rewrite Hh by (cbn; auto). apply seg_ext with (h := s_heap (t_base w1)); [|exact Hs].
    intros y Hy. apply Hh. cbn. auto.
Qed.

Lemma push_after_loses ops k l n v v' : run_meets twant (fun a op => tpre a op /\ tregular a op) sabs0 ops ->
  let a := fst (spec_ops twant sabs0 ops) in
  qlive a k = true -> qseq a k = l ++ [n] ->
  exists w, run_ops tstep tworld0 (ops ++ [TBase (SPushAfter k v (Some n)); TBase (SWalk k); TBack k; TPushBack k v'; TBase (SWalk k)]) =
    Ok (w, snd (spec_ops twant sabs0 ops) ++
           [SoNode (Some (qfresh a)); SoNodes (l ++ [n; qfresh a]); SoNode (Some n);
            SoNode (Some (S (qfresh a))); SoNodes (l ++ [n; S (qfresh a)])]).
Proof.
  intros H a L E. destruct (tgood_history ops H) as (w & Ew & R & HT). fold a in R, HT.
  assert (Hn : In n (qseq a k)) by (rewrite E; apply in_or_app; cbn; auto).
  pose proof (r_nodup _ _ R k L) as ND. rewrite E in ND. pose proof (nodup_mid _ _ _ ND) as (N1 & _ & _).
  assert (Ea : after (qfresh a) n (qseq a k) = l ++ [n; qfresh a]) by (rewrite E; apply after_mid; cbn; auto).
  destruct (tstep_ok w (TAbs a (t_tail w)) (TBase (SPushAfter k v (Some n)))) as (w1 & E1 & R1 & T1);
    [split; [exact R|reflexivity]|split; [cbn; auto|exact I]|].
  cbn [texact tback tq sexact swant fst snd] in *. rewrite Ea in *.
  destruct (tstep_ok w1 (TAbs (snew a k (l ++ [n; qfresh a]) v) (t_tail w1)) (TBase (SWalk k))) as (w2 & E2 & R2 & T2);
    [split; [exact R1|reflexivity]|split; [exact L|exact I]|].
  cbn [texact tback tq sexact swant fst snd] in *.
  pose proof (r_seg _ _ R2 k L) as Hs. pose proof (SRel_len _ _ k R2 L) as Hl. pose proof (r_fresh _ _ R2) as Ef.
  pose proof (fun y => SRel_lt _ _ k y R2 L) as Hlt. pose proof (SRel_nodup _ _ k R2 L) as ND2.
  cbn [snew qseq qlive qval qfresh] in Hs, Hl, Ef, Hlt, E2, ND2. rewrite fupd_same in Hs, Hl, Hlt, E2, ND2.
  rewrite run_ops_app, Ew. cbn [bind run_ops]. rewrite E1. cbn [bind]. rewrite E2. cbn [bind]. cbn [tstep bind]. rewrite T2, T1.
  unfold t_push_back. rewrite T2, T1, (HT k L), E, last_hd_rev. cbn [bind t_base sstep s_heap s_fresh].
  rewrite Ef. rewrite (walk_loop_ok _ (l ++ [n; S (qfresh a)])).
  - cbn [bind]. eexists. reflexivity.
  - rewrite app_length in *. cbn in *. lia.
  - assert (Hh : forall y, In y (k :: l) -> snext (set_next (fupd (s_heap (t_base w2)) (S (qfresh a)) (SNode v' None)) n (Some (S (qfresh a))) y) = snext (s_heap (t_base w2) y)).
    { intros y Hy. pose proof (Hlt y) as Q. rewrite set_next_other. 2:{ intros ->. destruct Hy as [->|Hy]; [|tauto].
        inversion ND2 as [|? ? K1 K2]; subst. apply K1, in_or_app. cbn. auto. }
      rewrite fupd_other; [reflexivity|]. cbn in Q, Hy. rewrite in_app_iff in Q. intros ->. enough (S (qfresh a) < S (qfresh a)) by lia. apply Q. tauto. }
    assert (Nn : n <> S (qfresh a)) by (intros ->; pose proof (Hlt (S (qfresh a))) as Q; cbn in Q; rewrite in_app_iff in Q; cbn in Q; enough (S (qfresh a) < S (qfresh a)) by lia; apply Q; tauto).
    unfold s_front. rewrite Hh by (cbn; auto). unfold heads in Hs.
    rewrite seg_app in Hs. destruct Hs as (r & Hs1 & Hs2). cbn in Hs2. destruct Hs2 as (-> & _).
    rewrite seg_app. exists (Some n). split.
    + apply seg_ext with (h := s_heap (t_base w2)); [|exact Hs1]. intros y Hy. apply Hh. cbn. auto.
    + cbn [seg]. split; [reflexivity|]. rewrite set_next_same. split; [reflexivity|].
      rewrite set_next_other, fupd_same by auto. reflexivity.
Qed.
