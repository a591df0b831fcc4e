(** Lemmas about the list vocabulary of [GoBase]. *)
From Coq Require Import ZArith List Bool Lia Permutation.
From Verif Require Import GoBase.
Import ListNotations.

Lemma upd_length {A} (l : list A) i v : length (upd l i v) = length l.
Proof. revert i; induction l as [|x t IH]; intros [|i]; cbn; auto. Qed.

Lemma nth_upd_eq {A} (l : list A) i v d :
  (i < length l)%nat -> nth i (upd l i v) d = v.
Proof.
  revert i; induction l as [|x t IH]; intros [|i]; cbn; intros H; try lia; auto.
  apply IH; lia.
Qed.

Lemma nth_upd_neq {A} (l : list A) i j v d :
  i <> j -> nth j (upd l i v) d = nth j l d.
Proof.
  revert i j; induction l as [|x t IH]; intros [|i] [|j]; cbn; intros H;
    try congruence; auto.
Qed.

Lemma nth_upd {A} (l : list A) i j v d :
  (i < length l)%nat ->
  nth j (upd l i v) d = if Nat.eq_dec i j then v else nth j l d.
Proof.
  intros H. destruct (Nat.eq_dec i j) as [->|n].
  - now apply nth_upd_eq.
  - now apply nth_upd_neq.
Qed.

Lemma upd_upd_same {A} (l : list A) i v w : upd (upd l i v) i w = upd l i w.
Proof. revert i; induction l as [|x t IH]; intros [|i]; cbn; auto. now rewrite IH. Qed.

Lemma upd_comm {A} (l : list A) i j v w :
  i <> j -> upd (upd l i v) j w = upd (upd l j w) i v.
Proof.
  revert i j; induction l as [|x t IH]; intros [|i] [|j] H; cbn; auto; try congruence.
  rewrite IH; auto.
Qed.

Lemma upd_nth_self {A} (l : list A) i d : upd l i (nth i l d) = l.
Proof. revert i; induction l as [|x t IH]; intros [|i]; cbn; auto. now rewrite IH. Qed.

Lemma upd_app_l {A} (l r : list A) i v :
  (i < length l)%nat -> upd (l ++ r) i v = upd l i v ++ r.
Proof.
  revert i; induction l as [|x t IH]; intros [|i]; cbn; intros H; try lia; auto.
  rewrite IH by lia; auto.
Qed.

Lemma upd_app_r {A} (l r : list A) i v :
  (length l <= i)%nat -> upd (l ++ r) i v = l ++ upd r (i - length l) v.
Proof.
  revert i; induction l as [|x t IH]; intros i H; cbn in *.
  - now rewrite Nat.sub_0_r.
  - destruct i as [|i]; [lia|]. cbn. rewrite IH by lia. auto.
Qed.

Lemma upd_split {A} (l : list A) i v :
  (i < length l)%nat -> upd l i v = firstn i l ++ v :: skipn (S i) l.
Proof.
  revert i; induction l as [|x t IH]; intros [|i]; cbn; intros H; try lia; auto.
  rewrite IH by lia. auto.
Qed.

Lemma upd_oob {A} (l : list A) i v : (length l <= i)%nat -> upd l i v = l.
Proof.
  revert i; induction l as [|x t IH]; intros [|i]; cbn; intros H; auto; try lia.
  rewrite IH by lia; auto.
Qed.

Lemma aget_Ok {A} (l : list A) i d : (i < length l)%nat -> aget l i = Ok (nth i l d).
Proof.
  intros H. unfold aget. rewrite (nth_error_nth' l d H). reflexivity.
Qed.

Lemma aset_Ok {A} (l : list A) i v : (i < length l)%nat -> aset l i v = Ok (upd l i v).
Proof. intros H. unfold aset. apply Nat.ltb_lt in H. now rewrite H. Qed.

Lemma aget_oob {A} (l : list A) i : (length l <= i)%nat -> aget l i = Panic.
Proof. intros H. unfold aget. apply nth_error_None in H. now rewrite H. Qed.

Lemma zget_Ok {A} (l : list A) i d :
  (0 <= i < zlen l)%Z -> zget l i = Ok (nth (Z.to_nat i) l d).
Proof.
  unfold zlen, zget. intros H. destruct (Z.ltb_spec i 0); [lia|].
  apply aget_Ok. lia.
Qed.

Lemma zset_Ok {A} (l : list A) i v :
  (0 <= i < zlen l)%Z -> zset l i v = Ok (upd l (Z.to_nat i) v).
Proof.
  unfold zlen, zset. intros H. destruct (Z.ltb_spec i 0); [lia|].
  apply aset_Ok. lia.
Qed.

Lemma zslice_Ok {A} (l : list A) lo hi :
  (0 <= lo <= hi)%Z -> (hi <= zlen l)%Z ->
  zslice l lo hi = Ok (firstn (Z.to_nat (hi - lo)) (skipn (Z.to_nat lo) l)).
Proof.
  intros H1 H2. unfold zslice.
  replace ((0 <=? lo)%Z && (lo <=? hi)%Z && (hi <=? zlen l)%Z) with true; auto.
  symmetry. rewrite !andb_true_iff, !Z.leb_le. lia.
Qed.

Lemma list_ext {A} (l l' : list A) d :
  length l = length l' ->
  (forall i, (i < length l)%nat -> nth i l d = nth i l' d) -> l = l'.
Proof. intros H1 H2. apply (nth_ext l l' d d); auto. Qed.

(** Counting occurrences through an update. *)
Lemma count_upd (l : list Z) i v x :
  (i < length l)%nat ->
  (count_occ Z.eq_dec (upd l i v) x + (if Z.eq_dec (nth i l 0%Z) x then 1 else 0)
   = count_occ Z.eq_dec l x + (if Z.eq_dec v x then 1 else 0))%nat.
Proof.
  revert i; induction l as [|y t IH]; intros [|i] H; cbn in *; try lia.
  - destruct (Z.eq_dec v x), (Z.eq_dec y x); lia.
  - specialize (IH i ltac:(lia)).
    destruct (Z.eq_dec y x); lia.
Qed.

(** Moving the hole: the multiset of "array with the hole filled by v". *)
Lemma perm_move_hole (b : list Z) i c v :
  (i < length b)%nat -> (c < length b)%nat -> i <> c ->
  Permutation (upd (upd b i (nth c b 0%Z)) c v) (upd b i v).
Proof.
  intros Hi Hc n. apply (Permutation_count_occ Z.eq_dec). intros x.
  pose proof (count_upd (upd b i (nth c b 0%Z)) c v x) as H1.
  rewrite upd_length, (nth_upd_neq b i c) in H1 by auto.
  specialize (H1 Hc).
  pose proof (count_upd b i (nth c b 0%Z) x Hi) as H2.
  pose proof (count_upd b i v x Hi) as H3.
  destruct (Z.eq_dec (nth c b 0%Z) x), (Z.eq_dec (nth i b 0%Z) x), (Z.eq_dec v x); lia.
Qed.

Lemma perm_swap_idx (b : list Z) i j :
  (i < length b)%nat -> (j < length b)%nat ->
  Permutation (upd (upd b i (nth j b 0%Z)) j (nth i b 0%Z)) b.
Proof.
  intros Hi Hj. destruct (Nat.eq_dec i j) as [->|n].
  - rewrite upd_upd_same, upd_nth_self. reflexivity.
  - etransitivity; [now apply perm_move_hole|]. rewrite upd_nth_self. reflexivity.
Qed.

(** Step-wise refinement lifts to histories. *)
Lemma run_ops_refine {St A Op Obs : Type} (Rel : St -> A -> Prop)
  (step : St -> Op -> outcome (St * Obs)) (spec : A -> Op -> A * Obs) :
  (forall s a op, Rel s a ->
     exists s', step s op = Ok (s', snd (spec a op)) /\ Rel s' (fst (spec a op))) ->
  forall ops s a, Rel s a ->
    exists s', run_ops step s ops = Ok (s', snd (spec_ops spec a ops)) /\
               Rel s' (fst (spec_ops spec a ops)).
Proof.
  intros Hstep ops. induction ops as [|op rest IH]; intros s a HR; cbn.
  - eauto.
  - destruct (Hstep s a op HR) as (s1 & -> & HR1). cbn.
    destruct (spec a op) as [a1 o] eqn:E. cbn in HR1.
    destruct (IH s1 a1 HR1) as (s2 & E2 & HR2). cbn. rewrite E2. cbn.
    destruct (spec_ops spec a1 rest) as [a2 os] eqn:E3. cbn in *. eauto.
Qed.

Lemma run_ops_app {St Op Obs : Type} (step : St -> Op -> outcome (St * Obs)) ops1 ops2 s :
  run_ops step s (ops1 ++ ops2) =
  (' (s1, o1) <- run_ops step s ops1 ;; ' (s2, o2) <- run_ops step s1 ops2 ;; Ok (s2, o1 ++ o2)).
Proof.
  revert s; induction ops1 as [|op rest IH]; intros s; cbn.
  - destruct (run_ops step s ops2) as [[s2 o2]| |]; reflexivity.
  - destruct (step s op) as [[s1 o]| |]; cbn; auto.
    rewrite IH. destruct (run_ops step s1 rest) as [[s2 o2]| |]; cbn; auto.
    destruct (run_ops step s2 ops2) as [[s3 o3]| |]; reflexivity.
Qed.

(** Lock-step simulation of two objects that may both panic or diverge. *)
Definition sim_out {St A Obs : Type} (Rel : St -> A -> Prop)
  (x : outcome (St * Obs)) (y : outcome (A * Obs)) : Prop :=
  match x, y with
  | Ok (s, o), Ok (a, o') => o = o' /\ Rel s a
  | Panic, Panic => True
  | Diverge, Diverge => True
  | _, _ => False
  end.

Lemma run_ops_sim {St A Op Obs : Type} (Rel : St -> A -> Prop)
  (step : St -> Op -> outcome (St * Obs)) (spec : A -> Op -> outcome (A * Obs)) :
  (forall s a op, Rel s a -> sim_out Rel (step s op) (spec a op)) ->
  forall ops s a, Rel s a -> sim_out Rel (run_ops step s ops) (run_ops spec a ops).
Proof.
  intros Hstep ops. induction ops as [|op rest IH]; intros s a HR; cbn [run_ops].
  - split; auto.
  - specialize (Hstep s a op HR).
    destruct (step s op) as [[s1 o]| |], (spec a op) as [[a1 o']| |]; cbn in *; try tauto.
    destruct Hstep as [-> HR1]. specialize (IH s1 a1 HR1).
    destruct (run_ops step s1 rest) as [[s2 os]| |], (run_ops spec a1 rest) as [[a2 os']| |];
      cbn in *; try tauto. destruct IH as [-> HR2]. auto.
Qed.
