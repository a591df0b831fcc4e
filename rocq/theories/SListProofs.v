(** Proofs about the singly linked list: chains and the effect of every call. *)
From Coq Require Import ZArith List Bool Arith Lia.
From Verif Require Import GoBase ConcBase ListSpec ListProofs SListModel SListSpec.
Import ListNotations.
Open Scope nat_scope.

(** ** Segments *)
Fixpoint seg (h : sheap) (p : option nat) (l : list nat) (q : option nat) : Prop :=
  match l with [] => p = q | x :: t => p = Some x /\ seg h (snext (h x)) t q end.

Lemma seg_app h l1 l2 p q : seg h p (l1 ++ l2) q <-> exists r, seg h p l1 r /\ seg h r l2 q.
Proof.
  revert p; induction l1 as [|x t IH]; intros p; cbn.
  - split; [eauto|]. intros (r & -> & H); auto.
  - rewrite IH. firstorder.
Qed.
Lemma seg_snoc h l x p q : seg h p (l ++ [x]) q <-> seg h p l (Some x) /\ snext (h x) = q.
Proof.
  rewrite seg_app. cbn. split.
  - intros (r & H & -> & ->); auto.
  - intros (H & <-). eauto.
Qed.
Lemma seg_ext h h' l p q : (forall y, In y l -> snext (h' y) = snext (h y)) -> seg h p l q -> seg h' p l q.
Proof.
  revert p; induction l as [|x t IH]; intros p He; cbn; auto.
  intros (-> & H). split; auto. rewrite He by (cbn; auto). apply IH; auto. intros; apply He; cbn; auto.
Qed.

Lemma set_next_same h x q : snext (set_next h x q x) = q.
Proof. unfold set_next. now rewrite fupd_same. Qed.
Lemma set_next_other h x q y : y <> x -> snext (set_next h x q y) = snext (h y).
Proof. intros H. unfold set_next. now rewrite fupd_other. Qed.
Lemma set_next_val h x q y : sval (set_next h x q y) = sval (h y).
Proof. unfold set_next, fupd. destruct (Nat.eqb_spec y x); subst; auto. Qed.

(** The list headed by [k] (dummy included) is the sequence [l]. *)
Definition heads (h : sheap) (k : nat) (l : list nat) : Prop := seg h (snext (h k)) l None.

(** Predecessor in a list with its dummy. *)
Lemma pred_next h k l1 n l2 : heads h k (l1 ++ n :: l2) ->
  snext (h (last l1 k)) = Some n /\ seg h (snext (h n)) l2 None.
Proof.
  unfold heads. rewrite seg_app. intros (r & H1 & H2). cbn in H2. destruct H2 as (-> & H2). split; auto.
  destruct l1 as [|x t] using rev_ind; cbn in *; auto.
  rewrite last_last. apply seg_snoc in H1. tauto.
Qed.

(** Changing the pointer behind [l1] so that it leads to a new rest. *)
Lemma heads_redirect h h' k l1 l2 l3 q :
  heads h k (l1 ++ l2) -> NoDup (k :: l1) ->
  snext (h' (last l1 k)) = q -> seg h' q l3 None ->
  (forall y, In y (k :: l1) -> y <> last l1 k -> snext (h' y) = snext (h y)) ->
  heads h' k (l1 ++ l3).
Proof.
  unfold heads. intros H ND Hq H3 He. rewrite seg_app in H. destruct H as (r & H1 & H2).
  apply seg_app. exists q. split; auto.
  destruct l1 as [|x t _] using rev_ind; cbn in *; auto.
  rewrite last_last in *. apply seg_snoc in H1. apply seg_snoc. split; [|auto].
  assert (Hx : ~ In x t /\ x <> k).
  { inversion ND as [|? ? K1 K2]. rewrite in_app_iff in K1. cbn in K1.
    pose proof (NoDup_remove t [] x K2). rewrite app_nil_r in *. intuition. }
  rewrite He by intuition. apply seg_ext with (h := h); [|tauto].
  intros y Hy. apply He; [right; apply in_or_app; auto|]. intros ->. tauto.
Qed.

Lemma last_in {A} (l : list A) d : In (last l d) (d :: l).
Proof.
  destruct l as [|x t] using rev_ind; cbn; auto. rewrite last_last. right. apply in_or_app. cbn. auto.
Qed.

Lemma last_cons {A} (x : A) l d : last (x :: l) d = last l x.
Proof. revert x d; induction l as [|y t IH]; intros x d; auto. change (last (y :: t) d = last (y :: t) x). now rewrite !IH. Qed.

(** ** Loops *)
Lemma seg_fun h l : forall p q l', seg h p l None -> seg h p l' q -> exists m, l = l' ++ m /\ seg h q m None.
Proof.
  induction l as [|x t IH]; intros p q l' H1 H2.
  - cbn in H1. subst. destruct l'; cbn in H2; [subst; exists []; cbn; auto|]. destruct H2; discriminate.
  - destruct l' as [|y t']; cbn in *.
    + subst. exists (x :: t). cbn. auto.
    + destruct H1 as (-> & H1), H2 as (E & H2). injection E as <-.
      destruct (IH _ _ _ H1 H2) as (m & -> & Hm). exists m. auto.
Qed.

Lemma tail_loop_ok h t : forall fuel x n, length t <= fuel -> seg h (snext (h x)) t None ->
  tail_loop fuel h x n = Ok (Some (last t x), n + length t).
Proof.
  induction t as [|y t IH]; intros fuel x n Hf H; cbn in H.
  - destruct fuel; cbn [tail_loop]; rewrite H; cbn; do 2 f_equal; lia.
  - destruct H as (E & H). destruct fuel; cbn in Hf; [lia|]. cbn [tail_loop]. rewrite E, IH by (auto; lia).
    cbn [length]. replace (S n + length t) with (n + S (length t)) by lia.
    now rewrite last_cons.
Qed.

Lemma walk_loop_ok h l : forall fuel p, length l <= fuel -> seg h p l None -> walk_loop fuel h p = Ok l.
Proof.
  induction l as [|y t IH]; intros fuel p Hf H; cbn in H.
  - subst. destruct fuel; reflexivity.
  - destruct H as (-> & H). destruct fuel; cbn in Hf; [lia|]. cbn [walk_loop s_next]. rewrite IH by (auto; lia). reflexivity.
Qed.

Lemma remove_loop_none h l : forall fuel b n, length l <= fuel -> seg h (snext (h b)) l None -> ~ In n l ->
  remove_loop fuel h b n = Ok (h, None).
Proof.
  induction l as [|y t IH]; intros fuel b n Hf H Hn; cbn in H.
  - destruct fuel; cbn; now rewrite H.
  - destruct H as (E & H). destruct fuel; cbn in Hf; [lia|]. cbn [remove_loop]. rewrite E.
    cbn in Hn. destruct (Nat.eqb_spec y n); [tauto|]. apply IH; auto; lia.
Qed.
Lemma remove_loop_some h l1 n l2 : forall fuel b, length l1 <= fuel -> seg h (snext (h b)) (l1 ++ n :: l2) None -> ~ In n l1 ->
  remove_loop fuel h b n = Ok (set_next (set_next h (last l1 b) (snext (h n))) n None, Some n).
Proof.
  induction l1 as [|y t IH]; intros fuel b Hf H Hn; cbn in H; destruct H as (E & H).
  - destruct fuel; cbn [remove_loop]; rewrite E, Nat.eqb_refl; reflexivity.
  - destruct fuel; cbn in Hf; [lia|]. cbn [remove_loop]. rewrite E. cbn in Hn.
    destruct (Nat.eqb_spec y n); [tauto|]. rewrite IH by (auto; lia).
    now rewrite last_cons.
Qed.

Lemma move_front_loop_none h k l : forall fuel p n, length l <= fuel -> seg h p l None -> ~ In n (tl l) ->
  move_front_loop fuel h k p n = Ok (h, None).
Proof.
  induction l as [|y t IH]; intros fuel p n Hf H Hn; cbn in H.
  - subst. destruct fuel; reflexivity.
  - destruct H as (-> & H). destruct fuel; cbn in Hf; [lia|]. cbn [move_front_loop].
    destruct t as [|z t]; cbn in *.
    + rewrite H. cbn. destruct fuel; reflexivity.
    + destruct H as (E & H). rewrite E. cbn. destruct (Nat.eqb_spec z n); [tauto|].
      apply IH; [lia| |tauto]. auto.
Qed.
Lemma move_front_loop_some h k l1 y n l2 : forall fuel p, length l1 <= fuel -> seg h p (l1 ++ y :: n :: l2) None ->
  ~ In n (l1 ++ [y]) ->
  move_front_loop fuel h k p n =
    let h1 := set_next h y (snext (h n)) in let h2 := set_next h1 n (snext (h1 k)) in
    Ok (set_next h2 k (Some n), Some n).
Proof.
  induction l1 as [|z t IH]; intros fuel p Hf H Hn; cbn in H.
  - destruct H as (-> & E & H). destruct fuel; cbn [move_front_loop]; rewrite E; cbn [sp_eq]; rewrite Nat.eqb_refl;
      cbn; unfold set_next at 2 4; destruct (Nat.eqb_spec n y); subst; rewrite ?fupd_same, ?fupd_other by auto; auto.
  - destruct H as (-> & H). destruct fuel; cbn in Hf; [lia|]. cbn [move_front_loop].
    assert (K : sp_eq (snext (h z)) (Some n) = false).
    { destruct t as [|u t]; cbn in H, Hn; destruct H as (-> & H); cbn; apply Nat.eqb_neq; intros ->; tauto. }
    rewrite K. apply IH; auto; [lia|]. cbn in Hn. tauto.
Qed.

Lemma move_after_loop_none h l m : forall fuel x n, length l < fuel -> seg h (snext (h x)) l None -> ~ In n l ->
  move_after_loop fuel h (Some x) n m = Ok (h, None).
Proof.
  induction l as [|y t IH]; intros fuel x n Hf H Hn; cbn in H; (destruct fuel; cbn in Hf; [lia|]); cbn [move_after_loop].
  - rewrite H. cbn. destruct fuel; reflexivity.
  - destruct H as (E & H). rewrite E. cbn in *. destruct (Nat.eqb_spec y n); [tauto|]. apply IH; auto; lia.
Qed.
Lemma move_after_loop_some h m n l2 l1 : forall fuel x, length l1 <= fuel -> seg h (snext (h x)) (l1 ++ n :: l2) None ->
  ~ In n l1 ->
  move_after_loop fuel h (Some x) n m =
    if last l1 x =? m then Ok (h, None)
    else let h1 := set_next h (last l1 x) (snext (h n)) in let h2 := set_next h1 n (snext (h1 m)) in
         Ok (set_next h2 m (Some n), Some n).
Proof.
  induction l1 as [|y t IH]; intros fuel x Hf H Hn.
  - cbn in H. destruct H as (E & H). destruct fuel; cbn [move_after_loop last]; rewrite E; cbn [sp_eq]; rewrite Nat.eqb_refl; auto.
  - rewrite last_cons. cbn in H. destruct H as (E & H). destruct fuel; cbn in Hf; [lia|]. cbn [move_after_loop]. rewrite E.
    cbn in Hn. cbn [sp_eq]. destruct (Nat.eqb_spec y n); [tauto|]. apply IH; auto; lia.
Qed.

(** ** Editing sequences *)
Lemma without_mid n l1 l2 : ~ In n l1 -> ~ In n l2 -> without n (l1 ++ n :: l2) = l1 ++ l2.
Proof.
  intros H1 H2. unfold without. rewrite filter_app. cbn. rewrite Nat.eqb_refl. cbn.
  assert (K : forall l, ~ In n l -> filter (fun x => negb (x =? n)) l = l).
  { induction l as [|x t IH]; cbn; auto. intros H. destruct (Nat.eqb_spec x n); [tauto|]. cbn. rewrite IH; tauto. }
  now rewrite !K.
Qed.
Lemma after_mid n m l1 l2 : ~ In m l1 -> ~ In m l2 -> after n m (l1 ++ m :: l2) = l1 ++ m :: n :: l2.
Proof.
  intros H1 H2. unfold after. rewrite flat_map_app. cbn. rewrite Nat.eqb_refl. cbn.
  assert (K : forall l, ~ In m l -> flat_map (fun x => if x =? m then [x; n] else [x]) l = l).
  { induction l as [|x t IH]; cbn; auto. intros H. destruct (Nat.eqb_spec x m); [tauto|]. cbn. rewrite IH; tauto. }
  now rewrite !K.
Qed.
Lemma from_mid n l1 l2 : ~ In n l1 -> from n (l1 ++ n :: l2) = n :: l2.
Proof.
  induction l1 as [|x t IH]; cbn; intros H; [now rewrite Nat.eqb_refl|].
  destruct (Nat.eqb_spec x n); [tauto|]. apply IH; tauto.
Qed.
Lemma member_In n l : member n l = true <-> In n l.
Proof.
  unfold member. rewrite existsb_exists. split; [|intros; exists n; now rewrite Nat.eqb_refl].
  intros (x & H & E). apply Nat.eqb_eq in E. now subst.
Qed.
Lemma member_notin n l : member n l = false <-> ~ In n l.
Proof. rewrite <- member_In. destruct (member n l); intuition congruence. Qed.
Lemma nodup_mid {A} (n : A) l1 l2 : NoDup (l1 ++ n :: l2) -> ~ In n l1 /\ ~ In n l2 /\ NoDup (l1 ++ l2).
Proof. intros H. apply NoDup_remove in H. rewrite in_app_iff in H. tauto. Qed.
