(** Lemmas about the heap model. *)
From Coq Require Import ZArith List Bool Lia Permutation Sorted.
From Coq Require Import ZifyBool ZifyNat.
From Verif Require Import GoBase GoLists CmpModel HeapModel.
Import ListNotations.
Ltac Zify.zify_post_hook ::= Z.div_mod_to_equations.

Definition valid_cmp (cmp : Z) : Prop := cmp = CMPLesser \/ cmp = CMPGreater.

Lemma cmp_by_bool_valid b : valid_cmp (cmp_by_bool b).
Proof. destruct b; [right|left]; reflexivity. Qed.

Lemma parent_lt i : (0 < i)%nat -> (parent i < i)%nat.
Proof. unfold parent. lia. Qed.
Lemma parent_l h : parent (lchild h) = h.
Proof. unfold parent, lchild. lia. Qed.
Lemma parent_r h : parent (S (lchild h)) = h.
Proof. unfold parent, lchild. lia. Qed.
Lemma parent_inv i h : (0 < i)%nat -> parent i = h -> i = lchild h \/ i = S (lchild h).
Proof. unfold parent, lchild. lia. Qed.
Lemma parent_mono i j : (i <= j)%nat -> (parent i <= parent j)%nat.
Proof. unfold parent. lia. Qed.

Section Heap.
Variable cmp : Z.
Hypothesis Hcmp : valid_cmp cmp.

Notation R c p := (cmpV cmp c p = true).
Notation "b @ i" := (nth i b 0%Z) (at level 20).

Lemma R_refl a : R a a.
Proof. unfold cmpV, cmp_F, cmp_less, cmp_great. destruct Hcmp as [->| ->]; cbn; lia. Qed.
Lemma R_trans a b c : R a b -> R b c -> R a c.
Proof. unfold cmpV, cmp_F, cmp_less, cmp_great. destruct Hcmp as [->| ->]; cbn; lia. Qed.
Lemma R_total a b : cmpV cmp a b = false -> R b a.
Proof. unfold cmpV, cmp_F, cmp_less, cmp_great. destruct Hcmp as [->| ->]; cbn; lia. Qed.
Lemma R_antisym a b : R a b -> R b a -> a = b.
Proof. unfold cmpV, cmp_F, cmp_less, cmp_great. destruct Hcmp as [->| ->]; cbn; lia. Qed.

(** Heap order on the first [n] elements, for parents with index >= [lo]. *)
Definition heap_from (lo n : nat) (b : list Z) : Prop :=
  forall i, (0 < i < n)%nat -> (lo <= parent i)%nat -> R (b @ i) (b @ (parent i)).

Definition is_heap (b : list Z) : Prop := heap_from 0 (length b) b.

Ltac updn := rewrite ?nth_upd by (rewrite ?upd_length; lia).

Lemma adjust_up_spec fuel : forall b hole v,
  (hole < length b)%nat -> (hole < fuel)%nat ->
  (forall i, (0 < i < length b)%nat -> i <> hole -> parent i <> hole ->
             R (b @ i) (b @ (parent i))) ->
  (forall i, (0 < i < length b)%nat -> parent i = hole -> R (b @ i) v) ->
  (forall i, (0 < i < length b)%nat -> parent i = hole -> (0 < hole)%nat ->
             R (b @ i) (b @ (parent hole))) ->
  exists b', adjust_up cmp fuel b hole v = Ok b' /\ length b' = length b /\
    Permutation b' (upd b hole v) /\ is_heap b'.
Proof.
  induction fuel as [|f IH]; intros b hole v Hh Hf U1 U2 U3; [lia|].
  cbn [adjust_up].
  assert (Hdone : ((0 < hole)%nat -> R v (b @ (parent hole))) -> is_heap (upd b hole v)).
  { intros Hv i Hi _. rewrite upd_length in Hi.
    rewrite !nth_upd by lia. pose proof (parent_lt i).
    destruct (Nat.eq_dec hole i) as [e|e]; destruct (Nat.eq_dec hole (parent i)) as [e'|e'].
    - lia.
    - subst i. apply Hv. lia.
    - apply U2; auto; lia.
    - apply U1; auto; lia. }
  destruct (Nat.ltb_spec 0 hole) as [H0|H0].
  - assert (Hp : (parent hole < hole)%nat) by (apply parent_lt; lia).
    rewrite (aget_Ok _ _ 0%Z) by lia. cbn [bind].
    destruct (cmpV cmp v (b @ (parent hole))) eqn:E; cbn [negb].
    + rewrite aset_Ok by lia. eexists. split; [reflexivity|].
      rewrite upd_length. repeat split; auto.
    + rewrite aset_Ok by lia. cbn [bind].
      apply R_total in E.
      destruct (IH (upd b hole (b @ (parent hole))) (parent hole) v) as (b' & E' & L & P & Hp').
      * rewrite upd_length. lia.
      * lia.
      * rewrite upd_length. intros i Hi n1 n2. rewrite !nth_upd by lia.
        destruct (Nat.eq_dec hole i) as [e|e]; [subst i; congruence|].
        destruct (Nat.eq_dec hole (parent i)) as [e'|e'].
        { apply U3; auto. }
        apply U1; auto.
      * rewrite upd_length. intros i Hi Hpi. rewrite !nth_upd by lia.
        destruct (Nat.eq_dec hole i) as [e|e]; auto.
        apply R_trans with (b @ (parent i)); [apply U1; auto; lia|]. now rewrite Hpi.
      * rewrite upd_length. intros i Hi Hpi Hp0.
        pose proof (parent_lt (parent hole)).
        assert (Hg : R (b @ (parent hole)) (b @ (parent (parent hole)))).
        { apply U1; lia. }
        rewrite !nth_upd by lia.
        destruct (Nat.eq_dec hole (parent (parent hole))); [lia|].
        destruct (Nat.eq_dec hole i) as [e|e]; auto.
        apply R_trans with (b @ (parent i)); [apply U1; auto; lia|]. now rewrite Hpi.
      * exists b'. rewrite upd_length in L. repeat split; auto.
        etransitivity; [exact P|]. apply perm_move_hole; lia.
  - rewrite aset_Ok by lia. eexists. split; [reflexivity|].
    rewrite upd_length. repeat split; auto. apply Hdone. lia.
Qed.

Lemma adjust_down_spec fuel : forall b size hole v lo,
  (size <= length b)%nat -> (hole < size)%nat -> (lo <= hole)%nat ->
  (size - hole < fuel)%nat ->
  (forall i, (0 < i < size)%nat -> (lo <= parent i)%nat -> i <> hole -> parent i <> hole ->
             R (b @ i) (b @ (parent i))) ->
  ((0 < hole)%nat -> (lo <= parent hole)%nat -> R v (b @ (parent hole))) ->
  (forall i, (0 < i < size)%nat -> parent i = hole -> (0 < hole)%nat ->
             (lo <= parent hole)%nat -> R (b @ i) (b @ (parent hole))) ->
  exists b', adjust_down cmp fuel b size hole v = Ok b' /\ length b' = length b /\
    Permutation b' (upd b hole v) /\ heap_from lo size b' /\
    (forall j, (size <= j)%nat -> b' @ j = b @ j).
Proof.
  induction fuel as [|f IH]; intros b size hole v lo Hs Hh Hlo Hf D1 D2 D3; [lia|].
  cbn [adjust_down]. cbv zeta.
  assert (Hdone : (forall i, (0 < i < size)%nat -> parent i = hole -> R (b @ i) v) ->
     exists b', aset b hole v = Ok b' /\ length b' = length b /\
       Permutation b' (upd b hole v) /\ heap_from lo size b' /\
       (forall j, (size <= j)%nat -> b' @ j = b @ j)).
  { intros Hc. rewrite aset_Ok by lia. eexists. split; [reflexivity|].
    rewrite upd_length. repeat split; auto.
    - intros i Hi Hl. pose proof (parent_lt i). rewrite !nth_upd by lia.
      destruct (Nat.eq_dec hole i) as [e|e]; destruct (Nat.eq_dec hole (parent i)) as [e'|e'].
      + lia.
      + subst i. apply D2; auto. lia.
      + apply Hc; auto.
      + apply D1; auto.
    - intros j Hj. apply nth_upd_neq. lia. }
  destruct (Nat.ltb_spec (lchild hole) size) as [Hl|Hl].
  2:{ apply Hdone. intros i Hi Hpi. apply parent_inv in Hpi; lia. }
  assert (Hlc : (hole < lchild hole)%nat) by (unfold lchild; lia).
  rewrite (aget_Ok _ _ 0%Z) by lia. cbn [bind].
  (* the chosen child *)
  assert (Hchoice : exists c,
     (if (S (lchild hole) <? size)%nat
      then br <- aget b (S (lchild hole)) ;;
           Ok (if negb (cmpV cmp br (b @ (lchild hole))) then S (lchild hole) else lchild hole)
      else Ok (lchild hole)) = Ok c /\ (hole < c < size)%nat /\ parent c = hole /\
     forall i, (0 < i < size)%nat -> parent i = hole -> R (b @ i) (b @ c)).
  { destruct (Nat.ltb_spec (S (lchild hole)) size) as [Hr|Hr].
    - rewrite (aget_Ok _ _ 0%Z) by lia. cbn [bind].
      destruct (cmpV cmp (b @ (S (lchild hole))) (b @ (lchild hole))) eqn:E; cbn [negb].
      + exists (lchild hole). repeat split; try lia. { apply parent_l. }
        intros i Hi Hpi. apply parent_inv in Hpi; [|lia]. destruct Hpi as [->| ->]; auto.
        apply R_refl.
      + exists (S (lchild hole)). repeat split; try lia. { apply parent_r. }
        apply R_total in E.
        intros i Hi Hpi. apply parent_inv in Hpi; [|lia]. destruct Hpi as [->| ->]; auto.
        apply R_refl.
    - exists (lchild hole). repeat split; try lia. { apply parent_l. }
      intros i Hi Hpi. apply parent_inv in Hpi; [|lia]. destruct Hpi as [->| ->]; [|lia].
      apply R_refl. }
  destruct Hchoice as (c & -> & Hc & Hpc & Hbest). cbn [bind].
  rewrite (aget_Ok _ _ 0%Z) by lia. cbn [bind].
  destruct (cmpV cmp (b @ c) v) eqn:E.
  - apply Hdone. intros i Hi Hpi. apply R_trans with (b @ c); auto.
  - apply R_total in E.
    rewrite aset_Ok by lia. cbn [bind].
    destruct (IH (upd b hole (b @ c)) size c v lo) as (b' & E' & L & P & Hp' & Hk).
    + rewrite upd_length. lia.
    + lia.
    + lia.
    + lia.
    + intros i Hi Hli n1 n2. rewrite !nth_upd by lia.
      destruct (Nat.eq_dec hole i) as [e|e].
      * subst i. pose proof (parent_lt hole).
        destruct (Nat.eq_dec hole (parent hole)); [lia|]. apply D3; auto; lia.
      * destruct (Nat.eq_dec hole (parent i)) as [e'|e']; auto.
    + intros _ _. rewrite Hpc, nth_upd_eq by lia. exact E.
    + intros i Hi Hpi _ _. pose proof (parent_lt i).
      rewrite Hpc, nth_upd_eq by lia. rewrite nth_upd_neq by lia.
      rewrite <- Hpi. apply D1; auto; lia.
    + exists b'. rewrite upd_length in L. repeat split; auto.
      * etransitivity; [exact P|]. apply perm_move_hole; lia.
      * intros j Hj. rewrite Hk by lia. apply nth_upd_neq. lia.
Qed.

Lemma heap_root n b : heap_from 0 n b -> forall i, (i < n)%nat -> R (b @ i) (b @ 0).
Proof.
  intros H i. induction i as [i IH] using (well_founded_induction lt_wf). intros Hi.
  destruct (Nat.eq_dec i 0) as [->|n0]; [apply R_refl|].
  pose proof (parent_lt i ltac:(lia)).
  apply R_trans with (b @ (parent i)).
  - apply H; lia.
  - apply IH; lia.
Qed.

Lemma heap_root_In b x : is_heap b -> In x b -> R x (b @ 0).
Proof.
  intros H Hx. apply (In_nth _ _ 0%Z) in Hx. destruct Hx as (i & Hi & <-).
  eapply heap_root; eauto.
Qed.

Lemma push_heap_spec b v : is_heap b ->
  exists b', push_heap cmp b v = Ok b' /\ Permutation b' (v :: b) /\ is_heap b'.
Proof.
  intros H. unfold push_heap. cbv zeta.
  assert (L : length (b ++ [v]) = S (length b)) by (rewrite app_length; cbn; lia).
  destruct (adjust_up_spec (S (length (b ++ [v]) - 1)) (b ++ [v]) (length (b ++ [v]) - 1) v)
    as (b' & E & L' & P & Hp).
  - lia.
  - lia.
  - intros i Hi n1 n2. rewrite L in *. pose proof (parent_lt i).
    rewrite !app_nth1 by lia. apply H; lia.
  - intros i Hi Hpi. pose proof (parent_lt i). lia.
  - intros i Hi Hpi. pose proof (parent_lt i). lia.
  - exists b'. repeat split; auto.
    rewrite P, L. rewrite upd_app_r by lia.
    replace (S (length b) - 1 - length b)%nat with O by lia. cbn [upd].
    symmetry. apply Permutation_cons_append.
Qed.

Lemma pop_heap_spec b l : (0 < l <= length b)%nat -> heap_from 0 l b ->
  exists b', pop_heap cmp b l = Ok (b', Some (b @ 0)) /\ length b' = length b /\
    Permutation b' b /\ heap_from 0 (l - 1) b' /\ b' @ (l - 1) = b @ 0 /\
    (forall j, (l <= j)%nat -> b' @ j = b @ j).
Proof.
  intros Hl H. unfold pop_heap.
  destruct (Nat.ltb_spec 0 l); [|lia].
  rewrite (aget_Ok _ _ 0%Z) by lia. cbn [bind].
  destruct (Nat.ltb_spec 1 l) as [H1|H1].
  - rewrite (aget_Ok _ _ 0%Z) by lia. cbn [bind].
    rewrite aset_Ok by lia. cbn [bind].
    rewrite aset_Ok by (rewrite upd_length; lia). cbn [bind].
    set (b2 := upd (upd b 0 (b @ (l - 1))) (l - 1) (b @ 0)).
    assert (L2 : length b2 = length b) by (unfold b2; now rewrite !upd_length).
    assert (N2 : forall j, b2 @ j = if Nat.eq_dec (l - 1) j then b @ 0 else
                             if Nat.eq_dec 0 j then b @ (l - 1) else b @ j).
    { intros j. unfold b2. rewrite !nth_upd by (rewrite ?upd_length; lia). reflexivity. }
    rewrite (aget_Ok _ _ 0%Z) by lia. cbn [bind].
    destruct (adjust_down_spec (S (l - 1)) b2 (l - 1) 0 (b2 @ 0) 0) as (b' & E & L & P & Hh & K);
      try lia.
    + intros i Hi _ n1 n2. rewrite !N2. pose proof (parent_lt i).
      repeat match goal with |- context [Nat.eq_dec ?a ?b] => destruct (Nat.eq_dec a b) end; try lia.
      apply H; lia.
    + rewrite E. cbn [bind]. exists b'. repeat split; auto.
      * lia.
      * rewrite P, upd_nth_self. apply perm_swap_idx; lia.
      * rewrite K by lia. rewrite N2. destruct (Nat.eq_dec (l - 1) (l - 1)); congruence.
      * intros j Hj. rewrite K by lia. rewrite N2.
        repeat match goal with |- context [Nat.eq_dec ?a ?b] => destruct (Nat.eq_dec a b) end; try lia.
  - exists b. repeat split; auto.
    + intros i Hi. lia.
    + f_equal. lia.
Qed.

Lemma check_heap_from_spec b i : (i < length b)%nat ->
  exists r, check_heap_from cmp b i = Ok r /\
    (r = true <-> forall j, (0 < j <= i)%nat -> R (b @ j) (b @ (parent j))).
Proof.
  induction i as [|i IH]; intros Hi.
  - exists true. split; auto. split; auto. intros _ j Hj. lia.
  - cbn [check_heap_from]. pose proof (parent_lt (S i) ltac:(lia)).
    rewrite !(aget_Ok _ _ 0%Z) by lia. cbn [bind].
    destruct (cmpV cmp (b @ (S i)) (b @ (parent (S i)))) eqn:E; cbn [negb].
    + destruct (IH ltac:(lia)) as (r & Hr & Hiff). exists r. split; auto.
      rewrite Hiff. split; intros Hall j Hj.
      * destruct (Nat.eq_dec j (S i)) as [->|]; auto. apply Hall. lia.
      * apply Hall. lia.
    + exists false. split; auto. split; [discriminate|].
      intros Hall. specialize (Hall (S i) ltac:(lia)). congruence.
Qed.

Lemma check_heap_spec b :
  exists r, check_heap cmp b = Ok r /\ (r = true <-> is_heap b).
Proof.
  unfold check_heap. destruct b as [|x t].
  - exists true. split; auto. split; auto. intros _ i Hi. cbn in Hi. lia.
  - destruct (check_heap_from_spec (x :: t) (length (x :: t) - 1)) as (r & E & H).
    { cbn; lia. }
    exists r. split; auto. rewrite H. unfold is_heap, heap_from.
    split; intros Hall j Hj; [intros _|]; apply Hall; lia.
Qed.

Lemma make_heap_from_spec i : forall b, (i < length b)%nat ->
  heap_from (S i) (length b) b ->
  exists b', make_heap_from cmp b i = Ok b' /\ length b' = length b /\
    Permutation b' b /\ is_heap b'.
Proof.
  induction i as [|i IH]; intros b Hi H; cbn [make_heap_from];
    rewrite (aget_Ok _ _ 0%Z) by lia; cbn [bind].
  - destruct (adjust_down_spec (S (length b)) b (length b) 0 (b @ 0) 0)
      as (b' & E & L & P & Hh & _); try lia.
    + intros j Hj _ n1 n2. apply H; lia.
    + rewrite E. cbn [bind]. exists b'. repeat split; auto.
      * rewrite P, upd_nth_self. reflexivity.
      * unfold is_heap. now rewrite L.
  - destruct (adjust_down_spec (S (length b)) b (length b) (S i) (b @ (S i)) (S i))
      as (b' & E & L & P & Hh & _); try lia.
    + intros j Hj Hlo n1 n2. apply H; lia.
    + intros _ Hlo. pose proof (parent_lt (S i)). lia.
    + intros j Hj Hpj _ Hlo. pose proof (parent_lt (S i)). lia.
    + rewrite E. cbn [bind].
      destruct (IH b') as (b'' & E2 & L2 & P2 & H2); try lia.
      { now rewrite L. }
      exists b''. repeat split; auto; try lia.
      rewrite P2, P, upd_nth_self. reflexivity.
Qed.

Lemma make_heap_spec b :
  exists b', make_heap cmp b = Ok b' /\ length b' = length b /\
    Permutation b' b /\ is_heap b'.
Proof.
  unfold make_heap. destruct (Nat.ltb_spec 1 (length b)) as [H|H].
  - apply make_heap_from_spec.
    + lia.
    + intros i Hi Hlo. unfold parent in Hlo. lia.
  - exists b. repeat split; auto. intros i Hi. lia.
Qed.

Lemma sort_heap_loop_spec l : forall b, (l <= length b)%nat ->
  heap_from 0 l b ->
  (forall i j, (l <= i < j)%nat -> (j < length b)%nat -> R (b @ i) (b @ j)) ->
  (forall i j, (i < l <= j)%nat -> (j < length b)%nat -> R (b @ i) (b @ j)) ->
  exists b', sort_heap_loop cmp b l = Ok b' /\ length b' = length b /\
    Permutation b' b /\
    (forall i j, (i < j)%nat -> (j < length b')%nat -> R (b' @ i) (b' @ j)).
Proof.
  induction l as [|l IH]; intros b Hl Hh Hs Hx.
  - exists b. repeat split; auto. intros i j Hij Hj. apply Hs; lia.
  - destruct l as [|l].
    + exists b. repeat split; auto. intros i j Hij Hj.
      destruct (Nat.eq_dec i 0) as [->|]; [apply Hx|apply Hs]; lia.
    + cbn [sort_heap_loop].
      destruct (pop_heap_spec b (S (S l))) as (b' & E & L & P & Hh' & Hlast & K); auto; try lia.
      rewrite E. cbn [bind fst].
      replace (S (S l) - 1)%nat with (S l) in * by lia.
      destruct (IH b') as (b'' & E2 & L2 & P2 & H2); auto; try lia.
      * intros i j Hij Hj.
        rewrite (K j) by lia.
        destruct (Nat.eq_dec i (S l)) as [->|].
        { rewrite Hlast. apply Hx; lia. }
        rewrite (K i) by lia. apply Hs; lia.
      * (* elements of the prefix are below those of the suffix *)
        assert (HP : Permutation (firstn (S (S l)) b') (firstn (S (S l)) b)).
        { apply Permutation_app_inv_r with (skipn (S (S l)) b).
          rewrite firstn_skipn.
          replace (skipn (S (S l)) b) with (skipn (S (S l)) b').
          { now rewrite firstn_skipn. }
          apply (list_ext _ _ 0%Z); [rewrite !skipn_length; lia|].
          intros i Hi.
          assert (forall (z : list Z), (skipn (S (S l)) z) @ i = z @ (S (S l) + i)) as Hsk.
          { intros z. rewrite <- (firstn_skipn (S (S l)) z) at 2.
            destruct (le_lt_dec (length z) (S (S l))) as [Hz|Hz].
            - rewrite skipn_all2 by lia. rewrite app_nil_r, firstn_all2 by lia.
              rewrite !nth_overflow; auto; cbn; lia.
            - rewrite app_nth2; rewrite firstn_length_le by lia; [f_equal; lia|lia]. }
          rewrite !Hsk. apply K. lia. }
        assert (Hin : forall i, (i < S (S l))%nat -> exists i', (i' < S (S l))%nat /\ b' @ i = b @ i').
        { intros i Hi.
          assert (In (b' @ i) (firstn (S (S l)) b)) as Hin.
          { rewrite <- HP. rewrite <- (firstn_skipn (S (S l)) b') at 1.
            rewrite app_nth1 by (rewrite firstn_length_le; lia).
            apply nth_In. rewrite firstn_length_le; lia. }
          apply (In_nth _ _ 0%Z) in Hin. destruct Hin as (i' & Hi' & <-).
          rewrite firstn_length_le in Hi' by lia. exists i'. split; auto.
          rewrite <- (firstn_skipn (S (S l)) b) at 2.
          rewrite app_nth1 by (rewrite firstn_length_le; lia). reflexivity. }
        intros i j Hij Hj.
        destruct (Hin i ltac:(lia)) as (i' & Hi' & ->).
        destruct (Nat.eq_dec j (S l)) as [->|].
        { rewrite Hlast. apply (heap_root (S (S l))); auto. }
        rewrite (K j) by lia. apply Hx; lia.
      * exists b''. repeat split; auto; try lia. now rewrite P2.
Qed.

Lemma sort_heap_spec b :
  exists b', sort_heap cmp b = Ok b' /\ Permutation b' b /\
    (forall i j, (i < j)%nat -> (j < length b')%nat -> R (b' @ i) (b' @ j)).
Proof.
  unfold sort_heap. destruct (make_heap_spec b) as (b1 & -> & L & P & H). cbn [bind].
  destruct (sort_heap_loop_spec (length b1) b1) as (b2 & E & L2 & P2 & H2); auto; try lia.
  exists b2. repeat split; auto. now rewrite P2.
Qed.

Lemma sink_stl_spec fuel : forall b hole,
  (hole < length b)%nat -> (length b - hole < fuel)%nat ->
  (forall i, (0 < i < length b)%nat -> i <> hole -> parent i <> hole ->
             R (b @ i) (b @ (parent i))) ->
  (forall i, (0 < i < length b)%nat -> parent i = hole -> (0 < hole)%nat ->
             R (b @ i) (b @ (parent hole))) ->
  exists b' hole', sink_stl cmp fuel b (length b) hole = Ok (b', hole') /\
    length b' = length b /\ (hole' < length b)%nat /\ (length b <= lchild hole')%nat /\
    (forall v, Permutation (upd b' hole' v) (upd b hole v)) /\
    (forall i, (0 < i < length b)%nat -> i <> hole' -> parent i <> hole' ->
             R (b' @ i) (b' @ (parent i))).
Proof.
  induction fuel as [|f IH]; intros b hole Hh Hf D1 D3; [lia|].
  cbn [sink_stl]. cbv zeta.
  destruct (Nat.ltb_spec (lchild hole) (length b)) as [Hl|Hl].
  2:{ exists b, hole. repeat split; auto. }
  assert (Hlc : (hole < lchild hole)%nat) by (unfold lchild; lia).
  rewrite (aget_Ok _ _ 0%Z) by lia. cbn [bind].
  assert (Hchoice : exists c,
     (if (S (lchild hole) <? length b)%nat
      then br <- aget b (S (lchild hole)) ;;
           Ok (if negb (cmpV cmp br (b @ (lchild hole))) then S (lchild hole) else lchild hole)
      else Ok (lchild hole)) = Ok c /\ (hole < c < length b)%nat /\ parent c = hole /\
     forall i, (0 < i < length b)%nat -> parent i = hole -> R (b @ i) (b @ c)).
  { destruct (Nat.ltb_spec (S (lchild hole)) (length b)) as [Hr|Hr].
    - rewrite (aget_Ok _ _ 0%Z) by lia. cbn [bind].
      destruct (cmpV cmp (b @ (S (lchild hole))) (b @ (lchild hole))) eqn:E; cbn [negb].
      + exists (lchild hole). repeat split; try lia. { apply parent_l. }
        intros i Hi Hpi. apply parent_inv in Hpi; [|lia]. destruct Hpi as [->| ->]; auto.
        apply R_refl.
      + exists (S (lchild hole)). repeat split; try lia. { apply parent_r. }
        apply R_total in E.
        intros i Hi Hpi. apply parent_inv in Hpi; [|lia]. destruct Hpi as [->| ->]; auto.
        apply R_refl.
    - exists (lchild hole). repeat split; try lia. { apply parent_l. }
      intros i Hi Hpi. apply parent_inv in Hpi; [|lia]. destruct Hpi as [->| ->]; [|lia].
      apply R_refl. }
  destruct Hchoice as (c & -> & Hc & Hpc & Hbest). cbn [bind].
  rewrite (aget_Ok _ _ 0%Z) by lia. cbn [bind].
  rewrite aset_Ok by lia. cbn [bind].
  destruct (IH (upd b hole (b @ c)) c) as (b' & hole' & E & L & Hh' & Hleaf & P & H').
  - rewrite upd_length. lia.
  - rewrite upd_length. lia.
  - rewrite upd_length. intros i Hi n1 n2. rewrite !nth_upd by lia.
    destruct (Nat.eq_dec hole i) as [e|e].
    + subst i. pose proof (parent_lt hole).
      destruct (Nat.eq_dec hole (parent hole)); [lia|]. apply D3; auto; lia.
    + destruct (Nat.eq_dec hole (parent i)) as [e'|e']; auto.
  - rewrite upd_length. intros i Hi Hpi _. pose proof (parent_lt i).
    rewrite Hpc, nth_upd_eq by lia. rewrite nth_upd_neq by lia.
    rewrite <- Hpi. apply D1; auto; lia.
  - rewrite upd_length in *. exists b', hole'. repeat split; auto.
    intros v. rewrite P. apply perm_move_hole; lia.
Qed.

Lemma pop_heap_stl_spec b : is_heap b -> b <> [] ->
  exists b', pop_heap_stl cmp b = Ok (b', Some (b @ 0)) /\
    Permutation b (b @ 0 :: b') /\ is_heap b'.
Proof.
  intros H Hne. destruct b as [|top rest]; [congruence|]. clear Hne.
  destruct rest as [|y rest].
  { exists []. cbn. repeat split; auto. intros i Hi. cbn in Hi. lia. }
  set (b := top :: y :: rest) in *.
  assert (Lb : length b = S (S (length rest))) by reflexivity.
  unfold pop_heap_stl. fold b. change (match b with
     | [] => Ok ([], None) | x :: l => _ end) with
     (v <- aget b (length b - 1) ;;
      b3 <- adjust_down_stl cmp (firstn (length b - 1) (upd b 0 v))
              (length (firstn (length b - 1) (upd b 0 v))) 0 v ;;
      Ok (b3, Some top)).
  rewrite (aget_Ok _ _ 0%Z) by lia. cbn [bind].
  set (v := b @ (length b - 1)). set (b2 := firstn (length b - 1) (upd b 0 v)).
  assert (L2 : length b2 = (length b - 1)%nat).
  { unfold b2. rewrite firstn_length_le; auto. rewrite upd_length. lia. }
  assert (N2 : forall j, (0 < j < length b - 1)%nat -> b2 @ j = b @ j).
  { intros j Hj. unfold b2. rewrite <- (nth_upd_neq b 0 j v 0%Z) by lia.
    rewrite <- (firstn_skipn (length b - 1) (upd b 0 v)) at 2.
    rewrite app_nth1; auto. rewrite firstn_length_le; rewrite ?upd_length; lia. }
  unfold adjust_down_stl.
  destruct (sink_stl_spec (S (length b2)) b2 0) as (b' & hole' & -> & L & Hh & Hleaf & P & H').
  - lia.
  - lia.
  - intros i Hi n1 n2. rewrite L2 in Hi. pose proof (parent_lt i).
    rewrite !N2 by lia. apply H; lia.
  - intros; lia.
  - cbn [bind fst snd].
    destruct (adjust_up_spec (S hole') b' hole' v) as (b3 & E & L3 & P3 & H3); auto; try lia.
    + rewrite L. auto.
    + intros i Hi Hpi. apply parent_inv in Hpi; lia.
    + intros i Hi Hpi. apply parent_inv in Hpi; lia.
    + rewrite E. cbn [bind]. exists b3. repeat split; auto.
      assert (P4 : Permutation b3 (upd b2 0 v)) by (rewrite P3; apply P).
      rewrite P4. change (b @ 0) with top.
      assert (E2 : upd b2 0 v = b2).
      { rewrite <- (upd_nth_self b2 0 0%Z) at 2. f_equal.
      }
      rewrite E2. unfold b2. rewrite Lb. replace (S (S (length rest)) - 1)%nat with (S (length rest)) by lia.
      cbn [upd firstn b].
      constructor.
      (* y :: rest is v consed on the rest without last *)
      assert (E3 : y :: rest = firstn (length rest) (y :: rest) ++ [v]).
      { unfold v. rewrite Lb. replace (S (S (length rest)) - 1)%nat with (S (length rest)) by lia.
        cbn [nth b]. apply (list_ext _ _ 0%Z).
        - rewrite app_length, firstn_length_le by (cbn; lia). cbn. lia.
        - intros i Hi. cbn [length] in Hi. destruct (Nat.eq_dec i (length rest)) as [->|ni].
          + rewrite app_nth2; rewrite firstn_length_le by (cbn; lia); [|lia].
            rewrite Nat.sub_diag. reflexivity.
          + rewrite app_nth1 by (rewrite firstn_length_le; cbn; lia).
            rewrite <- (firstn_skipn (length rest) (y :: rest)) at 1.
            rewrite app_nth1 by (rewrite firstn_length_le; cbn; lia). reflexivity. }
      rewrite E3 at 1. symmetry. apply Permutation_cons_append.
Qed.
End Heap.
