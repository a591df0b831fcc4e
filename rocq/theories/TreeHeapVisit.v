From Coq Require Import ZArith List Bool Arith Lia Permutation Sorted ZifyBool ZifyNat.
From Verif Require Import GoBase GoLists ConcBase SortSliceModel SortSliceSpec SortSliceProofs TreeModel TreeSpec TreeProofs TreeHeapModel TreeHeapSpec TreeHeapProofs TreeHeapMore.
Import ListNotations.
Open Scope Z_scope.

Local Notation kid := (option nat).

Lemma edit_outcome srt grow w op : HI w -> is_edit op = true ->
  (h_step srt grow w op = Panic /\ edit_fails w op) \/ (exists r, h_step srt grow w op = Ok r) /\ ~ edit_fails w op.
Proof.
  intros I E. destruct op as [|n v idx|n c idx|n idx|n idx|n|n|n|n|i|i|i]; cbn in E; try discriminate; cbn [edit_fails].
  - right. split; [eexists; reflexivity|auto].
  - destruct (Nat.lt_ge_cases n (hw_next w)) as [H|H].
    + right. split; [|lia]. cbn [h_step]. rewrite ptr_lt by auto. unfold add_child, add_child_node. cbn.
      pose proof (HI_alloc w v I) as I'. set (w1 := fst (alloc w v)) in *.
      replace (fupd (hw_heap w) (hw_next w) (HNode v (GSlice [] 0)) n) with (hw_heap w1 n) by reflexivity.
      destruct (ss_insert_list grow (n_kids (hw_heap w1 n)) (Some (hw_next w)) idx) as (g & k & -> & _); [apply I'|]. cbn. eauto.
    + left. split; auto. cbn [h_step]. unfold ptr_of. destruct (Nat.ltb_spec n (hw_next w)); [lia|reflexivity].
  - destruct (Nat.lt_ge_cases n (hw_next w)) as [H|H].
    + right. split; [|lia]. cbn [h_step]. rewrite (ptr_lt w n) by auto. unfold add_child_node. cbn.
      destruct (ss_insert_list grow (n_kids (hw_heap w n)) (ptr_of w c) idx) as (g & k & -> & _); [apply I|]. cbn. eauto.
    + left. split; auto. cbn [h_step]. unfold ptr_of at 1. destruct (Nat.ltb_spec n (hw_next w)); [lia|reflexivity].
  - destruct (Nat.lt_ge_cases n (hw_next w)) as [H|H].
    + right. split; [|lia]. cbn [h_step]. rewrite (ptr_lt w n) by auto. unfold remove_child. cbn.
      destruct (ss_remove_list grow (n_kids (hw_heap w n)) idx) as (g & -> & _); [apply I|]. cbn. eauto.
    + left. split; auto. cbn [h_step]. unfold ptr_of. destruct (Nat.ltb_spec n (hw_next w)); [lia|reflexivity].
  - destruct (Nat.lt_ge_cases n (hw_next w)) as [H|H].
    + right. split; [|lia]. cbn [h_step]. rewrite (ptr_lt w n) by auto. cbn. rewrite ss_get_list by apply I. cbn. eauto.
    + left. split; auto. cbn [h_step]. unfold ptr_of. destruct (Nat.ltb_spec n (hw_next w)); [lia|reflexivity].
  - destruct (Nat.lt_ge_cases n (hw_next w)) as [H|H].
    + right. split; [|lia]. cbn [h_step]. rewrite (ptr_lt w n) by auto. cbn. eauto.
    + left. split; auto. cbn [h_step]. unfold ptr_of. destruct (Nat.ltb_spec n (hw_next w)); [lia|reflexivity].
  - destruct (Nat.lt_ge_cases n (hw_next w)) as [H|H].
    + cbn [h_step]. rewrite (ptr_lt w n) by auto. destruct (sort_total srt w n) as [(w' & E1)|(E1 & L & N)].
      * right. split; [rewrite E1; cbn; eauto|]. intros [K|[K1 K2]]; [lia|]. rewrite sort_nil in E1 by auto. discriminate.
      * left. split; [rewrite E1; reflexivity|auto].
    + left. split; auto. cbn [h_step]. unfold ptr_of. destruct (Nat.ltb_spec n (hw_next w)); [lia|reflexivity].
  - right. split; [eexists; reflexivity|auto].
Qed.

(** ** Next always returns *)
Definition cost (w : hworld) (e : kid * Z) : nat :=
  (match fst e with Some a => if Z.ltb (snd e) 0 then 0 else Z.to_nat (zlen (children w a) - 1 - snd e) | None => 0 end + 1)%nat.
Fixpoint costs (w : hworld) (st : list (kid * Z)) : nat := match st with [] => 1%nat | e :: st => (cost w e + costs w st)%nat end.
Lemma costs_fuel w st : HI w -> (costs w st <= next_fuel w st)%nat.
Proof.
  intros I. induction st as [|[p b] st IH]; cbn [costs next_fuel fold_right fst]; [lia|]. fold (next_fuel w st).
  unfold cost. cbn [fst snd]. destruct p as [a|]; [|lia]. destruct (Z.ltb_spec b 0); [lia|].
  assert (zlen (children w a) = Z.of_nat (glen (n_kids (hw_heap w a)))).
  { unfold zlen, children. rewrite visible_length by apply I. reflexivity. }
  lia.
Qed.
Lemma must_ok w a i : HI w -> 0 <= i < zlen (children w a) -> exists c, ss_must_get (n_kids (hw_heap w a)) i = Ok c /\ get_at (children w a) i = Some c.
Proof.
  intros I H. rewrite ss_must_list by apply I. change (visible (n_kids (hw_heap w a))) with (children w a).
  destruct (get_at_inside (children w a) i) as (c & E); [unfold inside; lia|]. rewrite E. eauto.
Qed.
Lemma next_loop_total w : HI w -> forall f st, (forall p b, In (p, b) st -> 0 <= b -> p <> None) -> (costs w st <= f)%nat ->
  exists v, h_next_loop f w st = Ok v.
Proof.
  intros I. induction f as [|f IH]; intros st H C.
  - destruct st as [|[p b] st]; cbn in C; unfold cost in *; lia.
  - destruct st as [|[p b] rest]; cbn [h_next_loop]; [eauto|]. cbn [costs] in C. unfold cost in C. cbn [fst snd] in C.
    assert (Hr : forall p b, In (p, b) rest -> 0 <= b -> p <> None) by (intros; eapply H; cbn; eauto).
    destruct (Z.ltb_spec b 0).
    + destruct p; [eauto|]. apply IH; auto. lia.
    + destruct p as [a|]; [|exfalso; eapply H; cbn; eauto]. cbn [deref bind].
      rewrite ss_len_list by apply I. change (visible (n_kids (hw_heap w a))) with (children w a).
      destruct (Z.ltb_spec b (zlen (children w a) - 1)); [|apply IH; auto; lia].
      destruct (must_ok w a (b + 1) I) as (c & -> & _); [lia|]. cbn [bind]. destruct c; [eauto|].
      apply IH.
      * intros p b' [[= <- <-]|J]; [discriminate|now apply Hr].
      * cbn [costs]. unfold cost. cbn [fst snd]. destruct (Z.ltb_spec (b + 1) 0); lia.
Qed.
Lemma h_next_total w v : HI w -> vis_ok (hw_next w) v -> exists r, h_next w v = Ok r.
Proof.
  intros I O. assert (Hs : forall p b, In (p, b) (hv_stack v) -> 0 <= b -> p <> None) by (intros p b J; apply (proj1 O p b J)).
  assert (L : exists v', h_next_loop (next_fuel w (hv_stack v)) w (hv_stack v) = Ok v') by (apply next_loop_total; auto using costs_fuel).
  unfold h_next. destruct (hv_node v) as [a|]; [|destruct L as (v' & ->); cbn; eauto].
  rewrite ss_len_list by apply I. change (visible (n_kids (hw_heap w a))) with (children w a).
  destruct (Z.ltb_spec 0 (zlen (children w a))); [|destruct L as (v' & ->); cbn; eauto].
  destruct (must_ok w a 0 I) as (c & -> & _); [lia|]. cbn [bind]. destruct c; [cbn; eauto|].
  destruct (next_loop_total w I (next_fuel w ((Some a, 0) :: hv_stack v)) ((Some a, 0) :: hv_stack v)) as (v' & ->); [| |cbn; eauto].
  - intros p b [[= <- <-]|J]; [discriminate|eauto].
  - now apply costs_fuel.
Qed.
Lemma next_total srt grow w i : HI w -> (i < hw_nvis w)%nat -> exists w' b, h_step srt grow w (HNext i) = Ok (w', HBool b).
Proof.
  intros I H. cbn [h_step]. destruct (Nat.ltb_spec i (hw_nvis w)); [|lia].
  destruct (h_next_total w (hw_vis w i) I) as ([v b] & ->); [apply I|]. cbn. eauto.
Qed.

(** ** What a step leaves alone *)
Lemma edits_frame w op w' o : HI w' -> HI w -> edits replace_at w op w' o ->
  (hw_next w <= hw_next w')%nat /\
  forall b, (b < hw_next w)%nat -> value w' b = value w b /\ (edited op <> Some b -> children w' b = children w b).
Proof.
  intros I' I E. destruct op as [|n v idx|n c idx|n idx|n idx|n|n|n|n|i|i|i]; cbn [edits edited] in *.
  - destruct E as (-> & _ & _ & _ & K). split; [lia|]. intros b Hb. destruct (K b Hb). auto.
  - destruct E as (_ & _ & (-> & _ & K1 & K) & _). split; [lia|]. intros b Hb. destruct (Nat.eq_dec b n) as [->|N].
    + split; auto. congruence.
    + destruct (K b N Hb). auto.
  - destruct E as (_ & _ & (-> & _ & K1 & K)). split; [lia|]. intros b Hb. destruct (Nat.eq_dec b n) as [->|N].
    + split; auto. congruence.
    + destruct (K b N Hb). auto.
  - destruct E as (_ & _ & (-> & _ & K1 & K)). split; [lia|]. intros b Hb. destruct (Nat.eq_dec b n) as [->|N].
    + split; auto. congruence.
    + destruct (K b N Hb). auto.
  - destruct E as (_ & -> & _). split; [lia|]. auto.
  - destruct E as (_ & -> & _). split; [lia|]. auto.
  - destruct E as (_ & _ & l & (-> & _ & K1 & K) & _). split; [lia|]. intros b Hb. destruct (Nat.eq_dec b n) as [->|N].
    + split; auto. congruence.
    + destruct (K b N Hb). auto.
  - destruct E as (-> & K). split; [lia|]. intros b _. destruct (K b). auto.
  - destruct E as (-> & K). split; [lia|]. intros b _. destruct (K b). auto.
  - destruct E as (-> & K). split; [lia|]. intros b _. destruct (K b). auto.
  - destruct E as (-> & K). split; [lia|]. intros b _. destruct (K b). auto.
  - destruct E as (-> & K). split; [lia|]. intros b _. destruct (K b). auto.
Qed.
Lemma vis_frame srt grow w op w' o : h_step srt grow w op = Ok (w', o) ->
  (hw_nvis w <= hw_nvis w')%nat /\ forall i, (i < hw_nvis w)%nat -> op <> HNext i -> op <> HPrev i -> hw_vis w' i = hw_vis w i.
Proof.
  destruct op as [|n v idx|n c idx|n idx|n idx|n|n|n|n|i|i|i]; cbn [h_step].
  - intros [= <- <-]. cbn. auto.
  - unfold add_child, add_child_node. destruct (ptr_of w n) as [a|]; cbn; [|discriminate].
    destruct (ss_insert None grow _ _ idx) as [[g k]| |]; cbn; try discriminate. intros [= <- <-]. cbn. auto.
  - unfold add_child_node. destruct (ptr_of w n) as [a|]; cbn; [|discriminate].
    destruct (ss_insert None grow _ _ idx) as [[g k]| |]; cbn; try discriminate. intros [= <- <-]. cbn. auto.
  - unfold remove_child. destruct (ptr_of w n) as [a|]; cbn; [|discriminate].
    destruct (ss_remove None grow _ idx) as [[g k]| |]; cbn; try discriminate. intros [= <- <-]. cbn. auto.
  - destruct (ptr_of w n) as [a|]; cbn; [|discriminate]. destruct (ss_get _ idx); cbn; try discriminate. intros [= <- <-]. auto.
  - destruct (ptr_of w n) as [a|]; cbn; [|discriminate]. intros [= <- <-]. auto.
  - destruct (ptr_of w n) as [a|]; [|discriminate]. rewrite sort_eq. destruct (length (children w a) <=? 1)%nat; cbn.
    + intros [= <- <-]. auto.
    + destruct (vals w (children w a)); cbn; try discriminate. intros [= <- <-]. cbn. auto.
  - destruct (all_rec _ w (ptr_of w n)); cbn [bind]; try discriminate. intros [= <- <-]. auto.
  - intros [= <- <-]. cbn. split; [lia|]. intros i Hi _ _. unfold fupd. destruct (Nat.eqb_spec i (hw_nvis w)); [lia|auto].
  - destruct (i <? hw_nvis w)%nat; [|discriminate]. destruct (h_next w _) as [[v b]| |]; cbn; try discriminate. intros [= <- <-]. cbn.
    split; auto. intros j Hj N1 N2. unfold fupd. destruct (Nat.eqb_spec j i); [congruence|auto].
  - destruct (i <? hw_nvis w)%nat; [|discriminate]. destruct (h_prev w _) as [[v b]| |]; cbn; try discriminate. intros [= <- <-]. cbn.
    split; auto. intros j Hj N1 N2. unfold fupd. destruct (Nat.eqb_spec j i); [congruence|auto].
  - destruct (i <? hw_nvis w)%nat; [|discriminate]. intros [= <- <-]. auto.
Qed.

(** ** The visitor as the visitor of a fixed tree *)
Lemma below_kids w a t : below w a t -> a = tval t /\ children w a = map Some (map tval (tchildren t)) /\ forall s, In s (tchildren t) -> below w (tval s) s.
Proof.
  intros B. inversion B as [a' ts L]; subst. clear B. cbn [tval tchildren]. split; auto.
  revert L. generalize (children w a). intros ks L. induction L as [|c ks t ts B L IH]; [split; auto; now intros s []|].
  destruct IH as (-> & IH). inversion B; subst. cbn. split; auto. intros s [<-|I]; auto.
Qed.
Lemma below_frame w w' : (forall a t, below w a t -> (forall b, In b (all t) -> children w' b = children w b) -> below w' a t) /\
  (forall ks ts, below_list w ks ts -> (forall b, In b (flat_map all ts) -> children w' b = children w b) -> below_list w' ks ts).
Proof.
  apply (below_both w (fun a t _ => (forall b, In b (all t) -> children w' b = children w b) -> below w' a t)
    (fun ks ts _ => (forall b, In b (flat_map all ts) -> children w' b = children w b) -> below_list w' ks ts)).
  - intros a ts _ IH H. rewrite all_node in H. constructor. rewrite (H a (or_introl eq_refl)). apply IH. intros b Ib. apply H. right. auto.
  - intros _. constructor.
  - intros c cs t ts _ IH1 _ IH2 H. cbn in H. constructor; [apply IH1|apply IH2]; intros b Ib; apply H, in_or_app; auto.
Qed.
Lemma all_child {V} (t s : tree V) : In s (tchildren t) -> incl (all s) (all t).
Proof. destruct t as [v ts]. intros I x J. rewrite all_node. right. apply in_flat_map. exists s. auto. Qed.
Lemma all_head {V} (t : tree V) : In (tval t) (all t).
Proof. destruct t as [v ts]. rewrite all_node. left. reflexivity. Qed.

Definition good (w : hworld) (root p : tree nat) : Prop := below w (tval p) p /\ incl (all p) (all root).
Record sim (w : hworld) (root : tree nat) (h : hvisitor) (v : visitor nat) : Prop := {
  s_node : hv_node h = option_map tval (vnode v);
  s_stack : hv_stack h = map (fun e => (Some (tval (fst e)), snd e)) (vstack v);
  s_gnode : forall n, vnode v = Some n -> good w root n;
  s_gstack : forall p b, In (p, b) (vstack v) -> good w root p
}.
Lemma good_child w root p s : good w root p -> In s (tchildren p) -> good w root s.
Proof.
  intros [B I] H. split; [apply (below_kids w _ _ B); auto|]. intros x J. apply I. eapply all_child; eauto.
Qed.
Lemma good_kids w root p : HI w -> good w root p -> ss_len (n_kids (hw_heap w (tval p))) = zlen (tchildren p) /\
  forall i c, zget (tchildren p) i = Ok c -> ss_must_get (n_kids (hw_heap w (tval p))) i = Ok (Some (tval c)) /\ good w root c.
Proof.
  intros I G. destruct (below_kids w _ _ (proj1 G)) as (_ & E & _). split.
  - rewrite ss_len_list by apply I. change (visible _) with (children w (tval p)). rewrite E. unfold zlen. now rewrite !map_length.
  - intros i c H. unfold zget, aget in H. destruct (Z.ltb_spec i 0); [discriminate|].
    destruct (nth_error (tchildren p) (Z.to_nat i)) as [x|] eqn:En; [|discriminate]. injection H as ->. split.
    + rewrite ss_must_list by apply I. change (visible _) with (children w (tval p)). rewrite E. unfold get_at, inside, zlen.
      rewrite !map_length. assert (Z.to_nat i < length (tchildren p))%nat by (apply nth_error_Some; congruence).
      replace ((0 <=? i) && (i <? Z.of_nat (length (tchildren p)))) with true by lia.
      rewrite map_map. rewrite (map_nth_error _ _ _ En). reflexivity.
    + eapply good_child; eauto. eapply nth_error_In; eauto.
Qed.

Lemma next_loop_sim w root : HI w -> forall st f v', (forall p b, In (p, b) st -> good w root p) -> (length st < f)%nat ->
  next_loop st = Ok v' -> exists h', h_next_loop f w (map (fun e => (Some (tval (fst e)), snd e)) st) = Ok h' /\ sim w root h' v'.
Proof.
  intros I. induction st as [|[p b] rest IH]; intros f v' G L H; destruct f as [|f]; try lia; cbn [map h_next_loop fst snd next_loop] in *.
  - injection H as <-. exists (HV None []). split; auto. constructor; cbn; auto; try tauto; discriminate.
  - assert (Gr : forall p b, In (p, b) rest -> good w root p) by (intros; eapply G; cbn; eauto).
    assert (Gp : good w root p) by (eapply G; cbn; eauto).
    destruct (b <? 0).
    + injection H as <-. eexists. split; [reflexivity|]. constructor; cbn; auto. intros n [= <-]. auto.
    + cbn [deref bind]. destruct (good_kids w root p I Gp) as (El & Eg). rewrite El.
      destruct (b <? zlen (tchildren p) - 1).
      * destruct (zget (tchildren p) (b + 1)) as [c| |] eqn:Ec; cbn [bind] in H; try discriminate. injection H as <-.
        destruct (Eg _ _ Ec) as (-> & Gc). cbn [bind]. eexists. split; [reflexivity|]. constructor; cbn; auto.
        -- intros n [= <-]. auto.
        -- intros p0 b0 [[= <- <-]|J]; [auto|eauto].
      * apply IH; auto. cbn in L. lia.
Qed.
Lemma fuel_len w st : (length st < next_fuel w st)%nat.
Proof. induction st as [|[p b] st IH]; cbn; [lia|]. unfold next_fuel in IH. destruct p; lia. Qed.
Lemma next_sim w root h v v' b : HI w -> sim w root h v -> visitor_next v = Ok (v', b) -> exists h', h_next w h = Ok (h', b) /\ sim w root h' v'.
Proof.
  intros I [Sn Ss Gn Gs] H. unfold visitor_next in H. unfold h_next. rewrite Sn, Ss.
  assert (F : forall x (k : outcome hvisitor), (x = Ok v' -> exists h', k = Ok h' /\ sim w root h' v') ->
    (v0 <- x ;; Ok (v0, is_some (vnode v0))) = Ok (v', b) ->
    exists h', (v0 <- k ;; Ok (v0, match hv_node v0 with Some _ => true | None => false end)) = Ok (h', b) /\ sim w root h' v').
  { intros x k K E. destruct x as [x| |]; cbn in E; try discriminate. injection E as <- <-. destruct (K eq_refl) as (h' & -> & S).
    exists h'. cbn. split; auto. rewrite (s_node _ _ _ _ S). destruct (vnode x); reflexivity. }
  revert H. apply F. clear F. destruct (vnode v) as [n|] eqn:En; cbn [option_map].
  - destruct (good_kids w root n I (Gn n eq_refl)) as (El & Eg). rewrite El.
    destruct (0 <? zlen (tchildren n)).
    + destruct (zget (tchildren n) 0) as [c| |] eqn:Ec; cbn [bind]; try discriminate. intros [= <-].
      destruct (Eg _ _ Ec) as (-> & Gc). cbn [bind]. eexists. split; [reflexivity|]. constructor; cbn; auto.
      * intros m [= <-]. auto.
      * intros p0 b0 [[= <- <-]|J]; [apply Gn; auto|eauto].
    + intros H. eapply next_loop_sim in H; eauto. pose proof (fuel_len w (map (fun e => (Some (tval (fst e)), snd e)) (vstack v))) as K.
      rewrite map_length in K. exact K.
  - intros H. eapply next_loop_sim in H; eauto. pose proof (fuel_len w (map (fun e => (Some (tval (fst e)), snd e)) (vstack v))) as K.
    rewrite map_length in K. exact K.
Qed.

Lemma top_sim w root : HI w -> forall f g n st n' st', good w root n -> (forall p b, In (p, b) st -> good w root p) ->
  (height n < g)%nat -> top_right_loop f n st = Ok (n', st') ->
  h_top_loop g w (Some (tval n)) (map (fun e => (Some (tval (fst e)), snd e)) st) = Ok (Some (tval n'), map (fun e => (Some (tval (fst e)), snd e)) st') /\
  good w root n' /\ (forall p b, In (p, b) st' -> good w root p).
Proof.
  intros I. induction f as [|f IH]; intros g n st n' st' Gn Gs Hg H; [discriminate|]. cbn [top_right_loop] in H.
  destruct g as [|g]; [lia|]. cbn [h_top_loop deref bind].
  destruct (good_kids w root n I Gn) as (El & Eg). rewrite El. cbv zeta in H.
  destruct (0 <? zlen (tchildren n)).
  - destruct (zget (tchildren n) (zlen (tchildren n) - 1)) as [c| |] eqn:Ec; cbn [bind] in H; try discriminate.
    destruct (Eg _ _ Ec) as (-> & Gc). cbn [bind].
    assert (Ic : In c (tchildren n)).
    { unfold zget, aget in Ec. destruct (_ <? 0); [discriminate|]. destruct (nth_error _ _) eqn:E; [|discriminate]. injection Ec as ->. eapply nth_error_In; eauto. }
    apply height_child in Ic. refine (IH g c _ n' st' Gc _ _ H); [|lia]. intros p b [[= <- <-]|J]; eauto.
  - injection H as <- <-. auto.
Qed.
Lemma top_right_sim w root n st n' st' : HI w -> (forall b, In b (all root) -> (b < hw_next w)%nat) -> good w root n -> (forall p b, In (p, b) st -> good w root p) ->
  top_right n st = Ok (n', st') ->
  h_top_right w (Some (tval n)) (map (fun e => (Some (tval (fst e)), snd e)) st) = Ok (Some (tval n'), map (fun e => (Some (tval (fst e)), snd e)) st') /\
  good w root n' /\ (forall p b, In (p, b) st' -> good w root p).
Proof.
  intros I Hb Gn Gs H. unfold h_top_right. eapply top_sim; eauto.
  destruct Gn as [B J]. assert (height n < hw_next w)%nat; [|lia]. eapply below_height; eauto. apply Hb, J, all_head.
Qed.
Lemma prev_sim w root h v v' b : HI w -> (forall b, In b (all root) -> (b < hw_next w)%nat) -> sim w root h v -> visitor_prev v = Ok (v', b) ->
  exists h', h_prev w h = Ok (h', b) /\ sim w root h' v'.
Proof.
  intros I Hb [Sn Ss Gn Gs] H. unfold visitor_prev in H. unfold h_prev. rewrite Sn, Ss.
  assert (F : forall x (k : outcome hvisitor), (x = Ok v' -> exists h', k = Ok h' /\ sim w root h' v') ->
    (v0 <- x ;; Ok (v0, is_some (vnode v0))) = Ok (v', b) ->
    exists h', (v0 <- k ;; Ok (v0, match hv_node v0 with Some _ => true | None => false end)) = Ok (h', b) /\ sim w root h' v').
  { intros x k K E. destruct x as [x| |]; cbn in E; try discriminate. injection E as <- <-. destruct (K eq_refl) as (h' & -> & S).
    exists h'. cbn. split; auto. rewrite (s_node _ _ _ _ S). destruct (vnode x); reflexivity. }
  revert H. apply F. clear F.
  assert (Mk : forall n st, good w root n -> (forall p b, In (p, b) st -> good w root p) ->
    sim w root (HV (Some (tval n)) (map (fun e => (Some (tval (fst e)), snd e)) st)) (Visitor (Some n) st)).
  { intros n st G1 G2. constructor; cbn; auto. intros m [= <-]. auto. }
  destruct (vnode v) as [n|] eqn:En; destruct (vstack v) as [|[p i] rest] eqn:Es; cbn [option_map map fst snd].
  - intros [= <-]. eexists. split; [reflexivity|]. constructor; cbn; auto; try tauto; discriminate.
  - assert (Gr : forall p b, In (p, b) rest -> good w root p) by (intros; eapply Gs; cbn; eauto).
    assert (Gp : good w root p) by (eapply Gs; cbn; eauto).
    destruct (0 <? i); [|intros [= <-]; eexists; split; [reflexivity|]; now apply Mk].
    cbn [deref bind]. destruct (good_kids w root p I Gp) as (El & Eg).
    destruct (zget (tchildren p) (i - 1)) as [c| |] eqn:Ec; cbn [bind]; try discriminate. destruct (Eg _ _ Ec) as (-> & Gc). cbn [bind].
    destruct (top_right c ((p, i - 1) :: rest)) as [[n' st']| |] eqn:Et; cbn [bind]; try discriminate. intros [= <-].
    apply (top_right_sim w root) in Et; auto; [|intros p0 b0 [[= <- <-]|J]; eauto]. destruct Et as (Et & G1 & G2). cbn [map fst snd] in Et. rewrite Et. cbn [bind].
    eexists. split; [reflexivity|]. now apply Mk.
  - intros [= <-]. eexists. split; [reflexivity|]. constructor; [rewrite En; exact Sn|rewrite Es; exact Ss|rewrite En; exact Gn|rewrite Es; exact Gs].
  - assert (Gr : forall p b, In (p, b) rest -> good w root p) by (intros; eapply Gs; cbn; eauto).
    assert (Gp : good w root p) by (eapply Gs; cbn; eauto).
    destruct (top_right p rest) as [[n' st']| |] eqn:Et; cbn [bind]; try discriminate. intros [= <-].
    eapply top_right_sim in Et; eauto. destruct Et as (Et & G1 & G2). rewrite Et. cbn [bind].
    eexists. split; [reflexivity|]. now apply Mk.
Qed.

Lemma sim_frame w w' root h v : (forall b, In b (all root) -> children w' b = children w b) -> sim w root h v -> sim w' root h v.
Proof.
  intros H [Sn Ss Gn Gs].
  assert (K : forall p, good w root p -> good w' root p).
  { intros p [B J]. split; auto. apply (proj1 (below_frame w w')); auto. }
  constructor; auto; intros; apply K; eauto.
Qed.
Lemma sim_new w root r : below w r root -> sim w root (HV None [(Some r, -1)]) (new_visitor root).
Proof.
  intros B. pose proof (proj1 (below_kids w _ _ B)) as ->. constructor; cbn; auto; [discriminate|].
  intros p b [[= <- <-]|[]]. split; auto. apply incl_refl.
Qed.

Lemma all_valued w t : all (valued w t) = map (value w) (all t).
Proof.
  induction t as [a ts IH] using tree_ind'. cbn [valued]. rewrite !all_node. cbn. f_equal.
  induction IH as [|t ts Ht _ IH]; cbn; auto. now rewrite Ht, IH, map_app.
Qed.
Lemma cursor_map {A B} (f : A -> B) (l : list A) za zb c op :
  fst (cursor_step (map f l) zb c op) = fst (cursor_step l za c op) /\
  fst (snd (cursor_step (map f l) zb c op)) = fst (snd (cursor_step l za c op)).
Proof.
  destruct op, c as [|k|]; cbn [cursor_step fst snd]; rewrite ?map_length; auto.
  - destruct (S k <? length l)%nat; auto.
  - destruct k; auto.
Qed.

(** The state in which visitor [i] stands at [c] in the tree [t] of addresses. *)
Record stands (w : hworld) (t : tree nat) (i : nat) (c : cursor) : Prop := {
  st_hi : HI w;
  st_below : below w (tval t) t;
  st_lt : forall b, In b (all t) -> (b < hw_next w)%nat;
  st_i : (i < hw_nvis w)%nat;
  st_v : exists v, sim w t (hw_vis w i) v /\ RV t v c
}.
Lemma stands_get w t i c l : stands w t i c -> l = map (value w) (all t) -> h_get w (hw_vis w i) = match c with At k => nth k l 0 | _ => 0 end.
Proof.
  intros [_ _ _ _ (v & S & R)] ->. unfold h_get. rewrite (s_node _ _ _ _ S).
  pose proof (RV_obs t v c 0%nat R) as E. unfold visitor_get in E. destruct c as [|k|]; [| |].
  - destruct (vnode v); [discriminate|reflexivity].
  - destruct (vnode v) as [n|] eqn:En; [|discriminate]. cbn in E |- *. injection E as E.
    destruct R as (n' & En' & W & ->). rewrite En in En'. injection En' as <-. 
    destruct (nth_at _ _ _ 0%nat W) as [N L]. rewrite (nth_indep _ _ (value w 0%nat)) by (rewrite map_length; auto).
    rewrite map_nth, N. reflexivity.
  - destruct (vnode v); [discriminate|reflexivity].
Qed.
Lemma stands_move srt grow w t i c (op : vop) zero : stands w t i c ->
  exists w', h_step srt grow w (match op with VNext => HNext i | VPrev => HPrev i end) = Ok (w', HBool (fst (snd (cursor_step (all t) zero c op)))) /\
    stands w' t i (fst (cursor_step (all t) zero c op)) /\ hw_heap w' = hw_heap w /\ hw_next w' = hw_next w.
Proof.
  intros [I B L Hi (v & S & R)]. destruct (visitor_step_RV t zero v c op R) as (v' & E & R'). unfold visitor_step in E.
  destruct (cursor_step (all t) zero c op) as [c' r]. cbn [fst snd] in *.
  assert (K : exists h', (match op with VNext => h_next w (hw_vis w i) | VPrev => h_prev w (hw_vis w i) end) =
      Ok (h', fst r) /\ sim w t h' v').
  { destruct (match op with VNext => visitor_next v | VPrev => visitor_prev v end) as [[v1 b]| |] eqn:E1; cbn [bind] in E; try discriminate.
    injection E as -> <-. cbn [fst snd]. destruct op; [eapply next_sim in E1|eapply prev_sim in E1]; eauto. }
  destruct K as (h' & Eh & S').
  assert (Es : h_step srt grow w (match op with VNext => HNext i | VPrev => HPrev i end) =
     Ok (HW (hw_heap w) (hw_next w) (fupd (hw_vis w) i h') (hw_nvis w), HBool (fst r))).
  { destruct op; cbn [h_step]; (destruct (Nat.ltb_spec i (hw_nvis w)); [|lia]); rewrite Eh; reflexivity. }
  eexists. split; [exact Es|]. split; [|split; reflexivity].
  assert (V : vis_ok (hw_next w) h').
  { destruct op; [eapply h_next_ok in Eh|eapply h_prev_ok in Eh]; eauto; apply I. }
  constructor; cbn; auto.
  - apply HI_vis; auto. intros j. unfold fupd. destruct (j =? i)%nat; auto. apply I.
  - apply (proj1 (below_frame w _)); auto.
  - exists v'. rewrite fupd_same. split; auto. eapply sim_frame; [|exact S']. reflexivity.
Qed.
Lemma stands_frame srt grow w t i c op w' o : sorts srt -> stands w t i c -> h_step srt grow w op = Ok (w', o) ->
  op <> HNext i -> op <> HPrev i -> (forall n, edited op = Some n -> ~ In n (all t)) ->
  stands w' t i c /\ forall b, In b (all t) -> value w' b = value w b.
Proof.
  intros Hs [I B L Hi (v & S & R)] H N1 N2 Ed.
  destruct (step_spec srt grow w op w' o Hs I H) as (I' & E). destruct (edits_frame w op w' o I' I E) as (Ln & F).
  destruct (vis_frame srt grow w op w' o H) as (Lv & Fv).
  assert (K : forall b, In b (all t) -> children w' b = children w b).
  { intros b J. apply F; auto. intros X. exact (Ed b X J). }
  split; [|intros b J; apply F; auto]. constructor; auto.
  - apply (proj1 (below_frame w w')); auto.
  - intros b J. specialize (L b J). lia.
  - lia.
  - exists v. rewrite Fv by auto. split; auto. eapply sim_frame; eauto.
Qed.

Lemma watch_history srt grow t i : sorts srt -> forall ops w c os w' l, stands w t i c -> l = map (value w) (all t) ->
  (forall op n, In op ops -> edited op = Some n -> ~ In n (all t)) ->
  run_ops (h_step srt grow) w ops = Ok (w', os) -> watch i l c ops os /\ exists c', stands w' t i c'.
Proof.
  intros Hs. induction ops as [|op ops IH]; intros w c os w' l S El Ed H; cbn [run_ops] in H.
  - injection H as <- <-. split; [exact Logic.I|]. eauto.
  - destruct (h_step srt grow w op) as [[w1 o]| |] eqn:E1; cbn [bind] in H; try discriminate.
    destruct (run_ops (h_step srt grow) w1 ops) as [[w2 os2]| |] eqn:E2; cbn [bind] in H; try discriminate. injection H as <- <-.
    assert (Ed2 : forall op n, In op ops -> edited op = Some n -> ~ In n (all t)) by (intros op0 n0 J; apply Ed; right; auto).
    assert (Fr : op <> HNext i -> op <> HPrev i -> watch i l c ops os2 /\ exists c', stands w2 t i c').
    { intros N1 N2. destruct (stands_frame srt grow w t i c op w1 o Hs S E1 N1 N2) as (S1 & Vv).
      - intros n. apply Ed. left. auto.
      - eapply IH; eauto. rewrite El. apply map_ext_in. intros b J. now rewrite Vv. }
    assert (Mv : forall vo, op = match vo with VNext => HNext i | VPrev => HPrev i end ->
       o = HBool (fst (snd (cursor_step l 0 c vo))) /\ watch i l (fst (cursor_step l 0 c vo)) ops os2 /\ exists c', stands w2 t i c').
    { intros vo ->. destruct (stands_move srt grow w t i c vo 0%nat S) as (wm & Em & Sm & Hm & Nm). rewrite Em in E1. injection E1 as <- <-.
      destruct (cursor_map (value w) (all t) 0%nat 0 c vo) as (C1 & C2). rewrite <- El in C1, C2. rewrite C1, C2. split; auto.
      eapply IH; eauto. rewrite El. apply map_ext. intros b. unfold value. now rewrite Hm. }
    destruct op as [|n v idx|n k idx|n idx|n idx|n|n|n|n|j|j|j]; cbn [watch]; try (apply Fr; discriminate).
    + destruct (Nat.eqb_spec j i) as [->|N]; [|apply Fr; congruence]. specialize (Mv VNext eq_refl).
      destruct (cursor_step l 0 c VNext) as [c1 r1]. cbn [fst snd] in Mv. tauto.
    + destruct (Nat.eqb_spec j i) as [->|N]; [|apply Fr; congruence]. specialize (Mv VPrev eq_refl).
      destruct (cursor_step l 0 c VPrev) as [c1 r1]. cbn [fst snd] in Mv. tauto.
    + destruct Fr as (W & C); try discriminate. split; [split; [|exact W]|exact C]. intros ->.
      cbn [h_step] in E1. destruct (i <? hw_nvis w)%nat; [|discriminate]. injection E1 as <- <-. f_equal. eapply stands_get; eauto.
Qed.
Lemma stands_new srt grow w r t w1 o : HI w -> (r < hw_next w)%nat -> below w r t -> h_step srt grow w (HVisitor r) = Ok (w1, o) ->
  o = HInt (Z.of_nat (hw_nvis w)) /\ stands w1 t (hw_nvis w) Fresh /\ hw_heap w1 = hw_heap w /\ hw_next w1 = hw_next w.
Proof.
  intros I Hr B H. cbn [h_step] in H. rewrite ptr_lt in H by auto. injection H as <- <-. split; auto. split; [|auto].
  pose proof (proj1 (below_kids w _ _ B)) as Et.
  constructor; cbn; auto.
  - apply HI_vis; auto. intros j. unfold fupd. destruct (j =? hw_nvis w)%nat; [|apply I]. split; cbn; [|discriminate].
    intros p b [[= <- <-]|[]]. split; [lia|]. intros a [= <-]. auto.
  - rewrite Et in B. apply (proj1 (below_frame w _)); auto.
  - eapply below_bound; eauto.
  - exists (new_visitor t). rewrite fupd_same. split; [|reflexivity].
    eapply sim_frame; [|apply sim_new; exact B]. reflexivity.
Qed.
