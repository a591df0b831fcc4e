From Coq Require Import ZArith List Bool Arith Lia ZifyBool ZifyNat.
From Verif Require Import GoBase GoLists ConcBase SortSliceModel SortSliceSpec SortSliceProofs TreeModel TreeSpec TreeProofs TreeHeapModel TreeHeapSpec TreeHeapProofs TreeHeapMore TreeHeapVisit TreeHeapGrow.
Import ListNotations.
Open Scope Z_scope.

Lemma lists_div w f ks : lists w f ks = Diverge -> exists c, In c ks /\ all_rec f w c = Diverge.
Proof.
  induction ks as [|c ks IH]; cbn [lists]; [discriminate|]. destruct (all_rec f w c) as [r| |] eqn:E; cbn [bind]; try discriminate.
  - intros H. destruct IH as (c' & I & D); [destruct (lists w f ks); cbn in H; congruence|]. exists c'. split; [right|]; auto.
  - intros _. exists c. split; [left|]; auto.
Qed.
Lemma lists_panic w f ks : lists w f ks = Panic -> exists c, In c ks /\ all_rec f w c = Panic.
Proof.
  induction ks as [|c ks IH]; cbn [lists]; [discriminate|]. destruct (all_rec f w c) as [r| |] eqn:E; cbn [bind]; try discriminate.
  - intros H. destruct IH as (c' & I & D); [destruct (lists w f ks); cbn in H; congruence|]. exists c'. split; [right|]; auto.
  - intros _. exists c. split; [left|]; auto.
Qed.
Lemma all_panic w f : forall a, all_rec f w (Some a) = Panic -> exists b, reach w a b /\ In None (children w b).
Proof.
  induction f as [|f IH]; intros a H; [discriminate|]. rewrite all_eq in H.
  assert (L : lists w f (children w a) = Panic) by (destruct (lists w f (children w a)); cbn in H; congruence).
  apply lists_panic in L as ([c|] & I & E).
  - destruct (IH c E) as (b & R & N). exists b. split; auto. eapply reach_trans; [|exact R]. econstructor; [constructor|auto].
  - exists a. split; [constructor|auto].
Qed.

Fixpoint path (w : hworld) (a : nat) (l : list nat) : Prop :=
  match l with [] => True | b :: l => In (Some b) (children w a) /\ path w b l end.
Lemma path_reach w l : forall a b, path w a l -> In b (a :: l) -> reach w a b.
Proof.
  induction l as [|c l IH]; intros a b P [<-|I]; try constructor; [contradiction|].
  destruct P as [K P]. eapply reach_trans; [econstructor; [constructor|exact K]|]. now apply IH.
Qed.
Lemma all_long w f : forall a, all_rec (S f) w (Some a) = Diverge -> exists l, length l = f /\ path w a l.
Proof.
  induction f as [|f IH]; intros a H; [exists []; split; [auto|exact Logic.I]|]. rewrite all_eq in H.
  assert (L : lists w (S f) (children w a) = Diverge) by (destruct (lists w (S f) (children w a)); cbn [bind] in H; congruence).
  apply lists_div in L as ([c|] & I & E); [|discriminate]. destruct (IH c E) as (l & <- & P). exists (c :: l). split; auto. split; auto.
Qed.
Lemma repeated (l : list nat) : NoDup l \/ exists l1 x l2 l3, l = l1 ++ x :: l2 ++ x :: l3.
Proof.
  induction l as [|x l [N|(l1 & y & l2 & l3 & ->)]]; [left; constructor| |right; exists (x :: l1), y, l2, l3; auto].
  destruct (in_dec Nat.eq_dec x l) as [I|I]; [|left; constructor; auto].
  right. apply in_split in I as (l2 & l3 & ->). exists [], x, l2, l3. auto.
Qed.
Lemma path_split w l : forall a l1 x l2 y l3, path w a l -> a :: l = l1 ++ x :: l2 ++ y :: l3 -> reach w a x /\ exists c, In (Some c) (children w x) /\ reach w c y.
Proof.
  induction l as [|b l IH]; intros a l1 x l2 y l3 P E.
  - destruct l1 as [|? [|]]; [destruct l2; discriminate|discriminate|discriminate].
  - destruct l1 as [|z l1].
    + cbn in E. injection E as <- E. split; [constructor|]. destruct P as [K P]. exists b. split; auto.
      apply (path_reach w l); auto. rewrite E. apply in_or_app. cbn. auto.
    + cbn in E. injection E as <- E. destruct P as [K P]. destruct (IH b l1 x l2 y l3 P E) as (R & C). split; auto.
      eapply reach_trans; [econstructor; [constructor|exact K]|auto].
Qed.
Lemma all_cycle w a : HI w -> (a < hw_next w)%nat -> all_rec (S (hw_next w)) w (Some a) = Diverge ->
  exists b c, reach w a b /\ In (Some c) (children w b) /\ reach w c b.
Proof.
  intros I Ha H. destruct (all_long w _ a H) as (l & L & P).
  destruct (repeated (a :: l)) as [N|(l1 & x & l2 & l3 & E)].
  - exfalso. assert (K : (length (a :: l) <= length (seq 0 (hw_next w)))%nat).
    { apply NoDup_incl_length; auto. intros y J. apply in_seq. pose proof (path_reach w l a y P J) as R.
      assert (y < hw_next w)%nat; [|lia]. inversion R as [|? ? ? J']; subst; auto. eapply i_cl; eauto. }
    rewrite seq_length in K. cbn in K. lia.
  - destruct (path_split w l a l1 x l2 x l3 P E) as (R & c & J & R'). exists x, c. auto.
Qed.
Lemma all_trichotomy srt grow w a : HI w -> (a < hw_next w)%nat ->
  match h_step srt grow w (HAll a) with
  | Ok (w', o) => w' = w /\ exists t l, below w a t /\ Preorder (valued w t) l /\ o = HList l
  | Panic => exists b, reach w a b /\ In None (children w b)
  | Diverge => exists b c, reach w a b /\ In (Some c) (children w b) /\ reach w c b
  end.
Proof.
  intros I Ha. destruct (h_step srt grow w (HAll a)) as [[w' o]| |] eqn:E.
  - pose proof (all_only_tree srt grow w a w' o E) as (t & l & _ & K). rewrite step_all in E by auto.
    destruct (all_rec (S (hw_next w)) w (Some a)); cbn [bind] in E; try discriminate. injection E as <- <-. split; auto. exists t, l. tauto.
  - rewrite step_all in E by auto. destruct (all_rec (S (hw_next w)) w (Some a)) eqn:E'; cbn [bind] in E; try discriminate.
    eapply all_panic; eauto.
  - rewrite step_all in E by auto. destruct (all_rec (S (hw_next w)) w (Some a)) eqn:E'; cbn [bind] in E; try discriminate.
    eapply all_cycle; eauto.
Qed.

(** ** The loop of Prev *)
Lemma top_st f w : forall p st, h_top_loop f w p st = (' (n, st') <- h_top_loop f w p [] ;; Ok (n, st' ++ st)).
Proof.
  induction f as [|f IH]; intros p st; cbn [h_top_loop]; auto. destruct p as [a|]; cbn [deref bind]; auto.
  destruct (0 <? ss_len (n_kids (hw_heap w a))); [|reflexivity].
  destruct (ss_must_get (n_kids (hw_heap w a)) (ss_len (n_kids (hw_heap w a)) - 1)) as [c| |]; cbn [bind]; auto.
  rewrite IH, (IH c [_]). destruct (h_top_loop f w c []) as [[n s]| |]; cbn; auto. now rewrite <- app_assoc.
Qed.
Lemma top_S f w p : h_top_loop (S f) w p [] =
  (' (a, n) <- deref w p ;;
   if 0 <? ss_len (n_kids n) then c <- ss_must_get (n_kids n) (ss_len (n_kids n) - 1) ;; h_top_loop f w c [(p, ss_len (n_kids n) - 1)] else Ok (p, [])).
Proof. reflexivity. Qed.
Lemma top_div_st f w p st : h_top_loop f w p st = Diverge <-> h_top_loop f w p [] = Diverge.
Proof. rewrite (top_st f w p st). destruct (h_top_loop f w p []) as [[n s]| |]; cbn; split; congruence. Qed.
Lemma top_mono f w : forall p, h_top_loop f w p [] <> Diverge -> h_top_loop (S f) w p [] <> Diverge.
Proof.
  induction f as [|f IH]; intros p H; [now cbn in H|]. rewrite top_S in H |- *. destruct p as [a|]; cbn [deref bind] in *; [|discriminate].
  destruct (0 <? ss_len (n_kids (hw_heap w a))); [|discriminate].
  destruct (ss_must_get _ _) as [c| |]; cbn [bind] in *; try discriminate; try exact H.
  intros X. apply (proj1 (top_div_st _ _ _ _)) in X. revert X. apply IH. intros X. apply H. now apply top_div_st.
Qed.
Lemma top_enough f w p : HI w -> (forall a, p = Some a -> (a < hw_next w)%nat) -> h_top_loop f w p [] <> Diverge -> h_top_loop (S (hw_next w)) w p [] <> Diverge.
Proof.
  intros I Hp H. refine (enough (hw_next w) (fun f p => h_top_loop f w p [] <> Diverge) _ _ _ _ _ f p Hp H).
  - intros f0 p0. destruct (h_top_loop f0 w p0 []) as [[? ?]| |]; [left|left|right]; congruence.
  - intros f0 p0 K. now apply top_mono.
  - discriminate.
  - intros p0 K. now apply K.
  - intros g a Ha K1 K2. rewrite top_S in K1, K2. cbn [deref bind] in K1, K2.
    destruct (0 <? ss_len (n_kids (hw_heap w a))); [|exfalso; apply K2; discriminate].
    destruct (ss_must_get _ _) as [c| |] eqn:E; cbn [bind] in *; try (exfalso; apply K2; discriminate); try (exfalso; now apply K1).
    exists c. split; [|split].
    + intros x ->. eapply must_kid; eauto.
    + intros X. apply K1. now apply top_div_st.
    + intros X. apply K2. intros Y. apply X. now apply (proj1 (top_div_st _ _ _ _)) in Y.
Qed.
(** The last child. *)
Definition last_kid (w : hworld) (a : nat) : option nat := match get_at (children w a) (zlen (children w a) - 1) with Some k => k | None => None end.
Lemma top_forever w a : HI w -> (forall f, h_top_loop f w (Some a) [] = Diverge) -> exists c, get_at (children w a) (zlen (children w a) - 1) = Some (Some c) /\ forall f, h_top_loop f w (Some c) [] = Diverge.
Proof.
  intros I H.
  assert (K : forall f, h_top_loop (S f) w (Some a) [] = Diverge) by auto.
  assert (S0 : forall f, (if 0 <? zlen (children w a) then c <- ss_must_get (n_kids (hw_heap w a)) (zlen (children w a) - 1) ;; h_top_loop f w c [(Some a, zlen (children w a) - 1)] else Ok (Some a, [])) = Diverge).
  { intros f. specialize (K f). rewrite top_S in K. cbn [deref bind] in K. rewrite ss_len_list in K by apply I. exact K. }
  clear K. destruct (Z.ltb_spec 0 (zlen (children w a))) as [L|L]; [|specialize (S0 0%nat); discriminate].
  destruct (must_ok w a (zlen (children w a) - 1) I) as (k & E & G); [lia|].
  destruct k as [c|].
  - exists c. split; auto. intros f. specialize (S0 f). rewrite E in S0. cbn [bind] in S0. now apply top_div_st in S0.
  - specialize (S0 1%nat). rewrite E in S0. discriminate.
Qed.
Lemma prev_hangs srt grow w i : HI w -> h_step srt grow w (HPrev i) = Diverge ->
  exists p, forall n, get_at (children w (p n)) (zlen (children w (p n)) - 1) = Some (Some (p (S n))).
Proof.
  intros I H.
  assert (K : exists a st, (a < hw_next w)%nat /\ h_top_loop (S (hw_next w)) w (Some a) st = Diverge).
  { cbn [h_step] in H. destruct (i <? hw_nvis w)%nat; [|discriminate]. unfold h_prev in H. pose proof (i_vis _ I i) as [O _].
    destruct (hv_node (hw_vis w i)); destruct (hv_stack (hw_vis w i)) as [|[p b] rest]; cbn [bind] in H; try discriminate.
    - destruct (0 <? b); [|discriminate]. destruct p as [a|]; cbn [deref bind] in H; [|discriminate].
      destruct (ss_must_get _ _) as [c| |] eqn:E; cbn [bind] in H; try discriminate.
      + unfold h_top_right in H. destruct c as [c|]; [|discriminate]. exists c, ((Some a, b - 1) :: rest). split; [eapply must_kid; eauto|].
        destruct (h_top_loop _ w (Some c) _) as [[? ?]| |]; cbn [bind] in H; congruence.
      + rewrite ss_must_list in E by apply I. destruct (get_at _ _); discriminate.
    - unfold h_top_right in H. destruct p as [a|]; [|discriminate]. exists a, rest. split; [apply (O (Some a) b); cbn; auto|].
      destruct (h_top_loop _ w (Some a) _) as [[? ?]| |]; cbn [bind] in H; congruence. }
  destruct K as (a & st & Ha & D). apply (proj1 (top_div_st _ _ _ _)) in D.
  assert (F : forall f, h_top_loop f w (Some a) [] = Diverge).
  { intros f. destruct (h_top_loop f w (Some a) []) as [[? ?]| |] eqn:E; auto; exfalso; (eapply (top_enough f); [exact I| |rewrite E; discriminate|exact D]); intros ? [= <-]; auto. }
  exists (fun n => Nat.iter n (fun b => match last_kid w b with Some c => c | None => b end) a).
  intros n.
  assert (G : forall f, h_top_loop f w (Some (Nat.iter n (fun b => match last_kid w b with Some c => c | None => b end) a)) [] = Diverge).
  { induction n as [|n IH]; auto. cbn [Nat.iter nat_rect]. destruct (top_forever w _ I IH) as (c & E & Fc). unfold last_kid at 1. 
    unfold Nat.iter in E. rewrite E. exact Fc. }
  destruct (top_forever w _ I G) as (c & E & _). rewrite E. do 2 f_equal. cbn [Nat.iter nat_rect]. unfold last_kid at 1. unfold Nat.iter in E. rewrite E. reflexivity.
Qed.
