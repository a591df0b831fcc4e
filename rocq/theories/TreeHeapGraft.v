From Coq Require Import ZArith List Bool Arith Lia Permutation Sorted ZifyBool ZifyNat.
From Verif Require Import GoBase GoLists ConcBase SortSliceModel SortSliceSpec SortSliceProofs TreeModel TreeSpec TreeProofs TreeHeapModel TreeHeapSpec TreeHeapProofs TreeHeapMore TreeHeapVisit TreeHeapGrow.
Import ListNotations.
Open Scope Z_scope.

Section Graft.
Variables a x : nat.
Fixpoint graft (t : tree nat) : tree nat :=
  match t with Node v ts => Node v (map graft ts ++ if (v =? a)%nat then [Node x []] else []) end.
Lemma graft_val t : tval (graft t) = tval t.
Proof. destruct t; reflexivity. Qed.
Lemma graft_kids t : tchildren (graft t) = map graft (tchildren t) ++ if (tval t =? a)%nat then [Node x []] else [].
Proof. destruct t; reflexivity. Qed.
Lemma graft_out t : ~ In a (all t) -> graft t = t.
Proof.
  induction t as [v ts IH] using tree_ind'. rewrite all_node. intros H. cbn [graft].
  destruct (Nat.eqb_spec v a) as [->|N]; [exfalso; apply H; left; auto|]. rewrite app_nil_r. f_equal.
  assert (H' : ~ In a (flat_map all ts)) by (intros J; apply H; right; auto). clear H N.
  induction IH as [|t ts Ht _ IH]; auto. cbn in *. rewrite Ht, IH; auto; intros J; apply H'; apply in_or_app; auto.
Qed.
Lemma in_graft t y : In y (all (graft t)) <-> In y (all t) \/ (y = x /\ In a (all t)).
Proof.
  induction t as [v ts IH] using tree_ind'. cbn [graft]. rewrite !all_node, flat_map_app, in_app_iff || (rewrite !all_node, flat_map_app; cbn [In]; rewrite in_app_iff).
  cbn [In].
  assert (E : In y (flat_map all (map graft ts)) <-> In y (flat_map all ts) \/ y = x /\ In a (flat_map all ts)).
  { induction IH as [|t ts Ht _ IH]; cbn; [tauto|]. rewrite !in_app_iff, Ht, IH. tauto. }
  rewrite ?in_app_iff, E. destruct (Nat.eqb_spec v a) as [->|N]; cbn; intuition (subst; auto).
Qed.
Lemma graft_perm t : NoDup (all t) -> In a (all t) -> Permutation (all (graft t)) (x :: all t).
Proof.
  induction t as [v ts IH] using tree_ind'. rewrite all_node. intros N J. inversion N as [|? ? N1 N2]; subst.
  cbn [graft]. rewrite all_node, flat_map_app. destruct (Nat.eqb_spec v a) as [->|Ne].
  - assert (E : flat_map all (map graft ts) = flat_map all ts).
    { clear -N1. induction ts as [|t ts IH]; auto. cbn in *. rewrite in_app_iff in N1. rewrite IH by tauto. rewrite graft_out; tauto. }
    rewrite E. cbn. rewrite perm_swap. apply perm_skip. symmetry. apply Permutation_cons_append.
  - destruct J as [->|J]; [congruence|]. cbn [flat_map]. rewrite app_nil_r. rewrite perm_swap. apply perm_skip. clear N N1 Ne.
    induction IH as [|t ts Ht _ IHl]; [contradiction|]. cbn in *.
    assert (Nt : NoDup (all t) /\ NoDup (flat_map all ts) /\ forall y, In y (all t) -> ~ In y (flat_map all ts)).
    { clear -N2. induction (all t) as [|z l IH]; cbn in *; [repeat split; auto; constructor|]. inversion N2 as [|? ? M1 M2]; subst.
      destruct (IH M2) as (A & B & C). rewrite in_app_iff in M1. repeat split; auto.
      - constructor; auto.
      - intros y [<-|J]; auto. }
    destruct Nt as (Nt & Ns & D). apply in_app_or in J. destruct J as [J|J].
    + rewrite Ht by auto. cbn. apply perm_skip. apply Permutation_app_head.
      assert (E : flat_map all (map graft ts) = flat_map all ts); [|rewrite E; reflexivity].
      specialize (D a J). clear -D. induction ts as [|s ts IH]; auto. cbn in *. rewrite in_app_iff in D. rewrite IH by tauto. rewrite graft_out; tauto.
    + rewrite graft_out by (intros K; exact (D a K J)). rewrite IHl by auto. symmetry. apply Permutation_middle.
Qed.

Lemma below_graft w w' : children w' a = children w a ++ [Some x] -> children w' x = [] ->
  (forall b t, below w b t -> (forall c, In c (all t) -> c <> a -> children w' c = children w c) -> below w' b (graft t)) /\
  (forall ks ts, below_list w ks ts -> (forall c, In c (flat_map all ts) -> c <> a -> children w' c = children w c) -> below_list w' ks (map graft ts)).
Proof.
  intros Ea Ex.
  apply (below_both w (fun b t _ => (forall c, In c (all t) -> c <> a -> children w' c = children w c) -> below w' b (graft t))
    (fun ks ts _ => (forall c, In c (flat_map all ts) -> c <> a -> children w' c = children w c) -> below_list w' ks (map graft ts))).
  - intros b ts _ IH H. rewrite all_node in H. cbn [graft]. constructor.
    assert (L : below_list w' (children w b) (map graft ts)) by (apply IH; intros c J; apply H; right; auto).
    destruct (Nat.eqb_spec b a) as [->|N].
    + rewrite Ea. clear -L Ex. revert L. generalize (children w a), (map graft ts). clear -Ex. intros ks ts L.
      assert (Bx : below w' x (Node x [])) by (constructor; rewrite Ex; constructor).
      induction L as [|c ks t ts B L IH]; cbn; [constructor; [exact Bx|constructor]|constructor; auto].
    + rewrite app_nil_r, H; auto. left. auto.
  - intros _. constructor.
  - intros c cs t ts _ IH1 _ IH2 H. cbn in H |- *. constructor; [apply IH1|apply IH2]; intros d J; apply H, in_or_app; auto.
Qed.

Definition graft_st (st : list (tree nat * Z)) : list (tree nat * Z) := map (fun e => (graft (fst e), snd e)) st.
Lemma well_graft st : forall t root, well st t root -> well (graft_st st) (graft t) (graft root).
Proof.
  induction st as [|[p i] st IH]; intros t root H; cbn [graft_st map fst snd well] in *; [now subst|].
  destruct H as (Hi & Hn & Hw). split; auto. split; [|apply IH; auto].
  rewrite graft_kids, nth_error_app1; [now apply map_nth_error|]. rewrite map_length. apply nth_error_Some. congruence.
Qed.
Definition clean (st : list (tree nat * Z)) : Prop :=
  forall p i, In (p, i) st -> ~ In a (flat_map all (firstn (zidx i) (tchildren p))).
Lemma bef_graft st : forall t root, well st t root -> clean st -> map tval (bef (graft_st st)) = map tval (bef st).
Proof.
  induction st as [|[p i] st IH]; intros t root H C; cbn [graft_st map fst snd bef well] in *; auto.
  destruct H as (Hi & Hn & Hw). fold (graft_st st). rewrite !map_app. cbn [map].
  rewrite (IH _ _ Hw) by (intros q j J; apply C; right; auto). f_equal. rewrite graft_val. f_equal.
  rewrite graft_kids, firstn_app, map_length.
  assert (L : (zidx i < length (tchildren p))%nat) by (apply nth_error_Some; congruence).
  replace (zidx i - length (tchildren p))%nat with 0%nat by lia. rewrite firstn_O, app_nil_r, firstn_map.
  specialize (C p i (or_introl eq_refl)). induction (firstn (zidx i) (tchildren p)) as [|s l IHl]; auto.
  cbn in *. rewrite in_app_iff in C. rewrite !map_app, IHl by tauto. rewrite graft_out by tauto. reflexivity.
Qed.
Definition graft_v (v : visitor nat) : visitor nat := Visitor (option_map graft (vnode v)) (graft_st (vstack v)).
Lemma sim_graft w w' root h v : children w' a = children w a ++ [Some x] -> children w' x = [] ->
  (forall c, In c (all root) -> c <> a -> children w' c = children w c) -> sim w root h v -> sim w' (graft root) h (graft_v v).
Proof.
  intros Ea Ex F [Sn Ss Gn Gs].
  assert (G : forall p, good w root p -> good w' (graft root) (graft p)).
  { intros p [B J]. split.
    - rewrite graft_val. apply (proj1 (below_graft w w' Ea Ex)); auto.
    - intros y Hy. apply in_graft in Hy. apply in_graft. destruct Hy as [Hy|[-> Hy]]; auto. }
  constructor.
  - rewrite Sn. cbn. destruct (vnode v); cbn; auto. now rewrite graft_val.
  - rewrite Ss. cbn. unfold graft_st. rewrite map_map. apply map_ext. intros [p b]. cbn. now rewrite graft_val.
  - cbn. intros n H. destruct (vnode v) as [m|]; cbn in H; [|discriminate]. injection H as <-. auto.
  - cbn. intros p b H. unfold graft_st in H. apply in_map_iff in H as ([q j] & [= <- <-] & J). cbn. eauto.
Qed.
End Graft.

Lemma first_part st : forall (t root : tree nat), well st t root -> firstn (S (length (bef st))) (all root) = map tval (bef st) ++ [tval t].
Proof.
  intros t root W. rewrite all_pre, <- (well_total _ _ _ W), (pre_eq t). rewrite !map_app. cbn [map].
  rewrite firstn_app, map_length. replace (S (length (bef st)) - length (bef st))%nat with 1%nat by lia.
  rewrite firstn_all2 by (rewrite map_length; lia). reflexivity.
Qed.
Lemma siblings_seen st : forall (t root : tree nat) p i, well st t root -> In (p, i) st ->
  incl (flat_map all (firstn (zidx i) (tchildren p))) (map tval (bef st)).
Proof.
  induction st as [|[q j] st IH]; intros t root p i W J y Hy; [contradiction|]. cbn [well bef] in *. destruct W as (_ & _ & W).
  rewrite map_app. apply in_or_app. destruct J as [[= -> ->]|J].
  - right. cbn. right. apply in_flat_map in Hy as (s & Is & Ys). rewrite all_pre in Ys. apply in_map_iff in Ys as (u & <- & Iu).
    apply in_map. apply in_flat_map. eauto.
  - left. eapply IH; eauto.
Qed.
Lemma reach_in w a b t : reach w a b -> below w a t -> In b (all t).
Proof.
  intros R. revert t. induction R as [|b c R IH J]; intros t B.
  - pose proof (proj1 (below_kids w _ _ B)) as ->. apply all_head.
  - specialize (IH t B).
    assert (G : forall t a, below w a t -> In b (all t) -> exists s, below w b s /\ incl (all s) (all t)).
    { clear -J. induction t as [v ts IHt] using tree_ind'. intros a B Hb. pose proof (below_kids w _ _ B) as (E & _ & K). cbn in E, K. subst a.
      rewrite all_node in Hb. destruct Hb as [->|Hb]; [eexists; split; [exact B|apply incl_refl]|].
      apply in_flat_map in Hb as (s & Is & Hb). rewrite Forall_forall in IHt.
      destruct (IHt s Is _ (K s Is) Hb) as (s' & Bs & Inc). exists s'. split; auto.
      intros y Y. rewrite all_node. right. apply in_flat_map. eauto. }
    destruct (G t a B IH) as (s & Bs & Inc). apply Inc.
    destruct (below_kid w b s Bs _ J) as (y & u & [= <-] & Bu & Iu). eapply all_child; eauto.
    pose proof (proj1 (below_kids w _ _ Bu)) as ->. apply all_head.
Qed.
Lemma below_inside w : forall t a b, below w a t -> In b (all t) -> exists s, below w b s /\ incl (all s) (all t).
Proof.
  induction t as [v ts IHt] using tree_ind'. intros a b B Hb. pose proof (below_kids w _ _ B) as (E & _ & K). cbn in E, K. subst a.
  rewrite all_node in Hb. destruct Hb as [->|Hb]; [eexists; split; [exact B|apply incl_refl]|].
  apply in_flat_map in Hb as (s & Is & Hb). rewrite Forall_forall in IHt.
  destruct (IHt s Is _ _ (K s Is) Hb) as (s' & Bs & Inc). exists s'. split; auto.
  intros y Y. rewrite all_node. right. apply in_flat_map. eauto.
Qed.

Definition passed (t : tree nat) (c : cursor) (seen : list nat) : Prop :=
  c = Fresh /\ seen = [] \/ exists k, c = At k /\ (k < length (all t))%nat /\ seen = firstn (S k) (all t).
Lemma stands_node w t i k : stands w t i (At k) -> hv_node (hw_vis w i) = nth_error (all t) k.
Proof.
  intros [_ _ _ _ (v & S & (n & En & W & ->))]. rewrite (s_node _ _ _ _ S), En. cbn.
  destruct (nth_at _ _ _ 0%nat W) as [N L]. symmetry. rewrite <- N. now apply nth_error_nth'.
Qed.
Lemma nth_error_firstn {A} (l : list A) k x : nth_error l k = Some x -> firstn (S k) l = firstn k l ++ [x].
Proof. revert l. induction k as [|k IH]; intros [|y l] E; cbn in *; try discriminate; [congruence|]. f_equal. now apply IH. Qed.
Lemma skipn_hd {A} (l : list A) k y : nth_error l k = Some y -> exists ys, skipn k l = y :: ys.
Proof. revert l. induction k as [|k IH]; intros [|z l] E; cbn in *; try discriminate; [injection E as ->; eauto|auto]. Qed.
Lemma grown srt grow i w0 r t0 : sorts srt -> stands w0 t0 i Fresh -> tval t0 = r -> NoDup (all t0) ->
  forall seen w, growing srt grow i w0 seen w -> exists t c, stands w t i c /\ tval t = r /\ NoDup (all t) /\ passed t c seen.
Proof.
  intros Hs S0 Er N0 seen w G. induction G as [|seen w w' a G IH E Ea|seen w w' a v idx o G IH C Id E].
  - exists t0, Fresh. split; [exact S0|]. split; auto. split; auto. left. auto.
  - destruct IH as (t & c & S & Et & N & P). destruct (stands_move srt grow w t i c VNext 0%nat S) as (w1 & E1 & S1 & _).
    rewrite E1 in E. injection E as <- Eb.
    assert (Hd : (0 < length (all t))%nat) by (destruct t; rewrite all_node; cbn; lia).
    destruct P as [[-> ->]|(k & -> & Lk & ->)]; cbn [cursor_step fst snd] in *.
    + exists t, (At 0). split; [exact S1|]. split; auto. split; auto. right. exists 0%nat. split; auto. split; auto.
      rewrite (stands_node _ _ _ _ S1) in Ea. cbn [app]. rewrite (nth_error_firstn _ _ _ Ea). reflexivity.
    + destruct (Nat.ltb_spec (Datatypes.S k) (length (all t))); [|discriminate].
      exists t, (At (Datatypes.S k)). split; [exact S1|]. split; auto. split; auto. right. exists (Datatypes.S k). split; auto. split; auto.
      rewrite (stands_node _ _ _ _ S1) in Ea. now rewrite (nth_error_firstn _ _ _ Ea).
  - destruct IH as (t & c & S & Et & N & P).
    destruct (in_dec Nat.eq_dec a (all t)) as [J|J].
    2:{ destruct (stands_frame srt grow w t i c _ w' o Hs S E) as (S' & _); try discriminate.
        - cbn. intros n [= <-]. auto.
        - exists t, c. auto. }
    pose proof (st_hi _ _ _ _ S) as I. destruct (step_spec srt grow w _ w' o Hs I E) as (I' & Ed).
    destruct (vis_frame srt grow w _ w' o E) as (Lv & Fv). cbn [edits] in Ed. destruct Ed as (Ha & Eo & (En & Ek & _ & F) & Ex & _).
    unfold replace_at in Ek. rewrite Id in Ek. set (x := hw_next w) in *.
    assert (Fx : forall b, In b (all t) -> b <> a -> children w' b = children w b) by (intros b Jb Nb; apply F; auto; apply (st_lt _ _ _ _ S); auto).
    assert (Nx : ~ In x (all t)) by (intros Jx; apply (st_lt _ _ _ _ S) in Jx; unfold x in Jx; lia).
    pose proof (st_below _ _ _ _ S) as B. pose proof (st_i _ _ _ _ S) as Li. destruct (st_v _ _ _ _ S) as (vv & Sv & R).
    assert (Vi : hw_vis w' i = hw_vis w i) by (apply Fv; auto; discriminate).
    assert (Sg : stands w' (graft a x t) i c /\ passed (graft a x t) c seen).
    { assert (Mk : RV (graft a x t) (graft_v a x vv) c -> stands w' (graft a x t) i c).
      { intros R'. constructor; auto.
        - rewrite graft_val. apply (proj1 (below_graft a x w w' Ek Ex)); auto.
        - intros b Jb. apply in_graft in Jb. rewrite En. fold x. destruct Jb as [Jb|[-> _]]; [apply (st_lt _ _ _ _ S) in Jb; fold x in Jb; lia|lia].
        - lia.
        - exists (graft_v a x vv). rewrite Vi. split; auto. eapply sim_graft; eauto. }
      destruct P as [[-> ->]|(k & -> & Lk & ->)].
      - split; [apply Mk; cbn in R |- *; rewrite R; reflexivity|left; auto].
      - destruct R as (n & Hn & W & Hk).
        assert (Cl : clean a (vstack vv)).
        { intros p j Jp Ja. pose proof (siblings_seen _ _ _ _ _ W Jp _ Ja) as Js.
          destruct C as [C|(cu & Hcu & Rc)].
          - apply C. rewrite Hk, (first_part _ _ _ W). apply in_or_app. auto.
          - rewrite (s_node _ _ _ _ Sv), Hn in Hcu. cbn in Hcu. injection Hcu as <-.
            apply in_flat_map in Ja as (s & Is & Ja).
            assert (Gs : good w t s).
            { eapply good_child; [eapply (s_gstack _ _ _ _ Sv); eauto|]. eapply firstn_sub; eauto. }
            destruct (below_inside w s _ _ (proj1 Gs) Ja) as (ta & Ba & Inc). pose proof (reach_in w _ _ _ Rc Ba) as Jn. apply Inc in Jn.
            assert (Jb : In (tval n) (map tval (bef (vstack vv)))).
            { eapply siblings_seen; [exact W|exact Jp|]. apply in_flat_map. eauto. }
            rewrite all_pre, <- (well_total _ _ _ W), (pre_eq n), !map_app in N. cbn in N.
            apply NoDup_remove_2 in N. apply N. apply in_or_app. auto. }
        pose proof (well_graft a x _ _ _ W) as W'. pose proof (bef_graft a x _ _ _ W Cl) as Bg.
        assert (Lb : length (bef (graft_st a x (vstack vv))) = k).
        { rewrite <- (map_length tval), Bg, map_length. auto. }
        split.
        + apply Mk. exists (graft a x n). cbn. rewrite Hn. auto.
        + right. exists k. split; auto. split.
          * rewrite (Permutation_length (graft_perm a x t N J)). cbn. lia.
          * rewrite <- Lb at 2. rewrite (first_part _ _ _ W'), Bg, graft_val. rewrite Hk. now rewrite (first_part _ _ _ W). }
    destruct Sg as (S' & P'). exists (graft a x t), c. split; auto. split; [now rewrite graft_val|]. split; auto.
    eapply Permutation_NoDup; [symmetry; apply graft_perm; auto|]. constructor; auto.
Qed.
Lemma grown_next srt grow i w t c seen : stands w t i c -> passed t c seen ->
  exists rest, h_step srt grow w (HAll (tval t)) = Ok (w, HList (map (value w) (seen ++ rest))) /\ all t = seen ++ rest /\
  exists w', h_step srt grow w (HNext i) = Ok (w', HBool (match rest with [] => false | _ => true end)) /\ hv_node (hw_vis w' i) = hd_error rest.
Proof.
  intros S P.
  assert (Al : forall l, all t = l -> h_step srt grow w (HAll (tval t)) = Ok (w, HList (map (value w) l))).
  { intros l <-. rewrite <- all_valued. eapply all_of_tree; [apply S|apply S, all_head|apply S|apply all_preorder]. }
  destruct (stands_move srt grow w t i c VNext 0%nat S) as (w1 & E1 & S1 & _).
  assert (Hd : exists y ys, all t = y :: ys) by (destruct t; rewrite all_node; eauto).
  destruct P as [[-> ->]|(k & -> & Lk & ->)]; cbn [cursor_step fst snd] in *.
  - destruct Hd as (y & ys & Ey). exists (all t). split; [apply Al; auto|]. split; auto. exists w1. rewrite (stands_node _ _ _ _ S1), Ey. split; auto.
  - exists (skipn (Datatypes.S k) (all t)). rewrite firstn_skipn. split; [apply Al; auto|]. split; auto. exists w1.
    destruct (Nat.ltb_spec (Datatypes.S k) (length (all t))) as [L|L].
    + rewrite (stands_node _ _ _ _ S1). destruct (nth_error (all t) (Datatypes.S k)) as [y|] eqn:Ey; [|apply nth_error_None in Ey; lia].
      assert (Es : exists ys, skipn (Datatypes.S k) (all t) = y :: ys).
      { eapply skipn_hd; eauto. }
      destruct Es as (ys & ->). auto.
    + rewrite skipn_all2 by lia. split; auto. destruct (st_v _ _ _ _ S1) as (v & Sv & R). cbn in R. rewrite (s_node _ _ _ _ Sv), R. reflexivity.
Qed.
