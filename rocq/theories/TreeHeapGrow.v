From Coq Require Import ZArith List Bool Arith Lia Permutation Sorted ZifyBool ZifyNat.
From Verif Require Import GoBase GoLists ConcBase SortSliceModel SortSliceSpec SortSliceProofs TreeModel TreeSpec TreeProofs TreeHeapModel TreeHeapSpec TreeHeapProofs TreeHeapMore TreeHeapVisit.
Import ListNotations.
Open Scope Z_scope.

Local Notation kid := (option nat).

(** ** Trees built without hanging up old nodes *)
Record TI (w : hworld) : Prop := {
  t_up : forall a k, In k (children w a) -> exists c, k = Some c /\ (a < c)%nat;
  t_nd : forall a, NoDup (children w a);
  t_par : forall a b c, In (Some c) (children w a) -> In (Some c) (children w b) -> a = b
}.
Lemma TI0 : TI hworld0.
Proof. constructor; cbn; try tauto. intros a. constructor. Qed.

Lemma delete_perm {A} (l : list A) idx x : get_at l idx = Some x -> Permutation l (x :: delete_at l idx).
Proof.
  unfold get_at, delete_at. destruct (inside l idx); [|discriminate]. intros E. rewrite (split_nth _ _ _ E) at 1.
  symmetry. apply Permutation_middle.
Qed.
Lemma delete_NoDup {A} (l : list A) idx : NoDup l -> NoDup (delete_at l idx).
Proof.
  intros N. destruct (inside l idx) eqn:E; [|unfold delete_at; rewrite E; auto].
  destruct (get_at_inside l idx E) as (x & G). apply delete_perm in G. eapply Permutation_NoDup in N; [|exact G]. now inversion N.
Qed.
Lemma replace_perm {A} (l : list A) v idx : Permutation (replace_at l v idx) (v :: delete_at l idx).
Proof.
  unfold replace_at, delete_at. destruct (inside l idx).
  - symmetry. apply Permutation_middle.
  - symmetry. apply Permutation_cons_append.
Qed.

(** Changing the children of one node to a subset of the old ones and a fresh node. *)
Lemma TI_change w w' n l : TI w -> (forall b, b <> n -> children w' b = children w b) -> children w' n = l -> NoDup l ->
  (forall k, In k l -> In k (children w n) \/ exists x, k = Some x /\ (n < x)%nat /\ forall b, ~ In (Some x) (children w b)) -> TI w'.
Proof.
  intros T O E N H. constructor.
  - intros a k Hk. destruct (Nat.eq_dec a n) as [->|Na].
    + rewrite E in Hk. destruct (H k Hk) as [K|(x & -> & L & _)]; [apply (t_up _ T); auto|eauto].
    + rewrite O in Hk by auto. apply (t_up _ T); auto.
  - intros a. destruct (Nat.eq_dec a n) as [->|Na]; [now rewrite E|rewrite O by auto; apply T].
  - assert (G : forall a c, a <> n -> In (Some c) (children w' a) -> In (Some c) (children w' n) -> False).
    { intros a c Na Ha Hn. rewrite O in Ha by auto. rewrite E in Hn. destruct (H _ Hn) as [K|(x & [= <-] & _ & K)].
      - apply Na. eapply (t_par _ T); eauto.
      - exact (K a Ha). }
    intros a b c Ha Hb. destruct (Nat.eq_dec a n) as [->|Na], (Nat.eq_dec b n) as [->|Nb]; auto.
    + exfalso. eapply G; eauto.
    + exfalso. eapply G; eauto.
    + rewrite O in Ha, Hb by auto. eapply (t_par _ T); eauto.
Qed.
Lemma TI_same w w' : TI w -> (forall b, children w' b = children w b) -> TI w'.
Proof.
  intros T O. constructor.
  - intros a k. rewrite O. apply T.
  - intros a. rewrite O. apply T.
  - intros a b c. rewrite !O. apply T.
Qed.
Lemma TI_step w op w' o : HI w -> HI w' -> TI w -> no_old op = true -> edits replace_at w op w' o -> TI w'.
Proof.
  intros I I' T K E.
  assert (Out : forall k, hw_next w' = (hw_next w + k)%nat -> forall b n, b <> n -> (n < hw_next w)%nat ->
    (forall b, b <> n -> (b < hw_next w)%nat -> children w' b = children w b) -> (k = 0%nat \/ (k = 1%nat /\ children w' (hw_next w) = [])) ->
    children w' b = children w b).
  { intros k Ek b n N Hn F D. destruct (Nat.lt_ge_cases b (hw_next w)); [auto|]. rewrite (i_dom _ I) by auto.
    destruct D as [->|[-> D]].
    - apply (i_dom _ I'). lia.
    - destruct (Nat.eq_dec b (hw_next w)) as [->|]; auto. apply (i_dom _ I'). lia. }
  destruct op as [|n v idx|n c idx|n idx|n idx|n|n|n|n|i|i|i]; cbn [edits no_old] in *; try discriminate.
  - destruct E as (En & _ & E1 & _ & F). apply (TI_same w w' T). intros b. destruct (Nat.lt_ge_cases b (hw_next w)); [now apply F|].
    rewrite (i_dom _ I) by auto. destruct (Nat.eq_dec b (hw_next w)) as [->|]; auto. apply (i_dom _ I'). lia.
  - destruct E as (Hn & _ & (En & E1 & _ & F) & E2 & _).
    apply (TI_change w w' n _ T) with (2 := E1).
    + intros b N. eapply Out; eauto. intros; now apply F.
    + eapply Permutation_NoDup; [symmetry; apply replace_perm|]. constructor; [|apply delete_NoDup, T].
      intros J. apply delete_in in J. apply (i_cl _ I) in J. lia.
    + intros k J. apply replace_in in J. destruct J as [->|J]; auto. right. exists (hw_next w). repeat split; auto.
      intros b J. apply (i_cl _ I) in J. lia.
  - destruct E as (Hn & _ & (En & E1 & _ & F)). apply (TI_change w w' n _ T) with (2 := E1).
    + intros b N. eapply Out; eauto. intros; now apply F.
    + apply delete_NoDup, T.
    + intros k J. left. eapply delete_in; eauto.
  - destruct E as (_ & -> & _). auto.
  - destruct E as (_ & -> & _). auto.
  - destruct E as (Hn & _ & l & (En & E1 & _ & F) & P & _). apply (TI_change w w' n _ T) with (2 := E1).
    + intros b N. eapply Out; eauto. intros; now apply F.
    + eapply Permutation_NoDup; [symmetry; exact P|apply T].
    + intros k J. left. eapply Permutation_in; eauto.
  - apply (TI_same w w' T). intros b. apply E.
  - apply (TI_same w w' T). intros b. apply E.
  - apply (TI_same w w' T). intros b. apply E.
  - apply (TI_same w w' T). intros b. apply E.
  - apply (TI_same w w' T). intros b. apply E.
Qed.

Lemma reached_by_ind kind srt grow (P : hworld -> Prop) : P hworld0 ->
  (forall w op w' o, P w -> kind op = true -> h_step srt grow w op = Ok (w', o) -> P w') ->
  forall w, reached_by kind srt grow w -> P w.
Proof.
  intros H0 H w (ops & os & K & R). revert K R H0. generalize hworld0. revert os.
  induction ops as [|op ops IH]; intros os w0 K R P0; cbn in K, R.
  - injection R as <- _. auto.
  - apply andb_true_iff in K as [K1 K2]. destruct (h_step srt grow w0 op) as [[w1 o]| |] eqn:E; cbn in R; try discriminate.
    destruct (run_ops (h_step srt grow) w1 ops) as [[w2 os']| |] eqn:E2; cbn in R; try discriminate. injection R as <- <-.
    eapply IH; eauto.
Qed.
Lemma no_old_TI srt grow w : sorts srt -> reached_by no_old srt grow w -> HI w /\ TI w.
Proof.
  intros Hs. apply (reached_by_ind no_old srt grow (fun w => HI w /\ TI w)).
  - split; [apply HI0|apply TI0].
  - intros w0 op w' o (I & T) K E. destruct (step_spec srt grow w0 op w' o Hs I E) as (I' & Ed). split; auto. exact (TI_step w0 op w' o I I' T K Ed).
Qed.

Lemma TI_below w : HI w -> TI w -> forall a, exists t, below w a t.
Proof.
  intros I T.
  assert (G : forall m a, (hw_next w - a <= m)%nat -> exists t, below w a t).
  { induction m as [|m IH]; intros a L.
    - exists (Node a []). constructor. rewrite (i_dom _ I) by lia. constructor.
    - assert (K : exists ts, below_list w (children w a) ts).
      { assert (Kc : forall k, In k (children w a) -> exists c t, k = Some c /\ below w c t).
        { intros k J. destruct (t_up _ T a k J) as (c & -> & Lc). destruct (IH c) as (t & B); [|eauto].
          apply (i_cl _ I) in J. lia. }
        revert Kc. induction (children w a) as [|k ks IHk]; intros Kc; [exists []; constructor|].
        destruct (Kc k (or_introl eq_refl)) as (c & t & -> & B). destruct IHk as (ts & Bs); [intros; apply Kc; right; auto|].
        exists (t :: ts). constructor; auto. }
      destruct K as (ts & B). exists (Node a ts). constructor. auto. }
  intros a. eapply G. constructor.
Qed.

Lemma reach_trans w a b c : reach w a b -> reach w b c -> reach w a c.
Proof. intros H1 H2. induction H2; [auto|econstructor; eauto]. Qed.
Lemma all_reach w : (forall a t, below w a t -> forall x, In x (all t) -> reach w a x) /\
  (forall ks ts, below_list w ks ts -> forall x, In x (flat_map all ts) -> exists c, In (Some c) ks /\ reach w c x).
Proof.
  apply (below_both w (fun a t _ => forall x, In x (all t) -> reach w a x) (fun ks ts _ => forall x, In x (flat_map all ts) -> exists c, In (Some c) ks /\ reach w c x)).
  - intros a ts _ IH x. rewrite all_node. intros [<-|J]; [constructor|]. destruct (IH x J) as (c & Ic & R).
    eapply reach_trans; [|exact R]. econstructor; [constructor|auto].
  - intros x [].
  - intros c cs t ts _ IH1 _ IH2 x J. cbn in J. apply in_app_or in J. destruct J as [J|J].
    + exists c. cbn. auto.
    + destruct (IH2 x J) as (c' & Ic & R). exists c'. cbn. auto.
Qed.
Lemma reach_up w a b : TI w -> reach w a b -> (a <= b)%nat.
Proof. intros T. induction 1 as [|b c _ IH J]; auto. destruct (t_up _ T _ _ J) as (x & [= <-] & L). lia. Qed.
Lemma reach_linear w c1 x : TI w -> reach w c1 x -> forall c2, reach w c2 x -> reach w c1 c2 \/ reach w c2 c1.
Proof.
  intros T. induction 1 as [|b c R IH J]; intros c2 R2; auto.
  inversion R2 as [|b' c' R' J']; subst.
  - left. econstructor; eauto.
  - rewrite <- (t_par _ T _ _ _ J J') in R'. auto.
Qed.
Lemma siblings_apart w a c1 c2 x : TI w -> In (Some c1) (children w a) -> In (Some c2) (children w a) -> reach w c1 x -> reach w c2 x -> c1 = c2.
Proof.
  intros T J1 J2 R1 R2.
  assert (G : forall c d, In (Some c) (children w a) -> In (Some d) (children w a) -> reach w c d -> c = d).
  { intros c d Jc Jd R. inversion R as [|b c' R' J']; subst; auto. exfalso.
    rewrite (t_par _ T _ _ _ J' Jd) in R'. apply reach_up in R'; auto. destruct (t_up _ T _ _ Jc) as (y & [= <-] & L). lia. }
  destruct (reach_linear w c1 x T R1 c2 R2) as [R|R]; [|symmetry]; eauto.
Qed.
Lemma TI_NoDup w : TI w -> forall a t, below w a t -> NoDup (all t).
Proof.
  intros T.
  assert (G : (forall a t, below w a t -> NoDup (all t)) /\
    (forall ks ts, below_list w ks ts -> forall a, (forall k, In k ks -> In k (children w a)) -> NoDup ks -> NoDup (flat_map all ts))).
  { apply (below_both w (fun a t _ => NoDup (all t))
      (fun ks ts _ => forall a, (forall k, In k ks -> In k (children w a)) -> NoDup ks -> NoDup (flat_map all ts))).
    - intros a ts B IH. rewrite all_node. constructor; [|eapply IH; eauto; apply T].
      intros J. destruct (proj2 (all_reach w) _ _ B a J) as (c & Ic & R). apply reach_up in R; auto.
      destruct (t_up _ T _ _ Ic) as (y & [= <-] & L). lia.
    - intros a _ _. constructor.
    - intros c cs t ts B IH1 Bs IH2 a H N. inversion N as [|? ? N1 N2]; subst. cbn.
      assert (D : forall x, In x (all t) -> ~ In x (flat_map all ts)).
      { intros x J1 J2. apply (proj1 (all_reach w) _ _ B) in J1. destruct (proj2 (all_reach w) _ _ Bs x J2) as (d & Id & R).
        assert (c = d) as <-; [|auto]. eapply siblings_apart; eauto; apply H; cbn; auto. }
      assert (N' : NoDup (flat_map all ts)) by (eapply IH2; eauto; intros; apply H; cbn; auto).
      clear -IH1 D N'. induction IH1 as [|x l N1 N2 IH]; cbn; auto. constructor.
      + intros J. apply in_app_or in J. destruct J as [J|J]; [auto|]. apply (D x); cbn; auto.
      + apply IH. intros y Jy. apply D. cbn. auto. }
  apply (proj1 G).
Qed.

(** ** Prev while children are only added *)
Definition deep (w : hworld) (v : hvisitor) : Prop :=
  forall p b, In (p, b) (hv_stack v) -> exists a, p = Some a /\ b < zlen (children w a).
Lemma get_at_kid w a i k : TI w -> get_at (children w a) i = Some k -> exists c, k = Some c /\ (a < c)%nat.
Proof. intros T H. apply get_at_in in H. now apply (t_up _ T). Qed.
Lemma next_loop_deep w : HI w -> TI w -> forall f st v, deep w (HV None st) -> h_next_loop f w st = Ok v -> deep w v.
Proof.
  intros I T. induction f as [|f IH]; intros st v D; cbn; [discriminate|].
  destruct st as [|[p b] rest]; [intros [= <-]; intros p b []|].
  assert (Dr : deep w (HV None rest)) by (intros p0 b0 J; apply D; cbn; auto).
  destruct (b <? 0); [destruct p; [intros [= <-]; exact Dr|now apply IH]|].
  destruct p as [a|]; cbn; [|discriminate]. rewrite ss_len_list by apply I. change (visible (n_kids (hw_heap w a))) with (children w a).
  destruct (Z.ltb_spec b (zlen (children w a) - 1)); [|now apply IH].
  rewrite ss_must_list by apply I. change (visible (n_kids (hw_heap w a))) with (children w a).
  destruct (get_at (children w a) (b + 1)) as [k|] eqn:E; cbn; [|discriminate].
  destruct (get_at_kid w a _ k T E) as (c & -> & _). intros [= <-]. intros p b' [[= <- <-]|J]; [exists a; split; auto; lia|now apply Dr].
Qed.
Lemma h_next_deep w v v' b : HI w -> TI w -> deep w v -> h_next w v = Ok (v', b) -> deep w v'.
Proof.
  intros I T D H. unfold h_next in H.
  assert (G : forall x, (v1 <- x ;; Ok (v1, match hv_node v1 with Some _ => true | None => false end)) = Ok (v', b) -> x = Ok v').
  { intros [y| |]; cbn; congruence. }
  apply G in H. clear G. assert (D0 : deep w (HV None (hv_stack v))) by exact D.
  destruct (hv_node v) as [a|]; [|now apply next_loop_deep in H].
  rewrite ss_len_list in H by apply I. change (visible (n_kids (hw_heap w a))) with (children w a) in H.
  destruct (Z.ltb_spec 0 (zlen (children w a))); [|now apply next_loop_deep in H].
  rewrite ss_must_list in H by apply I. change (visible (n_kids (hw_heap w a))) with (children w a) in H.
  destruct (get_at (children w a) 0) as [k|] eqn:E; cbn in H; [|discriminate].
  destruct (get_at_kid w a _ k T E) as (c & -> & _). injection H as <-.
  intros p b' [[= <- <-]|J]; [exists a; split; auto; lia|now apply D].
Qed.
Lemma top_loop_deep w : HI w -> TI w -> forall f a st, (hw_next w - a < f)%nat -> deep w (HV None st) ->
  exists n st', h_top_loop f w (Some a) st = Ok (n, st') /\ deep w (HV n st').
Proof.
  intros I T. induction f as [|f IH]; intros a st L D; [lia|]. cbn [h_top_loop deref bind].
  rewrite ss_len_list by apply I. change (visible (n_kids (hw_heap w a))) with (children w a).
  destruct (Z.ltb_spec 0 (zlen (children w a))).
  - destruct (must_ok w a (zlen (children w a) - 1) I) as (k & -> & E); [lia|]. cbn [bind].
    destruct (get_at_kid w a _ k T E) as (c & -> & Lc). apply IH.
    + apply get_at_in, (i_cl _ I) in E. lia.
    + intros p b [[= <- <-]|J]; [exists a; split; auto; lia|now apply D].
  - eexists _, _. split; [reflexivity|exact D].
Qed.
Lemma h_prev_deep w v : HI w -> TI w -> deep w v -> exists v' b, h_prev w v = Ok (v', b) /\ deep w v'.
Proof.
  intros I T D. unfold h_prev. destruct (hv_node v) as [n|] eqn:En; destruct (hv_stack v) as [|[p i] rest] eqn:Es.
  - eexists _, _. split; [reflexivity|]. intros p b [].
  - assert (Dr : forall n, deep w (HV n rest)) by (intros n0 p0 b0 J; apply D; rewrite Es; cbn; auto).
    destruct (D p i) as (a & -> & Li); [rewrite Es; cbn; auto|].
    destruct (Z.ltb_spec 0 i); [|eexists _, _; split; [reflexivity|apply Dr]]. cbn [deref bind].
    destruct (must_ok w a (i - 1) I) as (k & -> & E); [lia|]. cbn [bind].
    destruct (get_at_kid w a _ k T E) as (c & -> & Lc). unfold h_top_right.
    destruct (top_loop_deep w I T (S (hw_next w)) c ((Some a, i - 1) :: rest)) as (n' & st' & -> & D'); [lia| |].
    + intros p b [[= <- <-]|J]; [exists a; split; auto; lia|now apply (Dr None)].
    + cbn [bind]. eexists _, _. split; [reflexivity|exact D'].
  - eexists _, _. split; [reflexivity|exact D].
  - assert (Dr : forall n, deep w (HV n rest)) by (intros n0 p0 b0 J; apply D; rewrite Es; cbn; auto).
    destruct (D p i) as (a & -> & Li); [rewrite Es; cbn; auto|]. unfold h_top_right.
    destruct (top_loop_deep w I T (S (hw_next w)) a rest) as (n' & st' & -> & D'); [lia|apply Dr|].
    cbn [bind]. eexists _, _. split; [reflexivity|exact D'].
Qed.

Lemma replace_len {A} (l : list A) v idx : zlen l <= zlen (replace_at l v idx).
Proof.
  unfold replace_at. destruct (inside l idx) eqn:E; unfold zlen, inside in *; rewrite !app_length; cbn [length]; [|lia].
  rewrite firstn_length, skipn_length. unfold zlen in E. lia.
Qed.
Record AI (w : hworld) : Prop := { a_hi : HI w; a_ti : TI w; a_deep : forall i, deep w (hw_vis w i) }.
Lemma AI0 : AI hworld0.
Proof. constructor; [apply HI0|apply TI0|]. intros i p b []. Qed.
Lemma only_adds_no_old op : only_adds op = true -> no_old op = true.
Proof. destruct op; cbn; auto; discriminate. Qed.
Lemma adds_len w op w' o : only_adds op = true -> HI w -> edits replace_at w op w' o -> forall b, (b < hw_next w)%nat -> zlen (children w b) <= zlen (children w' b).
Proof.
  intros K I E b Hb. destruct op as [|n v idx|n c idx|n idx|n idx|n|n|n|n|i|i|i]; cbn [edits only_adds] in *; try discriminate.
  - destruct E as (_ & _ & _ & _ & F). destruct (F b Hb) as [-> _]. lia.
  - destruct E as (_ & _ & (_ & E1 & _ & F) & _). destruct (Nat.eq_dec b n) as [->|N]; [rewrite E1; apply replace_len|].
    destruct (F b N Hb) as [-> _]. lia.
  - destruct E as (_ & -> & _). lia.
  - destruct E as (_ & -> & _). lia.
  - destruct E as (_ & _ & l & (_ & E1 & _ & F) & P & _). destruct (Nat.eq_dec b n) as [->|N].
    + rewrite E1. unfold zlen. rewrite (Permutation_length P). lia.
    + destruct (F b N Hb) as [-> _]. lia.
  - destruct E as (_ & F). destruct (F b) as [-> _]. lia.
  - destruct E as (_ & F). destruct (F b) as [-> _]. lia.
  - destruct E as (_ & F). destruct (F b) as [-> _]. lia.
  - destruct E as (_ & F). destruct (F b) as [-> _]. lia.
  - destruct E as (_ & F). destruct (F b) as [-> _]. lia.
Qed.
(** With arguments that exist every call returns, and the state stays good. *)
Lemma adds_total srt grow w op : sorts srt -> AI w -> only_adds op = true -> exists_for w op -> exists w' o, h_step srt grow w op = Ok (w', o) /\ AI w'.
Proof.
  intros Hs A K X. pose proof (a_hi _ A) as I. pose proof (a_ti _ A) as T.
  assert (Mk : forall w' o, h_step srt grow w op = Ok (w', o) -> (forall i, (i < hw_nvis w')%nat \/ True -> deep w (hw_vis w' i)) -> AI w').
  { intros w' o E D. destruct (step_spec srt grow w op w' o Hs I E) as (I' & Ed). constructor; auto.
    - exact (TI_step w op w' o I I' T (only_adds_no_old op K) Ed).
    - intros i p b J. destruct (D i (or_intror Logic.I) p b J) as (a & -> & L). exists a. split; auto.
      destruct (Nat.lt_ge_cases a (hw_next w)) as [Ha|Ha]; [pose proof (adds_len w op w' o K I Ed a Ha); lia|].
      rewrite (i_dom _ I a Ha) in L. unfold zlen in *. cbn in L. lia. }
  assert (Same : forall w' o, h_step srt grow w op = Ok (w', o) -> is_edit op = true -> (forall n, op <> HVisitor n) -> AI w').
  { intros w' o E Ie Nv. apply (Mk w' o E). intros i _.
    assert (Vs : hw_vis w' i = hw_vis w i).
    { destruct op as [|n v idx|n c idx|n idx|n idx|n|n|n|n|j|j|j]; cbn in Ie; try discriminate; cbn [h_step] in E.
      - injection E as <- <-. auto.
      - unfold add_child, add_child_node in E. destruct (ptr_of w n) as [a|]; cbn in E; [|discriminate].
        destruct (ss_insert None grow _ _ idx) as [[g k]| |]; cbn in E; try discriminate. injection E as <- <-. auto.
      - destruct (ptr_of w n) as [a|]; cbn in E; [|discriminate]. destruct (ss_get _ idx); cbn in E; try discriminate. injection E as <- <-. auto.
      - destruct (ptr_of w n) as [a|]; cbn in E; [|discriminate]. injection E as <- <-. auto.
      - destruct (ptr_of w n) as [a|]; [|discriminate]. rewrite sort_eq in E. destruct (length (children w a) <=? 1)%nat; cbn in E.
        + injection E as <- <-. auto.
        + destruct (vals w (children w a)); cbn in E; try discriminate. injection E as <- <-. auto.
      - exfalso. eapply Nv. reflexivity. }
    rewrite Vs. apply A. }
  assert (Ed : is_edit op = true -> (forall n, op <> HVisitor n) -> exists w' o, h_step srt grow w op = Ok (w', o) /\ AI w').
  { intros Ie Nv. destruct (edit_outcome srt grow w op I Ie) as [(_ & F)|(([w' o] & E) & _)].
    - exfalso. destruct op; cbn in *; try discriminate; try lia. destruct F as [F|[_ F]]; [lia|].
      destruct (t_up _ T _ _ F) as (c & [=] & _).
    - exists w', o. split; auto. eapply Same; eauto. }
  destruct op as [|n v idx|n c idx|n idx|n idx|n|n|n|n|i|i|i]; try discriminate; try (apply Ed; [reflexivity|discriminate]); cbn in X.
  - destruct (TI_below w I T n) as (t & B). assert (E : h_step srt grow w (HAll n) = Ok (w, HList (all (valued w t)))).
    { eapply all_of_tree; eauto. apply all_preorder. }
    exists w. eexists. split; [exact E|auto].
  - eexists _, _. split; [reflexivity|]. eapply Mk; [reflexivity|]. intros i _. cbn. unfold fupd.
    destruct (i =? hw_nvis w)%nat; [|apply A]. rewrite ptr_lt by auto. cbn. intros p b [[= <- <-]|[]]. exists n. split; auto. unfold zlen. lia.
  - cbn [h_step]. destruct (Nat.ltb_spec i (hw_nvis w)); [|lia].
    destruct (h_next_total w (hw_vis w i) I) as ([v b] & E); [apply I|]. rewrite E. cbn [bind]. eexists _, _. split; [reflexivity|].
    eapply Mk; [cbn [h_step]; destruct (Nat.ltb_spec i (hw_nvis w)); [|lia]; rewrite E; reflexivity|].
    intros j _. cbn. unfold fupd. destruct (j =? i)%nat; [|apply A]. eapply h_next_deep; eauto. apply A.
  - cbn [h_step]. destruct (Nat.ltb_spec i (hw_nvis w)); [|lia].
    destruct (h_prev_deep w (hw_vis w i) I T (a_deep _ A i)) as (v & b & E & D). rewrite E. cbn [bind]. eexists _, _. split; [reflexivity|].
    eapply Mk; [cbn [h_step]; destruct (Nat.ltb_spec i (hw_nvis w)); [|lia]; rewrite E; reflexivity|].
    intros j _. cbn. unfold fupd. destruct (j =? i)%nat; [exact D|apply A].
  - cbn [h_step]. destruct (Nat.ltb_spec i (hw_nvis w)); [|lia]. eauto.
Qed.
