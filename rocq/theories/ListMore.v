(** Consequences for the promise of IntList, and PushAfter. *)
From Coq Require Import ZArith List Bool Arith Lia Permutation Sorted.
From Verif Require Import GoBase GoLists ConcBase ListModel ListCore ListSort ListSpec ListProofs ListRefine.
Import ListNotations.
Open Scope nat_scope.

Lemma adjacent_split x y l : NoDup l -> adjacent x y l = true ->
  (exists l1 l2, l = l1 ++ x :: y :: l2) \/ (is_last x l = true /\ is_first y l = true).
Proof.
  intros Hd. destruct l as [|a t]; [discriminate|]. unfold adjacent. intros H.
  assert (G : forall t c, existsb (fun p => (fst p =? x) && (snd p =? y)) (combine (c :: t) (t ++ [a])) = true ->
    (exists l1 l2, c :: t = l1 ++ x :: y :: l2) \/ (last t c = x /\ y = a)).
  { clear. induction t as [|d t IH]; intros c H.
    - cbn in H. rewrite orb_false_r in H. apply andb_true_iff in H. destruct H as (H1 & H2).
      apply Nat.eqb_eq in H1, H2. right. auto.
    - cbn [app combine existsb fst snd] in H. apply orb_true_iff in H. destruct H as [H|H].
      + apply andb_true_iff in H. destruct H as (H1 & H2). apply Nat.eqb_eq in H1, H2. subst. left. exists [], t. reflexivity.
      + apply IH in H. destruct H as [(l1 & l2 & E)|(E1 & E2)].
        * left. exists (c :: l1), l2. rewrite E. reflexivity.
        * right. split; [|exact E2].
          destruct (snoc_cases t) as [->|(t' & b & ->)]; [exact E1|].
          change (d :: t' ++ [b]) with ((d :: t') ++ [b]). rewrite last_last in *. exact E1. }
  destruct (G t a H) as [K|(K1 & K2)]; [now left|]. right. split.
  - unfold is_last. apply is_first_spec. destruct (snoc_cases t) as [->|(t' & b & ->)]; cbn in *; [congruence|].
    rewrite last_last in K1. rewrite rev_app_distr. cbn. congruence.
  - cbn. apply Nat.eqb_eq. congruence.
Qed.

Lemma want_exact a op : (forall k, NoDup (aseq a k)) -> lpre a op -> lregular a op -> lwant a op = lexact a op.
Proof.
  intros Hd Hp Hr. destruct op; cbn [lwant lexact lregular lpre] in *; try reflexivity.
  - destruct (Nat.eqb_spec k j); [contradiction|reflexivity].
  - f_equal. f_equal. f_equal. f_equal. destruct Hr as [Hr|Hr].
    + destruct (aseq a k) as [|x l], (aseq a j) as [|y [|z r]]; cbn in Hr; try lia; try reflexivity.
      symmetry. apply rotate_right_snoc.
    + rewrite Hr. apply app_nil_r.
  - f_equal. f_equal. destruct (is_first n (aseq a k)) eqn:E; [|reflexivity].
    destruct Hr as [Hr|Hr]; [congruence|]. destruct (aseq a k) as [|x [|y l]]; cbn in *; try discriminate; try lia.
    now rewrite E.
  - f_equal. f_equal. destruct (is_first n (aseq a k)) eqn:E; [|reflexivity].
    destruct Hr as [Hr|Hr]; [congruence|]. destruct (aseq a k) as [|x [|y l]]; cbn in *; try discriminate; try lia.
    now rewrite E.
  - f_equal. f_equal. destruct (Nat.eqb_spec n m); [reflexivity|]. cbn [orb].
    destruct Hr as [Hr|Hr]; [|contradiction].
    destruct (adjacent n m (aseq a k)) eqn:E; [|now rewrite Hr].
    destruct (adjacent_split _ _ _ (Hd k) E) as [(l1 & l2 & El)|(_ & K)]; [|congruence].
    specialize (Hd k). rewrite El in Hd |- *. rewrite without_split by exact Hd.
    apply before_split. apply NoDup_remove_1 in Hd. exact Hd.
  - f_equal. f_equal. destruct (Nat.eqb_spec n m); [reflexivity|]. cbn [orb].
    destruct (adjacent m n (aseq a k)) eqn:E; [|reflexivity].
    destruct (adjacent_split _ _ _ (Hd k) E) as [(l1 & l2 & El)|(K1 & K2)]; [|intuition congruence].
    specialize (Hd k). rewrite El in Hd |- *.
    change (l1 ++ m :: n :: l2) with (l1 ++ [m] ++ n :: l2) in Hd |- *. rewrite app_assoc in Hd |- *.
    rewrite without_split by exact Hd. apply NoDup_remove_1 in Hd. rewrite <- app_assoc in Hd |- *. cbn [app] in Hd |- *.
    rewrite after_split by exact Hd. rewrite <- app_assoc. reflexivity.
  - f_equal. f_equal. destruct (aseq a k) as [|x [|y l]]; cbn in *; try reflexivity; lia.
  - f_equal. f_equal. destruct Hr as [Hr|[Hr|Hr]].
    + destruct (aseq a k) as [|x [|y l]]; cbn in *; try reflexivity; try lia. rewrite Nat.eqb_sym. apply orb_false_r.
    + rewrite Hr. apply member_In. destruct (aseq a k); [discriminate|]. cbn in Hr. apply Nat.eqb_eq in Hr. now left.
    + rewrite Hr. symmetry. apply not_true_is_false. intros K. destruct (aseq a k) as [|x l]; [discriminate|].
      cbn in K, Hr. rewrite Nat.eqb_sym, K in Hr. discriminate.
Qed.

Lemma Rel_nodup w a : Rel w a -> forall k, NoDup (aseq a k).
Proof. intros R k. eapply cycl_nodup, (r_cyc w a R). Qed.

Lemma run_want : forall ops w a, Rel w a -> run_meets lwant (fun a op => lpre a op /\ lregular a op) a ops ->
  exists w', run_ops lstep w ops = Ok (w', snd (spec_ops lwant a ops)) /\ Rel w' (fst (spec_ops lwant a ops)).
Proof.
  induction ops as [|op ops IH]; intros w a R Hm; [exists w; auto|].
  destruct Hm as ((Hp & Hr) & Hm). pose proof (want_exact a op (Rel_nodup w a R) Hp Hr) as Ew.
  destruct (lstep_ok w a op R Hp) as (w1 & E1 & R1). rewrite <- Ew in E1, R1.
  destruct (IH w1 _ R1 Hm) as (w2 & E2 & R2). cbn [run_ops spec_ops]. rewrite E1. cbn [bind]. rewrite E2.
  destruct (lwant a op) as (a1 & o). cbn [fst snd] in *. destruct (spec_ops lwant a1 ops) as (a2 & os).
  cbn [bind fst snd] in *. eauto.
Qed.

Lemma run_exact0 ops : run_meets lexact lpre aworld0 ops ->
  exists w, run_ops lstep lworld0 ops = Ok (w, snd (spec_ops lexact aworld0 ops)) /\ Rel w (fst (spec_ops lexact aworld0 ops)).
Proof. apply run_exact. apply Rel0. Qed.

Lemma run_app ops more w os : run_ops lstep lworld0 ops = Ok (w, os) ->
  run_ops lstep lworld0 (ops ++ more) = (' (w', os') <- run_ops lstep w more ;; Ok (w', os ++ os')).
Proof. intros E. rewrite run_ops_app, E. reflexivity. Qed.

(** One more call, and looking at the list both ways. *)
Lemma look_after ops op k : run_meets lexact lpre aworld0 ops ->
  let a := fst (spec_ops lexact aworld0 ops) in lpre a op ->
  let a' := fst (lexact a op) in
  exists w, run_ops lstep lworld0 (ops ++ [op; LForward k; LBackward k]) =
    Ok (w, snd (spec_ops lexact aworld0 ops) ++
           [snd (lexact a op); OVals (map (aval a') (aseq a' k)); OVals (map (aval a') (rev (aseq a' k)))]).
Proof.
  intros Hm a Hp a'. destruct (run_exact0 ops Hm) as (w & E & R).
  destruct (run_exact [op; LForward k; LBackward k] w a R) as (w' & E' & _).
  { cbn. auto. }
  exists w'. rewrite (run_app _ _ _ _ E), E'. cbn [bind]. f_equal. f_equal. f_equal.
  cbn [spec_ops]. unfold a'. destruct (lexact a op). reflexivity.
Qed.

Lemma stable_sort_sorted v l : Sorted Z.le (map v (stable_sort v l)).
Proof.
  pose proof (stable_sort_asc v l) as H. induction H as [|x q Hq IH Hf]; [constructor|].
  cbn. constructor; [exact IH|]. destruct q as [|y q]; [constructor|]. cbn. constructor.
  inversion Hf; subst. apply Z.ltb_ge in H1. exact H1.
Qed.

Lemma stable_sort_same v l z : filter (fun x => (v x =? z)%Z) (stable_sort v l) = filter (fun x => (v x =? z)%Z) l.
Proof.
  pose proof (stable_sort_filter v z l) as H.
  assert (E : forall q, filter (eqv Z.ltb v z) q = filter (fun x => (v x =? z)%Z) q).
  { induction q as [|x q IH]; [reflexivity|]. cbn. rewrite eqv_spec, IH. reflexivity. }
  now rewrite !E in H.
Qed.

(** ** PushAfter *)
Fixpoint nlinks (h : dheap) (l : list nat) : Prop :=
  match l with
  | x :: ((y :: _) as t) => dnext (h x) = Some y /\ nlinks h t
  | _ => True
  end.
Lemma links_nlinks h l : links h l -> nlinks h l.
Proof.
  induction l as [|x l IH]; [auto|]. destruct l as [|y l]; [auto|]. intros ((E & _) & H). split; auto.
Qed.
Lemma nlinks_split h l x r : nlinks h (l ++ x :: r) <-> nlinks h (l ++ [x]) /\ nlinks h (x :: r).
Proof.
  induction l as [|a l IH]; [cbn; tauto|].
  destruct l as [|b l].
  - cbn. tauto.
  - change ((a :: b :: l) ++ x :: r) with (a :: (b :: l) ++ x :: r).
    change ((a :: b :: l) ++ [x]) with (a :: (b :: l) ++ [x]).
    cbn [nlinks app] in *. tauto.
Qed.
Lemma nlinks_frame h h' l b : (forall x, In x l -> dnext (h' x) = dnext (h x)) -> nlinks h (l ++ [b]) -> nlinks h' (l ++ [b]).
Proof.
  induction l as [|a l IH]; intros Hn HL; [exact I|].
  destruct l as [|c l].
  - cbn in *. destruct HL as (E & _). split; [|exact I]. rewrite Hn; auto.
  - change ((a :: c :: l) ++ [b]) with (a :: c :: (l ++ [b])) in *.
    cbn [nlinks] in HL |- *. destruct HL as (E & HL). split; [rewrite Hn; [auto|now left]|].
    apply IH; auto. intros x Hx. apply Hn. now right.
Qed.
Lemma traverse_nlinks h v a : (forall x, dval (h x) = v x) -> forall r x fuel,
  nlinks h (x :: r ++ [a]) -> ~ In a r -> length r <= fuel ->
  traverse_next fuel h (DVisitor (Some x) (Some a)) = Ok (map v r).
Proof.
  intros Hv. induction r as [|y r IH]; intros x fuel HL Ha Hf.
  - cbn in HL. destruct HL as (E & _). destruct fuel; cbn [traverse_next vis_next vis_node vis_head bind]; rewrite E, peq_refl_some; reflexivity.
  - destruct fuel as [|f]; [cbn in Hf; lia|]. cbn [app nlinks] in HL. destruct HL as (E & HL).
    cbn [traverse_next vis_next vis_node vis_head bind]. rewrite E.
    cbn [peq]. rewrite eqb_no by (intros ->; apply Ha; now left). cbn [negb rd_val vis_node bind].
    rewrite (IH y f HL); [|intros K; apply Ha; now right|cbn in Hf; lia]. cbn [bind map]. now rewrite Hv.
Qed.
Lemma traverse_all_nlinks h v a r fuel : (forall x, dval (h x) = v x) ->
  nlinks h (a :: r ++ [a]) -> ~ In a r -> S (length r) <= fuel ->
  traverse_next fuel h (visitor (Some a)) = Ok (map v (a :: r)).
Proof.
  intros Hv HL Ha Hf. destruct fuel as [|f]; [lia|].
  cbn [traverse_next visitor vis_next vis_node vis_head nonnil bind rd_val].
  rewrite (traverse_nlinks h v a Hv r a f HL Ha ltac:(lia)). cbn [bind map]. now rewrite Hv.
Qed.

Lemma traverse_prev_agree (D : nat -> Prop) h h' :
  (forall x, D x -> dprev (h' x) = dprev (h x) /\ dval (h' x) = dval (h x)) ->
  (forall x y, D x -> dprev (h x) = Some y -> D y) ->
  forall fuel n a, (forall x, n = Some x -> D x) -> (forall x, a = Some x -> D x) ->
  traverse_prev fuel h' (DVisitor n a) = traverse_prev fuel h (DVisitor n a).
Proof.
  intros HD HC.
  assert (St : forall n a, (forall x, n = Some x -> D x) -> (forall x, a = Some x -> D x) ->
    vis_prev h' (DVisitor n a) = vis_prev h (DVisitor n a) /\
    (forall v ok, vis_prev h (DVisitor n a) = Ok (v, ok) -> vis_head v = a /\ (forall x, vis_node v = Some x -> D x))).
  { intros n a Hn Ha. unfold vis_prev. cbn [vis_node vis_head].
    destruct n as [x|].
    - destruct (HD x (Hn x eq_refl)) as (E & _). rewrite E. destruct a as [b|]; cbn [rd_prev].
      + destruct (HD b (Ha b eq_refl)) as (Eb & _). rewrite Eb. cbn [bind]. split; [reflexivity|].
        intros v ok K. injection K as <- <-. cbn. split; [reflexivity|]. intros y Hy. exact (HC _ _ (Hn x eq_refl) Hy).
      + cbn [bind]. split; [reflexivity|discriminate].
    - destruct a as [b|]; cbn [nonnil rd_prev].
      + destruct (HD b (Ha b eq_refl)) as (Eb & _). rewrite Eb. cbn [bind]. split; [reflexivity|].
        intros v ok K. injection K as <- <-. cbn. split; [reflexivity|]. intros y Hy. exact (HC _ _ (Ha b eq_refl) Hy).
      + split; [reflexivity|]. intros v ok K. injection K as <- <-. cbn. split; [reflexivity|discriminate]. }
  induction fuel as [|f IH]; intros n a Hn Ha; cbn [traverse_prev]; destruct (St n a Hn Ha) as (E & K); rewrite E;
    destruct (vis_prev h (DVisitor n a)) as [(v & ok)| |] eqn:Ev; cbn [bind]; try reflexivity.
  destruct ok; [|reflexivity]. destruct (K v true eq_refl) as (K1 & K2).
  destruct v as [vn vh]. cbn [vis_node vis_head] in *. subst vh.
  rewrite (IH vn a K2 Ha). destruct vn as [x|]; [|reflexivity]. cbn [rd_val bind].
  destruct (HD x (K2 x eq_refl)) as (_ & ->). reflexivity.
Qed.

Lemma push_after_ok w a k v m : Rel w a -> In m (aseq a k) ->
  let f := lfresh w in let val' := fupd (aval a) f v in
  exists h', push_after (lheap w) f v (Some m) = Ok h' /\
    (forall fuel, length (aseq a k) < fuel ->
       traverse_next fuel h' (visitor (lheads w k)) = Ok (map val' (after f m (aseq a k))) /\
       traverse_prev fuel h' (visitor (lheads w k)) = Ok (map (aval a) (rev (aseq a k)))) /\
    back h' (lheads w k) = last_node (aseq a k).
Proof.
  intros R Hm f val'. pose proof (r_cyc w a R k) as HC. pose proof (r_head w a R k) as Hh.
  assert (Hf : forall x, In x (aseq a k) -> x <> f) by (intros x Hx; apply (r_old w a R) in Hx; unfold f; lia).
  assert (Hmf : m <> f) by auto.
  unfold push_after, insert_after. cbn [nonnil andb rd_next bind].
  set (h1 := alloc (lheap w) f v).
  rewrite wr_next_eq. cbn [bind]. rewrite wr_prev_eq. cbn [bind]. rewrite wr_next_eq.
  set (h' := setn _ _ _). exists h'. split; [reflexivity|].
  assert (Ev : forall x, dval (h' x) = val' x).
  { intros x. unfold h', val'. lnk. unfold h1, alloc, fupd. destruct (x =? f); [reflexivity|apply R]. }
  assert (Ep : forall x, x <> f -> dprev (h' x) = dprev (lheap w x)).
  { intros x Hx. unfold h'. neqs. unfold h1, alloc. now rewrite fupd_other. }
  assert (En : forall x, x <> f -> x <> m -> dnext (h' x) = dnext (lheap w x)).
  { intros x Hx Hx2. unfold h'. neqs. unfold h1, alloc. now rewrite fupd_other. }
  assert (Em : dnext (h' m) = Some f) by (unfold h'; neqs; reflexivity).
  assert (Ef : dnext (h' f) = dnext (lheap w m)).
  { unfold h'. neqs. unfold h1, alloc. now rewrite fupd_other. }
  split.
  - intros fuel Hfu. split.
    + destruct HC as (Hd & HL). apply in_split in Hm. destruct Hm as (l1 & l2 & El). rewrite Hh, El in *.
      rewrite after_split by exact Hd.
      assert (Hsplit : exists a0 r, l1 ++ m :: l2 = a0 :: r /\ hd_error (l1 ++ m :: l2) = Some a0).
      { destruct l1; cbn; eauto. }
      destruct Hsplit as (a0 & r & Er & Eh). rewrite Eh.
      assert (HL' : links (lheap w) (l1 ++ m :: (l2 ++ [a0]))).
      { rewrite Er in HL. rewrite <- Er in HL. rewrite <- app_assoc in HL. exact HL. }
      apply links_nlinks in HL'. apply nlinks_split in HL'. destruct HL' as (N1 & N2).
      assert (Hm1 : ~ In m l1 /\ ~ In m l2).
      { apply NoDup_remove_2 in Hd. rewrite in_app_iff in Hd. tauto. }
      assert (N' : nlinks h' (l1 ++ m :: f :: (l2 ++ [a0]))).
      { apply nlinks_split. split.
        - eapply nlinks_frame; [|exact N1]. intros x Hx. apply En.
          + apply Hf. rewrite in_app_iff. now left.
          + intros ->. tauto.
        - cbn [nlinks]. split; [exact Em|].
          destruct (l2 ++ [a0]) as [|y q] eqn:Eq; [destruct l2; discriminate|]. split.
          + cbn [nlinks] in N2. destruct N2 as (N2 & _). congruence.
          + assert (N3 : nlinks (lheap w) (l2 ++ [a0])) by (rewrite Eq; cbn [nlinks] in N2; apply N2).
            rewrite <- Eq. eapply nlinks_frame; [|exact N3]. intros x Hx. apply En.
            * apply Hf. rewrite in_app_iff. cbn. tauto.
            * intros ->. tauto. }
      assert (Eafter : exists r', l1 ++ m :: f :: l2 = a0 :: r' /\ ~ In a0 r' /\ S (length r') <= fuel).
      { exists (tl (l1 ++ m :: f :: l2)).
        assert (Hlen : length (tl (l1 ++ m :: f :: l2)) = length (l1 ++ m :: l2)).
        { destruct l1; cbn; rewrite ?app_length; cbn; lia. }
        rewrite Hlen. split; [|split; [|lia]].
        - destruct l1; cbn in Er |- *; congruence.
        - intros K. assert (K2 : In a0 (f :: r)).
          { destruct l1 as [|c l1]; cbn in Er, K; injection Er as -> <-.
            - destruct K as [->|K]; [now left|now right].
            - rewrite in_app_iff in K. cbn in *. rewrite in_app_iff. cbn. tauto. }
          rewrite Er in Hd. inversion Hd; subst. destruct K2 as [K2|K2]; [|auto].
          apply (Hf a0); [|auto]. rewrite Er. now left. }
      destruct Eafter as (r' & E' & K1 & K2). rewrite E'. apply traverse_all_nlinks; auto.
      change (a0 :: r' ++ [a0]) with ((a0 :: r') ++ [a0]). rewrite <- E', <- app_assoc. exact N'.
    + rewrite <- (traverse_prev_ok (lheap w) (aval a) (aseq a k) fuel HC (r_val w a R) ltac:(lia)).
      rewrite Hh. unfold visitor. apply (traverse_prev_agree (fun x => In x (aseq a k))).
      * intros x Hx. rewrite (Ep x (Hf x Hx)), Ev. unfold val'. rewrite fupd_other by auto. split; [reflexivity|]. symmetry. apply R.
      * intros x y Hx Ey. apply in_split in Hx. destruct Hx as (l1 & l2 & El). rewrite El in HC |- *.
        rewrite (cycl_prev _ _ _ _ HC) in Ey.
        assert (K : In y (rev l1 ++ rev l2 ++ [x])) by (destruct (rev l1 ++ rev l2 ++ [x]); [discriminate|injection Ey as ->; now left]).
        rewrite !in_app_iff, <- !in_rev in K. rewrite in_app_iff. cbn in *. tauto.
      * discriminate.
      * intros x Hx. destruct (aseq a k); [discriminate|]. injection Hx as ->. now left.
  - rewrite <- (back_step w a R k), Hh. destruct (aseq a k) as [|x l]; [reflexivity|]. cbn [hd_error back].
    apply Ep. apply Hf. now left.
Qed.
