(** Histories of heap operations: priority queue, top-k, reverse. *)
From Coq Require Import ZArith List Bool Lia Permutation Sorted.
From Coq Require Import ZifyBool ZifyNat.
From Verif Require Import GoBase GoLists CmpModel HeapModel HeapSpec HeapProofs.
Import ListNotations.
Ltac Zify.zify_post_hook ::= Z.div_mod_to_equations.
Open Scope Z_scope.

Definition dir_cmp (maxTop : bool) : Z := cmp_by_bool (negb maxTop).

Lemma dir_valid m : valid_cmp (dir_cmp m).
Proof. apply cmp_by_bool_valid. Qed.

Lemma cmpV_below m a b : cmpV (dir_cmp m) a b = true <-> below m a b.
Proof. destruct m; unfold cmpV, dir_cmp, below, cmp_F, cmp_less, cmp_great; cbn; lia. Qed.

Lemma heap_ordered_is m b : heap_ordered m b <-> is_heap (dir_cmp m) b.
Proof.
  unfold heap_ordered, is_heap, heap_from. split; intros H i Hi.
  - intros _. apply cmpV_below. apply H. auto.
  - apply cmpV_below. apply H; auto. lia.
Qed.

Lemma fold_best_spec m t : forall x,
  let r := fold_left (if m : bool then Z.max else Z.min) t x in
  In r (x :: t) /\ forall y, In y (x :: t) -> below m y r.
Proof.
  induction t as [|z t IH]; intros x; cbn [fold_left].
  - split; cbn; auto. intros y [->|[]]. destruct m; cbn; lia.
  - destruct (IH ((if m then Z.max else Z.min) x z)) as [H1 H2]. cbv zeta. split.
    + destruct H1 as [H1|H1]; [|cbn; auto].
      rewrite <- H1. destruct m; cbn; lia.
    + intros y [->|[->|Hy]].
      * specialize (H2 ((if m then Z.max else Z.min) y z) ltac:(cbn; auto)).
        destruct m; cbn in *; lia.
      * specialize (H2 ((if m then Z.max else Z.min) x y) ltac:(cbn; auto)).
        destruct m; cbn in *; lia.
      * apply H2. cbn; auto.
Qed.

Lemma best_spec m bag r : bag <> [] ->
  In r bag -> (forall y, In y bag -> below m y r) -> best m bag = Some r.
Proof.
  destruct bag as [|x t]; [congruence|]. intros _ H1 H2. cbn [best].
  destruct (fold_best_spec m t x) as [H3 H4]. f_equal.
  specialize (H4 r H1). specialize (H2 _ H3). destruct m; cbn in *; lia.
Qed.

Lemma remove_one_perm x bag : In x bag -> Permutation bag (x :: remove_one x bag).
Proof.
  induction bag as [|y t IH]; [intros []|]. cbn. intros H.
  destruct (Z.eqb_spec x y) as [->|n]; auto.
  rewrite perm_swap. constructor. apply IH. intuition congruence.
Qed.

(** The refinement relation between the heap record and a bag. *)
Definition Rheap (m : bool) (lim : Z) (h : heap) (bag : list Z) : Prop :=
  hcmp h = dir_cmp m /\ hlimit h = lim /\ is_heap (dir_cmp m) (hb h) /\ Permutation (hb h) bag.

Lemma heap_top_spec m lim h bag : Rheap m lim h bag -> heap_top h = Ok (best m bag).
Proof.
  intros (Hc & Hl & Hh & P). unfold heap_top, heap_empty, heap_size, zlen.
  destruct (hb h) as [|x t] eqn:E.
  - apply Permutation_nil in P. subst. reflexivity.
  - destruct (Z.eqb_spec (Z.of_nat (length (x :: t))) 0) as [e|e]; [cbn in e; lia|].
    cbn [aget nth_error bind]. f_equal. symmetry. apply best_spec.
    + intros ->. apply Permutation_sym, Permutation_nil in P. discriminate.
    + rewrite <- P. cbn; auto.
    + intros y Hy. apply cmpV_below. rewrite <- P in Hy.
      apply (heap_root_In _ (dir_valid m) _ _ Hh Hy).
Qed.

Lemma heap_pop_spec m lim h bag : Rheap m lim h bag ->
  match best m bag with
  | None => bag = [] /\ exists h', heap_pop h = Ok (h', None) /\ Rheap m lim h' bag
  | Some r => In r bag /\ exists h', heap_pop h = Ok (h', Some r) /\ Rheap m lim h' (remove_one r bag)
  end.
Proof.
  intros HR. pose proof (heap_top_spec m lim h bag HR) as Ht. destruct HR as (Hc & Hl & Hh & P).
  destruct bag as [|x0 t0].
  - cbn. apply Permutation_sym, Permutation_nil in P. split; auto.
    unfold heap_pop. rewrite P. cbn. eexists. split; [reflexivity|].
    unfold Rheap. cbn. repeat split; auto. intros i Hi. cbn in Hi. lia.
  - set (bag := x0 :: t0) in *.
    assert (Hlen : length (hb h) = length bag) by (now apply Permutation_length).
    assert (Hlen0 : (0 < length (hb h))%nat) by (rewrite Hlen; cbn; lia).
    destruct (pop_heap_spec _ (dir_valid m) (hb h) (length (hb h))) as (b' & E & L & P' & Hh' & Hlast & _);
      auto; try lia.
    unfold heap_top, heap_empty, heap_size, zlen in Ht.
    destruct (Z.eqb_spec (Z.of_nat (length (hb h))) 0); [lia|].
    rewrite (aget_Ok _ _ 0) in Ht by lia. cbn [bind] in Ht.
    assert (Hb : best m bag = Some (nth 0 (hb h) 0)) by congruence.
    rewrite Hb.
    assert (Hin : In (nth 0 (hb h) 0) bag) by (rewrite <- P; apply nth_In; lia).
    split; auto.
    unfold heap_pop. rewrite Hc, E. cbn [bind snd fst].
    eexists. split; [reflexivity|]. unfold Rheap. cbn [hb hcmp hlimit].
    assert (Hsplit : b' = firstn (length (hb h) - 1) b' ++ [nth 0 (hb h) 0]).
    { rewrite <- Hlast. apply (list_ext _ _ 0).
      - rewrite app_length, firstn_length_le by lia. cbn. lia.
      - intros i Hi. destruct (Nat.eq_dec i (length (hb h) - 1)) as [->|ni].
        + rewrite app_nth2; rewrite firstn_length_le by lia; [|lia].
          rewrite Nat.sub_diag. reflexivity.
        + rewrite app_nth1 by (rewrite firstn_length_le; lia).
          rewrite <- (firstn_skipn (length (hb h) - 1) b') at 1.
          rewrite app_nth1 by (rewrite firstn_length_le; lia). reflexivity. }
    repeat split; auto.
    + intros i Hi Hlo. rewrite firstn_length_le in Hi by lia.
      specialize (Hh' i Hi Hlo). pose proof (parent_lt i ltac:(lia)).
      rewrite Hsplit in Hh'.
      rewrite !app_nth1 in Hh' by (rewrite firstn_length_le; lia). exact Hh'.
    + apply Permutation_cons_inv with (nth 0 (hb h) 0).
      etransitivity; [apply Permutation_cons_append|]. rewrite <- Hsplit.
      etransitivity; [exact P'|]. etransitivity; [exact P|]. now apply remove_one_perm.
Qed.

Lemma put_spec m lim h bag v : Rheap m lim h bag ->
  exists h', (b <- push_heap (hcmp h) (hb h) v ;; Ok (Heap b (hlimit h) (hcmp h))) = Ok h' /\
             Rheap m lim h' (v :: bag).
Proof.
  intros (Hc & Hl & Hh & P). rewrite Hc.
  destruct (push_heap_spec _ (dir_valid m) _ v Hh) as (b & -> & P' & Hh'). cbn [bind].
  eexists. split; [reflexivity|]. unfold Rheap. cbn. repeat split; auto.
  rewrite P'. now constructor.
Qed.

Lemma heap_push_nolimit m lim h bag v : lim <= 0 -> Rheap m lim h bag ->
  exists h', heap_push h v = Ok h' /\ Rheap m lim h' (v :: bag).
Proof.
  intros Hlim HR. unfold heap_push. cbv zeta.
  assert (El : hlimit h = lim) by apply HR.
  destruct (Z.ltb_spec 0 (hlimit h)); [lia|]. cbn [andb].
  now apply put_spec.
Qed.

Lemma heap_init_R m lim : Rheap m lim (heap_init lim m) [].
Proof.
  unfold Rheap, heap_init. cbn. repeat split; auto. intros i Hi. cbn in Hi. lia.
Qed.

Lemma heap_history m lim ops : lim <= 0 ->
  exists h, run_ops heap_step (heap_init lim m) ops
            = Ok (h, snd (spec_ops (pq_step m) [] ops)) /\
    Permutation (hb h) (fst (spec_ops (pq_step m) [] ops)) /\
    check_heap (hcmp h) (hb h) = Ok true.
Proof.
  intros Hlim.
  destruct (run_ops_refine (Rheap m lim) heap_step (pq_step m)) with
    (ops := ops) (s := heap_init lim m) (a := @nil Z) as (h & E & HR).
  - intros h bag op HR. destruct op as [v| | | |]; cbn [heap_step pq_step fst snd].
    + destruct (heap_push_nolimit m lim h bag v Hlim HR) as (h' & -> & HR'). cbn. eauto.
    + pose proof (heap_pop_spec m lim h bag HR) as Hp.
      destruct (best m bag) as [r|]; destruct Hp as (_ & h' & -> & HR'); cbn; eauto.
    + rewrite (heap_top_spec m lim h bag HR). cbn. eauto.
    + exists h. split; auto. do 3 f_equal. unfold heap_size, zlen. f_equal.
      apply Permutation_length, HR.
    + exists h. split; auto. do 3 f_equal. unfold heap_empty, heap_size, zlen.
      destruct HR as (_ & _ & _ & P). apply Permutation_length in P. rewrite P.
      destruct bag; reflexivity.
  - apply heap_init_R.
  - exists h. split; auto. destruct HR as (Hc & _ & Hh & P). split; auto.
    rewrite Hc. destruct (check_heap_spec (dir_cmp m) (hb h)) as (r & -> & Hr).
    f_equal. now apply Hr.
Qed.

(** Top-k *)

Definition Rtopk (m : bool) (lim : Z) (h : heap) (vs : list Z) : Prop :=
  exists bag rest, Rheap m lim h bag /\ Permutation vs (bag ++ rest) /\
    zlen bag = Z.min lim (zlen vs) /\
    forall k r, In k bag -> In r rest -> below m k r.

Lemma best_above m bag r : best m bag = Some r -> In r bag /\ forall y, In y bag -> below m y r.
Proof.
  destruct bag as [|x t]; [discriminate|]. cbn [best]. intros E. injection E as <-.
  apply fold_best_spec.
Qed.

Lemma below_trans m a b c : below m a b -> below m b c -> below m a c.
Proof. destruct m; cbn; lia. Qed.

Lemma topk_step m lim h vs v : 0 < lim -> Rtopk m lim h vs ->
  exists h', heap_push h v = Ok h' /\ Rtopk m lim h' (vs ++ [v]).
Proof.
  intros Hlim (bag & rest & HR & P & Hlen & Hb).
  assert (Hvs : zlen vs = zlen bag + zlen rest).
  { apply Permutation_length in P. rewrite app_length in P. unfold zlen. lia. }
  assert (Hvs1 : zlen (vs ++ [v]) = zlen vs + 1).
  { unfold zlen. rewrite app_length. cbn. lia. }
  assert (Hsz : heap_size h = zlen bag).
  { destruct HR as (_ & _ & _ & Ph). unfold heap_size, zlen. f_equal. now apply Permutation_length. }
  assert (Pv : Permutation (vs ++ [v]) (v :: bag ++ rest)).
  { rewrite <- Permutation_cons_append. now constructor. }
  unfold heap_push. cbv zeta.
  assert (El : hlimit h = lim) by apply HR.
  rewrite Hsz. destruct (Z.ltb_spec 0 (hlimit h)); [|lia]. cbn [andb].
  destruct (Z.leb_spec (hlimit h) (zlen bag)) as [Hfull|Hfree].
  - rewrite (heap_top_spec m lim h bag HR). cbn [bind].
    destruct (best m bag) as [top|] eqn:Eb.
    2:{ destruct bag; [cbn in Hfull; lia|discriminate]. }
    destruct (best_above _ _ _ Eb) as [Hin Htop].
    assert (Eh : hcmp h = dir_cmp m) by apply HR.
    destruct (cmpV (hcmp h) v top) eqn:Ec; rewrite Eh in Ec.
    + apply cmpV_below in Ec.
      pose proof (heap_pop_spec m lim h bag HR) as Hp. rewrite Eb in Hp.
      destruct Hp as (_ & h1 & -> & HR1). cbn [bind fst].
      destruct (put_spec m lim h1 _ v HR1) as (h2 & -> & HR2).
      exists h2. split; auto. exists (v :: remove_one top bag), (top :: rest).
      pose proof (remove_one_perm _ _ Hin) as Pr.
      split; [exact HR2|]. split; [|split].
      * rewrite Pv. cbn. constructor. rewrite Pr at 1. cbn.
        apply Permutation_middle.
      * apply Permutation_length in Pr. unfold zlen in *. cbn [length] in *. lia.
      * intros k r [<-|Hk] [<-|Hr]; auto.
        -- apply below_trans with top; auto.
        -- apply Htop. rewrite Pr. cbn; auto.
        -- apply Hb; auto. rewrite Pr. cbn; auto.
    + exists h. split; auto. exists bag, (v :: rest). split; [exact HR|]. split; [|split].
      * rewrite Pv. apply Permutation_middle.
      * lia.
      * intros k r Hk [<-|Hr]; auto.
        apply below_trans with top; auto.
        apply cmpV_below, R_total; auto. apply dir_valid.
  - destruct (put_spec m lim h bag v HR) as (h2 & -> & HR2).
    exists h2. split; auto.
    assert (zlen rest = 0) as Hr0 by (unfold zlen in *; lia).
    destruct rest as [|r0 rest]; [|unfold zlen in Hr0; cbn in Hr0; lia].
    exists (v :: bag), []. split; [exact HR2|]. split; [|split]; auto.
    + unfold zlen in *; cbn [length] in *; lia.
    + intros k r _ [].
Qed.

Lemma push_all_app h vs v : push_all h (vs ++ [v]) = (h' <- push_all h vs ;; heap_push h' v).
Proof. unfold push_all. rewrite fold_left_app. reflexivity. Qed.

Lemma heap_topk m lim vs : 0 < lim ->
  exists h, push_all (heap_init lim m) vs = Ok h /\
  exists rest, Permutation vs (hb h ++ rest) /\
    zlen (hb h) = Z.min lim (zlen vs) /\
    forall k r, In k (hb h) -> In r rest -> below m k r.
Proof.
  intros Hlim.
  assert (exists h, push_all (heap_init lim m) vs = Ok h /\ Rtopk m lim h vs) as (h & E & HR).
  { induction vs as [|v vs IH] using rev_ind.
    - exists (heap_init lim m). split; auto. exists [], []. repeat split; auto.
      + intros i Hi. cbn in Hi. lia.
      + unfold zlen. cbn. lia.
      + intros k r [].
    - destruct IH as (h & E & HR). rewrite push_all_app, E. cbn [bind].
      now apply topk_step. }
  exists h. split; auto. destruct HR as (bag & rest & (Hc & Hl & Hh & P) & P2 & L & Hb).
  exists rest. repeat split.
  - rewrite P2. now rewrite P.
  - rewrite <- L. unfold zlen. f_equal. now apply Permutation_length.
  - intros k r Hk Hr. apply Hb; auto. now rewrite <- P.
Qed.

(** Sorting in terms of [below]. *)
Lemma sort_heap_sorted m b :
  exists b', sort_heap (dir_cmp m) b = Ok b' /\ Permutation b' b /\
    StronglySorted (below m) b'.
Proof.
  destruct (sort_heap_spec _ (dir_valid m) b) as (b' & E & P & H).
  exists b'. repeat split; auto. clear E P b.
  assert (Hn : forall i j, (i < j)%nat -> (j < length b')%nat -> below m (nth i b' 0) (nth j b' 0)).
  { intros. apply cmpV_below. now apply H. }
  clear H. induction b' as [|x t IH]; constructor.
  - apply IH. intros i j Hij Hj. apply (Hn (S i) (S j)); cbn; lia.
  - apply Forall_forall. intros y Hy. apply (In_nth _ _ 0) in Hy. destruct Hy as (j & Hj & <-).
    apply (Hn O (S j)); cbn; lia.
Qed.

(** Reverse. *)
Lemma reverse_from_spec i : forall b0 b,
  length b = length b0 -> (2 * i <= length b0 - 1)%nat -> (0 < length b0)%nat ->
  (forall j, (j < length b0)%nat ->
     nth j b 0 = if ((i <? j)%nat && (j <? length b0 - 1 - i)%nat)
                 then nth (length b0 - 1 - j) b0 0 else nth j b0 0) ->
  reverse_from b (zlen b0 - 1) i = Ok (rev b0).
Proof.
  induction i as [|i IH]; intros b0 b L Hi H0 Hb; cbn [reverse_from].
  - unfold zlen. rewrite !(zget_Ok _ _ 0) by (unfold zlen; lia). cbn [bind].
    rewrite zset_Ok by (unfold zlen; lia). cbn [bind].
    rewrite zset_Ok by (unfold zlen; rewrite upd_length; lia). cbn [bind].
    f_equal. apply (list_ext _ _ 0).
    + rewrite !upd_length, rev_length. lia.
    + intros j Hj. rewrite !upd_length in Hj.
      rewrite rev_nth by lia.
      rewrite !nth_upd by (rewrite ?upd_length; lia).
      rewrite !Hb by lia.
      repeat match goal with |- context [Nat.eq_dec ?a ?b] => destruct (Nat.eq_dec a b) end;
      repeat match goal with |- context [Nat.ltb ?a ?b] => destruct (Nat.ltb_spec a b) end;
        cbn [andb]; f_equal; lia.
  - unfold zlen. rewrite !(zget_Ok _ _ 0) by (unfold zlen; lia). cbn [bind].
    rewrite zset_Ok by (unfold zlen; lia). cbn [bind].
    rewrite zset_Ok by (unfold zlen; rewrite upd_length; lia). cbn [bind].
    apply IH; try lia.
    + rewrite !upd_length. auto.
    + intros j Hj.
      rewrite !nth_upd by (rewrite ?upd_length; lia).
      rewrite !Hb by lia.
      repeat match goal with |- context [Nat.eq_dec ?a ?b] => destruct (Nat.eq_dec a b) end;
      repeat match goal with |- context [Nat.ltb ?a ?b] => destruct (Nat.ltb_spec a b) end;
        cbn [andb]; f_equal; lia.
Qed.

Lemma heap_reverse_spec b :
  heap_reverse b = match b with [] => Panic | _ => Ok (rev b) end.
Proof.
  destruct b as [|x t]; [reflexivity|]. set (b := x :: t). unfold heap_reverse.
  assert (0 < length b)%nat by (cbn; lia).
  apply reverse_from_spec; auto.
  - unfold zlen. rewrite Z.quot_div_nonneg by lia. lia.
  - intros j Hj. unfold zlen. rewrite Z.quot_div_nonneg by lia.
    destruct (Nat.ltb_spec (Z.to_nat ((Z.of_nat (length b) - 1) / 2)) j);
      destruct (Nat.ltb_spec j (length b - 1 - Z.to_nat ((Z.of_nat (length b) - 1) / 2)));
      cbn [andb]; auto; lia.
Qed.

(** Limited heaps under arbitrary histories. *)
Lemma heap_push_limited m lim h bag v : 0 < lim -> Rheap m lim h bag ->
  exists h', heap_push h v = Ok h' /\ Rheap m lim h' (fst (limited_step m lim bag (HPush v))).
Proof.
  intros Hlim HR.
  assert (Hsz : heap_size h = zlen bag).
  { destruct HR as (_ & _ & _ & Ph). unfold heap_size, zlen. f_equal. now apply Permutation_length. }
  unfold heap_push. cbv zeta. cbn [limited_step].
  assert (El : hlimit h = lim) by apply HR.
  assert (Eh : hcmp h = dir_cmp m) by apply HR.
  rewrite Hsz. destruct (Z.ltb_spec 0 (hlimit h)); [|lia]. cbn [andb].
  destruct (Z.leb_spec (hlimit h) (zlen bag)) as [Hfull|Hfree].
  - rewrite (proj2 (Z.ltb_ge _ _)) by lia.
    rewrite (heap_top_spec m lim h bag HR). cbn [bind].
    destruct (best m bag) as [top|] eqn:Eb; [|eauto].
    assert (Ec : cmpV (hcmp h) v top = (if m then v <=? top else top <=? v)).
    { rewrite Eh. apply eq_true_iff_eq. rewrite cmpV_below. destruct m; cbn; lia. }
    rewrite Ec. cbn [fst].
    destruct (if m then v <=? top else top <=? v); [|eauto].
    pose proof (heap_pop_spec m lim h bag HR) as Hp. rewrite Eb in Hp.
    destruct Hp as (Hin & h1 & -> & HR1). cbn [bind fst].
    destruct (put_spec m lim h1 _ v HR1) as (h2 & -> & HR2). eauto.
  - rewrite (proj2 (Z.ltb_lt _ _)) by lia. cbn [fst].
    destruct (put_spec m lim h bag v HR) as (h2 & -> & HR2). eauto.
Qed.

Lemma limited_len m lim bag op : 0 < lim -> zlen bag <= lim -> zlen (fst (limited_step m lim bag op)) <= lim.
Proof.
  intros Hlim Hb. destruct op as [v| | | |]; cbn [limited_step pq_step]; auto.
  - destruct (Z.ltb_spec (zlen bag) lim) as [Hl|Hl]; cbn [fst].
    + unfold zlen in *. cbn [length]. lia.
    + destruct (best m bag) as [r|] eqn:Eb; cbn [fst]; auto.
      destruct (if m then v <=? r else r <=? v); auto.
      destruct (best_above _ _ _ Eb) as [Hin _].
      apply remove_one_perm, Permutation_length in Hin. unfold zlen in *. cbn [length] in *. lia.
  - destruct (best m bag) as [r|] eqn:Eb; cbn [fst]; auto.
    destruct (best_above _ _ _ Eb) as [Hin _].
    apply remove_one_perm, Permutation_length in Hin. unfold zlen in *. cbn [length] in *. lia.
Qed.

Lemma heap_limited_history m lim ops : 0 < lim ->
  exists h, run_ops heap_step (heap_init lim m) ops
            = Ok (h, snd (spec_ops (limited_step m lim) [] ops)) /\
    Permutation (hb h) (fst (spec_ops (limited_step m lim) [] ops)) /\
    heap_size h <= lim /\ check_heap (hcmp h) (hb h) = Ok true.
Proof.
  intros Hlim.
  destruct (run_ops_refine (fun h bag => Rheap m lim h bag /\ zlen bag <= lim) heap_step (limited_step m lim)) with
    (ops := ops) (s := heap_init lim m) (a := @nil Z) as (h & E & HR & L).
  - intros h bag op [HR L].
    assert (G : exists h', heap_step h op = Ok (h', snd (limited_step m lim bag op)) /\
                           Rheap m lim h' (fst (limited_step m lim bag op))).
    { destruct op as [v| | | |]; cbn [heap_step].
      + destruct (heap_push_limited m lim h bag v Hlim HR) as (h' & -> & HR'). cbn [bind].
        exists h'. split; auto. cbn [limited_step].
        destruct (zlen bag <? lim); [reflexivity|]. destruct (best m bag); reflexivity.
      + pose proof (heap_pop_spec m lim h bag HR) as Hp. cbn [limited_step pq_step].
        destruct (best m bag) as [r|]; destruct Hp as (_ & h' & -> & HR'); cbn; eauto.
      + rewrite (heap_top_spec m lim h bag HR). cbn. eauto.
      + exists h. split; auto. cbn. do 3 f_equal. unfold heap_size, zlen. f_equal.
        apply Permutation_length, HR.
      + exists h. split; auto. cbn. do 3 f_equal. unfold heap_empty, heap_size, zlen.
        destruct HR as (_ & _ & _ & P). apply Permutation_length in P. rewrite P.
        destruct bag; reflexivity. }
    destruct G as (h' & G1 & G2). exists h'. split; auto. split; auto. now apply limited_len.
  - split; [apply heap_init_R|]. unfold zlen; cbn; lia.
  - exists h. split; auto. destruct HR as (Hc & _ & Hh & P). split; auto. split.
    + unfold heap_size, zlen in *. apply Permutation_length in P. lia.
    + rewrite Hc. destruct (check_heap_spec (dir_cmp m) (hb h)) as (r & -> & Hr).
      f_equal. now apply Hr.
Qed.

Lemma make_heap_ordered m b :
  exists b', make_heap (dir_cmp m) b = Ok b' /\ Permutation b' b /\ heap_ordered m b'.
Proof.
  destruct (make_heap_spec _ (dir_valid m) b) as (b' & E & _ & P & H).
  exists b'. repeat split; auto. now apply heap_ordered_is.
Qed.

Lemma check_heap_iff m b : exists r, check_heap (dir_cmp m) b = Ok r /\
  (r = true <-> heap_ordered m b) /\
  (r = true -> forall x, In x b -> below m x (nth 0 b 0)).
Proof.
  destruct (check_heap_spec (dir_cmp m) b) as (r & E & H).
  exists r. split; auto. split.
  - rewrite heap_ordered_is. exact H.
  - intros Hr x Hx. apply cmpV_below. apply heap_root_In; auto.
    + apply dir_valid.
    + now apply H.
Qed.

Lemma pop_heap_stl_ordered m b : heap_ordered m b -> b <> [] ->
  exists b', pop_heap_stl (dir_cmp m) b = Ok (b', Some (nth 0 b 0)) /\
    Permutation b (nth 0 b 0 :: b') /\ heap_ordered m b' /\
    forall x, In x b -> below m x (nth 0 b 0).
Proof.
  intros H Hne. apply heap_ordered_is in H.
  destruct (pop_heap_stl_spec _ (dir_valid m) b H Hne) as (b' & E & P & H').
  exists b'. repeat split; auto. { now apply heap_ordered_is. }
  intros x Hx. apply cmpV_below. apply heap_root_In; auto. apply dir_valid.
Qed.
