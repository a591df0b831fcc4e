From Coq Require Import ZArith List Bool Lia.
From Verif Require Import GoBase GoStrings PathModel PathSpec.
Import ListNotations.
Open Scope Z_scope.

(** ** Segments and joining *)
Definition flat (x : list Z) : Prop := ~ In 47 x.
Lemma segments_ne s : segments s <> [].
Proof. destruct s as [|c s]; cbn; [discriminate|]. destruct (c =? 47); [discriminate|]. destruct (segments s); discriminate. Qed.
Lemma segments_flat s : Forall flat (segments s).
Proof.
  induction s as [|c s IH]; cbn; [constructor; auto; intros []|].
  destruct (Z.eqb_spec c 47) as [->|N]; [constructor; auto; intros []|].
  destruct (segments s) as [|h r]; [constructor; auto; intros [E|[]]; congruence|].
  apply Forall_cons_iff in IH as [Hh Hr]. constructor; auto. intros [E|I]; [congruence|auto].
Qed.
Lemma segments_app_flat x s : flat x -> segments (x ++ s) = match segments s with h :: r => (x ++ h) :: r | [] => [x] end.
Proof.
  induction x as [|c x IH]; intros F; cbn [app segments].
  - pose proof (segments_ne s). destruct (segments s); [congruence|reflexivity].
  - replace (c =? 47) with false by (symmetry; apply Z.eqb_neq; intros ->; apply F; now left).
    rewrite IH by (intros I; apply F; now right). pose proof (segments_ne s). destruct (segments s); [congruence|reflexivity].
Qed.
Lemma segments_slash x s : flat x -> segments (x ++ 47 :: s) = x :: segments s.
Proof. intros F. rewrite segments_app_flat by auto. cbn. now rewrite app_nil_r. Qed.
Lemma segments_one x : flat x -> segments x = [x].
Proof. intros F. rewrite <- (app_nil_r x) at 1. rewrite segments_app_flat by auto. cbn. now rewrite app_nil_r. Qed.
Lemma segments_app s t : segments (s ++ 47 :: t) = segments s ++ segments t.
Proof.
  induction s as [|c s IH]; cbn [app segments]; [reflexivity|]. rewrite IH. destruct (c =? 47); [reflexivity|].
  pose proof (segments_ne s). destruct (segments s); [congruence|reflexivity].
Qed.
Lemma segments_join l : l <> [] -> segments (join_slash l) = concat (map segments l).
Proof.
  induction l as [|x [|y l] IH]; intros N; [congruence|cbn; now rewrite app_nil_r|].
  change (join_slash (x :: y :: l)) with (x ++ 47 :: join_slash (y :: l)). rewrite segments_app, IH by discriminate. reflexivity.
Qed.
Lemma segments_join_flat l : l <> [] -> Forall flat l -> segments (join_slash l) = l.
Proof.
  intros N F. rewrite segments_join by auto. clear N. induction F as [|x l Hx _ IH]; [reflexivity|]. cbn. now rewrite segments_one, IH.
Qed.
Lemma join_snoc l x : l <> [] -> join_slash (l ++ [x]) = join_slash l ++ 47 :: x.
Proof.
  induction l as [|y [|z l] IH]; intros N; [congruence|reflexivity|].
  change (join_slash ((y :: z :: l) ++ [x])) with (y ++ 47 :: join_slash ((z :: l) ++ [x])). rewrite IH by discriminate.
  change (join_slash (y :: z :: l)) with (y ++ 47 :: join_slash (z :: l)). now rewrite <- app_assoc.
Qed.
Lemma join_nil l : Forall (fun x => x <> []) l -> join_slash l = [] -> l = [].
Proof. intros H E. destruct l as [|x [|y l]]; auto; apply Forall_cons_iff in H as [Hx _]; cbn in E; [congruence|]. destruct x; [congruence|discriminate]. Qed.
Lemma rel_path_join cs : cs <> [] -> rel_path cs = join_slash cs.
Proof.
  induction cs as [|x [|y cs] IH]; intros N; [congruence|reflexivity|].
  change (rel_path (x :: y :: cs)) with (x ++ 47 :: rel_path (y :: cs)). rewrite IH by discriminate. reflexivity.
Qed.
Lemma abs_path_join cs : abs_path cs = 47 :: join_slash cs.
Proof.
  destruct cs as [|x cs]; [reflexivity|]. unfold abs_path. revert x. induction cs as [|y cs IH]; intros x; [cbn; now rewrite app_nil_r|].
  change (concat (map (fun x0 : list Z => 47 :: x0) (x :: y :: cs))) with ((47 :: x) ++ concat (map (fun x0 : list Z => 47 :: x0) (y :: cs))).
  rewrite IH. reflexivity.
Qed.

(** ** Meaning of a path by its segments *)
Lemma go_eq p x : go p x = if str_eqb x [] || str_eqb x [46] then p else if str_eqb x [46; 46] then tl p else x :: p.
Proof.
  unfold go. destruct (list_eq_dec Z.eq_dec x []) as [->|N1]; [reflexivity|].
  destruct (list_eq_dec Z.eq_dec x [46]) as [->|N2]; [reflexivity|].
  destruct (list_eq_dec Z.eq_dec x [46; 46]) as [->|N3]; [reflexivity|].
  assert (G : forall y, x <> y -> str_eqb x y = false) by (intros y N; destruct (str_eqb x y) eqn:E; auto; apply str_eqb_eq in E; congruence).
  rewrite !G by auto. reflexivity.
Qed.
Lemma follow_segments s : forall p cur, follow p cur s =
  match segments s with h :: r => fold_left go r (go p (cur ++ h)) | [] => p end.
Proof.
  induction s as [|c s IH]; intros p cur; cbn [follow segments].
  - cbn. now rewrite app_nil_r.
  - destruct (Z.eq_dec c 47) as [->|N].
    + change (47 =? 47) with true. cbv iota. rewrite IH. rewrite app_nil_r. cbn [app]. pose proof (segments_ne s).
      destruct (segments s); [congruence|reflexivity].
    + replace (c =? 47) with false by (symmetry; now apply Z.eqb_neq). rewrite IH. pose proof (segments_ne s).
      destruct (segments s); [congruence|]. now rewrite <- app_assoc.
Qed.
Lemma follow_fold p s : follow p [] s = fold_left go (segments s) p.
Proof. rewrite follow_segments. pose proof (segments_ne s). destruct (segments s); [congruence|reflexivity]. Qed.
Lemma leads_fold p s : leads p s = fold_left go (segments s) (if is_rooted s then [] else p).
Proof.
  destruct s as [|c s]; [reflexivity|]. unfold leads, is_rooted. destruct (Z.eq_dec c 47) as [->|N].
  - change (47 =? 47) with true. apply follow_fold.
  - replace (c =? 47) with false by (symmetry; now apply Z.eqb_neq). apply follow_fold.
Qed.
Lemma go_name p x : name x -> go p x = x :: p.
Proof. intros (A & B & C & _). unfold go. destruct (list_eq_dec _ _ _); [congruence|]. destruct (list_eq_dec _ _ _); [congruence|]. destruct (list_eq_dec _ _ _); congruence. Qed.
Lemma fold_names cs : forall p, Forall name cs -> fold_left go cs p = rev cs ++ p.
Proof.
  induction cs as [|x cs IH]; intros p H; [reflexivity|]. apply Forall_cons_iff in H as [Hx H]. cbn [fold_left]. rewrite go_name, IH by auto. cbn. now rewrite <- app_assoc.
Qed.
Definition dd : list Z := [46; 46].
Lemma skipn_tl {A} k (p : list A) : skipn k (tl p) = skipn (S k) p.
Proof. destruct p; [now rewrite !skipn_nil|reflexivity]. Qed.
Lemma tl_skipn {A} k (p : list A) : tl (skipn k p) = skipn (S k) p.
Proof. revert p. induction k as [|k IH]; intros p; [destruct p; reflexivity|]. destruct p; [reflexivity|]. cbn [skipn]. rewrite IH. reflexivity. Qed.
Lemma fold_ups k : forall p, fold_left go (repeat dd k) p = skipn k p.
Proof.
  induction k as [|k IH]; intros p; [reflexivity|]. cbn [repeat fold_left]. rewrite go_eq. cbn [dd str_eqb Z.eqb andb orb].
  change (str_eqb dd []) with false. change (str_eqb dd [46]) with false. change (str_eqb dd [46;46]) with true. cbn [orb]. rewrite IH. apply skipn_tl.
Qed.
Lemma name_flat x : name x -> flat x.
Proof. intros H. apply H. Qed.
Lemma dd_flat : flat dd.
Proof. unfold flat, dd. cbn. lia. Qed.

(** ** Clean *)
Lemma clean_rooted_fold l : Forall flat l -> forall st, Forall name st ->
  fold_left (clean_step true) l st = fold_left go l st /\ Forall name (fold_left go l st).
Proof.
  intros F. induction F as [|x l Hx _ IH]; intros st Hs; [auto|]. cbn [fold_left].
  assert (E : clean_step true st x = go st x /\ Forall name (go st x)).
  { rewrite go_eq. unfold clean_step. destruct (str_eqb x [] || str_eqb x [46]) eqn:E0; [auto|].
    destruct (str_eqb x [46; 46]) eqn:E1.
    - destruct st as [|t st]; [auto|]. apply Forall_cons_iff in Hs as [Ht Hs].
      destruct (str_eqb t [46; 46]) eqn:Et; [apply str_eqb_eq in Et; destruct Ht as (_ & _ & Ht & _); congruence|auto].
    - split; [reflexivity|]. constructor; auto. apply orb_false_iff in E0 as [E0 E2].
      repeat split; auto; intros ->; discriminate. }
  destruct E as [-> HF]. apply IH; auto.
Qed.
Lemma clean_rel_fold l : Forall flat l -> forall cs k, Forall name cs -> exists cs' k', Forall name cs' /\
  fold_left (clean_step false) l (cs ++ repeat dd k) = cs' ++ repeat dd k' /\
  forall p, fold_left go l (cs ++ skipn k p) = cs' ++ skipn k' p.
Proof.
  intros F. induction F as [|x l Hx _ IH]; intros cs k Hc; [exists cs, k; auto|]. cbn [fold_left].
  assert (E : exists cs1 k1, Forall name cs1 /\ clean_step false (cs ++ repeat dd k) x = cs1 ++ repeat dd k1 /\
              forall p, go (cs ++ skipn k p) x = cs1 ++ skipn k1 p).
  { unfold clean_step. setoid_rewrite go_eq. destruct (str_eqb x [] || str_eqb x [46]) eqn:E0; [exists cs, k; auto|].
    destruct (str_eqb x [46; 46]) eqn:E1.
    - apply str_eqb_eq in E1. subst x. destruct cs as [|t cs].
      + exists [], (S k). split; [auto|]. split.
        * destruct k; reflexivity.
        * intros p. cbn [app]. apply tl_skipn.
      + apply Forall_cons_iff in Hc as [Ht Hc]. cbn [app].
        destruct (str_eqb t [46; 46]) eqn:Et; [apply str_eqb_eq in Et; destruct Ht as (_ & _ & Ht & _); congruence|].
        exists cs, k. auto.
    - exists (x :: cs), k. split; [|auto]. constructor; auto. apply orb_false_iff in E0 as [E0 E2].
      repeat split; auto; intros ->; discriminate. }
  destruct E as (cs1 & k1 & H1 & E1 & E2). rewrite E1. destruct (IH cs1 k1 H1) as (cs' & k' & H' & E' & G').
  exists cs', k'. split; auto. split; auto. intros p. rewrite E2. apply G'.
Qed.
(** The form of a cleaned path. *)
Lemma rev_repeat {A} (x : A) k : rev (repeat x k) = repeat x k.
Proof. induction k as [|k IH]; [reflexivity|]. cbn [repeat rev]. rewrite IH. clear IH. induction k; cbn; congruence. Qed.
Lemma clean_form s :
  (is_rooted s = true /\ exists cs, Forall name cs /\ clean s = abs_path cs /\ forall p, leads p s = rev cs) \/
  (is_rooted s = false /\ exists k cs, Forall name cs /\ clean s = rel_path (repeat dd k ++ cs) /\ forall p, leads p s = rev cs ++ skipn k p).
Proof.
  unfold clean. setoid_rewrite leads_fold. destruct (is_rooted s).
  - left. split; auto. destruct (clean_rooted_fold (segments s) (segments_flat s) [] (Forall_nil _)) as [E F]. rewrite E.
    exists (rev (fold_left go (segments s) [])). split; [now apply Forall_rev|]. split; [now rewrite abs_path_join|]. intros _. now rewrite rev_involutive.
  - right. split; auto. destruct (clean_rel_fold (segments s) (segments_flat s) [] 0 (Forall_nil _)) as (cs & k & Hc & E & G).
    cbn [repeat app skipn] in E, G. rewrite E. rewrite rev_app_distr, rev_repeat.
    exists k, (rev cs). split; [now apply Forall_rev|]. split.
    + destruct (repeat dd k ++ rev cs) as [|x l] eqn:El; [reflexivity|]. rewrite rel_path_join by discriminate.
      assert (N : join_slash (x :: l) <> []).
      { intros J. apply join_nil in J; [discriminate|]. rewrite <- El. apply Forall_app. split.
        - apply Forall_forall. intros y Hy. apply repeat_spec in Hy. subst y. discriminate.
        - apply Forall_rev. eapply Forall_impl; [|exact Hc]. intros y Hy. apply Hy. }
      destruct (join_slash (x :: l)); [congruence|reflexivity].
    + intros p. now rewrite G, rev_involutive.
Qed.
Lemma clean_canonical s : canonical (file_path s).
Proof.
  unfold file_path. destruct (clean_form s) as [(_ & cs & H & E & _)|(_ & k & cs & H & E & _)]; [left|right]; eauto.
Qed.

(** ** Where canonical paths lead *)
Lemma is_rooted_abs cs : is_rooted (abs_path cs) = true.
Proof. rewrite abs_path_join. reflexivity. Qed.
Lemma segs_abs cs : Forall name cs -> segments (abs_path cs) = [] :: match cs with [] => [[]] | _ => cs end.
Proof.
  intros H. rewrite abs_path_join. cbn. f_equal. destruct cs; [reflexivity|]. apply segments_join_flat; [discriminate|].
  eapply Forall_impl; [|exact H]. apply name_flat.
Qed.
Lemma leads_abs cs p : Forall name cs -> leads p (abs_path cs) = rev cs.
Proof.
  intros H. rewrite leads_fold, is_rooted_abs, segs_abs by auto. cbn [fold_left]. change (go [] []) with (@nil (list Z)).
  destruct cs as [|x cs]; [reflexivity|]. rewrite fold_names by auto. apply app_nil_r.
Qed.
Lemma ups_names_flat k cs : Forall name cs -> Forall flat (repeat dd k ++ cs).
Proof.
  intros H. apply Forall_app. split; [|eapply Forall_impl; [|exact H]; apply name_flat].
  apply Forall_forall. intros y Hy. apply repeat_spec in Hy. subst y. apply dd_flat.
Qed.
Lemma rel_not_rooted k cs : Forall name cs -> is_rooted (rel_path (repeat dd k ++ cs)) = false.
Proof.
  intros H. destruct k as [|k].
  - destruct cs as [|x cs]; [reflexivity|]. apply Forall_cons_iff in H as [(Hx & _ & _ & Hf) _].
    destruct x as [|c x]; [congruence|]. assert (c <> 47) by (intros ->; apply Hf; now left).
    cbn [repeat app]. destruct cs; cbn; now apply Z.eqb_neq.
  - cbn [repeat app]. destruct (repeat dd k ++ cs); reflexivity.
Qed.
Lemma leads_rel k cs p : Forall name cs -> leads p (rel_path (repeat dd k ++ cs)) = rev cs ++ skipn k p.
Proof.
  intros H. rewrite leads_fold, rel_not_rooted by auto. destruct (repeat dd k ++ cs) as [|x l] eqn:E.
  - apply app_eq_nil in E as [E1 ->]. destruct k; [|discriminate]. reflexivity.
  - rewrite rel_path_join, segments_join_flat; try discriminate; [|rewrite <- E; now apply ups_names_flat].
    rewrite <- E, fold_left_app, fold_ups, fold_names by auto. reflexivity.
Qed.
Lemma clean_leads s p : leads p (file_path s) = leads p s.
Proof.
  unfold file_path. destruct (clean_form s) as [(_ & cs & H & -> & E)|(_ & k & cs & H & -> & E)]; rewrite E; [now apply leads_abs|now apply leads_rel].
Qed.

(** A name longer than all the names of a list. *)
Definition total (cs : list (list Z)) : nat := length (concat cs).
Definition long (cs ds : list (list Z)) : list Z := repeat 65 (3 + total cs + total ds).
Lemma long_name cs ds : name (long cs ds).
Proof.
  unfold long. split; [discriminate|]. split; [discriminate|]. split; [discriminate|]. intros I. apply repeat_spec in I. discriminate.
Qed.
Lemma in_total x cs : In x cs -> (length x <= total cs)%nat.
Proof.
  unfold total. induction cs as [|y cs IH]; intros H; [destruct H|]. cbn [concat]. rewrite app_length. destruct H as [->|H]; [lia|]. specialize (IH H). lia.
Qed.
Lemma skipn_repeat {A} (x : A) k n : skipn k (repeat x n) = repeat x (n - k).
Proof. revert n. induction k as [|k IH]; intros [|n]; cbn; auto. Qed.
Lemma long_count cs ds n : count_occ (list_eq_dec Z.eq_dec) (rev cs ++ repeat (long cs ds) n) (long cs ds) = n.
Proof.
  rewrite count_occ_app. replace (count_occ _ (rev cs) _) with 0%nat.
  - induction n as [|n IH]; [reflexivity|]. cbn [repeat]. rewrite count_occ_cons_eq by auto. rewrite <- IH at 2. reflexivity.
  - symmetry. apply count_occ_not_In. intros I. apply in_rev in I. apply in_total in I. unfold long in I. rewrite repeat_length in I. lia.
Qed.
Lemma long_sym cs ds : long cs ds = long ds cs.
Proof. unfold long. f_equal. lia. Qed.
Lemma clean_unique s t : (forall p, leads p s = leads p t) -> file_path s = file_path t.
Proof.
  intros H. unfold file_path.
  destruct (clean_form s) as [(_ & cs & Hc & -> & E)|(_ & k & cs & Hc & -> & E)];
  destruct (clean_form t) as [(_ & ds & Hd & -> & G)|(_ & j & ds & Hd & -> & G)].
  - specialize (H []). rewrite E, G in H. apply (f_equal (@rev _)) in H. rewrite !rev_involutive in H. congruence.
  - exfalso. specialize (H (repeat [65] (j + S (length cs)))). rewrite E, G, skipn_repeat in H.
    apply (f_equal (@length _)) in H. rewrite app_length, !rev_length, repeat_length in H. lia.
  - exfalso. specialize (H (repeat [65] (k + S (length ds)))). rewrite E, G, skipn_repeat in H.
    apply (f_equal (@length _)) in H. rewrite app_length, !rev_length, repeat_length in H. lia.
  - pose proof (H (repeat (long cs ds) (k + j))) as Hn. rewrite E, G, !skipn_repeat in Hn.
    assert (k = j).
    { apply (f_equal (fun l => count_occ (list_eq_dec Z.eq_dec) l (long cs ds))) in Hn. rewrite long_count in Hn.
      rewrite (long_sym cs ds), long_count in Hn. lia. }
    subst j. apply app_inv_tail in Hn. apply (f_equal (@rev _)) in Hn. rewrite !rev_involutive in Hn. congruence.
Qed.
Lemma clean_idem s : file_path (file_path s) = file_path s.
Proof. apply clean_unique. intros p. apply clean_leads. Qed.

(** ** SplitAll *)
Lemma split_flat f : flat f -> split_path f = ([], f).
Proof.
  induction f as [|c f IH]; intros F; [reflexivity|]. cbn [split_path]. rewrite IH by (intros I; apply F; now right).
  replace (c =? 47) with false by (symmetry; apply Z.eqb_neq; intros ->; apply F; now left). reflexivity.
Qed.
Lemma split_slash d f : flat f -> split_path (d ++ 47 :: f) = (d ++ [47], f).
Proof.
  intros F. induction d as [|c d IH]; cbn [app split_path].
  - rewrite split_flat by auto. reflexivity.
  - rewrite IH. destruct (d ++ [47]) eqn:E; [destruct d; discriminate|]. reflexivity.
Qed.
Lemma trim_slash_snoc d : trim_slash (d ++ [47]) = d.
Proof. unfold trim_slash. rewrite rev_app_distr. cbn. now rewrite rev_involutive. Qed.
Lemma count_slash_app a b : count_slash (a ++ b) = (count_slash a + count_slash b)%nat.
Proof. unfold count_slash. now rewrite filter_app, app_length. Qed.
Lemma count_slash_flat x : flat x -> count_slash x = 0%nat.
Proof.
  unfold count_slash. induction x as [|c x IH]; intros F; [reflexivity|]. cbn [filter].
  replace (c =? 47) with false by (symmetry; apply Z.eqb_neq; intros ->; apply F; now left). apply IH. intros I. apply F. now right.
Qed.
Lemma count_slash_cons x : count_slash (47 :: x) = S (count_slash x).
Proof. reflexivity. Qed.
Definition base (cs : list (list Z)) : list Z := concat (map (fun x => 47 :: x) cs).
Lemma base_snoc cs x : base (cs ++ [x]) = base cs ++ 47 :: x.
Proof. unfold base. rewrite map_app, concat_app. cbn. now rewrite app_nil_r. Qed.
Lemma base_count cs : Forall name cs -> count_slash (base cs) = length cs.
Proof.
  intros H. induction H as [|x cs Hx _ IH]; [reflexivity|]. unfold base in *. cbn [map concat length].
  rewrite count_slash_app, count_slash_cons, count_slash_flat, IH by (now apply name_flat). lia.
Qed.
Lemma split_all_base cs : Forall name cs -> forall n acc, (length cs < n)%nat -> split_all_loop n (base cs) acc = Ok (cs ++ acc).
Proof.
  induction cs as [|x cs IH] using rev_ind; intros H n acc Hn.
  - destruct n; [lia|]. reflexivity.
  - apply Forall_app in H as [Hc Hx]. apply Forall_cons_iff in Hx as [Hx _]. rewrite app_length in Hn. cbn in Hn.
    destruct n as [|n]; [lia|]. cbn [split_all_loop]. rewrite base_snoc, split_slash by (now apply name_flat).
    destruct x as [|c x]; [destruct Hx; congruence|]. rewrite trim_slash_snoc, IH by (auto; lia). now rewrite <- app_assoc.
Qed.
Lemma split_all_abs cs : Forall name cs -> cs <> [] -> split_all (abs_path cs) = Ok cs.
Proof.
  intros H N. unfold split_all. assert (E : abs_path cs = base cs) by (destruct cs; [congruence|reflexivity]).
  rewrite E, base_count, split_all_base by (auto; lia). now rewrite app_nil_r.
Qed.
Lemma join_count cs : cs <> [] -> Forall flat cs -> S (count_slash (join_slash cs)) = length cs.
Proof.
  induction cs as [|x [|y cs] IH]; intros N F; [congruence| |].
  - apply Forall_cons_iff in F as [Fx _]. cbn [join_slash length]. now rewrite count_slash_flat.
  - apply Forall_cons_iff in F as [Fx F]. change (join_slash (x :: y :: cs)) with (x ++ 47 :: join_slash (y :: cs)).
    rewrite count_slash_app, count_slash_flat, count_slash_cons by auto. specialize (IH ltac:(discriminate) F). cbn [length] in *. lia.
Qed.
Lemma split_all_loop_rel cs : cs <> [] -> Forall flat cs -> Forall (fun x => x <> []) cs -> forall acc,
  split_all_loop (length cs) (join_slash cs) acc = Panic.
Proof.
  induction cs as [|x cs IH] using rev_ind; intros N F Ne acc; [congruence|].
  apply Forall_app in F as [Fc Fx]. apply Forall_cons_iff in Fx as [Fx _]. apply Forall_app in Ne as [Nc Nx]. apply Forall_cons_iff in Nx as [Nx _].
  rewrite app_length, Nat.add_comm. cbn [length Nat.add split_all_loop]. destruct cs as [|y cs].
  - cbn [app join_slash]. rewrite split_flat by auto. destruct x; [congruence|]. reflexivity.
  - rewrite join_snoc by discriminate. rewrite split_slash by auto. destruct x as [|c x]; [congruence|]. rewrite trim_slash_snoc.
    apply IH; auto. discriminate.
Qed.
Lemma split_all_rel k cs : Forall name cs -> split_all (rel_path (repeat dd k ++ cs)) = Panic.
Proof.
  intros H. assert (N : Forall (fun x => x <> []) (repeat dd k ++ cs)).
  { apply Forall_app. split; [|eapply Forall_impl; [|exact H]; intros y Hy; apply Hy].
    apply Forall_forall. intros y Hy. apply repeat_spec in Hy. subst y. discriminate. }
  pose proof (ups_names_flat k cs H) as F. destruct (repeat dd k ++ cs) as [|x l]; [reflexivity|].
  rewrite rel_path_join by discriminate. unfold split_all.
  rewrite Nat.add_1_r, join_count by (auto; discriminate). apply split_all_loop_rel; auto. discriminate.
Qed.

(** ** Joins *)
Lemma rooted_first x l : x <> [] -> is_rooted (join_slash (x :: l)) = is_rooted x.
Proof. intros N. destruct x as [|c x]; [congruence|]. destruct l; reflexivity. Qed.
Lemma joins_first a l : a <> [] -> joins (a :: l) = file_path (join_slash (a :: l)).
Proof. intros N. unfold joins. destruct a as [|c a]; [congruence|]. cbn [fp_join]. apply clean_idem. Qed.
Lemma joins_leads a l p : a <> [] -> leads p (joins (a :: l)) = fold_left (fun q b => follow q [] b) l (leads p a).
Proof.
  intros N. rewrite joins_first, clean_leads, leads_fold, rooted_first, segments_join by (auto; discriminate).
  cbn [map concat]. rewrite fold_left_app, <- leads_fold.
  generalize (leads p a). clear. induction l as [|b l IH]; intros q; [reflexivity|]. cbn [map concat fold_left].
  rewrite fold_left_app, IH, follow_fold. reflexivity.
Qed.
Lemma joins_skip l : joins ([] :: l) = joins l.
Proof. reflexivity. Qed.
Lemma joins_abs cs : Forall name cs -> joins ([47] :: cs) = abs_path cs.
Proof.
  intros H. rewrite joins_first by discriminate.
  assert (E : abs_path cs = file_path (abs_path cs)).
  { destruct (clean_form (abs_path cs)) as [(_ & ds & Hd & E & G)|(R & _)].
    - unfold file_path. rewrite E. specialize (G []). rewrite leads_abs in G by auto.
      apply (f_equal (@rev _)) in G. rewrite !rev_involutive in G. congruence.
    - rewrite is_rooted_abs in R. discriminate. }
  rewrite E. apply clean_unique. intros p. rewrite leads_fold, rooted_first, segments_join, leads_abs by (auto; discriminate).
  cbn [map concat]. rewrite fold_left_app. change (fold_left go (segments [47]) (if is_rooted [47] then [] else p)) with (@nil (list Z)).
  replace (concat (map segments cs)) with cs; [rewrite fold_names, app_nil_r by auto; reflexivity|].
  clear E. induction H as [|x cs Hx _ IH]; [reflexivity|]. cbn [map concat]. rewrite segments_one by (now apply name_flat). cbn. now rewrite <- IH.
Qed.

(** ** relateThisPath *)
Lemma dir_leads me p : me <> [] -> leads p (dir_of me) = match me with [] => p | _ => leads p (fst (split_path me)) end.
Proof. intros N. unfold dir_of. destruct me; [congruence|]. apply clean_leads. Qed.
Lemma clean_ne s : clean s <> [].
Proof.
  destruct (clean_form s) as [(_ & cs & H & E & _)|(_ & k & cs & H & E & _)]; rewrite E.
  - rewrite abs_path_join. discriminate.
  - intros X. pose proof (ups_names_flat k cs H) as F. destruct (repeat dd k ++ cs) as [|x l] eqn:El; [discriminate|].
    rewrite rel_path_join in X by discriminate. apply join_nil in X; [discriminate|].
    rewrite <- El. apply Forall_app. split; [|eapply Forall_impl; [|exact H]; intros y Hy; apply Hy].
    apply Forall_forall. intros y Hy. apply repeat_spec in Hy. subst y. discriminate.
Qed.
Lemma clean_rooted s : is_rooted (clean s) = is_rooted s.
Proof.
  destruct (clean_form s) as [(-> & cs & H & -> & _)|(-> & k & cs & H & -> & _)]; [apply is_rooted_abs|now apply rel_not_rooted].
Qed.
Lemma relate_this_leads me dest p : leads p (relate_this me dest) = follow (leads p (dir_of me)) [] (file_path dest).
Proof.
  unfold relate_this. rewrite clean_leads, joins_leads by apply clean_ne. reflexivity.
Qed.
Lemma relate_this_rel me dest p : is_rooted dest = false -> leads p (relate_this me dest) = leads (leads p (dir_of me)) dest.
Proof.
  intros R. rewrite relate_this_leads, <- (clean_leads dest), (leads_fold _ (file_path dest)), follow_fold.
  unfold file_path. rewrite clean_rooted, R. reflexivity.
Qed.
Lemma file_path_fix_abs cs : Forall name cs -> file_path (abs_path cs) = abs_path cs.
Proof.
  intros H. destruct (clean_form (abs_path cs)) as [(_ & ds & Hd & E & G)|(R & _)].
  - unfold file_path. rewrite E. specialize (G []). rewrite leads_abs in G by auto.
    apply (f_equal (@rev _)) in G. rewrite !rev_involutive in G. congruence.
  - rewrite is_rooted_abs in R. discriminate.
Qed.
Lemma dir_abs cs x : Forall name cs -> name x -> dir_of (abs_path (cs ++ [x])) = abs_path cs.
Proof.
  intros H Hx. unfold dir_of. assert (E : abs_path (cs ++ [x]) = base (cs ++ [x])) by (destruct cs; reflexivity).
  rewrite E, base_snoc, split_slash by (now apply name_flat). cbn [fst].
  transitivity (file_path (abs_path cs)); [|now apply file_path_fix_abs]. apply clean_unique. intros p.
  rewrite leads_abs by auto. destruct cs as [|y cs]; [reflexivity|].
  rewrite leads_fold, segments_app, fold_left_app. change (segments []) with [@nil Z]. cbn [fold_left].
  change (base (y :: cs)) with (abs_path (y :: cs)). replace (is_rooted (abs_path (y :: cs) ++ [47])) with true by (now rewrite abs_path_join).
  pose proof (leads_abs (y :: cs) p H) as L. rewrite leads_fold, is_rooted_abs in L. rewrite L. reflexivity.
Qed.
Lemma relate_this_abs cs x ds : Forall name cs -> name x -> Forall name ds -> relate_this (abs_path (cs ++ [x])) (abs_path ds) = abs_path (cs ++ ds).
Proof.
  intros Hc Hx Hd. rewrite <- (file_path_fix_abs (cs ++ ds)) by (apply Forall_app; auto).
  assert (E : relate_this (abs_path (cs ++ [x])) (abs_path ds) = file_path (relate_this (abs_path (cs ++ [x])) (abs_path ds))) by (unfold relate_this; now rewrite clean_idem).
  rewrite E. apply clean_unique. intros p. rewrite relate_this_leads, dir_abs, file_path_fix_abs, leads_abs, leads_abs, follow_fold, segs_abs by (auto; apply Forall_app; auto).
  cbn [fold_left]. change (go (rev cs) []) with (rev cs). destruct ds as [|d ds]; [cbn; now rewrite app_nil_r|].
  rewrite fold_names by auto. now rewrite rev_app_distr.
Qed.

(** ** Relate *)
Lemma fold_filter l : forall p, fold_left go (filter (fun x => negb (str_eqb x [] || str_eqb x [46])) l) p = fold_left go l p.
Proof.
  induction l as [|x l IH]; intros p; [reflexivity|]. cbn [filter fold_left]. destruct (str_eqb x [] || str_eqb x [46]) eqn:E; cbn [negb].
  - rewrite IH. f_equal. rewrite go_eq, E. reflexivity.
  - cbn [fold_left]. apply IH.
Qed.
Lemma leads_elements p s : leads p s = fold_left go (elements s) (if is_rooted s then [] else p).
Proof. rewrite leads_fold. symmetry. apply fold_filter. Qed.
Lemma filter_ok l : Forall (fun x => x <> [] /\ x <> [46]) l -> filter (fun x => negb (str_eqb x [] || str_eqb x [46])) l = l.
Proof.
  intros H. induction H as [|x l [H1 H2] _ IH]; [reflexivity|]. cbn [filter].
  destruct (str_eqb x []) eqn:E1; [apply str_eqb_eq in E1; congruence|]. destruct (str_eqb x [46]) eqn:E2; [apply str_eqb_eq in E2; congruence|].
  cbn. now rewrite IH.
Qed.
Lemma elements_abs cs : Forall name cs -> elements (abs_path cs) = cs.
Proof.
  intros H. unfold elements. rewrite segs_abs by auto. cbn. destruct cs as [|x cs]; [reflexivity|]. apply filter_ok.
  eapply Forall_impl; [|exact H]. intros y Hy. split; apply Hy.
Qed.
Lemma elements_rel k cs : Forall name cs -> elements (rel_path (repeat dd k ++ cs)) = repeat dd k ++ cs.
Proof.
  intros H. unfold elements. pose proof (ups_names_flat k cs H) as F.
  assert (G : Forall (fun x => x <> [] /\ x <> [46]) (repeat dd k ++ cs)).
  { apply Forall_app. split; [|eapply Forall_impl; [|exact H]; intros y Hy; split; apply Hy].
    apply Forall_forall. intros y Hy. apply repeat_spec in Hy. subst y. split; discriminate. }
  destruct (repeat dd k ++ cs) as [|x l]; [reflexivity|]. rewrite rel_path_join, segments_join_flat by (auto; discriminate). now apply filter_ok.
Qed.
Lemma drop_common_spec b : forall t b' t', drop_common b t = (b', t') -> exists c, b = c ++ b' /\ t = c ++ t'.
Proof.
  induction b as [|x b IH]; intros t b' t' E; cbn in E; [injection E as <- <-; exists []; auto|].
  destruct t as [|y t]; [injection E as <- <-; exists []; auto|]. destruct (str_eqb x y) eqn:Exy.
  - apply str_eqb_eq in Exy. subst y. apply IH in E as (c & -> & ->). exists (x :: c). auto.
  - injection E as <- <-. exists []. auto.
Qed.
Lemma elements_good s : Forall (fun x => x <> [] /\ flat x) (elements s).
Proof.
  unfold elements. apply Forall_forall. intros x Hx. apply filter_In in Hx as [Hx Hb]. split.
  - intros ->. discriminate.
  - pose proof (segments_flat s) as F. rewrite Forall_forall in F. auto.
Qed.
Lemma join_leads q l : Forall (fun x => x <> [] /\ flat x) l -> leads q (join_slash l) = fold_left go l q.
Proof.
  intros H. destruct l as [|x l]; [reflexivity|].
  rewrite leads_fold, segments_join_flat; [|discriminate|eapply Forall_impl; [|exact H]; intros y Hy; apply Hy].
  apply Forall_cons_iff in H as [[Nx Fx] _]. rewrite rooted_first by auto. destruct x as [|c x]; [congruence|]. cbn [is_rooted].
  replace (c =? 47) with false; [reflexivity|]. symmetry. apply Z.eqb_neq. intros ->. apply Fx. now left.
Qed.
Lemma map_const {A B} (x : B) (l : list A) : map (fun _ => x) l = repeat x (length l).
Proof. induction l; cbn; congruence. Qed.
Lemma relate_leads me root p : is_rooted me = is_rooted root -> Forall name (elements (file_path root)) ->
  leads (leads p root) (relate me root) = leads p me.
Proof.
  intros R H. unfold relate, fp_rel. change (clean (file_path root)) with (file_path (file_path root)). change (clean me) with (file_path me).
  rewrite clean_idem. rewrite <- (clean_leads me p), <- (clean_leads root p).
  destruct (str_eqb (file_path me) (file_path root)) eqn:E.
  { apply str_eqb_eq in E. rewrite E. reflexivity. }
  unfold file_path in R. assert (R1 : is_rooted (file_path me) = is_rooted me) by apply clean_rooted.
  assert (R2 : is_rooted (file_path root) = is_rooted root) by apply clean_rooted.
  rewrite R1, R2, R. replace (xorb (is_rooted root) (is_rooted root)) with false by (now destruct (is_rooted root)).
  destruct (drop_common (elements (file_path root)) (elements (file_path me))) as [b t] eqn:D.
  apply drop_common_spec in D as (c & Eb & Et).
  assert (Hb : Forall name b) by (rewrite Eb in H; now apply Forall_app in H).
  assert (Gt : Forall (fun x => x <> [] /\ flat x) t) by (pose proof (elements_good (file_path me)) as G; rewrite Et in G; now apply Forall_app in G).
  rewrite (leads_elements p (file_path me)), (leads_elements p (file_path root)), R1, R2, R.
  rewrite Eb, Et, !fold_left_app. set (P := fold_left go c (if is_rooted root then [] else p)).
  destruct b as [|x b].
  - rewrite clean_leads. now apply join_leads.
  - pose proof Hb as Hb0. apply Forall_cons_iff in Hb0 as [Hx _].
    destruct (str_eqb x [46; 46]) eqn:Ex; [apply str_eqb_eq in Ex; destruct Hx as (_ & _ & Hx & _); congruence|].
    rewrite clean_leads, join_leads.
    + rewrite fold_left_app, (fold_names (x :: b)), map_const by auto. fold dd. rewrite fold_ups.
      rewrite skipn_app, rev_length, Nat.sub_diag. rewrite skipn_all2 by (rewrite rev_length; lia). reflexivity.
    + apply Forall_app. split; auto. rewrite map_const. apply Forall_forall. intros y Hy. apply repeat_spec in Hy. subst y. split; [discriminate|apply dd_flat].
Qed.
Lemma relate_abs me root p : is_rooted me = true -> is_rooted root = true -> leads (leads p root) (relate me root) = leads p me.
Proof.
  intros H1 H2. apply relate_leads; [congruence|]. unfold file_path.
  destruct (clean_form root) as [(_ & cs & H & -> & _)|(R & _)]; [rewrite elements_abs; auto|congruence].
Qed.
Lemma relate_rel me cs p : is_rooted me = false -> Forall name cs -> leads (leads p (rel_path cs)) (relate me (rel_path cs)) = leads p me.
Proof.
  intros H1 H2. pose proof (rel_not_rooted 0 cs H2) as R. cbn [repeat app] in R. apply relate_leads; [congruence|].
  unfold file_path. destruct (clean_form (rel_path cs)) as [(R' & _)|(_ & k & ds & Hd & E & G)]; [congruence|].
  rewrite E, elements_rel by auto. apply Forall_app. split; auto.
  assert (k = 0%nat); [|subst k; constructor].
  specialize (G (repeat (long ds cs) (k + 1))). pose proof (leads_rel 0 cs (repeat (long ds cs) (k + 1)) H2) as L. cbn [repeat app skipn] in L.
  rewrite L, skipn_repeat in G. apply (f_equal (fun l => count_occ (list_eq_dec Z.eq_dec) l (long ds cs))) in G.
  rewrite long_count in G. rewrite (long_sym ds cs), long_count in G. lia.
Qed.

(** ** Statements for the property file *)
Lemma split_join cs : Forall name cs -> cs <> [] -> split_all (file_path (abs_path cs)) = Ok cs /\ joins ([47] :: cs) = file_path (abs_path cs).
Proof. intros H N. rewrite file_path_fix_abs by auto. split; [now apply split_all_abs|now apply joins_abs]. Qed.
Lemma split_exact s :
  (is_rooted s = true -> (exists cs, Forall name cs /\ cs <> [] /\ split_all (file_path s) = Ok cs /\ forall p, leads p s = rev cs) \/
     (split_all (file_path s) = Ok [[47]] /\ forall p, leads p s = [])) /\
  (is_rooted s = false -> split_all (file_path s) = Panic).
Proof.
  unfold file_path. destruct (clean_form s) as [(R & cs & H & E & L)|(R & k & cs & H & E & L)]; rewrite R, E; (split; [|]); try discriminate; intros _.
  - destruct cs as [|x cs]; [right; auto|]. left. exists (x :: cs). split; auto. split; [discriminate|]. split; auto. apply split_all_abs; auto. discriminate.
  - now apply split_all_rel.
Qed.
Lemma rooted_leads s c : s = 47 :: c -> is_rooted s = true.
Proof. intros ->. reflexivity. Qed.
Lemma not_rooted s : (forall t, s <> 47 :: t) -> is_rooted s = false.
Proof. intros H. destruct s as [|c t]; [reflexivity|]. cbn. apply Z.eqb_neq. intros ->. now apply (H t). Qed.
Lemma split_exact' s :
  (forall t, s = 47 :: t ->
     (exists cs, Forall name cs /\ cs <> [] /\ split_all (file_path s) = Ok cs /\ forall from, leads from s = rev cs) \/
     (split_all (file_path s) = Ok [[47]] /\ forall from, leads from s = [])) /\
  ((forall t, s <> 47 :: t) -> split_all (file_path s) = Panic).
Proof.
  destruct (split_exact s) as [A B]. split.
  - intros t E. apply A. now apply (rooted_leads s t).
  - intros H. apply B. now apply not_rooted.
Qed.
Lemma clean_iff s t : (forall from, leads from s = leads from t) <-> file_path s = file_path t.
Proof.
  split; [apply clean_unique|]. intros E from. rewrite <- (clean_leads s), <- (clean_leads t). now rewrite E.
Qed.
Lemma relate_this_rel' me dest from : (forall t, dest <> 47 :: t) -> leads from (relate_this me dest) = leads (leads from (dir_of me)) dest.
Proof. intros H. apply relate_this_rel. now apply not_rooted. Qed.
Lemma relate_abs' me root from : (exists t, me = 47 :: t) -> (exists t, root = 47 :: t) -> leads (leads from root) (relate me root) = leads from me.
Proof. intros [t ->] [u ->]. now apply relate_abs. Qed.
Lemma relate_rel' me cs from : (forall t, me <> 47 :: t) -> Forall name cs -> leads (leads from (rel_path cs)) (relate me (rel_path cs)) = leads from me.
Proof. intros H. apply relate_rel. now apply not_rooted. Qed.
Lemma new_name_false : exists me dest from, me = file_path me /\ leads from (relate_this me dest) <> leads (leads from (dir_of me)) dest.
Proof. exists [47; 97; 47; 98], [47; 99], []. split; [reflexivity|]. vm_compute. discriminate. Qed.
Lemma relate_false : exists me root, me = file_path me /\ relate me root = [46] /\ forall from, leads (leads from root) (relate me root) <> leads from me.
Proof.
  exists [97], [47; 98]. split; [reflexivity|]. split; [reflexivity|]. intros from.
  change (leads (leads from [47; 98]) (relate [97] [47; 98])) with [[98]]. change (leads from [97]) with ([97] :: from). discriminate.
Qed.
Lemma split_join_false : (exists s parts, split_all (file_path s) = Ok parts /\ joins parts <> file_path s) /\ exists s, split_all (file_path s) = Panic.
Proof.
  split.
  - exists [47; 97; 47; 98], [[97]; [98]]. split; [reflexivity|]. vm_compute. discriminate.
  - exists [97]. reflexivity.
Qed.

(** ** Move *)
Lemma rel_fix k cs : Forall name cs -> file_path (rel_path (repeat dd k ++ cs)) = rel_path (repeat dd k ++ cs).
Proof.
  intros H. unfold file_path. destruct (clean_form (rel_path (repeat dd k ++ cs))) as [(R & _)|(_ & j & ds & Hd & E & G)].
  - rewrite rel_not_rooted in R by auto. discriminate.
  - rewrite E. pose proof (G (repeat (long cs ds) (k + j))) as Q. rewrite leads_rel, !skipn_repeat in Q by auto.
    assert (k = j).
    { apply (f_equal (fun l => count_occ (list_eq_dec Z.eq_dec) l (long cs ds))) in Q. rewrite long_count in Q. rewrite (long_sym cs ds), long_count in Q. lia. }
    subst j. apply app_inv_tail in Q. apply (f_equal (@rev _)) in Q. rewrite !rev_involutive in Q. congruence.
Qed.
Lemma relate_this_fix me dest : file_path (relate_this me dest) = relate_this me dest.
Proof. unfold relate_this. apply clean_idem. Qed.
Lemma relate_this_names cs x ds : Forall name cs -> name x -> Forall name ds -> relate_this (abs_path (cs ++ [x])) (rel_path ds) = abs_path (cs ++ ds).
Proof.
  intros Hc Hx Hd. rewrite <- relate_this_fix. rewrite <- (file_path_fix_abs (cs ++ ds)) by (apply Forall_app; auto).
  apply clean_unique. intros p. pose proof (rel_not_rooted 0 ds Hd) as R. cbn [repeat app] in R.
  rewrite relate_this_rel, dir_abs, !leads_abs by (auto; apply Forall_app; auto).
  pose proof (leads_rel 0 ds (rev cs) Hd) as L. cbn [repeat app skipn] in L. rewrite L. now rewrite rev_app_distr.
Qed.
Lemma move_abs cs x ds : Forall name cs -> name x -> Forall name ds -> move_dest (abs_path (cs ++ [x])) (rel_path ds) = abs_path (cs ++ cs ++ ds).
Proof. intros Hc Hx Hd. unfold move_dest. rewrite relate_this_names, relate_this_abs by (auto; apply Forall_app; auto). reflexivity. Qed.
Lemma move_here x ds from : name x -> Forall name ds -> leads from (move_dest x (rel_path ds)) = leads from (rel_path ds).
Proof.
  intros Hx Hd. assert (E : forall dest p, is_rooted dest = false -> leads p (relate_this x dest) = leads p dest).
  { intros dest p R. rewrite relate_this_rel by auto. unfold dir_of. rewrite split_flat by (now apply name_flat). cbn [fst]. reflexivity. }
  assert (R : is_rooted (rel_path ds) = false) by (apply (rel_not_rooted 0 ds Hd)).
  assert (R2 : is_rooted (relate_this x (rel_path ds)) = false).
  { unfold relate_this at 1. unfold file_path at 1. rewrite clean_rooted. rewrite joins_first by apply clean_ne. unfold file_path at 1. rewrite clean_rooted.
    rewrite rooted_first by apply clean_ne. unfold dir_of. rewrite split_flat by (now apply name_flat). reflexivity. }
  unfold move_dest. rewrite !E; auto.
Qed.
Lemma move_false : exists me dest from, me = file_path me /\ (forall t, dest <> 47 :: t) /\ leads from (move_dest me dest) <> leads (leads from (dir_of me)) dest.
Proof. exists [47; 97; 47; 98], [99], []. split; [reflexivity|]. split; [discriminate|]. vm_compute. discriminate. Qed.
