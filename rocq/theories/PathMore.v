(** What Relate gives for every pair of paths. *)
From Coq Require Import String ZArith List Bool Lia.
From Verif Require Import GoBase GoStrings PathModel PathSpec PathProofs.
Import ListNotations.
Open Scope Z_scope.

Lemma relate_general me root p : is_rooted me = is_rooted root ->
  (forall b t, drop_common (elements (file_path root)) (elements (file_path me)) = (b, t) -> Forall name b) ->
  leads (leads p root) (relate me root) = leads p me.
Proof.
  intros R H. unfold relate, fp_rel. change (clean (file_path root)) with (file_path (file_path root)). change (clean me) with (file_path me).
  rewrite clean_idem. rewrite <- (clean_leads me p), <- (clean_leads root p).
  destruct (str_eqb (file_path me) (file_path root)) eqn:E.
  { apply str_eqb_eq in E. rewrite E. reflexivity. }
  assert (R1 : is_rooted (file_path me) = is_rooted me) by apply clean_rooted.
  assert (R2 : is_rooted (file_path root) = is_rooted root) by apply clean_rooted.
  rewrite R1, R2, R. replace (xorb (is_rooted root) (is_rooted root)) with false by (now destruct (is_rooted root)).
  destruct (drop_common (elements (file_path root)) (elements (file_path me))) as [b t] eqn:D. specialize (H b t eq_refl).
  apply drop_common_spec in D as (c & Eb & Et).
  assert (Gt : Forall (fun x => x <> [] /\ flat x) t) by (pose proof (elements_good (file_path me)) as G; rewrite Et in G; now apply Forall_app in G).
  rewrite (leads_elements p (file_path me)), (leads_elements p (file_path root)), R1, R2, R.
  rewrite Eb, Et, !fold_left_app. set (P := fold_left go c (if is_rooted root then [] else p)).
  destruct b as [|x b].
  - rewrite clean_leads. now apply join_leads.
  - pose proof H as Hb0. apply Forall_cons_iff in Hb0 as [Hx _].
    destruct (str_eqb x [46; 46]) eqn:Ex; [apply str_eqb_eq in Ex; destruct Hx as (_ & _ & Hx & _); congruence|].
    rewrite clean_leads, join_leads.
    + rewrite fold_left_app, (fold_names (x :: b)), map_const by auto. fold dd. rewrite fold_ups.
      rewrite skipn_app, rev_length, Nat.sub_diag. rewrite skipn_all2 by (rewrite rev_length; lia). reflexivity.
    + apply Forall_app. split; auto. rewrite map_const. apply Forall_forall. intros y Hy. apply repeat_spec in Hy. subst y. split; [discriminate|apply dd_flat].
Qed.
Lemma drop_same k b t : drop_common (repeat dd k ++ b) (repeat dd k ++ t) = drop_common b t.
Proof. induction k as [|k IH]; [reflexivity|]. cbn [repeat app drop_common]. exact IH. Qed.
Lemma relate_ups k j cs ds root me p : Forall name cs -> Forall name ds -> (k <= j)%nat ->
  file_path root = rel_path (repeat dd k ++ cs) -> file_path me = rel_path (repeat dd j ++ ds) ->
  leads (leads p root) (relate me root) = leads p me.
Proof.
  intros Hc Hd L Er Em. apply relate_general.
  - rewrite <- (clean_rooted me), <- (clean_rooted root). change clean with file_path. rewrite Er, Em, !rel_not_rooted; auto.
  - intros b t. rewrite Er, Em, !elements_rel by auto. replace j with (k + (j - k))%nat by lia. rewrite repeat_app, <- app_assoc, drop_same.
    intros D. apply drop_common_spec in D as (c & -> & _). now apply Forall_app in Hc.
Qed.
Lemma relate_lost k j cs ds root me : Forall name cs -> Forall name ds -> (j < k)%nat ->
  file_path root = rel_path (repeat dd k ++ cs) -> file_path me = rel_path (repeat dd j ++ ds) -> relate me root = [46].
Proof.
  intros Hc Hd L Er Em. unfold relate, fp_rel. change (clean (file_path root)) with (file_path (file_path root)). change (clean me) with (file_path me).
  rewrite clean_idem. destruct (str_eqb (file_path me) (file_path root)) eqn:E.
  { reflexivity. }
  rewrite Er, Em, !rel_not_rooted by auto. cbn [xorb]. rewrite !elements_rel by auto.
  replace k with (j + S (k - j - 1))%nat by lia. rewrite repeat_app, <- app_assoc, drop_same. cbn [repeat app].
  destruct ds as [|x ds]; cbn [drop_common]; [reflexivity|].
  destruct (str_eqb dd x) eqn:Ex; [|reflexivity]. apply str_eqb_eq in Ex. apply Forall_cons_iff in Hd as [(_ & _ & Hx & _) _]. unfold dd in Ex. congruence.
Qed.
Lemma relate_mixed me root : is_rooted me <> is_rooted root -> relate me root = [46].
Proof.
  intros R. unfold relate, fp_rel. change (clean (file_path root)) with (file_path (file_path root)). change (clean me) with (file_path me).
  rewrite clean_idem. assert (R1 : is_rooted (file_path me) = is_rooted me) by apply clean_rooted.
  assert (R2 : is_rooted (file_path root) = is_rooted root) by apply clean_rooted.
  destruct (str_eqb (file_path me) (file_path root)); [reflexivity|]. rewrite R1, R2.
  destruct (is_rooted me), (is_rooted root); try congruence; reflexivity.
Qed.
Lemma relate_mixed' me root t : (me = 47 :: t /\ forall u, root <> 47 :: u) \/ (root = 47 :: t /\ forall u, me <> 47 :: u) -> relate me root = [46].
Proof.
  intros [[-> H]|[-> H]]; apply relate_mixed; apply not_rooted in H; rewrite H; discriminate.
Qed.

(** Name of a prefix: HasPrefix compares bytes. *)
Lemma prefix_spec me p : has_prefix me p = true <-> exists r, me = file_path p ++ r.
Proof.
  unfold has_prefix. destruct (strip_prefix (file_path p) me) as [r|] eqn:E.
  - split; auto. intros _. apply strip_prefix_spec in E. eauto.
  - split; [discriminate|]. intros [r Hr]. apply strip_prefix_spec in Hr. congruence.
Qed.
Lemma concat_app_base cs ds : base (cs ++ ds) = base cs ++ base ds.
Proof. unfold base. now rewrite map_app, concat_app. Qed.
(** Below a directory implies the prefix. *)
Lemma prefix_below cs ds p : Forall name cs -> Forall name ds -> file_path p = abs_path cs -> has_prefix (abs_path (cs ++ ds)) p = true.
Proof.
  intros Hc Hd E. apply prefix_spec. rewrite E. destruct cs as [|x cs].
  - cbn [app]. exists (join_slash ds). rewrite abs_path_join. reflexivity.
  - exists (base ds). exact (concat_app_base (x :: cs) ds).
Qed.
Lemma prefix_false : exists me p, file_path me = me /\ file_path p = p /\ has_prefix me p = true /\ forall r, leads [] me <> r ++ leads [] p.
Proof.
  exists (bytes_of "/usr/lib64"%string), (bytes_of "/usr/lib"%string). repeat split; try (vm_compute; reflexivity).
  intros r E. change (leads [] (bytes_of "/usr/lib64"%string)) with [bytes_of "lib64"%string; bytes_of "usr"%string] in E.
  change (leads [] (bytes_of "/usr/lib"%string)) with [bytes_of "lib"%string; bytes_of "usr"%string] in E.
  destruct r as [|a [|b [|c r]]]; try discriminate.
  all: apply (f_equal (@length _)) in E; cbn in E; rewrite ?app_length in E; cbn in E; lia.
Qed.
Lemma prefix_below' cs ds p : Forall name cs -> Forall name ds -> file_path p = abs_path cs -> has_prefix (file_path (abs_path (cs ++ ds))) p = true.
Proof. intros Hc Hd E. rewrite file_path_fix_abs by (apply Forall_app; auto). now apply prefix_below. Qed.
