From Coq Require Import ZArith List Bool Lia Permutation Sorting.Sorted.
From Verif Require Import GoBase GoStrings PathModel PathSpec PathProofs FsModel FsSpec.
Import ListNotations.
Open Scope Z_scope.

Lemma fnode_ind2 (P : fnode -> Prop) :
  (forall nm c, P (File nm c)) -> (forall nm b, P (Locked nm b)) -> (forall nm, P (Dir nm None)) ->
  (forall nm kids, Forall P kids -> P (Dir nm (Some kids))) -> forall n, P n.
Proof.
  intros Hf Hl Hn Hd. fix IH 1. intros [nm c|nm [kids|]|nm b]; [apply Hf| |apply Hn|apply Hl].
  apply Hd. induction kids as [|k kids IHk]; constructor; auto.
Qed.

(** ** Options *)
Lemma land_pow2 a k : 0 <= k -> Z.land a (2 ^ k) = if Z.testbit a k then 2 ^ k else 0.
Proof.
  intros Hk. apply Z.bits_inj'. intros i Hi. rewrite Z.land_spec, Z.pow2_bits_eqb by auto.
  destruct (Z.eqb_spec k i) as [->|N].
  - rewrite andb_true_r. destruct (Z.testbit a i); [now rewrite Z.pow2_bits_true|now rewrite Z.bits_0].
  - rewrite andb_false_r. destruct (Z.testbit a k); [now rewrite Z.pow2_bits_false|now rewrite Z.bits_0].
Qed.
Lemma has_bit opt k : 0 <= k -> has opt (2 ^ k) = Z.testbit opt k.
Proof.
  intros Hk. unfold has. rewrite land_pow2 by auto. assert (0 < 2 ^ k) by (apply Z.pow_pos_nonneg; lia).
  replace (2 ^ k =? 0) with false by lia. cbn [negb andb]. destruct (Z.testbit opt k); lia.
Qed.
Lemma land0 o : Z.land o 1 = if Z.testbit o 0 then 1 else 0.
Proof. apply (land_pow2 o 0). lia. Qed.
Lemma land3 o : Z.land o 8 = if Z.testbit o 3 then 8 else 0.
Proof. apply (land_pow2 o 3). lia. Qed.
Lemma land4 o : Z.land o 16 = if Z.testbit o 4 then 16 else 0.
Proof. apply (land_pow2 o 4). lia. Qed.
Lemma has_dir o : has o FsDir = Z.testbit o 0.
Proof. apply (has_bit o 0). lia. Qed.
Lemma has_file o : has o FsFile = Z.testbit o 1.
Proof. apply (has_bit o 1). lia. Qed.
Lemma has_full o : has o FsFullPath = Z.testbit o 2.
Proof. apply (has_bit o 2). lia. Qed.
Lemma has_leaf o : has o FsLeaf = Z.testbit o 4.
Proof. apply (has_bit o 4). lia. Qed.
Lemma has_leaf_dir o : has o (Z.lor FsLeaf FsDir) = Z.testbit o 0 && Z.testbit o 4.
Proof.
  unfold has, FsLeaf, FsDir. rewrite Z.land_lor_distr_r, land0, land4. destruct (Z.testbit o 0), (Z.testbit o 4); reflexivity.
Qed.
Lemma has_any_deep o : has_any o (Z.lor FsDeep FsLeaf) = is_deep o.
Proof.
  unfold has_any, FsLeaf, FsDeep, is_deep. rewrite Z.land_lor_distr_r, land3, land4. destruct (Z.testbit o 3), (Z.testbit o 4); reflexivity.
Qed.

(** ** CollectSubs *)
Lemma listed_app opt a b : listed opt (a ++ b) = listed opt a ++ listed opt b.
Proof. unfold listed. now rewrite filter_app, map_app. Qed.
Lemma collect_spec opt : forall n full, collect_subs full opt n = (listed opt (entries (is_deep opt) full n), false).
Proof.
  induction n as [nm c|nm b|nm|nm kids IH] using fnode_ind2; intros full; try reflexivity.
  cbn [collect_subs entries]. rewrite listed_app.
  set (F := fun k : fnode => _). 
  match goal with |- ?L kids false = _ => set (loop := L) end.
  assert (G : forall l hs, Forall (fun n => forall full, collect_subs full opt n = (listed opt (entries (is_deep opt) full n), false)) l ->
    loop l hs = (listed opt (flat_map F l) ++ listed opt (if hs || existsb is_dir l then [] else [ELeaf full]), false)).
  { clear IH. induction l as [|v l IHl]; intros hs Hl.
    - cbn [loop flat_map existsb app]. rewrite orb_false_r. unfold listed at 1. cbn [filter map app].
      destruct hs; cbn [negb andb]; [reflexivity|]. unfold listed. cbn [filter asked]. rewrite has_leaf_dir.
      destruct (Z.testbit opt 0 && Z.testbit opt 4) eqn:E; [|reflexivity]. cbn [map shown]. unfold choose_name. rewrite has_full. reflexivity.
    - apply Forall_cons_iff in Hl as [Hv Hl]. cbn [flat_map]. rewrite listed_app.
      destruct v as [nm' c'|nm' ks'|nm' [|]]; cbn [loop].
      + rewrite IHl by auto. unfold F at 2. cbn [is_dir node_name existsb orb]. unfold listed at 3. cbn [filter asked]. rewrite has_file.
        destruct (Z.testbit opt 1) eqn:E1; cbn [map shown]; [unfold choose_name; rewrite has_full|]; now rewrite <- ?app_assoc.
      + rewrite IHl by auto. rewrite has_any_deep. unfold F at 2. cbn [is_dir node_name existsb orb].
        rewrite orb_true_r. cbn [orb].
        change (EDir (joins [full; nm']) nm' :: (if is_deep opt then entries (is_deep opt) (joins [full; nm']) (Dir nm' ks') else []))
          with ([EDir (joins [full; nm']) nm'] ++ (if is_deep opt then entries (is_deep opt) (joins [full; nm']) (Dir nm' ks') else [])).
        rewrite (listed_app opt [EDir (joins [full; nm']) nm']).
        assert (E2 : (if is_deep opt then collect_subs (joins [full; nm']) opt (Dir nm' ks') else ([], false)) =
                     (listed opt (if is_deep opt then entries (is_deep opt) (joins [full; nm']) (Dir nm' ks') else []), false)).
        { destruct (is_deep opt) eqn:Ed; [|reflexivity]. rewrite Hv. reflexivity. }
        rewrite E2. unfold listed at 4. cbn [filter asked]. rewrite has_dir, has_leaf.
        destruct (Z.testbit opt 0 && negb (Z.testbit opt 4)); cbn [map shown]; [unfold choose_name; rewrite has_full|]; cbn [app node_name]; now rewrite <- ?app_assoc.
      + rewrite IHl by auto. unfold F at 2. cbn [is_dir node_name existsb orb]. rewrite orb_true_r. cbn [orb collect_subs entries].
        replace (if has_any opt (Z.lor FsDeep FsLeaf) then ([], false) else ([], false)) with (@nil (list Z), false) by (now destruct (has_any _ _)).
        replace (if is_deep opt then [] else []) with (@nil entry) by (now destruct (is_deep opt)).
        unfold listed at 3. cbn [filter asked]. rewrite has_dir, has_leaf.
        destruct (Z.testbit opt 0 && negb (Z.testbit opt 4)); cbn [map shown]; [unfold choose_name; rewrite has_full|]; now rewrite <- ?app_assoc.
      + rewrite IHl by auto. unfold F at 2. cbn [is_dir node_name existsb orb]. unfold listed at 3. cbn [filter asked]. rewrite has_file.
        destruct (Z.testbit opt 1) eqn:E1; cbn [map shown]; [unfold choose_name; rewrite has_full|]; now rewrite <- ?app_assoc. }
  rewrite G by exact IH. reflexivity.
Qed.

(** ** Which entries there are *)
Lemma existsb_leaf kids : existsb is_dir kids = false <-> Forall (fun k => is_dir k = false) kids.
Proof.
  induction kids as [|k kids IH]; cbn; [split; auto|]. rewrite orb_false_iff, IH. split.
  - intros [A B]. constructor; auto.
  - intros H. apply Forall_cons_iff in H. auto.
Qed.
Lemma reach_inv n x p m : reach n (x :: p) m -> exists nm kids k, n = Dir nm (Some kids) /\ In k kids /\ x = node_name k /\ reach k p m.
Proof. intros H. inversion H; subst. eauto 10. Qed.
Lemma reach_nil_inv n m : reach n [] m -> m = n.
Proof. intros H. inversion H; auto. Qed.
Lemma file_entry f nm : forall n full, In (EFile f nm) (entries true full n) <->
  exists p m, reach n p m /\ p <> [] /\ is_dir m = false /\ nm = node_name m /\ f = path_of full p.
Proof.
  induction n as [nm' c|nm' b|nm'|nm' kids IH] using fnode_ind2; intros full; cbn [entries].
  1-3: split; [intros []|]; intros (p & m & R & Np & _); destruct p; [congruence|]; apply reach_inv in R as (? & ? & ? & E & _); discriminate.
  rewrite in_app_iff, in_flat_map. split.
  - intros [(k & Hk & Hi)|Hi].
    + destruct (is_dir k) eqn:Ek.
      * destruct Hi as [Hi|Hi]; [discriminate|]. rewrite Forall_forall in IH. apply (IH k Hk) in Hi as (p & m & R & Np & Dm & -> & ->).
        exists (node_name k :: p), m. repeat split; auto; try discriminate. econstructor; eauto.
      * destruct Hi as [Hi|[]]. injection Hi as <- <-. exists [node_name k], k. repeat split; auto; try discriminate. econstructor; eauto. constructor.
    + destruct (existsb is_dir kids); [destruct Hi|]. destruct Hi as [Hi|[]]. discriminate.
  - intros (p & m & R & Np & Dm & -> & ->). left. destruct p as [|x p]; [congruence|].
    apply reach_inv in R as (nm2 & ks2 & k & E & Hk & -> & R). injection E as <- <-. exists k. split; auto.
    destruct p as [|y p].
    + apply reach_nil_inv in R. subst m. rewrite Dm. now left.
    + pose proof R as R'. apply reach_inv in R' as (nm3 & ks3 & k3 & Ek & _). rewrite Ek in *. cbn [is_dir]. right. rewrite <- Ek in *.
      rewrite Forall_forall in IH. apply (IH k Hk). exists (y :: p), m. repeat split; auto. discriminate.
Qed.
Lemma leaf_entry f : forall n full, In (ELeaf f) (entries true full n) <->
  exists p m, reach n p m /\ leaf_dir m /\ f = path_of full p.
Proof.
  induction n as [nm' c|nm' b|nm'|nm' kids IH] using fnode_ind2; intros full; cbn [entries].
  1-3: split; [intros []|]; intros (p & m & R & (nm0 & k0 & -> & _) & _); destruct p;
    [apply reach_nil_inv in R; discriminate|apply reach_inv in R as (? & ? & ? & E & _); discriminate].
  rewrite in_app_iff, in_flat_map. split.
  - intros [(k & Hk & Hi)|Hi].
    + destruct (is_dir k) eqn:Ek.
      * destruct Hi as [Hi|Hi]; [discriminate|]. rewrite Forall_forall in IH. apply (IH k Hk) in Hi as (p & m & R & Lm & ->).
        exists (node_name k :: p), m. repeat split; auto. econstructor; eauto.
      * destruct Hi as [Hi|[]]. discriminate.
    + destruct (existsb is_dir kids) eqn:E; [destruct Hi|]. destruct Hi as [Hi|[]]. injection Hi as <-.
      exists [], (Dir nm' (Some kids)). split; [constructor|]. split; [|reflexivity]. exists nm', kids. split; auto. now apply existsb_leaf.
  - intros (p & m & R & Lm & ->). destruct p as [|x p].
    + apply reach_nil_inv in R. subst m. right. destruct Lm as (nm0 & k0 & E & L). injection E as <- <-. apply existsb_leaf in L. rewrite L. now left.
    + left. apply reach_inv in R as (nm2 & ks2 & k & E & Hk & -> & R). injection E as <- <-. exists k. split; auto.
      assert (Dk : is_dir k = true).
      { destruct p as [|y p].
        - apply reach_nil_inv in R. subst m. destruct Lm as (? & ? & -> & _). reflexivity.
        - apply reach_inv in R as (? & ? & ? & -> & _). reflexivity. }
      rewrite Dk. right. rewrite Forall_forall in IH. apply (IH k Hk). exists p, m. auto.
Qed.
Lemma deep_files n full x : In x (fst (get_deep_files full n)) <->
  exists p m, reach n p m /\ p <> [] /\ is_dir m = false /\ x = node_name m.
Proof.
  unfold get_deep_files. rewrite collect_spec. cbn [fst]. unfold listed. rewrite in_map_iff. split.
  - intros (e & <- & He). apply filter_In in He as [He Ha]. destruct e as [f nm|f nm|f]; try discriminate.
    apply file_entry in He as (p & m & R & Np & Dm & -> & _). exists p, m. auto.
  - intros (p & m & R & Np & Dm & ->). exists (EFile (path_of full p) (node_name m)). split; [reflexivity|].
    apply filter_In. split; [|reflexivity]. apply file_entry. exists p, m. auto.
Qed.
Lemma leaf_dirs n full x : In x (fst (get_leaf_dirs full n)) <-> exists p m, reach n p m /\ leaf_dir m /\ x = path_of full p.
Proof.
  unfold get_leaf_dirs. rewrite collect_spec. cbn [fst]. unfold listed. rewrite in_map_iff. split.
  - intros (e & <- & He). apply filter_In in He as [He Ha]. destruct e as [f nm|f nm|f]; try discriminate.
    apply leaf_entry in He as (p & m & R & Lm & ->). exists p, m. auto.
  - intros (p & m & R & Lm & ->). exists (ELeaf (path_of full p)). split; [reflexivity|].
    apply filter_In. split; [|reflexivity]. apply leaf_entry. exists p, m. auto.
Qed.
Lemma joins_ne l : joins l <> [].
Proof. apply clean_ne. Qed.
Lemma path_of_leads full p from : full <> [] -> Forall name p -> leads from (path_of full p) = rev p ++ leads from full.
Proof.
  intros N H. revert full N. induction H as [|x p Hx _ IH]; intros full N; [reflexivity|].
  change (path_of full (x :: p)) with (path_of (joins [full; x]) p). rewrite IH by apply joins_ne.
  rewrite joins_leads by auto. cbn [fold_left rev]. rewrite follow_fold, segments_one by (now apply name_flat). cbn [fold_left].
  rewrite go_name by auto. now rewrite <- app_assoc.
Qed.
Lemma sub_lists n full nm kids : n = Dir nm (Some kids) ->
  get_sub_dirs full n = (map node_name (filter is_dir kids), false) /\
  get_sub_files full n = (map node_name (filter (fun k => negb (is_dir k)) kids), false) /\
  get_subs full n = (map node_name kids, false).
Proof.
  intros ->. unfold get_sub_dirs, get_sub_files, get_subs. rewrite !collect_spec. cbn [entries].
  assert (T : forall o, Z.testbit o 4 = false -> listed o (if existsb is_dir kids then [] else [ELeaf full]) = []).
  { intros o Ho. destruct (existsb is_dir kids); [reflexivity|]. unfold listed. cbn [filter asked]. rewrite Ho, andb_false_r. reflexivity. }
  rewrite !listed_app, !T by reflexivity. rewrite !app_nil_r. clear T.
  repeat split; f_equal; (induction kids as [|k kids IH]; [reflexivity|]; cbn [flat_map filter map]; rewrite listed_app, IH;
    destruct (is_dir k); reflexivity).
Qed.
Lemma error_lost : exists n full opt, (forall nm kids, n <> Dir nm (Some kids)) /\ is_dir n = true /\ collect_subs full opt n = ([], false).
Proof. exists (Locked [97] true), [97], 3. split; [discriminate|]. split; reflexivity. Qed.
