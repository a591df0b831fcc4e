From Coq Require Import ZArith List Bool Arith Lia.
From Verif Require Import GoBase GoLists GoStrings ConcBase SpinProofs PathModel PathSpec PathProofs PathMore WorkModel WorkSpec.
Import ListNotations.
Open Scope Z_scope.

Lemma enter_none : forall dirs segs, fold_left (enter dirs) segs None = None.
Proof. induction segs; cbn; auto. Qed.

Lemma tree_app : forall dirs, tree dirs -> forall l p, dirs (l ++ p) = true -> dirs p = true.
Proof. intros dirs [_ T]. induction l; cbn; intros p H; [exact H|]. apply T in H as [_ H]. auto. Qed.

Lemma tree_tl : forall dirs, tree dirs -> forall p, dirs p = true -> dirs (tl p) = true.
Proof. intros dirs [R T] [|x p] H; cbn; [exact R|]. apply T in H as [_ H]. exact H. Qed.

Lemma tree_skipn : forall dirs, tree dirs -> forall k p, dirs p = true -> dirs (skipn k p) = true.
Proof.
  intros dirs T k p H. rewrite <- (firstn_skipn k p) in H. eapply tree_app; [exact T|exact H].
Qed.

Lemma tree_names : forall dirs, tree dirs -> forall p, dirs p = true -> Forall name p.
Proof. intros dirs [R T]. induction p; intros H; constructor; apply T in H as [N H]; auto. Qed.

Lemma enter_go : forall dirs, tree dirs -> forall p x, dirs p = true ->
  enter dirs (Some p) x = if dirs (go p x) then Some (go p x) else None.
Proof.
  intros dirs T p x H. rewrite go_eq. cbn [enter].
  destruct (str_eqb x [] || str_eqb x [46]) eqn:A; [rewrite H; reflexivity|].
  destruct (str_eqb x [46; 46]); [rewrite (tree_tl _ T _ H); reflexivity|reflexivity].
Qed.

Lemma split_first : forall s, flat s \/ exists x t, flat x /\ s = x ++ 47 :: t.
Proof.
  induction s as [|c s IH].
  - left. intros [].
  - destruct (Z.eq_dec c 47) as [->|N].
    + right. exists [], s. split; [intros []|reflexivity].
    + destruct IH as [F|(x & t & F & ->)].
      * left. intros [E|E]; [congruence|apply F; exact E].
      * right. exists (c :: x), t. split; [intros [E|E]; [congruence|apply F; exact E]|reflexivity].
Qed.

Lemma flat_prefix : forall (x s q r : list Z), flat x -> x ++ s = q ++ 47 :: r -> exists y, q = x ++ y.
Proof.
  induction x as [|c x IH]; intros s q r F E; [exists q; reflexivity|].
  destruct q as [|d q].
  - cbn in E. injection E as -> _. exfalso. apply F. left. reflexivity.
  - cbn in E. injection E as -> E. destruct (IH s q r) as [y ->]; [|exact E|exists y; reflexivity].
    intros I. apply F. right. exact I.
Qed.

(** Following a path step by step. *)
Lemma enter_follow : forall dirs, tree dirs -> forall n s p, (length s <= n)%nat -> dirs p = true ->
  (fold_left (enter dirs) (segments s) (Some p) = Some (follow p [] s) /\
   forall q r, s = q ++ r -> r = [] \/ (exists r', r = 47 :: r') -> dirs (follow p [] q) = true) \/
  (fold_left (enter dirs) (segments s) (Some p) = None /\
   exists q r, s = q ++ r /\ (r = [] \/ (exists r', r = 47 :: r')) /\ dirs (follow p [] q) = false).
Proof.
  intros dirs T. induction n as [|n IH]; intros s p L H.
  - destruct s; [|cbn in L; lia]. left. cbn. split; [reflexivity|]. intros q r E _.
    destruct q; [|discriminate]. exact H.
  - destruct (split_first s) as [F|(x & t & F & ->)].
    + rewrite (segments_one s F). cbn [fold_left]. rewrite (enter_go _ T _ _ H).
      assert (FS: follow p [] s = go p s) by (rewrite follow_fold, segments_one by exact F; reflexivity).
      destruct (dirs (go p s)) eqn:D.
      * left. rewrite FS. split; [reflexivity|]. intros q r E [->|[r' ->]].
        -- rewrite app_nil_r in E. subst q. rewrite FS. exact D.
        -- exfalso. apply F. rewrite E. apply in_app_iff. right. left. reflexivity.
      * right. split; [reflexivity|]. exists s, []. rewrite app_nil_r. split; [reflexivity|]. split; [left; reflexivity|].
        rewrite FS. exact D.
    + rewrite (segments_slash x t F). cbn [fold_left]. rewrite (enter_go _ T _ _ H).
      assert (FX: follow p [] x = go p x) by (rewrite follow_fold, segments_one by exact F; reflexivity).
      assert (FS: forall u, follow p [] (x ++ 47 :: u) = follow (go p x) [] u).
      { intros u. rewrite !follow_fold, segments_slash by exact F. reflexivity. }
      destruct (dirs (go p x)) eqn:D.
      * assert (LT: (length t <= n)%nat) by (rewrite app_length in L; cbn in L; lia).
        destruct (IH t (go p x) LT D) as [[E A]|[E (q & r & -> & B & C)]]; rewrite E.
        -- left. rewrite FS. split; [reflexivity|]. intros q r EQ B.
           assert (Q: q = x \/ exists q', q = x ++ 47 :: q' /\ t = q' ++ r).
           { destruct B as [->|[r' ->]].
             - right. rewrite app_nil_r in EQ. exists t. split; [congruence|rewrite app_nil_r; reflexivity].
             - destruct (flat_prefix x (47 :: t) q r' F EQ) as [y ->]. rewrite <- app_assoc in EQ.
               apply app_inv_head in EQ. destruct y as [|d y]; [left; apply app_nil_r|].
               cbn in EQ. injection EQ as <- ->. right. exists y. split; reflexivity. }
           destruct Q as [->|(q' & -> & TQ)]; [rewrite FX; exact D|]. rewrite FS. eapply A; eassumption.
        -- right. split; [reflexivity|]. exists (x ++ 47 :: q), r. split; [rewrite <- app_assoc; reflexivity|].
           split; [exact B|]. rewrite FS. exact C.
      * right. split; [apply enter_none|]. exists x, (47 :: t). split; [reflexivity|]. split; [right; exists t; reflexivity|].
        rewrite FX. exact D.
Qed.

Lemma leads_follow : forall from s, s <> [] -> leads from s = follow (if is_rooted s then [] else from) [] s.
Proof.
  intros from s N. rewrite leads_fold, follow_fold. reflexivity.
Qed.

Lemma follow_nil : forall p, follow p [] [] = p.
Proof. reflexivity. Qed.

Lemma os_chdir_iff : forall dirs, tree dirs -> forall cwd s, dirs cwd = true ->
  (os_chdir dirs cwd s = Some (leads cwd s) /\ can_follow dirs cwd s) \/
  (os_chdir dirs cwd s = None /\ ~ can_follow dirs cwd s).
Proof.
  intros dirs T cwd s H. destruct s as [|c0 s0] eqn:ES.
  { right. split; [reflexivity|]. intros [N _]. apply N. reflexivity. }
  rewrite <- ES. assert (NE: s <> []) by (rewrite ES; discriminate).
  assert (OC: os_chdir dirs cwd s = fold_left (enter dirs) (segments s) (Some (if is_rooted s then [] else cwd))).
  { rewrite ES. reflexivity. }
  clear ES c0 s0. rewrite OC.
  assert (H0: dirs (if is_rooted s then [] else cwd) = true) by (destruct (is_rooted s); [apply T|exact H]).
  assert (PF: forall q r, s = q ++ r -> q <> [] -> leads cwd q = follow (if is_rooted s then [] else cwd) [] q).
  { intros q r -> Q. rewrite leads_follow by exact Q. destruct q; [contradiction|]. reflexivity. }
  destruct (enter_follow dirs T _ s _ (Nat.le_refl _) H0) as [[E A]|[E (q & r & EQ & B & C)]].
  - left. split; [rewrite E, leads_follow by exact NE; reflexivity|]. split; [exact NE|].
    intros q r EQ B. destruct q as [|c q]; [exact H|]. rewrite (PF _ _ EQ) by discriminate. eapply A; eassumption.
  - right. split; [exact E|]. intros [_ CF]. specialize (CF q r EQ B).
    destruct q as [|c q].
    + cbn [app] in EQ. rewrite follow_nil in C. congruence.
    + rewrite (PF _ _ EQ) in CF by discriminate. congruence.
Qed.

Lemma enter_names : forall dirs, tree dirs -> forall cs p, Forall name cs -> dirs p = true ->
  fold_left (enter dirs) cs (Some p) = if dirs (rev cs ++ p) then Some (rev cs ++ p) else None.
Proof.
  intros dirs T. induction cs as [|x cs IH]; intros p N H; cbn [fold_left rev].
  - cbn [app]. rewrite H. reflexivity.
  - apply Forall_cons_iff in N as [NX N]. rewrite (enter_go _ T _ _ H), (go_name _ _ NX), <- app_assoc.
    destruct (dirs (x :: p)) eqn:D; [rewrite IH by assumption; reflexivity|]. rewrite enter_none.
    destruct (dirs (rev cs ++ [x] ++ p)) eqn:E; [|reflexivity]. apply (tree_app _ T) in E. cbn in E. congruence.
Qed.

Lemma enter_ups : forall dirs, tree dirs -> forall k p, dirs p = true ->
  fold_left (enter dirs) (repeat dd k) (Some p) = Some (skipn k p).
Proof.
  intros dirs T. induction k as [|k IH]; intros p H; cbn [repeat fold_left]; [reflexivity|].
  rewrite (enter_go _ T _ _ H). change (go p dd) with (tl p). rewrite (tree_tl _ T _ H), IH by (apply (tree_tl _ T); exact H).
  rewrite skipn_tl. reflexivity.
Qed.

Lemma chdir_clean : forall dirs, tree dirs -> forall cwd s, dirs cwd = true ->
  os_chdir dirs cwd (file_path s) = if dirs (leads cwd s) then Some (leads cwd s) else None.
Proof.
  intros dirs T cwd s H. rewrite <- clean_leads.
  destruct (clean_canonical s) as [(cs & N & ->)|(k & cs & N & ->)].
  - rewrite leads_abs by exact N. unfold os_chdir. rewrite is_rooted_abs.
    destruct (abs_path cs) as [|c t] eqn:E; [destruct cs; discriminate E|]. rewrite <- E, segs_abs by exact N. cbn [fold_left].
    change (enter dirs (Some []) []) with (Some (@nil (list Z))).
    destruct cs as [|x cs].
    + cbn [fold_left rev]. cbn [enter]. cbn [str_eqb]. cbn. destruct T as [-> _]. reflexivity.
    + rewrite (enter_names dirs T (x :: cs) [] N (proj1 T)), app_nil_r. reflexivity.
  - change [46; 46] with dd in *. rewrite leads_rel by exact N. unfold os_chdir. rewrite rel_not_rooted by exact N.
    destruct (repeat dd k ++ cs) as [|x l] eqn:E.
    + apply app_eq_nil in E as [E1 ->]. destruct k; [|discriminate]. cbn. rewrite H. reflexivity.
    + assert (NE: repeat dd k ++ cs <> []) by (rewrite E; discriminate). rewrite <- E.
      rewrite rel_path_join by exact NE. rewrite segments_join_flat by (exact NE || apply ups_names_flat; exact N).
      rewrite fold_left_app, (enter_ups _ T _ _ H), (enter_names _ T _ _ N) by (apply (tree_skipn _ T); exact H).
      destruct (join_slash (repeat dd k ++ cs)) as [|c t] eqn:J; [|reflexivity].
      exfalso. apply NE. apply join_nil; [|exact J]. apply Forall_app. split.
      * apply Forall_forall. intros y Y. apply repeat_spec in Y. subst y. discriminate.
      * eapply Forall_impl; [|exact N]. intros a A. apply A.
Qed.

Lemma getwd_path : forall c, getwd c = path_of c.
Proof. intros. unfold getwd, path_of. symmetry. apply abs_path_join. Qed.

(** ** Histories *)
Definition winv (dirs : place -> bool) (w : work) : Prop :=
  dirs (k_cwd w) = true /\ exists d, dirs d = true /\ k_cached w = path_of d.

Lemma winv_init : forall dirs c, dirs c = true -> winv dirs (work_init c).
Proof. intros. split; [exact H|]. exists c. split; [exact H|apply getwd_path]. Qed.

Lemma os_chdir_dirs : forall dirs, tree dirs -> forall cwd s c, dirs cwd = true -> os_chdir dirs cwd s = Some c ->
  dirs c = true.
Proof.
  intros dirs T cwd s c H E. destruct (os_chdir_iff dirs T cwd s H) as [[E1 [_ CF]]|[E1 _]]; [|congruence].
  assert (c = leads cwd s) by congruence. subst c. apply (CF s []); [rewrite app_nil_r; reflexivity|left; reflexivity].
Qed.

Lemma winv_step : forall dirs, tree dirs -> forall w op w' o, winv dirs w -> work_step dirs w op = Ok (w', o) -> winv dirs w'.
Proof.
  intros dirs T w op w' o [H (d & D & C)] E. destruct op as [p|p| |p|]; cbn [work_step] in E.
  - destruct (os_chdir dirs (k_cwd w) (file_path p)) as [c|] eqn:O; injection E as <- <-; [|split; eauto].
    pose proof (os_chdir_dirs _ T _ _ _ H O). split; [assumption|]. exists c. split; [assumption|apply getwd_path].
  - destruct (os_chdir dirs (k_cwd w) p) as [c|] eqn:O; injection E as <- <-; [|split; eauto].
    pose proof (os_chdir_dirs _ T _ _ _ H O). split; [assumption|]. exists d. split; assumption.
  - injection E as <- <-. split; eauto.
  - injection E as <- <-. split; eauto.
  - injection E as <- <-. split; eauto.
Qed.

Lemma winv_run : forall dirs, tree dirs -> forall ops w w' o, winv dirs w ->
  run_ops (work_step dirs) w ops = Ok (w', o) -> winv dirs w'.
Proof.
  intros dirs T. induction ops as [|op ops IH]; intros w w' o W E; cbn [run_ops] in E.
  - injection E as <- _. exact W.
  - destruct (work_step dirs w op) as [[w1 o1]| |] eqn:E1; cbn [bind] in E; try discriminate.
    destruct (run_ops (work_step dirs) w1 ops) as [[w2 o2]| |] eqn:E2; cbn [bind] in E; try discriminate.
    injection E as <- _. eapply IH; [eapply winv_step; eassumption|exact E2].
Qed.

Lemma chdir_goes : forall dirs c ops w obs p, tree dirs -> dirs c = true ->
  run_ops (work_step dirs) (work_init c) ops = Ok (w, obs) ->
  (dirs (leads (k_cwd w) p) = true /\
   work_step dirs w (WChdir p) = Ok (Work (leads (k_cwd w) p) (path_of (leads (k_cwd w) p)), WErr false)) \/
  (dirs (leads (k_cwd w) p) = false /\ work_step dirs w (WChdir p) = Ok (w, WErr true)).
Proof.
  intros dirs c ops w obs p T H E. destruct (winv_run _ T _ _ _ _ (winv_init _ _ H) E) as [D _].
  cbn [work_step]. rewrite (chdir_clean _ T _ _ D). destruct (dirs (leads (k_cwd w) p)); [left|right]; split; auto.
  rewrite getwd_path. reflexivity.
Qed.

Lemma os_chdir_goes : forall dirs c ops w obs p, tree dirs -> dirs c = true ->
  run_ops (work_step dirs) (work_init c) ops = Ok (w, obs) ->
  (can_follow dirs (k_cwd w) p /\
   work_step dirs w (WOsChdir p) = Ok (Work (leads (k_cwd w) p) (k_cached w), WErr false) /\
   work_step dirs w (WChdir p) = Ok (Work (leads (k_cwd w) p) (path_of (leads (k_cwd w) p)), WErr false)) \/
  (~ can_follow dirs (k_cwd w) p /\ work_step dirs w (WOsChdir p) = Ok (w, WErr true)).
Proof.
  intros dirs c ops w obs p T H E. destruct (winv_run _ T _ _ _ _ (winv_init _ _ H) E) as [D _].
  destruct (os_chdir_iff dirs T (k_cwd w) p D) as [[O CF]|[O CF]].
  - left. split; [exact CF|]. split; [cbn [work_step]; rewrite O; reflexivity|].
    destruct (chdir_goes dirs c ops w obs p T H E) as [[_ X]|[X _]]; [exact X|].
    destruct CF as [_ CF]. rewrite (CF p []) in X; [discriminate X|rewrite app_nil_r; reflexivity|left; reflexivity].
  - right. split; [exact CF|]. cbn [work_step]. rewrite O. reflexivity.
Qed.

Lemma own_chdir_step : forall dirs w op w' o, own_chdir op -> k_cached w = path_of (k_cwd w) ->
  work_step dirs w op = Ok (w', o) -> k_cached w' = path_of (k_cwd w').
Proof.
  intros dirs w op w' o OW C E. destruct op as [p|p| |p|]; cbn [work_step] in E; [|destruct OW| | |].
  - destruct (os_chdir dirs (k_cwd w) (file_path p)); injection E as <- <-; [apply getwd_path|exact C].
  - injection E as <- <-. exact C.
  - injection E as <- <-. exact C.
  - injection E as <- <-. exact C.
Qed.

Lemma own_chdir_run : forall dirs ops w w' o, Forall own_chdir ops -> k_cached w = path_of (k_cwd w) ->
  run_ops (work_step dirs) w ops = Ok (w', o) -> k_cached w' = path_of (k_cwd w').
Proof.
  intros dirs. induction ops as [|op ops IH]; intros w w' o F C E; cbn [run_ops] in E.
  - injection E as <- _. exact C.
  - apply Forall_cons_iff in F as [F1 F].
    destruct (work_step dirs w op) as [[w1 o1]| |] eqn:E1; cbn [bind] in E; try discriminate.
    destruct (run_ops (work_step dirs) w1 ops) as [[w2 o2]| |] eqn:E2; cbn [bind] in E; try discriminate.
    injection E as <- _. eapply IH; [exact F|eapply own_chdir_step; eassumption|exact E2].
Qed.

Lemma work_path_cwd : forall dirs c ops w obs, Forall own_chdir ops ->
  run_ops (work_step dirs) (work_init c) ops = Ok (w, obs) ->
  exists p, work_path dirs w p /\ working_directory dirs w p.
Proof.
  intros dirs c ops w obs F E. exists (k_cached w). split; [reflexivity|].
  unfold working_directory. cbn [work_step]. rewrite getwd_path.
  rewrite (own_chdir_run _ _ _ _ _ F (getwd_path c : k_cached (work_init c) = path_of (k_cwd (work_init c))) E). reflexivity.
Qed.

Lemma no_chdir_run : forall dirs ops w w' o, run_ops (work_step dirs) w ops = Ok (w', o) ->
  Forall no_chdir (combine ops o) -> k_cached w' = k_cached w.
Proof.
  intros dirs. induction ops as [|op ops IH]; intros w w' o E F; cbn [run_ops] in E.
  - injection E as <- _. reflexivity.
  - destruct (work_step dirs w op) as [[w1 o1]| |] eqn:E1; cbn [bind] in E; try discriminate.
    destruct (run_ops (work_step dirs) w1 ops) as [[w2 o2]| |] eqn:E2; cbn [bind] in E; try discriminate.
    injection E as <- <-. cbn [combine] in F. apply Forall_cons_iff in F as [F1 F]. rewrite (IH _ _ _ E2 F).
    destruct op as [p|p| |p|]; cbn [work_step] in E1.
    + destruct (os_chdir dirs (k_cwd w) (file_path p)); injection E1 as <- <-; [destruct F1|reflexivity].
    + destruct (os_chdir dirs (k_cwd w) p); injection E1 as <- <-; reflexivity.
    + injection E1 as <- <-. reflexivity.
    + injection E1 as <- <-. reflexivity.
    + injection E1 as <- <-. reflexivity.
Qed.

Lemma work_path_last : forall dirs c ops1 w1 o1 p ops2 w2 o2, tree dirs -> dirs c = true ->
  run_ops (work_step dirs) (work_init c) ops1 = Ok (w1, o1) ->
  run_ops (work_step dirs) w1 (WChdir p :: ops2) = Ok (w2, WErr false :: o2) ->
  Forall no_chdir (combine ops2 o2) ->
  work_path dirs w2 (path_of (leads (k_cwd w1) p)).
Proof.
  intros dirs c ops1 w1 o1 p ops2 w2 o2 T H E1 E2 F.
  cbn [run_ops] in E2.
  destruct (chdir_goes dirs c ops1 w1 o1 p T H E1) as [[_ X]|[_ X]]; rewrite X in E2; cbn [bind] in E2.
  - destruct (run_ops (work_step dirs) _ ops2) as [[w3 o3]| |] eqn:E3; cbn [bind] in E2; try discriminate.
    injection E2 as <- <-. unfold work_path. cbn [work_step].
    rewrite (no_chdir_run _ _ _ _ _ E3 F). reflexivity.
  - destruct (run_ops (work_step dirs) w1 ops2) as [[w3 o3]| |]; cbn [bind] in E2; discriminate.
Qed.

(** ** Relative paths *)
Lemma rel_or_dot_abs : forall cs me, Forall name cs -> rel_or_dot (abs_path cs) me = relate me (abs_path cs).
Proof. intros. unfold rel_or_dot, relate. rewrite file_path_fix_abs by assumption. reflexivity. Qed.

Lemma path_of_names : forall dirs d, tree dirs -> dirs d = true -> Forall name (rev d).
Proof. intros. apply Forall_rev. eapply tree_names; eassumption. Qed.

Lemma relate_work_leads : forall dirs c ops w obs p t, tree dirs -> dirs c = true -> Forall own_chdir ops ->
  run_ops (work_step dirs) (work_init c) ops = Ok (w, obs) -> p = 47 :: t ->
  exists r, work_step dirs w (WRelate p) = Ok (w, WPath r) /\ leads (k_cwd w) r = leads (k_cwd w) p.
Proof.
  intros dirs c ops w obs p t T H F E P. destruct (winv_run _ T _ _ _ _ (winv_init _ _ H) E) as [D _].
  eexists. split; [reflexivity|]. rewrite (own_chdir_run _ _ _ _ _ F (getwd_path c : k_cached (work_init c) = path_of (k_cwd (work_init c))) E).
  unfold path_of. rewrite rel_or_dot_abs by (eapply path_of_names; eassumption).
  assert (L: leads (k_cwd w) (abs_path (rev (k_cwd w))) = k_cwd w).
  { rewrite leads_abs by (eapply path_of_names; eassumption). apply rev_involutive. }
  rewrite <- L at 1. rewrite relate_abs.
  - apply clean_leads.
  - unfold file_path. rewrite clean_rooted, P. reflexivity.
  - apply is_rooted_abs.
Qed.

Lemma relate_work_rel : forall dirs c ops w obs p, tree dirs -> dirs c = true ->
  run_ops (work_step dirs) (work_init c) ops = Ok (w, obs) -> (forall t, p <> 47 :: t) ->
  work_step dirs w (WRelate p) = Ok (w, WPath [46]).
Proof.
  intros dirs c ops w obs p T H E P. destruct (winv_run _ T _ _ _ _ (winv_init _ _ H) E) as [D (d & DD & C)].
  cbn [work_step]. rewrite C. unfold path_of. rewrite rel_or_dot_abs by (eapply path_of_names; eassumption).
  rewrite relate_mixed; [reflexivity|]. rewrite is_rooted_abs. unfold file_path. rewrite clean_rooted, (not_rooted _ P). discriminate.
Qed.

(** ** GOPATH *)
Lemma src_name : name [115; 114; 99].
Proof. repeat split; try discriminate. cbn. intuition discriminate. Qed.

Lemma first_entry_none : forall s, ~ In 59 s -> first_entry s = s.
Proof.
  induction s as [|c s IH]; intros H; [reflexivity|]. cbn. destruct (Z.eqb_spec c 59) as [->|N].
  - exfalso. apply H. left. reflexivity.
  - rewrite IH; [reflexivity|]. intros I. apply H. right. exact I.
Qed.
Lemma first_entry_some : forall s r, ~ In 59 s -> first_entry (s ++ 59 :: r) = s.
Proof.
  induction s as [|c s IH]; intros r H; [reflexivity|]. cbn. destruct (Z.eqb_spec c 59) as [->|N].
  - exfalso. apply H. left. reflexivity.
  - rewrite IH; [reflexivity|]. intros I. apply H. right. exact I.
Qed.

Lemma go_path_first : forall e r from, ~ In 59 e -> e <> [] ->
  (r = [] \/ exists r', r = 59 :: r') ->
  leads from (go_path (e ++ r)) = [115; 114; 99] :: leads from e.
Proof.
  intros e r from N NE R. unfold go_path. rewrite clean_leads.
  assert (FE: first_entry (e ++ r) = e).
  { destruct R as [->|[r' ->]]; [rewrite app_nil_r; apply first_entry_none|apply first_entry_some]; exact N. }
  rewrite FE, !leads_fold.
  change [47; 115; 114; 99; 47] with (47 :: [115; 114; 99; 47]). rewrite segments_app, fold_left_app.
  assert (RR: is_rooted (e ++ 47 :: [115; 114; 99; 47]) = is_rooted e) by (destruct e; [contradiction|reflexivity]).
  rewrite RR. reflexivity.
Qed.

Lemma go_path_abs : forall cs r, Forall name cs -> cs <> [] -> (forall x, In x cs -> ~ In 59 x) ->
  (r = [] \/ exists r', r = 59 :: r') ->
  go_path (abs_path cs ++ r) = abs_path (cs ++ [[115; 114; 99]]).
Proof.
  intros cs r N NE NS R.
  assert (NA: ~ In 59 (abs_path cs)).
  { destruct cs; [contradiction|]. unfold abs_path. rewrite in_concat. intros (l0 & A & B).
    apply in_map_iff in A as (x & <- & A). destruct B as [B|B]; [discriminate|]. eapply NS; eassumption. }
  assert (GP: go_path (abs_path cs ++ r) = file_path (go_path (abs_path cs ++ r))).
  { unfold go_path. symmetry. apply clean_idem. }
  rewrite GP. rewrite <- (file_path_fix_abs (cs ++ [[115; 114; 99]])).
  2:{ apply Forall_app. split; [exact N|]. constructor; [apply src_name|constructor]. }
  apply clean_unique. intros p.
  rewrite go_path_first; [|exact NA|destruct cs; discriminate|exact R].
  rewrite !leads_abs; [rewrite rev_app_distr; reflexivity| |exact N].
  apply Forall_app. split; [exact N|]. constructor; [apply src_name|constructor].
Qed.

Lemma relate_go_below : forall cs r ds, Forall name cs -> cs <> [] -> (forall x, In x cs -> ~ In 59 x) ->
  (r = [] \/ exists r', r = 59 :: r') -> Forall name ds ->
  relate_go (abs_path cs ++ r) (abs_path (cs ++ [115; 114; 99] :: ds)) = rel_path ds.
Proof.
  intros cs r ds N NE NS R ND. unfold relate_go. rewrite go_path_abs by assumption.
  assert (N1: Forall name (cs ++ [[115; 114; 99]])).
  { apply Forall_app. split; [exact N|]. constructor; [apply src_name|constructor]. }
  assert (N2: Forall name (cs ++ [115; 114; 99] :: ds)).
  { apply Forall_app. split; [exact N|]. constructor; [apply src_name|exact ND]. }
  rewrite rel_or_dot_abs, file_path_fix_abs by assumption.
  assert (RF: relate (abs_path (cs ++ [115; 114; 99] :: ds)) (abs_path (cs ++ [[115; 114; 99]])) = rel_path ds).
  { unfold relate, fp_rel. rewrite !file_path_fix_abs by assumption. 
    rewrite !is_rooted_abs, !elements_abs by assumption. cbn [xorb].
    replace (cs ++ [115; 114; 99] :: ds) with ((cs ++ [[115; 114; 99]]) ++ ds) by (rewrite <- app_assoc; reflexivity).
    assert (DC: forall a b, drop_common a (a ++ b) = ([], b)).
    { induction a as [|x a IH]; intros b; [destruct b; reflexivity|]. cbn [app drop_common].
      assert (X: str_eqb x x = true) by (apply str_eqb_eq; reflexivity). rewrite X. apply IH. }
    rewrite DC.
    destruct (str_eqb (abs_path ((cs ++ [[115; 114; 99]]) ++ ds)) (abs_path (cs ++ [[115; 114; 99]]))) eqn:S.
    - apply str_eqb_eq in S. 
      assert (L: rev ((cs ++ [[115; 114; 99]]) ++ ds) = rev (cs ++ [[115; 114; 99]])).
      { rewrite <- (leads_abs _ [] N1), <- S. symmetry. apply leads_abs. rewrite <- app_assoc. exact N2. }
      assert (LL: length ((cs ++ [[115; 114; 99]]) ++ ds) = length (cs ++ [[115; 114; 99]])) by (rewrite <- rev_length, L, rev_length; reflexivity).
      rewrite (app_length (cs ++ _)) in LL. destruct ds; [reflexivity|cbn in LL; lia].
    - destruct ds as [|y ds]; [rewrite app_nil_r in S; assert (X: str_eqb (abs_path (cs ++ [[115; 114; 99]])) (abs_path (cs ++ [[115; 114; 99]])) = true) by (apply str_eqb_eq; reflexivity); congruence|].
      rewrite <- rel_path_join by discriminate. apply (rel_fix 0). exact ND. }
  exact RF.
Qed.

Lemma relate_go_leads : forall e r p t u from, ~ In 59 e -> e = 47 :: u -> (r = [] \/ exists r', r = 59 :: r') -> p = 47 :: t ->
  leads (leads from (go_path (e ++ r))) (relate_go (e ++ r) p) = leads from p.
Proof.
  intros e r p t u from N EU R P. unfold relate_go.
  assert (RG: is_rooted (go_path (e ++ r)) = true).
  { unfold go_path, file_path. rewrite clean_rooted.
    assert (FE: first_entry (e ++ r) = e).
    { destruct R as [->|[r' ->]]; [rewrite app_nil_r; apply first_entry_none|apply first_entry_some]; exact N. }
    rewrite FE, EU. reflexivity. }
  assert (RD: rel_or_dot (go_path (e ++ r)) (file_path p) = relate (file_path p) (go_path (e ++ r))).
  { unfold rel_or_dot, relate. unfold go_path at 2. rewrite clean_idem. reflexivity. }
  rewrite RD, relate_abs; [apply clean_leads| |exact RG].
  unfold file_path. rewrite clean_rooted, P. reflexivity.
Qed.

(** ** Goroutines *)
Definition cwd_after dirs c l : place := k_cwd (ch_work (fst (crun (ch_step dirs) (ch_init c) l))).
Definition was_cwd dirs c (sched : list (nat * list Z)) (v : list Z) : Prop :=
  exists l1 l2, sched = l1 ++ l2 /\ v = path_of (cwd_after dirs c l1).

Lemma was_cwd_snoc : forall dirs c sched e v, was_cwd dirs c sched v -> was_cwd dirs c (sched ++ [e]) v.
Proof. intros dirs c sched e v (l1 & l2 & -> & ->). exists l1, (l2 ++ [e]). rewrite app_assoc. split; reflexivity. Qed.
Lemma was_cwd_now : forall dirs c sched, was_cwd dirs c sched (path_of (cwd_after dirs c sched)).
Proof. intros. exists sched, []. rewrite app_nil_r. split; reflexivity. Qed.

Lemma conc_inv : forall dirs c sched,
  let s := fst (crun (ch_step dirs) (ch_init c) sched) in
  was_cwd dirs c sched (k_cached (ch_work s)) /\
  forall t q v, ch_pcs s t = CSet q v -> was_cwd dirs c sched v.
Proof.
  intros dirs c. induction sched as [|[t p] sched IH] using rev_ind.
  - cbn. split; [|discriminate]. exists [], []. split; [reflexivity|apply getwd_path].
  - cbv zeta. rewrite crun_snoc. cbn [fst]. cbv zeta in IH. destruct IH as [IC IP].
    pose proof (was_cwd_now dirs c sched) as NOW. unfold cwd_after in NOW.
    remember (fst (crun (ch_step dirs) (ch_init c) sched)) as s eqn:ES. clear ES.
    assert (KEEP: forall v, was_cwd dirs c sched v -> was_cwd dirs c (sched ++ [(t, p)]) v) by (intros; apply was_cwd_snoc; assumption).
    unfold ch_step. destruct (ch_pcs s t) as [|q|q|q v] eqn:PC.
    + cbn [fst ch_work ch_pcs]. split; [apply KEEP; exact IC|]. intros u q v U. unfold fupd in U. destruct (u =? t)%nat; [discriminate|].
      apply KEEP. eapply IP. exact U.
    + destruct (os_chdir dirs (k_cwd (ch_work s)) (file_path q)); cbn [fst ch_work ch_pcs k_cached];
        (split; [apply KEEP; exact IC|]; intros u q' v U; unfold fupd in U; destruct (u =? t)%nat; [discriminate|];
         apply KEEP; eapply IP; exact U).
    + cbn [fst ch_work ch_pcs]. split; [apply KEEP; exact IC|]. intros u q' v U. unfold fupd in U. destruct (u =? t)%nat.
      * injection U as <- <-. rewrite getwd_path. apply KEEP. exact NOW.
      * apply KEEP. eapply IP. exact U.
    + cbn [fst ch_work ch_pcs k_cached]. split; [apply KEEP; eapply IP; exact PC|]. intros u q' v' U. unfold fupd in U. destruct (u =? t)%nat; [discriminate|].
      apply KEEP. eapply IP. exact U.
Qed.

Lemma conc_was_cwd : forall dirs c sched, exists l1 l2, sched = l1 ++ l2 /\
  k_cached (ch_work (fst (crun (ch_step dirs) (ch_init c) sched))) =
  path_of (k_cwd (ch_work (fst (crun (ch_step dirs) (ch_init c) l1)))).
Proof. intros. apply (proj1 (conc_inv dirs c sched)). Qed.

Lemma one_inv : forall dirs c sched, one_at_a_time dirs c sched ->
  let s := fst (crun (ch_step dirs) (ch_init c) sched) in
  (forall t q v, ch_pcs s t = CSet q v -> v = path_of (k_cwd (ch_work s))) /\
  ((exists t q, ch_pcs s t = CGet q \/ exists v, ch_pcs s t = CSet q v) \/ k_cached (ch_work s) = path_of (k_cwd (ch_work s))).
Proof.
  intros dirs c. induction sched as [|[t p] sched IH] using rev_ind; intros ONE.
  - cbn. split; [discriminate|]. right. apply getwd_path.
  - assert (ONE1: one_at_a_time dirs c sched).
    { intros l1 l2 E. apply (ONE l1 (l2 ++ [(t, p)])). rewrite E, app_assoc. reflexivity. }
    specialize (IH ONE1). cbv zeta in *. rewrite crun_snoc. cbn [fst].
    pose proof (ONE sched [(t, p)] eq_refl) as OT.
    unfold outside in OT.
    remember (fst (crun (ch_step dirs) (ch_init c) sched)) as s eqn:ES. clear ES ONE ONE1.
    destruct IH as [IP IC].
    assert (OTHER: ch_pcs s t <> CIdle -> forall u, u <> t -> ch_pcs s u = CIdle).
    { intros N u U. destruct (OT t u) as [X|X]; [congruence|contradiction|exact X]. }
    unfold ch_step. destruct (ch_pcs s t) as [|q|q|q v] eqn:PC.
    + cbn [fst ch_work ch_pcs]. split.
      * intros u q v U. unfold fupd in U. destruct (Nat.eqb_spec u t); [discriminate|]. eapply IP. exact U.
      * destruct IC as [(u & q & U)|IC]; [|right; exact IC]. left. exists u, q. unfold fupd.
        destruct (Nat.eqb_spec u t) as [->|_]; [|exact U]. destruct U as [U|[v U]]; congruence.
    + assert (OI: forall u, u <> t -> ch_pcs s u = CIdle) by (apply OTHER; congruence).
      destruct (os_chdir dirs (k_cwd (ch_work s)) (file_path q)) as [d|]; cbn [fst ch_work ch_pcs k_cwd k_cached].
      * split.
        -- intros u q' v U. unfold fupd in U. destruct (Nat.eqb_spec u t) as [_|N]; [discriminate|]. rewrite (OI u N) in U. discriminate.
        -- left. exists t, q. left. apply fupd_same.
      * split.
        -- intros u q' v U. unfold fupd in U. destruct (Nat.eqb_spec u t) as [_|N]; [discriminate|]. eapply IP. exact U.
        -- right. destruct IC as [(u & q' & U)|IC]; [|exact IC]. exfalso. destruct (Nat.eq_dec u t) as [->|N].
           ++ destruct U as [U|[v U]]; congruence.
           ++ rewrite (OI u N) in U. destruct U as [U|[v U]]; discriminate.
    + assert (OI: forall u, u <> t -> ch_pcs s u = CIdle) by (apply OTHER; congruence).
      cbn [fst ch_work ch_pcs]. split.
      * intros u q' v U. unfold fupd in U. destruct (Nat.eqb_spec u t) as [_|N].
        -- injection U as <- <-. apply getwd_path.
        -- rewrite (OI u N) in U. discriminate.
      * left. exists t, q. right. eexists. apply fupd_same.
    + assert (OI: forall u, u <> t -> ch_pcs s u = CIdle) by (apply OTHER; congruence).
      cbn [fst ch_work ch_pcs k_cwd k_cached]. split.
      * intros u q' v' U. unfold fupd in U. destruct (Nat.eqb_spec u t) as [_|N]; [discriminate|]. rewrite (OI u N) in U. discriminate.
      * right. eapply IP. exact PC.
Qed.

Lemma one_quiet : forall dirs c sched, one_at_a_time dirs c sched ->
  (forall t, outside (fst (crun (ch_step dirs) (ch_init c) sched)) t) ->
  let w := ch_work (fst (crun (ch_step dirs) (ch_init c) sched)) in
  exists p, work_path dirs w p /\ working_directory dirs w p.
Proof.
  intros dirs c sched ONE Q. cbv zeta. destruct (one_inv dirs c sched ONE) as [_ [(t & q & X)|C]].
  - specialize (Q t). unfold outside in Q. rewrite Q in X. destruct X as [X|[v X]]; discriminate.
  - eexists. split; [reflexivity|]. unfold working_directory. cbn [work_step]. rewrite getwd_path, C. reflexivity.
Qed.
