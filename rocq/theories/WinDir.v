(** Proofs about Dir, Base and VolumeName on Windows. *)
From Coq Require Import ZArith List Bool Arith Lia ZifyBool ZifyNat.
From Verif Require Import GoBase GoStrings PathSpec PathModel PathProofs WinSpec WinModel WinProofs WinMore WinJoin.
Import ListNotations.
Open Scope Z_scope.

Lemma from_backslashed s : from_slash s = backslashed s.
Proof. apply map_ext. intros c. destruct (Z.eq_dec c 47), (Z.eqb_spec c 47); congruence. Qed.
Lemma volume_name_all s : (forall v r, volumed s v r -> volume_name s = backslashed v) /\ (no_volume s -> volume_name s = []).
Proof.
  unfold volume_name. split.
  - intros v r V. destruct (vol_ok s v r V) as [-> _]. apply from_backslashed.
  - intros N. now destruct (no_vol s N) as [-> _].
Qed.
Lemma strip_app a b : strip_seps b <> [] -> strip_seps (a ++ b) = a ++ strip_seps b.
Proof.
  intros N. induction a as [|c a IH]; [reflexivity|]. cbn [app strip_seps]. rewrite IH. destruct (a ++ strip_seps b) eqn:E; [|reflexivity].
  apply app_eq_nil in E as [_ E]. congruence.
Qed.
Lemma strip_seps_end a c : sep c -> strip_seps (a ++ [c]) = strip_seps a.
Proof.
  intros S. apply is_sep_spec in S. induction a as [|x a IH]; [cbn; now rewrite S|]. cbn [app strip_seps]. now rewrite IH.
Qed.
Lemma strip_word a c : ~ sep c -> strip_seps (a ++ [c]) = a ++ [c].
Proof. intros S. apply is_sep_false in S. rewrite strip_app; cbn; rewrite S; [reflexivity|discriminate]. Qed.
Lemma strip_volume v : plain_volume v -> strip_seps v = v.
Proof.
  intros [(c & L & ->)|[(a & b & h & d & w & _ & _ & _ & _ & (NW & FW & _) & ->) _]].
  - apply (strip_word [c] 58). intros [?|?]; discriminate.
  - destruct (exists_last NW) as (w' & z & ->). apply Forall_app in FW as [_ FZ]. inversion FZ; subst.
    replace (a :: b :: h ++ d :: w' ++ [z]) with ((a :: b :: h ++ d :: w') ++ [z]) by (cbn; now rewrite <- app_assoc). now apply strip_word.
Qed.
Lemma strip_path v cs x : wname x -> strip_seps (v ++ base (cs ++ [x])) = v ++ base (cs ++ [x]).
Proof.
  intros [(N & _ & _ & N2) N3]. rewrite base_snoc. destruct (exists_last N) as (x' & z & ->).
  replace (v ++ base cs ++ 47 :: x' ++ [z]) with ((v ++ base cs ++ 47 :: x') ++ [z]) by (now rewrite <- !app_assoc). apply strip_word.
  intros [->| ->]; [apply N2|apply N3]; apply in_or_app; right; now left.
Qed.
Lemma base_name v cs x : plain_volume v -> Forall wname cs -> wname x -> win_base (v ++ abs_path (cs ++ [x])) = x.
Proof.
  intros PV F X. assert (E : abs_path (cs ++ [x]) = base (cs ++ [x])) by (destruct cs; reflexivity). rewrite E.
  assert (FX : Forall wname (cs ++ [x])) by (apply Forall_app; auto).
  unfold win_base. rewrite strip_path by assumption. destruct (vol_ok _ _ _ (base_volumed v (cs ++ [x]) PV)) as [_ ->].
  rewrite (split_sep_path _ (base_no _ FX)), base_snoc, split_slash by (apply name_flat, X). cbn [snd].
  pose proof (plain_ne v PV). destruct X as [(N & _) _]. destruct v; [congruence|]. destruct x; [congruence|reflexivity].
Qed.
Lemma base_root v : plain_volume v -> win_base (v ++ [47]) = [92] /\ win_base v = [92].
Proof.
  intros PV. assert (V : volumed v v []) by (split; [now rewrite app_nil_r|]; destruct PV as [D|[S _]]; [now left|right; auto]).
  pose proof (plain_ne v PV) as NE. unfold win_base. rewrite strip_seps_end by (now left). rewrite (strip_volume v PV). destruct (vol_ok _ _ _ V) as [_ ->].
  destruct v; [congruence|]. split; reflexivity.
Qed.
Lemma dir_root v : plain_volume v -> win_dir (v ++ [47]) = from_slash (v ++ [47]).
Proof.
  intros PV. assert (V : volumed (v ++ [47]) v [47]) by (split; [reflexivity|]; destruct PV as [D|[S _]]; [now left|right; split; [assumption|now left]]).
  unfold win_dir, volume_name. destruct (vol_ok _ _ _ V) as [-> ->]. rewrite from_app. reflexivity.
Qed.
Lemma dir_bare v : share v -> win_dir v = from_slash v.
Proof.
  intros S. assert (V : volumed v v []) by (split; [now rewrite app_nil_r|right; auto]). unfold win_dir, volume_name. destruct (vol_ok _ _ _ V) as [-> ->].
  change (win_clean (fst (split_sep []))) with [46]. change (str_eqb [46] [46]) with true. rewrite from_length. pose proof (share_long v S).
  replace (2 <? length v)%nat with true; [reflexivity|]. symmetry. apply Nat.ltb_lt. lia.
Qed.
Lemma plain_of s v r : volumed s v r -> plain_volume (slashed v).
Proof. intros [_ [D|[S _]]]; [left; now rewrite (drive_slashed v D)|right; split; [now apply share_slashed|apply slashed_no]]. Qed.
Lemma stands_abs cur cwd v cs : plain_volume v -> Forall wname cs -> stands cur cwd (v ++ abs_path cs) v (rev cs).
Proof.
  intros PV F. assert (NA : ~ In 92 (abs_path cs)). { destruct cs as [|y l]; [intros [I|[]]; discriminate|]. exact (base_no (y :: l) F). }
  destruct PV as [D|[S NV]].
  - rewrite <- (leads_abs cs (cwd v) (wname_name _ F)). rewrite <- (slashed_id _ NA) at 2. apply st_drive; [now apply volumed_drive|assumption].
  - rewrite <- (leads_abs cs [] (wname_name _ F)). rewrite <- (slashed_id _ NA) at 2. rewrite <- (slashed_id v NV) at 2. apply st_share; [|assumption].
    split; [reflexivity|right; split; [assumption|]]. rewrite abs_path_join. now left.
Qed.
Lemma joins_abs v cs x : plain_volume v -> Forall wname cs -> wname x -> win_joins [from_slash (v ++ abs_path cs); x] = v ++ abs_path (cs ++ [x]).
Proof.
  intros PV F X. assert (FX : Forall wname (cs ++ [x])) by (apply Forall_app; auto).
  assert (V0 : volumed (v ++ abs_path cs) v (abs_path cs)).
  { split; [reflexivity|]. destruct PV as [D|[S _]]; [now left|right; split; [assumption|]]. rewrite abs_path_join. now left. }
  pose proof (volumed_from _ _ _ V0) as VH. set (h := from_slash (v ++ abs_path cs)) in *.
  assert (HN : h <> []) by (unfold h; intros E; apply map_eq_nil in E; destruct v; [destruct (plain_ne [] PV eq_refl)|discriminate]).
  rewrite joins_first_win by assumption. rewrite (join_volumed h [x] _ _ VH).
  2: { left. intros E. destruct VH as [E2 _]. rewrite E in E2. apply (f_equal (@length Z)) in E2. rewrite app_length in E2. rewrite (from_length (abs_path cs)), abs_path_join in E2. cbn in E2. lia. }
  rewrite <- win_path_slashed, back_slashed. cbn [map join_slash]. unfold h. rewrite slashed_from, slashed_app, (plain_slashed v PV).
  assert (NA : ~ In 92 (abs_path cs)). { destruct cs as [|y l]; [intros [I|[]]; discriminate|]. exact (base_no (y :: l) F). }
  rewrite (slashed_id _ NA), (slashed_id x) by apply X. rewrite <- app_assoc.
  assert (NR : ~ In 92 (abs_path cs ++ 47 :: x)) by (rewrite in_app_iff; intros [I|[I|I]]; [contradiction|discriminate|now apply X in I]).
  assert (VX : volumed (v ++ abs_path cs ++ 47 :: x) v (abs_path cs ++ 47 :: x)).
  { split; [reflexivity|]. destruct PV as [D|[S _]]; [now left|right; split; [assumption|]]. rewrite abs_path_join. now left. }
  assert (CX : clean (abs_path cs ++ 47 :: x) = abs_path (cs ++ [x])).
  { assert (EU : file_path (abs_path cs ++ 47 :: x) = file_path (abs_path (cs ++ [x]))).
    { apply clean_unique. intros p. rewrite (leads_abs (cs ++ [x])) by (now apply wname_name). rewrite leads_fold.
      replace (is_rooted (abs_path cs ++ 47 :: x)) with true by (rewrite abs_path_join; reflexivity). rewrite segments_app, fold_left_app.
      pose proof (leads_abs cs [] (wname_name _ F)) as LA. rewrite leads_fold, is_rooted_abs in LA. rewrite LA.
      rewrite (segments_one x) by (apply name_flat, X). rewrite rev_app_distr. exact (fold_names [x] (rev cs) ltac:(repeat constructor; apply X)). }
    unfold file_path in EU. rewrite EU. apply file_path_fix_abs. now apply wname_name. }
  destruct PV as [D|[S NV]].
  - now rewrite (win_path_drive _ _ _ VX D), (slashed_id _ NR), CX.
  - rewrite (win_path_share _ _ _ VX S), (slashed_id _ NR), (slashed_id v NV), CX. rewrite abs_path_join. reflexivity.
Qed.
Lemma dir_base s v r cur cwd : volumed s v r -> rooted r ->
  stands cur cwd (win_dir (win_path s)) (slashed v) (tl (leads [] (slashed r))) /\
  (leads [] (slashed r) = [] -> win_base (win_path s) = [92]) /\
  (leads [] (slashed r) <> [] -> win_base (win_path s) = hd [] (leads [] (slashed r)) /\
     win_joins [win_dir (win_path s); win_base (win_path s)] = win_path s).
Proof.
  intros V R. destruct (split_all_volumed s v r V R) as (cs & F & L & E & _). rewrite E, L. pose proof (plain_of s v r V) as PV.
  destruct cs as [|x0 cs0] eqn:EC.
  - change (abs_path []) with [47]. rewrite (dir_root _ PV). destruct (base_root _ PV) as [-> _]. split; [|split; [reflexivity|cbn; congruence]].
    apply stands_sys. exact (stands_abs cur cwd (slashed v) [] PV (Forall_nil _)).
  - rewrite <- EC in *. clear EC. destruct cs as [|x1 cs1] using rev_ind; [|clear IHcs1].
    + change (abs_path []) with [47]. rewrite (dir_root _ PV). destruct (base_root _ PV) as [-> _]. split; [|split; [reflexivity|cbn; congruence]].
      apply stands_sys. exact (stands_abs cur cwd (slashed v) [] PV (Forall_nil _)).
    + apply Forall_app in F as [F1 FX]. inversion FX as [|? ? X _]; subst. rewrite (dir_path _ _ _ PV F1 X), (base_name _ _ _ PV F1 X), rev_app_distr. cbn [rev app tl hd].
      split; [apply stands_sys; now apply stands_abs|]. split; [discriminate|]. intros _. split; [reflexivity|]. now apply joins_abs.
Qed.
Lemma dir_base_bare s v : volumed s v [] -> share v -> win_dir (win_path s) = backslashed v /\ win_base (win_path s) = [92].
Proof.
  intros V S. rewrite <- from_backslashed. destruct (split_all_bare s v V S) as [-> _]. rewrite (dir_bare _ (share_slashed v S)). split; [apply slashed_from_eq, slashed_idem|].
  apply base_root. right. split; [now apply share_slashed|apply slashed_no].
Qed.
(** Rooted paths without volume. *)
Lemma root_no_volume : no_volume [47].
Proof. now apply no_volume_len. Qed.
Lemma abs_no_volume cs : Forall wname cs -> no_volume (abs_path cs).
Proof. destruct cs as [|x cs]; [intros _; exact root_no_volume|]. exact (base_no_volume (x :: cs)). Qed.
Lemma abs_no cs : Forall wname cs -> ~ In 92 (abs_path cs).
Proof. destruct cs as [|x cs]; [intros _ [I|[]]; discriminate|]. exact (base_no (x :: cs)). Qed.
Lemma dir_none cs x : Forall wname cs -> wname x -> win_dir (abs_path (cs ++ [x])) = from_slash (abs_path cs).
Proof.
  intros F X. assert (E : abs_path (cs ++ [x]) = base (cs ++ [x])) by (destruct cs; reflexivity).
  assert (FX : Forall wname (cs ++ [x])) by (apply Forall_app; auto).
  unfold win_dir, volume_name. destruct (no_vol _ (abs_no_volume _ FX)) as [-> ->]. rewrite E.
  rewrite (split_sep_path _ (base_no _ FX)), base_snoc, split_slash by (apply name_flat, X). cbn [fst].
  assert (CB : clean (base cs ++ [47]) = abs_path cs).
  { pose proof (dir_abs cs x (wname_name _ F) (proj1 X)) as D. unfold dir_of in D. rewrite E, base_snoc, split_slash in D by (apply name_flat, X). exact D. }
  assert (NB : ~ In 92 (base cs ++ [47])) by (rewrite in_app_iff; intros [I|[I|[]]]; [now apply (base_no cs F)|discriminate]).
  assert (NV : no_volume (base cs ++ [47])).
  { intros v' r' [EV [(c & L & ->)|[(a & b & h & d & w & SA & SB & (NH & FH & _) & _ & _ & ->) _]]].
    - destruct cs as [|y cs]; cbn in EV; assert (47 = c) by congruence; lia.
    - destruct cs as [|y cs]; [cbn in EV; discriminate|]. inversion F as [|? ? [(Y1 & _ & _ & Y2) Y3] _]; subst. destruct y as [|y0 y]; [congruence|].
      cbn in EV. assert (y0 = b) by congruence. subst. destruct SB; subst; [apply Y2|apply Y3]; now left. }
  rewrite (win_clean_none _ NV) by (destruct (base cs); discriminate). rewrite (slashed_id _ NB), CB. cbn [from_slash map length]. rewrite andb_false_r. reflexivity.
Qed.
Lemma base_none cs x : Forall wname cs -> wname x -> win_base (abs_path (cs ++ [x])) = x.
Proof.
  intros F X. assert (E : abs_path (cs ++ [x]) = base (cs ++ [x])) by (destruct cs; reflexivity).
  assert (FX : Forall wname (cs ++ [x])) by (apply Forall_app; auto). unfold win_base. rewrite E.
  pose proof (strip_path [] cs x X) as SP. cbn [app] in SP. rewrite SP. destruct (no_vol _ (base_no_volume _ FX)) as [_ ->].
  rewrite (split_sep_path _ (base_no _ FX)), base_snoc, split_slash by (apply name_flat, X). cbn [snd].
  destruct X as [(N & _) _]. destruct x; [congruence|]. destruct (base cs); reflexivity.
Qed.
Lemma dir_base_none s cur cwd : no_volume s -> rooted s ->
  stands cur cwd (win_dir (win_path s)) cur (tl (leads [] (slashed s))) /\
  (leads [] (slashed s) = [] -> win_base (win_path s) = [92]) /\
  (leads [] (slashed s) <> [] -> win_base (win_path s) = hd [] (leads [] (slashed s))).
Proof.
  intros N R. destruct (split_all_rooted s N R) as (cs & F & L & -> & _). rewrite L.
  assert (ST : forall l, Forall wname l -> stands cur cwd (from_slash (abs_path l)) cur (rev l)).
  { intros l FL. apply stands_sys. rewrite <- (leads_abs l (cwd cur) (wname_name _ FL)). rewrite <- (slashed_id _ (abs_no l FL)) at 2. apply st_none. now apply abs_no_volume. }
  destruct (rev cs) as [|x l] eqn:ER.
  - assert (cs = []) by (destruct cs; [reflexivity|apply (f_equal (@length _)) in ER; rewrite rev_length in ER; discriminate]). subst.
    split; [exact (ST [] (Forall_nil _))|]. split; [reflexivity|congruence].
  - assert (cs = rev l ++ [x]) by (rewrite <- (rev_involutive cs), ER; reflexivity). subst cs. apply Forall_app in F as [F1 FX]. inversion FX as [|? ? X _]; subst.
    rewrite (dir_none _ _ F1 X), (base_none _ _ F1 X). cbn [tl hd]. split; [|split; [discriminate|reflexivity]].
    pose proof (ST _ F1) as S1. now rewrite rev_involutive in S1.
Qed.
