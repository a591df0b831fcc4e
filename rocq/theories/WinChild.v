(** A name joined to a path on Windows: its Base and its Dir. *)
From Coq Require Import ZArith List Bool Arith Lia.
From Verif Require Import GoBase GoStrings PathSpec PathModel PathProofs WinSpec WinModel WinProofs WinMore WinJoin WinDir WinRelDir.
Import ListNotations.
Open Scope Z_scope.

Lemma leads_child p h x : h <> [] -> wname x -> leads p (slashed (h ++ 92 :: x)) = x :: leads p (slashed h).
Proof.
  intros N [(X1 & X2 & X3 & X4) X9]. rewrite slashed_app. change (slashed (92 :: x)) with (47 :: slashed x). rewrite (slashed_id x X9), leads_fold, segments_app, (segments_one x X4), fold_left_app.
  replace (is_rooted (slashed h ++ 47 :: x)) with (is_rooted (slashed h)) by (destruct h; [congruence|reflexivity]). rewrite <- leads_fold. cbn [fold_left]. unfold go.
  destruct (list_eq_dec Z.eq_dec x []), (list_eq_dec Z.eq_dec x [46]), (list_eq_dec Z.eq_dec x [46; 46]); congruence.
Qed.
Lemma path_ne s : win_path s <> [].
Proof.
  intros E. destruct (volumed_cases s) as [N|(v & r & V & _)].
  - rewrite (win_path_none s N) in E. destruct (clean_form (slashed s)) as [(_ & cs & _ & C & _)|(_ & k & cs & F & C & _)]; rewrite E in C.
    + rewrite abs_path_join in C. discriminate.
    + destruct (repeat dd k ++ cs) as [|z q] eqn:Eq; [discriminate|].
      assert (z <> []) by (destruct k; cbn in Eq; [subst cs; exact (proj1 (Forall_inv F))|injection Eq as <- _; discriminate]). destruct z; [congruence|]. destruct q; discriminate.
  - destruct (volumed_path s v r V) as (r' & E2 & _). rewrite E in E2. symmetry in E2. apply app_eq_nil in E2 as [E2 _]. exact (plain_ne _ (plain_of s v r V) E2).
Qed.
Lemma join_plain h x : no_volume h -> ~ In 58 h -> h <> [] -> no_volume (h ++ 92 :: x) -> ~ In 58 x -> win_joins [h; x] = win_path (h ++ 92 :: x).
Proof.
  intros N C H NJ X. rewrite joins_first_win by exact H. unfold join_non_empty. cbn [join_back].
  assert (L : (length h =? 2)%nat && (nth 1 h 0 =? 58) = false).
  { apply andb_false_iff. destruct (Nat.eqb_spec (length h) 2) as [L|]; [right|now left]. apply Z.eqb_neq. intros E. apply C. rewrite <- E. apply nth_In. lia. }
  rewrite L. assert (CJ : ~ In 58 (h ++ 92 :: x)) by (rewrite in_app_iff; intros [I|[I|I]]; [auto|discriminate|auto]).
  pose proof (plain_kept _ CJ NJ) as K. assert (U : is_unc (win_clean (h ++ 92 :: x)) = false).
  { unfold is_unc. unfold win_path in K. rewrite to_slash_slashed in K. apply (proj1 (no_volume_slashed _)), no_volume_len in K. now rewrite K. }
  rewrite U. cbn [negb]. rewrite win_path_clean. apply win_path_idem. intros _. exact K.
Qed.
Lemma child_none s x : no_volume s -> ~ In 58 s -> wname x -> ~ In 58 x -> win_base (win_joins [win_path s; x]) = x /\
  forall cur cwd, stands cur cwd (win_dir (win_joins [win_path s; x])) cur (leads (cwd cur) (slashed s)).
Proof.
  intros N C X X5. pose proof (path_ne s) as HN. assert (NH : no_volume (win_path s)) by now apply plain_kept.
  assert (C5 : ~ In 58 (win_path s)) by (rewrite (win_path_none s N); apply clean_colon; now apply slashed_colon).
  assert (LS : forall p, leads p (slashed (win_path s)) = leads p (slashed s)) by (intros p; rewrite (win_path_none s N); apply leads_clean).
  assert (CJ : ~ In 58 (win_path s ++ 92 :: x)) by (rewrite in_app_iff; intros [I|[I|I]]; [auto|discriminate|auto]).
  destruct (rooted_dec s) as [R|R].
  - destruct (split_all_rooted s N R) as (cs & F & L & E & _).
    assert (NJ : no_volume (win_path s ++ 92 :: x)).
    { rewrite E. intros v r V. destruct V as [Ev [D|[(a & b & h & d & w & _ & SB & (HN' & FH & HD) & SD & _ & ->) _]]].
      - destruct D as (c & _ & ->). apply CJ. rewrite E, Ev. right. now left.
      - destruct cs as [|y cs].
        + cbn [app abs_path] in Ev. injection Ev as _ _ Ev. assert (I : In d x) by (rewrite Ev; apply in_or_app; left; apply in_or_app; right; now left).
          destruct X as [(_ & _ & _ & X4) X9]. destruct SD as [->| ->]; auto.
        + inversion F as [|? ? [(Y1 & _ & _ & Y4) Y9] _]; subst. destruct y as [|y0 y]; [congruence|]. cbn in Ev. injection Ev as _ Ev _. subst b.
          destruct SB as [->| ->]; [apply Y4|apply Y9]; now left. }
    rewrite (join_plain _ x NH C5 HN NJ X5).
    assert (RJ : rooted (win_path s ++ 92 :: x)) by (rewrite E, abs_path_join; eexists; eexists; split; [reflexivity|now left]).
    assert (LJ : leads [] (slashed (win_path s ++ 92 :: x)) = x :: rev cs) by (rewrite leads_child by assumption; now rewrite LS, L).
    split.
    + destruct (dir_base_none _ [] (fun _ => []) NJ RJ) as (_ & _ & B). rewrite LJ in B. exact (B ltac:(discriminate)).
    + intros cur cwd. destruct (dir_base_none _ cur cwd NJ RJ) as (D & _). rewrite LJ in D. cbn [tl] in D. now rewrite L.
  - destruct (relative_form s N C R) as (k & cs & Fe & _ & E & _). destruct (rel_head _ Fe) as (c & t & Eh & Hc).
    assert (NJ : no_volume (win_path s ++ 92 :: x)) by (apply (no_volume_head _ c (t ++ 92 :: x)); [rewrite E, Eh; reflexivity|exact Hc|exact CJ]).
    rewrite (join_plain _ x NH C5 HN NJ X5).
    assert (RJ : ~ rooted (win_path s ++ 92 :: x)) by (rewrite E, Eh; intros (c' & t' & Q & S); injection Q as <- _; auto).
    destruct (dir_base_relative _ x (fun p => leads p (slashed s)) NJ CJ RJ) as (B & D1 & D2 & _); [intros p; rewrite leads_child by assumption; now rewrite LS|].
    split; [exact B|]. intros cur cwd. rewrite <- D2. now apply st_none.
Qed.
Lemma child_rooted s v r x : volumed s v r -> rooted r -> wname x -> win_base (win_joins [win_path s; x]) = x /\
  forall cur cwd, stands cur cwd (win_dir (win_joins [win_path s; x])) (slashed v) (leads [] (slashed r)).
Proof.
  intros V R X. pose proof (plain_of s v r V) as PV. destruct (split_all_volumed s v r V R) as (cs & F & L & E & _).
  assert (VH : volumed (win_path s) (slashed v) (abs_path cs)).
  { rewrite E. split; [reflexivity|]. destruct PV as [D|[S _]]; [now left|right; split; [exact S|]]. rewrite abs_path_join. now left. }
  assert (NE : win_path s <> slashed v) by (rewrite E; intros Q; rewrite <- (app_nil_r (slashed v)) in Q at 2; apply app_inv_head in Q; rewrite abs_path_join in Q; discriminate).
  rewrite joins_first_win by apply path_ne. rewrite (join_volumed _ [x] _ _ VH) by now left.
  assert (NA : ~ In 92 (abs_path cs)) by (destruct cs as [|y l]; [intros [I|[]]; discriminate|exact (base_no (y :: l) F)]).
  assert (VJ : volumed (join_back [win_path s; x]) (slashed v) (abs_path cs ++ 92 :: x)).
  { cbn [join_back]. rewrite E, <- app_assoc. split; [reflexivity|]. destruct PV as [D|[S _]]; [now left|right; split; [exact S|]]. rewrite abs_path_join. now left. }
  assert (RJ : rooted (abs_path cs ++ 92 :: x)) by (rewrite abs_path_join; eexists; eexists; split; [reflexivity|now left]).
  assert (LJ : leads [] (slashed (abs_path cs ++ 92 :: x)) = x :: rev cs).
  { rewrite leads_child by (exact X || (rewrite abs_path_join; discriminate)). rewrite (slashed_id _ NA). now rewrite leads_abs by now apply wname_name. }
  split.
  - destruct (dir_base _ _ _ [] (fun _ => []) VJ RJ) as (_ & _ & B). rewrite LJ in B. exact (proj1 (B ltac:(discriminate))).
  - intros cur cwd. destruct (dir_base _ _ _ cur cwd VJ RJ) as (D & _). rewrite LJ, slashed_idem in D. cbn [tl] in D. now rewrite L.
Qed.
Lemma child_share s v x : volumed s v [] -> share v -> wname x -> win_base (win_joins [win_path s; x]) = x /\
  forall cur cwd, stands cur cwd (win_dir (win_joins [win_path s; x])) (slashed v) [].
Proof.
  intros V S X. destruct (split_all_bare s v V S) as [E _]. pose proof (plain_of s v [] V) as PV.
  rewrite E, (joins_share (slashed v) [x] (share_slashed v S) (slashed_no v)) by (discriminate || (constructor; [exact X|constructor])).
  split; [exact (base_name _ [] x PV (Forall_nil _) X)|]. intros cur cwd. change [x] with ([] ++ [x]). rewrite (dir_path _ [] x PV (Forall_nil _) X).
  apply stands_sys. exact (stands_abs cur cwd _ [] PV (Forall_nil _)).
Qed.
Lemma child_drive s v r x : volumed s v r -> drive v -> ~ rooted r -> ~ In 58 r -> wname x -> ~ In 58 x -> win_base (win_joins [win_path s; x]) = x /\
  forall cur cwd, stands cur cwd (win_dir (win_joins [win_path s; x])) v (leads (cwd v) (slashed r)).
Proof.
  intros V D R C X X5. destruct (relative_clean r C R) as (k & cs & Fe & _ & E & _). destruct (rel_head _ Fe) as (c & t & Eh & Hc).
  pose proof (win_path_drive s v r V D) as W. rewrite E in W. set (q := rel_path (repeat dd k ++ cs)) in *.
  assert (QN : q <> []) by (rewrite Eh; discriminate). pose proof (volumed_drive v q D) as VH. rewrite <- W in VH.
  assert (NE : win_path s <> v) by (rewrite W; intros Q; rewrite <- (app_nil_r v) in Q at 2; apply app_inv_head in Q; auto).
  rewrite joins_first_win by apply path_ne. rewrite (join_volumed _ [x] _ _ VH) by now left. cbn [join_back].
  assert (VJ : volumed (win_path s ++ 92 :: x) v (q ++ 92 :: x)) by (rewrite W, <- app_assoc; now apply volumed_drive).
  destruct (elem_no _ Fe) as [Q9 Q5]. fold q in Q9, Q5.
  assert (CJ : ~ In 58 (q ++ 92 :: x)) by (rewrite in_app_iff; intros [I|[I|I]]; [auto|discriminate|auto]).
  assert (RJ : ~ rooted (q ++ 92 :: x)) by (rewrite Eh; intros (c' & t' & Q & S); injection Q as <- _; auto).
  apply (dir_base_drive _ v _ x (fun p => leads p (slashed r)) VJ D CJ RJ). intros p. rewrite leads_child by assumption. assert (LQ : leads p (slashed q) = leads p (slashed r)) by (rewrite <- E; apply leads_clean). now rewrite LQ.
Qed.
Lemma child_all s x : one_colon s -> wname x -> ~ In 58 x -> win_base (win_joins [win_path s; x]) = x /\
  forall cur cwd v d, stands cur cwd s v d -> stands cur cwd (win_dir (win_joins [win_path s; x])) v d.
Proof.
  intros [CV CN] X X5. destruct (volumed_cases s) as [N|(v & r & V & _)].
  - destruct (child_none s x N (CN N) X X5) as [B D]. split; [exact B|]. intros cur cwd v d S. destruct (stands_fun _ _ _ _ _ _ _ S (st_none cur cwd s N)) as [-> ->]. apply D.
  - pose proof V as [_ [Dr|[Sh TR]]].
    + destruct (rooted_dec r) as [R|R].
      * destruct (child_rooted s v r x V R X) as [B D]. split; [exact B|]. intros cur cwd v' d S. destruct (stands_fun _ _ _ _ _ _ _ S (st_drive cur cwd s v r V Dr)) as [-> ->].
        specialize (D cur cwd). rewrite (drive_slashed v Dr) in D. destruct (split_all_volumed s v r V R) as (cs & _ & L & _). rewrite L in *. exact D.
      * destruct (child_drive s v r x V Dr R (CV _ _ V) X X5) as [B D]. split; [exact B|]. intros cur cwd v' d S. destruct (stands_fun _ _ _ _ _ _ _ S (st_drive cur cwd s v r V Dr)) as [-> ->]. apply D.
    + destruct r as [|c r].
      * destruct (child_share s v x V Sh X) as [B D]. split; [exact B|]. intros cur cwd v' d S. destruct (stands_fun _ _ _ _ _ _ _ S (st_share cur cwd s v [] V Sh)) as [-> ->]. apply D.
      * assert (R : rooted (c :: r)) by (exists c, r; auto). destruct (child_rooted s v _ x V R X) as [B D]. split; [exact B|]. intros cur cwd v' d S.
        destruct (stands_fun _ _ _ _ _ _ _ S (st_share cur cwd s v _ V Sh)) as [-> ->]. apply D.
Qed.
Lemma child_colon : exists s x, one_colon s /\ wname x /\ win_base (win_joins [win_path s; x]) <> x.
Proof.
  exists [46], [99; 58]. split; [|split; [|discriminate]].
  - assert (N : no_volume [46]) by (apply (no_volume_head _ 46 []); [reflexivity|intros [?|?]; discriminate|cbn; lia]). split; [intros v r V; destruct (N _ _ V)|intros _; cbn; lia].
  - split; [|cbn; lia]. split; [discriminate|]. split; [discriminate|]. split; [discriminate|]. unfold flat. cbn. lia.
Qed.
Lemma rooted_const d p q : rooted d -> leads p (slashed d) = leads q (slashed d).
Proof. intros R. now rewrite !leads_fold, (rooted_yes d R). Qed.
Lemma relative_moves s : ~ In 58 s -> ~ rooted s -> exists p q, leads p (slashed s) <> leads q (slashed s).
Proof.
  intros C R. destruct (relative_clean s C R) as (k & cs & _ & _ & _ & L). exists (repeat [] (Datatypes.S k)), []. rewrite !L. intros E. apply (f_equal (@length _)) in E.
  rewrite !app_length, !skipn_length, repeat_length in E. cbn [length] in E. lia.
Qed.
Lemma dir_parts s x f : ~ In 58 s -> ~ rooted s -> (forall p, leads p (slashed s) = x :: f p) -> exists d,
  win_dir (clean (slashed s)) = d /\ no_volume (clean (slashed s)) /\ win_base (clean (slashed s)) = x /\ elem x /\ wname x /\ ~ In 58 d /\ d <> [] /\ ~ rooted d /\
  forall p, leads p (slashed d) = f p.
Proof.
  intros C R H. destruct (relative_clean s C R) as (k & cs & Fe & F & E & L). destruct (rev cs) as [|y l] eqn:ER.
  { exfalso. specialize (H []). rewrite L, skipn_nil in H. discriminate. }
  assert (EC : cs = rev l ++ [y]) by (rewrite <- (rev_involutive cs), ER; reflexivity).
  assert (y = x) by (specialize (H []); rewrite L in H; cbn in H; congruence). subst y.
  assert (FP : forall p, f p = l ++ skipn k p) by (intros p; specialize (H p); rewrite L in H; cbn in H; congruence).
  subst cs. rewrite app_assoc in Fe, E. pose proof Fe as FA. apply Forall_app in Fe as [Fl FX]. pose proof (Forall_inv FX) as X. apply Forall_app in F as [Fn FXn].
  rewrite E. destruct (dir_rel _ x Fl X) as (_ & D2 & D3 & D4). eexists. split; [reflexivity|]. split; [now apply rel_no_volume|]. split; [now apply base_rel|]. split; [exact X|].
  split; [split; [exact (Forall_inv FXn)|apply X]|]. split; [exact D2|]. split; [exact D3|].
  assert (LD : forall p, leads p (slashed (win_dir (rel_path ((repeat dd k ++ rev l) ++ [x])))) = f p).
  { intros p. rewrite D4, fold_left_app, ups_back, names_back by assumption. now rewrite rev_involutive, FP. }
  split; [|exact LD]. intros RD. destruct (relative_moves s C R) as (p & q & NE). apply NE. rewrite !H, <- !LD. f_equal. now apply rooted_const.
Qed.
Lemma joins_relative s x f : no_volume s -> ~ In 58 s -> ~ rooted s -> (forall p, leads p (slashed s) = x :: f p) ->
  win_joins [win_dir (win_path s); win_base (win_path s)] = win_path s.
Proof.
  intros N C R H. rewrite (win_path_none s N). destruct (dir_parts s x f C R H) as (d & -> & _ & -> & X & WX & D5 & DN & DR & LD).
  destruct d as [|c t]; [congruence|]. assert (Hc : ~ sep c) by (intros S; apply DR; exists c, t; auto).
  assert (CJ : ~ In 58 ((c :: t) ++ 92 :: x)) by (rewrite in_app_iff; intros [I|[I|I]]; [auto|discriminate|]; now apply X in I).
  assert (NJ : no_volume ((c :: t) ++ 92 :: x)) by (apply (no_volume_head _ c (t ++ 92 :: x)); [reflexivity|exact Hc|exact CJ]).
  rewrite (join_plain _ x (no_volume_head _ c t eq_refl Hc D5) D5 DN NJ) by apply X. rewrite (win_path_none _ NJ).
  apply (clean_unique (slashed ((c :: t) ++ 92 :: x)) (slashed s)). intros p. rewrite leads_child by assumption. now rewrite LD, H.
Qed.
Lemma joins_drive_relative s v r x f : volumed s v r -> drive v -> ~ In 58 r -> ~ rooted r -> (forall p, leads p (slashed r) = x :: f p) ->
  win_joins [win_dir (win_path s); win_base (win_path s)] = win_path s.
Proof.
  intros V D C R H. destruct (dir_base_drive s v r x f V D C R H) as [-> _]. rewrite (win_path_drive s v r V D). destruct (dir_parts r x f C R H) as (d & Ed & NC & _ & X & WX & D5 & DN & DR & LD).
  rewrite (drive_dir v _ D NC), Ed. pose proof (volumed_drive v d D) as VH. assert (NE : v ++ d <> v) by (intros Q; rewrite <- (app_nil_r v) in Q at 2; apply app_inv_head in Q; auto).
  rewrite joins_first_win by (destruct D as (c & _ & ->); discriminate). rewrite (join_volumed _ [x] _ _ VH) by now left. cbn [join_back]. rewrite <- app_assoc.
  rewrite (win_path_drive _ _ _ (volumed_drive v (d ++ 92 :: x) D) D). f_equal.
  apply (clean_unique (slashed (d ++ 92 :: x)) (slashed r)). intros p. rewrite leads_child by assumption. now rewrite LD, H.
Qed.
Lemma relative_parts s x f : no_volume s -> ~ In 58 s -> ~ rooted s -> (forall p, leads p (slashed s) = x :: f p) ->
  win_base (win_path s) = x /\ no_volume (win_dir (win_path s)) /\ (forall p, leads p (slashed (win_dir (win_path s))) = f p) /\
  win_joins [win_dir (win_path s); win_base (win_path s)] = win_path s.
Proof.
  intros N C R H. destruct (dir_base_relative s x f N C R H) as (B & D & L & _). split; [exact B|]. split; [exact D|]. split; [exact L|]. exact (joins_relative s x f N C R H).
Qed.
Lemma drive_parts s v r x f : volumed s v r -> drive v -> ~ In 58 r -> ~ rooted r -> (forall p, leads p (slashed r) = x :: f p) ->
  win_base (win_path s) = x /\ (forall cur cwd, stands cur cwd (win_dir (win_path s)) v (f (cwd v))) /\
  win_joins [win_dir (win_path s); win_base (win_path s)] = win_path s.
Proof.
  intros V D C R H. destruct (dir_base_drive s v r x f V D C R H) as [B S]. split; [exact B|]. split; [exact S|]. exact (joins_drive_relative s v r x f V D C R H).
Qed.
Lemma joins_rooted s : no_volume s -> ~ In 58 s -> rooted s -> leads [] (slashed s) <> [] -> win_joins [win_dir (win_path s); win_base (win_path s)] = win_path s.
Proof.
  intros N C R NE. destruct (split_all_rooted s N R) as (cs & F & L & E & _). rewrite L in NE.
  assert (C5 : ~ In 58 (win_path s)) by (rewrite (win_path_none s N); apply clean_colon; now apply slashed_colon).
  destruct cs as [|x cs _] using rev_ind; [now destruct NE|]. apply Forall_app in F as [F FX]. pose proof (Forall_inv FX) as X.
  assert (EB : abs_path (cs ++ [x]) = base cs ++ 47 :: x) by (rewrite <- base_snoc; destruct cs; reflexivity). rewrite E in *. rewrite EB in C5.
  assert (X5 : ~ In 58 x) by (intros I; apply C5, in_or_app; right; now right).
  rewrite (dir_none _ _ F X), (base_none _ _ F X). set (d := from_slash (abs_path cs)).
  assert (D5 : ~ In 58 d).
  { intros I. unfold d, from_slash in I. apply in_map_iff in I as (c & Ec & I). destruct (Z.eqb_spec c 47); [discriminate|subst c]. destruct cs; [destruct I as [I|[]]; discriminate|]. apply C5, in_or_app. now left. }
  assert (NJ : no_volume (d ++ 92 :: x)).
  { intros v r V. destruct V as [Ev [D|[(a & b & h & e & w & _ & SB & _ & SD & _ & ->) _]]].
    - destruct D as (c & _ & ->). apply (f_equal (fun l => nth 1 l 0)) in Ev. cbn in Ev. destruct d as [|d0 [|d1 d]]; cbn in Ev; [|discriminate|apply D5; right; now left].
      apply X5. destruct x; [discriminate|]. now left.
    - destruct cs as [|y cs].
      + cbn in Ev. injection Ev as _ _ Ev. assert (I : In e x) by (rewrite Ev; apply in_or_app; left; apply in_or_app; right; now left).
        destruct X as [(_ & _ & _ & X4) X9]. destruct SD as [->| ->]; auto.
      + inversion F as [|? ? [(Y1 & _ & _ & Y4) Y9] _]; subst. destruct y as [|y0 y]; [congruence|]. cbn in Ev. injection Ev as _ Ev _.
        destruct (Z.eqb_spec y0 47) as [->|]; [apply Y4; now left|]. subst b. destruct SB as [->| ->]; [congruence|apply Y9; now left]. }
  assert (DN : d <> []) by (unfold d; intros Q; apply map_eq_nil in Q; rewrite abs_path_join in Q; discriminate).
  rewrite (join_plain d x) by (auto; now apply no_volume_from, abs_no_volume). rewrite (win_path_none _ NJ). rewrite (win_path_none s N) in E. rewrite <- E.
  apply (clean_unique (slashed (d ++ 92 :: x)) (slashed s)). intros p. rewrite leads_child, L, rev_app_distr by assumption. cbn [rev app]. f_equal.
  unfold d. now rewrite slashed_from, (slashed_id _ (abs_no cs F)), leads_abs by now apply wname_name.
Qed.
Lemma rooted_parts s cur cwd : no_volume s -> rooted s ->
  stands cur cwd (win_dir (win_path s)) cur (tl (leads [] (slashed s))) /\
  (leads [] (slashed s) = [] -> win_base (win_path s) = [92]) /\
  (leads [] (slashed s) <> [] -> win_base (win_path s) = hd [] (leads [] (slashed s)) /\
     (~ In 58 s -> win_joins [win_dir (win_path s); win_base (win_path s)] = win_path s)).
Proof.
  intros N R. destruct (dir_base_none s cur cwd N R) as (A & B & C). split; [exact A|]. split; [exact B|]. intros NE. split; [exact (C NE)|]. intros C5. now apply joins_rooted.
Qed.
