(** Relate on Windows between a path with volume and one without; GoPath of an entry without volume. *)
From Coq Require Import ZArith List Bool Lia.
From Verif Require Import GoBase GoStrings PathModel PathSpec PathProofs WinModel WinSpec WinProofs WinMore WorkModel WorkProofs WrelModel WrelSpec WrelProofs WrelMore.
Import ListNotations.
Open Scope Z_scope.

Lemma in_to_slash s : In 58 (to_slash s) -> In 58 s.
Proof. unfold to_slash. intros I. apply in_map_iff in I as (c & E & I). destruct (Z.eqb_spec c 92); [discriminate|now subst]. Qed.
Lemma in_from_slash s : In 58 (from_slash s) -> In 58 s.
Proof. unfold from_slash. intros I. apply in_map_iff in I as (c & E & I). destruct (Z.eqb_spec c 47); [discriminate|now subst]. Qed.
(** The clean form of a path on a share begins with two backslashes, and has at least four pieces. *)
Lemma share_pieces v : share v -> exists t, pieces (from_slash v) = [] :: [] :: t /\ (2 <= length t)%nat.
Proof.
  intros (a & b & h & d & w & Ha & Hb & Hh & Hd & Hw & ->). cbn [from_slash map]. rewrite (sep_from a Ha), (sep_from b Hb).
  change (map (fun c => if c =? 47 then 92 else c) (h ++ d :: w)) with (from_slash (h ++ d :: w)). rewrite from_app. cbn [from_slash map]. rewrite (sep_from d Hd).
  change (92 :: 92 :: from_slash h ++ 92 :: map (fun c => if c =? 47 then 92 else c) w) with ([] ++ 92 :: [] ++ 92 :: from_slash h ++ 92 :: from_slash w).
  rewrite !pieces_back. cbn [pieces app]. eexists. split; [reflexivity|]. rewrite app_length.
  pose proof (pieces_ne (from_slash h)). pose proof (pieces_ne (from_slash w)). destruct (pieces (from_slash h)), (pieces (from_slash w)); cbn; try congruence; lia.
Qed.
Lemma pieces_app_len s t : (length (pieces s) <= length (pieces (s ++ t)))%nat.
Proof.
  induction s as [|c s IH]; [pose proof (pieces_ne t); destruct (pieces t) eqn:E; [congruence|cbn; rewrite E; cbn; lia]|].
  cbn [app pieces]. pose proof (pieces_ne s). pose proof (pieces_ne (s ++ t)). destruct (pieces s), (pieces (s ++ t)); try congruence.
  destruct (Z.eq_dec c 92); cbn [length] in *; lia.
Qed.
Lemma share_clean_pieces m v r : volumed m v r -> share v -> exists t, pieces (win_clean m) = [] :: [] :: t /\ (2 <= length t)%nat.
Proof.
  intros V S. assert (E : exists u, win_clean m = from_slash v ++ u).
  { unfold win_clean. destruct (vol_ok m v r V) as [-> ->]. destruct r as [|c r].
    - destruct V as [-> _]. rewrite app_nil_r. assert (VL : vol_len v = length v) by (apply (vol_len_ok v v []); split; [now rewrite app_nil_r|right; auto]).
      rewrite VL. pose proof (share_long v S). replace (1 <? length v)%nat with true by (symmetry; apply Nat.ltb_lt; lia).
      destruct S as (a & b & h & d & w & Ha & Hb & _ & _ & _ & ->). cbn [nth]. replace (b =? 58) with false by (symmetry; apply Z.eqb_neq; destruct Hb; lia).
      cbn [andb negb]. exists []. now rewrite app_nil_r.
    - rewrite from_app. eauto. }
  destruct E as [u ->]. destruct (share_pieces v S) as (t & P & L). pose proof (pieces_app_len (from_slash v) u) as LL. rewrite P in LL. cbn [length] in LL.
  destruct S as (a & b & h & d & w & Ha & Hb & _ & _ & _ & ->). cbn [from_slash map app] in *. rewrite (sep_from a Ha), (sep_from b Hb) in *.
  match goal with |- context [pieces (92 :: 92 :: ?z)] => set (y := z) in * end.
  change (92 :: 92 :: y) with ([] ++ 92 :: [] ++ 92 :: y) in *. rewrite !pieces_back in *. cbn [pieces app] in *. eexists. split; [reflexivity|]. cbn [length] in LL. lia.
Qed.
Lemma clean_pieces t : no_volume t -> forall x, pieces (win_clean t) = [] :: [] :: x -> x = [].
Proof.
  intros N x E. destruct (none_clean t N) as [C _]. rewrite C, pieces_from in E by (apply clean_slashes, slashed_no).
  destruct (clean_form (slashed t)) as [(_ & cs & F & Ec & _)|(_ & k & cs & F & Ec & _)]; rewrite Ec in E.
  - destruct cs as [|y cs]; [cbn in E; congruence|]. exfalso. rewrite abs_path_join in E. change (47 :: join_slash (y :: cs)) with ([] ++ 47 :: join_slash (y :: cs)) in E.
    rewrite segments_app, segments_join_flat in E; [|discriminate|apply Forall_forall; intros z I; apply (proj1 (Forall_forall _ _) F z I)]. cbn [segments app] in E.
    pose proof (Forall_inv F) as (H & _). congruence.
  - exfalso. pose proof (rel_not_rooted k cs F) as R. destruct (rel_path (repeat dd k ++ cs)) as [|c s] eqn:Er.
    + destruct (repeat dd k ++ cs) as [|y l] eqn:El; [discriminate|]. unfold rel_path in Er.
      assert (y <> []) by (destruct k; cbn in El; [subst cs; now apply Forall_inv in F|injection El as <- _; discriminate]).
      destruct y; [congruence|]. destruct l; discriminate.
    + cbn [is_rooted] in R. cbn [segments] in E. destruct (segments s) as [|h l] eqn:Es; [now apply segments_ne in Es|]. rewrite R in E. discriminate.
Qed.
Lemma clean_colon t : no_volume t -> ~ In 58 t -> ~ In 58 (win_clean t).
Proof. intros N C I. destruct (none_clean t N) as [E _]. rewrite E in I. apply in_from_slash in I. exact (clean_no_colon t C I). Qed.
Lemma mixed_differ same m v r t : folds same -> volumed m v r -> no_volume t -> ~ In 58 t ->
  same (win_clean m) (win_clean t) = false /\ same (win_clean t) (win_clean m) = false.
Proof.
  intros Fo V N C. pose proof (clean_colon t N C) as NC. destruct V as [Em [D|[S K]]].
  - assert (I : In 58 (win_clean m)).
    { apply in_to_slash. change (to_slash (win_clean m)) with (win_path m). rewrite (win_path_drive m v r); [|split; [exact Em|now left]|exact D].
      destruct D as (c & _ & ->). right. now left. }
    split; [destruct (same (win_clean m) (win_clean t)) eqn:E|destruct (same (win_clean t) (win_clean m)) eqn:E]; auto; apply (folds_colon _ Fo) in E; tauto.
  - destruct (share_clean_pieces m v r) as (u & P & L); [split; [exact Em|right; auto]|exact S|].
    split; [destruct (same (win_clean m) (win_clean t)) eqn:E|destruct (same (win_clean t) (win_clean m)) eqn:E]; auto; exfalso; apply (folds_pieces _ Fo) in E; rewrite P in E.
    + inversion E as [|? y ? l H1 F1 Q1 Q2]; subst. inversion F1 as [|? y2 ? l2 H2 F2]; subst.
      assert (y = []) by (apply (folds_nil _ Fo); auto). assert (y2 = []) by (apply (folds_nil _ Fo); auto). subst. symmetry in Q2. apply clean_pieces in Q2; auto. subst.
      inversion F2; subst. cbn in L. lia.
    + inversion E as [|y ? l ? H1 F1 Q1 Q2]; subst. inversion F1 as [|y2 ? l2 ? H2 F2]; subst.
      assert (y = []) by (apply (folds_nil _ Fo); auto). assert (y2 = []) by (apply (folds_nil _ Fo); auto). subst. symmetry in Q1. apply clean_pieces in Q1; auto. subst.
      inversion F2; subst. cbn in L. lia.
Qed.
Lemma relate_mixed same me root v r : folds same ->
  (volumed me v r /\ no_volume root /\ ~ In 58 root) \/ (volumed root v r /\ no_volume me /\ ~ In 58 me) -> win_relate same me root = [46].
Proof.
  intros Fo H. unfold win_relate, win_rel. destruct H as [(V & N & C)|(V & N & C)].
  - pose proof (plain_kept root C N) as NB. assert (CB : ~ In 58 (win_path root)) by (rewrite win_path_none by auto; now apply clean_no_colon).
    destruct (mixed_differ same me v r (win_path root) Fo V NB CB) as [-> _]. destruct (none_clean _ NB) as [_ ->].
    pose proof (volume_name_ne me v r V) as NE.
    destruct (same [] (volume_name me)) eqn:E; [exfalso; apply NE, (folds_nil _ Fo); auto|]. rewrite orb_true_r. reflexivity.
  - destruct (volumed_path root v r V) as [r' V']. destruct (mixed_differ same (win_path root) (slashed v) r' me Fo V' N C) as [_ ->]. destruct (none_clean _ N) as [_ ->].
    pose proof (volume_name_ne _ _ _ V') as NE.
    destruct (same (volume_name (win_path root)) []) eqn:E; [exfalso; apply NE, (folds_nil _ Fo); auto|]. rewrite orb_true_r. reflexivity.
Qed.

(** ** GoPath *)
Definition src : list Z := [47; 115; 114; 99; 47].
Lemma no_volume_src e : no_volume e -> ~ In 58 e -> ~ two_seps e -> no_volume (e ++ src) /\ ~ In 58 (e ++ src).
Proof.
  intros N C T. assert (CS : ~ In 58 (e ++ src)) by (rewrite in_app_iff; intros [I|I]; [auto|cbn in I; lia]). split; [|exact CS].
  destruct e as [|a [|b e]].
  - apply no_volume_len. reflexivity.
  - apply no_volume_len. unfold src. cbn [app]. cbn. destruct (is_sep a); reflexivity.
  - intros v r [E [(c & _ & ->)|[(a' & b' & h & d & w & Ha & Hb & _ & _ & _ & ->) _]]]; cbn [app] in E.
    + injection E as -> -> _. apply C. cbn. auto.
    + injection E as <- <- _. apply T. exists a, b, e. auto.
Qed.
Lemma src_leads_any e p : e <> [] -> ~ In 59 e -> leads p (slashed (e ++ src)) = [115; 114; 99] :: leads p (slashed e).
Proof.
  intros NE N. assert (NS : ~ In 59 (slashed e)).
  { intros K. unfold slashed in K. apply in_map_iff in K as (d & E & I). destruct (Z.eq_dec d 92); [discriminate|subst; auto]. }
  rewrite <- (go_path_first (slashed e) [] p); auto; [|destruct e; [congruence|discriminate]].
  unfold go_path. rewrite clean_leads, app_nil_r, first_entry_none by auto. now rewrite slashed_app.
Qed.
Lemma go_path_none e q cur cwd w d : ~ In 59 e -> no_volume e -> ~ In 58 e -> ~ two_seps e -> e <> [] -> (q = [] \/ exists q', q = 59 :: q') ->
  stands cur cwd e w d -> stands cur cwd (win_go_path (e ++ q)) w ([115; 114; 99] :: d).
Proof.
  intros N9 N C T NE Q S. destruct (no_volume_src e N C T) as [NS CS]. unfold win_go_path. rewrite entry_of by auto. fold src.
  apply stands_iff; [intros _; now apply plain_kept|].
  inversion S as [s' v' r' V1 D|s' v' r' V1 Sh|s' N0]; subst; [exfalso; exact (N _ _ V1)|exfalso; exact (N _ _ V1)|].
  rewrite <- src_leads_any by auto. now apply st_none.
Qed.
Lemma relate_go_none same e q p : folds same -> ~ In 59 e -> no_volume e -> ~ In 58 e -> ~ two_seps e -> e <> [] -> (q = [] \/ exists q', q = 59 :: q') ->
  no_volume p -> ~ In 58 p -> (rooted p /\ rooted e) \/ (~ rooted p /\ ~ rooted e /\ descends e) ->
  let s := win_relate_go same (e ++ q) p in
  no_volume s /\ ~ rooted s /\ forall f, alike same (leads (leads f (slashed (win_go_path (e ++ q)))) (slashed s)) (leads f (slashed p)).
Proof.
  intros Fo N9 N C T NE Q Np Cp H. destruct (no_volume_src e N C T) as [NS CS].
  assert (RS : rooted (e ++ src) <-> rooted e) by (rewrite !rooted_iff; destruct e; [congruence|reflexivity]).
  assert (EP : win_path p = clean (slashed p)) by now apply win_path_none.
  assert (RP : rooted (win_path p) <-> rooted p) by (rewrite !rooted_iff, EP, slashed_clean, clean_rooted; reflexivity).
  destruct (relate_no_volume same (win_path p) (e ++ src)) as (A & B & L); auto.
  - rewrite EP. now apply clean_no_colon.
  - now apply plain_kept.
  - destruct H as [[H1 H2]|(H1 & H2 & ds & D)]; [left; tauto|right]. split; [tauto|]. split; [tauto|]. exists ([115; 114; 99] :: ds). intros f. rewrite src_leads_any, D by auto. reflexivity.
  - cbv zeta. change (win_relate_go same (e ++ q) p) with (match win_rel same (win_go_path (e ++ q)) (win_path p) with Some s => win_path s | None => win_path [] end).
    unfold win_go_path. rewrite entry_of by auto. fold src.
    change (match win_rel same (win_path (e ++ src)) (win_path p) with Some s => win_path s | None => win_path [] end) with (win_relate same (win_path p) (e ++ src)).
    split; [exact A|]. split; [exact B|]. intros f. specialize (L f). rewrite EP, leads_clean in L. rewrite <- EP in L.
    rewrite (win_path_none (e ++ src) NS), leads_clean. exact L.
Qed.
Lemma go_path_server : exists e cur cwd w d, no_volume e /\ ~ In 58 e /\ ~ In 59 e /\ e <> [] /\ stands cur cwd e w d /\ ~ stands cur cwd (win_go_path e) w ([115; 114; 99] :: d).
Proof.
  exists [92; 92; 104], [99; 58], (fun _ => []), [99; 58], [[104]].
  assert (N : no_volume [92; 92; 104]) by now apply no_volume_len. split; [exact N|]. split; [cbn; lia|]. split; [cbn; lia|]. split; [discriminate|].
  split; [exact (st_none [99; 58] (fun _ => []) _ N)|]. intros S.
  assert (V : vol_len (win_go_path [92; 92; 104]) <> 0%nat) by discriminate. apply vol_len_inv in V.
  change (win_go_path [92; 92; 104]) with [47; 47; 104; 47; 115; 114; 99; 47] in *.
  inversion S as [s' v' r' V1 D|s' v' r' V1 Sh|s' N0]; subst; [|destruct (volumed_fun _ _ _ _ _ V V1) as [<- <-]; discriminate|exact (N0 _ _ V)].
  destruct (volumed_fun _ _ _ _ _ V V1) as [E _]. discriminate.
Qed.
