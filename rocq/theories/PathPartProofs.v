(** Proofs about the parts of paths. *)
From Coq Require Import ZArith List Bool Lia.
From Verif Require Import GoBase GoStrings PathProofs PathMore PathSpec PathPartSpec PathModel PathPartModel.
Import ListNotations.
Open Scope Z_scope.

Lemma split_parts s : fst (split_path s) ++ snd (split_path s) = s /\ ~ In 47 (snd (split_path s)) /\
  (fst (split_path s) = [] \/ exists d, fst (split_path s) = d ++ [47]).
Proof.
  induction s as [| c t IH]; [cbn; tauto |]. cbn [split_path]. destruct (split_path t) as [d f]. cbn [fst snd] in IH. destruct IH as (E & N & D).
  destruct d as [| x d].
  - cbn in E. subst f. destruct (Z.eqb_spec c 47) as [-> | Hc]; cbn [fst snd].
    + repeat split; [exact N | right; now exists []].
    + repeat split; [| now left]. intros [H | H]; [congruence | auto].
  - cbn [fst snd]. repeat split; [cbn; f_equal; exact E | exact N |].
    right. destruct D as [D | (d' & D)]; [discriminate |]. rewrite D. now exists (c :: d').
Qed.

(** Texts that do not end in a slash. *)
Lemma drop_slashes_id r : (forall t, r <> 47 :: t) -> drop_slashes r = r.
Proof. destruct r as [| c t]; [reflexivity |]. intros H. cbn. destruct (Z.eqb_spec c 47) as [-> | N]; [now elim (H t) | reflexivity]. Qed.
Lemma base_last d x : x <> [] -> ~ In 47 x -> base_of (d ++ 47 :: x) = x.
Proof.
  intros N F. unfold base_of. destruct (d ++ 47 :: x) eqn:E; [now destruct d |]. rewrite <- E.
  assert (D : drop_slashes (rev (d ++ 47 :: x)) = rev (d ++ 47 :: x)).
  { apply drop_slashes_id. intros t H. rewrite rev_app_distr in H. cbn in H.
    destruct (exists_last N) as (y & c & ->). rewrite rev_app_distr in H. cbn in H. injection H as Hc _. apply F. rewrite Hc. apply in_or_app. right. now left. }
  rewrite D, rev_involutive, E. cbv iota. rewrite <- E, split_slash by exact F. reflexivity.
Qed.
Lemma base_flat x : x <> [] -> ~ In 47 x -> base_of x = x.
Proof.
  intros N F. unfold base_of. destruct x as [| c t]; [congruence |].
  assert (D : drop_slashes (rev (c :: t)) = rev (c :: t)).
  { apply drop_slashes_id. intros u H. apply F. apply in_rev. rewrite H. now left. }
  rewrite D, rev_involutive, split_flat by exact F. reflexivity.
Qed.

(** The path of a name in a directory. *)
Lemma abs_snoc cs x : exists d, abs_path (cs ++ [x]) = d ++ 47 :: x /\ clean (d ++ [47]) = file_path (abs_path cs).
Proof.
  rewrite abs_path_join. destruct cs as [| c cs].
  - exists []. split; reflexivity.
  - rewrite join_snoc by discriminate. exists (47 :: join_slash (c :: cs)). split; [reflexivity |].
    apply clean_unique. intros p. rewrite !leads_fold. cbn [app is_rooted]. rewrite abs_path_join. cbn [is_rooted].
    change (47 :: join_slash (c :: cs) ++ [47]) with ((47 :: join_slash (c :: cs)) ++ [47]). rewrite (segments_app _ []), fold_left_app.
    change (segments []) with [@nil Z]. reflexivity.
Qed.
Lemma rel_snoc l x : l <> [] -> exists d, rel_path (l ++ [x]) = d ++ 47 :: x /\ (forall p, Forall (fun y => y <> [] /\ ~ In 47 y) l -> leads p (d ++ [47]) = fold_left go l p).
Proof.
  intros N. rewrite rel_path_join by (now destruct l). rewrite join_snoc by exact N. exists (join_slash l). split; [reflexivity |].
  intros p F. rewrite leads_fold. rewrite (segments_app _ []), fold_left_app. rewrite segments_join_flat; [| exact N |].
  2:{ eapply Forall_impl; [| exact F]. intros a (_ & A). exact A. }
  change (segments []) with [@nil Z]. cbn [fold_left]. rewrite go_eq. cbn.
  destruct l as [| y l]; [congruence |]. assert (is_rooted (join_slash (y :: l) ++ [47]) = false) as ->; [| reflexivity].
  inversion F as [| ? ? (Y & Y') _]; subst. destruct y as [| c y]; [congruence |].
  assert (c <> 47) by (intros ->; apply Y'; now left). destruct l; cbn; now apply Z.eqb_neq.
Qed.
Lemma nil_or_last (l : list (list Z)) : l = [] \/ exists m x, l = m ++ [x].
Proof. destruct l as [| a l]; [now left | right]. destruct (@exists_last _ (a :: l)) as (m & x & E); [discriminate | now exists m, x]. Qed.
Lemma eq_by_leads a b : file_path a = a -> file_path b = b -> (forall p, leads p a = leads p b) -> a = b.
Proof. intros A B H. rewrite <- A, <- B. now apply clean_unique. Qed.
Lemma joins_fix l : file_path (joins l) = joins l.
Proof. unfold joins. apply clean_idem. Qed.
Lemma leads_joins2 a f p : a <> [] -> leads p (joins [a; f]) = follow (leads p a) [] f.
Proof. intros H. rewrite joins_leads by exact H. reflexivity. Qed.
Lemma good_elems k cs : Forall name cs -> Forall (fun y => y <> [] /\ ~ In 47 y) (repeat [46; 46] k ++ cs).
Proof.
  intros H. apply Forall_app. split.
  - apply Forall_forall. intros y Hy. apply repeat_spec in Hy. subst y. split; [discriminate |]. intros [E | [E | []]]; discriminate.
  - eapply Forall_impl; [| exact H]. intros y (A & _ & _ & B). now split.
Qed.
Lemma canonical_last s : canonical s -> s = [47] \/ (snd (split_path s) <> [] /\ base_of s = snd (split_path s)).
Proof.
  intros [(cs & F & ->) | (k & cs & F & ->)].
  - destruct (nil_or_last cs) as [-> | (ds & x & ->)]; [now left | right].
    apply Forall_app in F. destruct F as (_ & F). inversion F as [| ? ? (N1 & _ & _ & N2) _]; subst.
    destruct (abs_snoc ds x) as (d & E & _). rewrite E, split_slash, base_last by assumption. now split.
  - right. pose proof (good_elems k cs F) as G. set (l := repeat [46; 46] k ++ cs) in *.
    destruct (nil_or_last l) as [E | (ds & x & E)]; rewrite E in *.
    + cbn. split; [discriminate | reflexivity].
    + apply Forall_app in G. destruct G as (_ & G). inversion G as [| ? ? (N1 & N2) _]; subst.
      destruct ds as [| y ds].
      * cbn [app rel_path]. rewrite split_flat, base_flat by assumption. now split.
      * destruct (rel_snoc (y :: ds) x ltac:(discriminate)) as (d & E' & _). rewrite E', split_slash, base_last by assumption. now split.
Qed.

Lemma dir_base_join s : joins [dir_of (file_path s); base_of (file_path s)] = file_path s.
Proof.
  pose proof (clean_idem s) as I. pose proof (clean_canonical s) as C. set (q := file_path s) in *.
  destruct (canonical_last q C) as [-> | (N & B)]; [reflexivity |].
  apply eq_by_leads; [apply joins_fix | exact I |]. intros p.
  destruct (split_parts q) as (E & F & D). unfold dir_of. rewrite B.
  rewrite leads_joins2 by apply clean_ne. fold (file_path (fst (split_path q))). rewrite clean_leads.
  destruct (split_path q) as [D0 f]. cbn [fst snd] in *. rewrite <- E. destruct D as [-> | (d & ->)].
  - cbn [app]. destruct f as [| c f]; [congruence |]. unfold leads. destruct (Z.eq_dec c 47) as [-> | Nc]; [elim F; now left | reflexivity].
  - rewrite <- app_assoc. cbn [app]. rewrite follow_fold, !leads_fold, !segments_app, !fold_left_app.
    assert (is_rooted (d ++ [47]) = is_rooted (d ++ 47 :: f)) as -> by (destruct d; reflexivity). reflexivity.
Qed.
Lemma join_child s x : name x -> base_of (path_joins (file_path s) [x]) = x /\ dir_of (path_joins (file_path s) [x]) = file_path s.
Proof.
  intros Hx. pose proof Hx as (N1 & _ & _ & N2). pose proof (clean_idem s) as I. pose proof (clean_canonical s) as C.
  assert (NE : file_path s <> []) by apply clean_ne. set (q := file_path s) in *. unfold path_joins.
  destruct C as [(cs & F & E) | (k & cs & F & E)].
  - assert (F' : Forall name (cs ++ [x])) by (apply Forall_app; split; [exact F | constructor; [exact Hx | constructor]]).
    assert (joins [q; x] = abs_path (cs ++ [x])) as ->.
    { apply eq_by_leads; [apply joins_fix | now apply file_path_fix_abs |]. intros p. rewrite leads_joins2 by exact NE.
      rewrite E, !leads_abs, follow_fold, segments_one by assumption. cbn. rewrite go_name, rev_unit by exact Hx. reflexivity. }
    destruct (abs_snoc cs x) as (d & Ed & _). split.
    + rewrite Ed. now apply base_last.
    + rewrite dir_abs by assumption. now symmetry.
  - assert (F' : Forall name (cs ++ [x])) by (apply Forall_app; split; [exact F | constructor; [exact Hx | constructor]]).
    assert (joins [q; x] = rel_path (repeat [46; 46] k ++ (cs ++ [x]))) as ->.
    { apply eq_by_leads; [apply joins_fix | now apply rel_fix |]. intros p. rewrite leads_joins2 by exact NE.
      rewrite E, !leads_rel, follow_fold, segments_one by assumption. cbn. rewrite go_name, rev_unit by exact Hx. reflexivity. }
    rewrite app_assoc. pose proof (good_elems k cs F) as G. rewrite E. destruct (repeat [46; 46] k ++ cs) as [| y l] eqn:El.
    + cbn [app rel_path]. split; [now apply base_flat |]. unfold dir_of. now rewrite split_flat.
    + destruct (rel_snoc (y :: l) x ltac:(discriminate)) as (d & E' & L). rewrite E'. split; [now apply base_last |].
      unfold dir_of. rewrite split_slash by exact N2. cbn [fst]. rewrite <- El. transitivity (file_path (rel_path (repeat dd k ++ cs))); [| exact (rel_fix k cs F)].
      apply clean_unique. intros p. rewrite (L p G), (leads_rel k cs p F). rewrite <- El, fold_left_app, fold_ups, fold_names by exact F. reflexivity.
Qed.

(** Extensions. *)
Lemma ext_loop_spec r : forall acc, ~ In 46 acc -> ~ In 47 acc -> exists a : list Z, rev r ++ acc = a ++ ext_loop r acc /\
  ((ext_loop r acc = [] /\ exists d f, rev r ++ acc = d ++ f /\ (d = [] \/ exists d', d = d' ++ [47]) /\ ~ In 47 f /\ ~ In 46 f) \/
   exists e, ext_loop r acc = 46 :: e /\ ~ In 46 e /\ ~ In 47 e).
Proof.
  induction r as [| c r IH]; intros acc H1 H2; cbn [rev ext_loop].
  - exists acc. rewrite app_nil_r. split; [reflexivity |]. left. split; [reflexivity |]. exists [], acc. repeat split; auto.
  - destruct (Z.eqb_spec c 47) as [-> | N].
    + exists ((rev r ++ [47]) ++ acc). rewrite app_nil_r. split; [reflexivity |]. left. split; [reflexivity |].
      exists (rev r ++ [47]), acc. repeat split; auto. right. now exists (rev r).
    + destruct (Z.eqb_spec c 46) as [-> | M].
      * exists (rev r). rewrite <- app_assoc. split; [reflexivity |]. right. now exists acc.
      * rewrite <- app_assoc. cbn [app]. apply IH; intros [E | E]; auto.
Qed.
Lemma split_last d f : (d = [] \/ exists d', d = d' ++ [47]) -> ~ In 47 f -> split_path (d ++ f) = (d, f).
Proof.
  intros [-> | (d' & ->)] F; [now apply split_flat |]. rewrite <- app_assoc. cbn [app]. now apply split_slash.
Qed.
Lemma ext_spec s : exists a, s = a ++ ext_of s /\
  ((ext_of s = [] /\ ~ In 46 (file_name s)) \/ exists e, ext_of s = 46 :: e /\ ~ In 46 e /\ ~ In 47 e).
Proof.
  unfold ext_of. destruct (ext_loop_spec (rev s) [] ltac:(tauto) ltac:(tauto)) as (a & E & H). rewrite rev_involutive, app_nil_r in *.
  exists a. split; [exact E |]. destruct H as [(H & d & f & Es & D & F1 & F2) | H]; [left | now right].
  split; [exact H |]. unfold file_name. rewrite Es, split_last by assumption. exact F2.
Qed.
Lemma ext_loop_pass r : forall t acc, ~ In 46 r -> ~ In 47 r -> ext_loop (r ++ 46 :: t) acc = 46 :: rev r ++ acc.
Proof.
  induction r as [| c r IH]; intros t acc H1 H2; cbn [app ext_loop]; [reflexivity |].
  destruct (Z.eqb_spec c 47) as [-> | N]; [elim H2; now left |]. destruct (Z.eqb_spec c 46) as [-> | M]; [elim H1; now left |].
  rewrite IH.
  - cbn [rev]. now rewrite <- app_assoc.
  - intros E. apply H1. now right.
  - intros E. apply H2. now right.
Qed.
Lemma ext_new s e : ~ In 46 e -> ~ In 47 e -> ext_of (s ++ 46 :: e) = 46 :: e.
Proof.
  intros H1 H2. unfold ext_of. rewrite rev_app_distr. cbn [rev]. rewrite <- app_assoc. cbn [app].
  rewrite ext_loop_pass; [now rewrite rev_involutive, app_nil_r | |]; intros H; apply in_rev in H; auto.
Qed.

(** The same in terms of the last element. *)
Lemma last_elem_split s : last_elem s (snd (split_path s)).
Proof.
  destruct (split_parts s) as (E & F & D). split; [exact F |]. destruct D as [D | (d & D)]; rewrite D in E.
  - left. now symmetry.
  - right. exists d. now rewrite <- E at 1; rewrite <- app_assoc.
Qed.
Lemma last_elem_unique s f g : last_elem s f -> last_elem s g -> f = g.
Proof.
  intros (F & A) (G & B).
  assert (P : forall h, ~ In 47 h -> (s = h \/ exists d, s = d ++ 47 :: h) -> snd (split_path s) = h).
  { intros h H [-> | (d & ->)]; [now rewrite split_flat | now rewrite split_slash]. }
  now rewrite <- (P f F A), <- (P g G B).
Qed.
Lemma dot_end_unique : forall (a b a' b' : list Z), a ++ 46 :: b = a' ++ 46 :: b' -> ~ In 46 b -> ~ In 46 b' -> b = b'.
Proof.
  induction a as [| x a IH]; intros b [| y a'] b' E H H'; cbn [app] in E.
  - congruence.
  - elim H. assert (b = a' ++ 46 :: b') as -> by congruence. apply in_or_app. right. now left.
  - elim H'. assert (b' = a ++ 46 :: b) as -> by congruence. apply in_or_app. right. now left.
  - apply (IH b a' b'); congruence.
Qed.
Lemma ext_last s f : last_elem s f -> ext_spec_of f (ext_of s).
Proof.
  intros L. pose proof L as (F & A). destruct (ext_spec s) as (a & E & [(N & H) | (e & N & H1 & H2)]).
  - left. split; [exact N |]. unfold file_name in H. now rewrite (last_elem_unique s f _ L (last_elem_split s)).
  - right. rewrite N in E. set (g := snd (split_path a)).
    destruct (split_parts a) as (Ea & Fa & Da).
    assert (L' : last_elem s (g ++ 46 :: e)).
    { split.
      - intros H. apply in_app_or in H. destruct H as [H | [H | H]]; [now apply Fa | discriminate | now apply H2].
      - rewrite E, <- Ea. destruct Da as [-> | (d & ->)]; [now left | right]. exists d. now rewrite <- !app_assoc. }
    exists g, e. rewrite (last_elem_unique s f _ L L'). now repeat split.
Qed.
Lemma ext_unique f e e' : ext_spec_of f e -> ext_spec_of f e' -> e = e'.
Proof.
  intros [(-> & H) | (a & b & -> & -> & H)] [(-> & H') | (a' & b' & E & -> & H')]; try reflexivity.
  - elim H. rewrite E. apply in_or_app. right. now left.
  - elim H'. apply in_or_app. right. now left.
  - f_equal. now apply (dot_end_unique a b a' b').
Qed.
Lemma ext_exact s f e : last_elem s f -> (ext_of s = e <-> ext_spec_of f e).
Proof.
  intros L. split; [intros <-; now apply ext_last |]. intros H. exact (ext_unique f _ _ (ext_last s f L) H).
Qed.

(** Lists of paths. *)
Lemma split_colon_ne s : split_colon s <> [].
Proof. destruct s as [| c s]; cbn; [discriminate |]. destruct (c =? 58); [discriminate |]. now destruct (split_colon s). Qed.
Lemma split_colon_join s : with_colons (split_colon s) = s /\ Forall no_colon (split_colon s).
Proof.
  induction s as [| c s (IH & F)]; cbn [split_colon]; [split; [reflexivity | constructor; [intros [] | constructor]] |].
  pose proof (split_colon_ne s) as N. destruct (Z.eqb_spec c 58) as [-> | C].
  - split.
    + destruct (split_colon s) as [| h r]; [congruence |]. cbn [with_colons app] in *. now rewrite IH.
    + constructor; [intros [] | exact F].
  - destruct (split_colon s) as [| h r]; [congruence |]. inversion F as [| ? ? Fh Fr]; subst. split.
    + destruct r as [| h' r]; [reflexivity |]. reflexivity.
    + constructor; [| exact Fr]. intros [E | E]; [congruence | now apply Fh].
Qed.
Lemma split_colon_app x s : no_colon x -> split_colon (x ++ 58 :: s) = x :: split_colon s.
Proof.
  induction x as [| c x IH]; intros H; [reflexivity |]. cbn [app split_colon].
  destruct (Z.eqb_spec c 58) as [-> | C]; [elim H; now left |]. rewrite IH; [reflexivity |]. intros E. apply H. now right.
Qed.
Lemma split_colon_one x : no_colon x -> split_colon x = [x].
Proof.
  induction x as [| c x IH]; intros H; [reflexivity |]. cbn [split_colon].
  destruct (Z.eqb_spec c 58) as [-> | C]; [elim H; now left |]. rewrite IH; [reflexivity |]. intros E. apply H. now right.
Qed.
Lemma split_colon_of l : l <> [] -> Forall no_colon l -> split_colon (with_colons l) = l.
Proof.
  induction l as [| x [| y l] IH]; intros N F; [congruence | |]; inversion F as [| ? ? Fx Fl]; subst.
  - cbn. now apply split_colon_one.
  - cbn [with_colons] in *. rewrite split_colon_app by exact Fx. f_equal. apply IH; [discriminate | exact Fl].
Qed.
Lemma split_list_exact s l : split_list s = l <-> with_colons l = s /\ Forall no_colon l /\ l <> [[]].
Proof.
  split.
  - intros <-. destruct s as [| c s]; cbn [split_list]; [repeat split; [constructor | discriminate] |].
    destruct (split_colon_join (c :: s)) as (A & B). repeat split; [exact A | exact B |]. intros E. rewrite E in A. discriminate.
  - intros (<- & F & N). destruct l as [| x l]; [reflexivity |]. unfold split_list.
    rewrite split_colon_of by (exact F || discriminate). destruct (with_colons (x :: l)) as [| c t] eqn:E; [| reflexivity].
    destruct l as [| y l]; cbn in E; [congruence |]. destruct x; discriminate.
Qed.

(** Absolute paths. *)
Lemma rooted_leads s p q : is_rooted s = true -> leads p s = leads q s.
Proof. intros H. now rewrite !leads_fold, H. Qed.
Lemma abs_exact wd s from : is_rooted wd = true ->
  is_rooted (abs_of wd s) = true /\ file_path (abs_of wd s) = abs_of wd s /\ leads from (abs_of wd s) = leads (leads from wd) s.
Proof.
  intros W. assert (NW : wd <> []) by (destruct wd; discriminate). unfold abs_of. destruct (is_rooted s) eqn:R.
  - fold (file_path s). rewrite clean_idem, clean_leads. unfold file_path. rewrite clean_rooted. repeat split; [exact R |].
    now apply rooted_leads.
  - assert (fp_join [wd; s] = joins [wd; s]) as ->.
    { rewrite joins_first by exact NW. destruct wd as [| c wd]; [congruence | reflexivity]. }
    repeat split.
    + rewrite joins_first by exact NW. unfold file_path. rewrite clean_rooted. now rewrite rooted_first.
    + apply joins_fix.
    + rewrite leads_joins2 by exact NW. rewrite follow_fold, (leads_fold (leads from wd) s), R. reflexivity.
Qed.

(** Base of every text. *)
Lemma repeat_rev (n : nat) : rev (repeat 47 n) = repeat 47 n.
Proof.
  induction n as [| n IH]; [reflexivity |]. cbn [repeat rev]. rewrite IH. clear IH.
  induction n as [| n IH]; [reflexivity |]. cbn. now rewrite IH.
Qed.
Lemma drop_repeat n r : drop_slashes (repeat 47 n ++ r) = drop_slashes r.
Proof. induction n as [| n IH]; [reflexivity | exact IH]. Qed.
Lemma base_slashes s n : s <> [] -> base_of (s ++ repeat 47 n) = base_of s.
Proof.
  intros N. unfold base_of. rewrite rev_app_distr, repeat_rev, drop_repeat. destruct s as [| c s]; [congruence | reflexivity].
Qed.
Lemma base_exact :
  base_of [] = [46] /\ (forall n, base_of (repeat 47 (S n)) = [47]) /\
  (forall s f n, f <> [] -> last_elem s f -> base_of (s ++ repeat 47 n) = f).
Proof.
  split; [reflexivity |]. split.
  - intros n. change (repeat 47 (S n)) with ([47] ++ repeat 47 n). now rewrite base_slashes.
  - intros s f n Nf (F & H). rewrite base_slashes.
    + destruct H as [-> | (d & ->)]; [now apply base_flat | now apply base_last].
    + destruct H as [-> | (d & ->)]; [exact Nf | now destruct d].
Qed.
