(** More proofs about paths on Windows: SplitAll, Joins, Rename and Move. *)
From Coq Require Import ZArith List Bool Arith Lia ZifyBool ZifyNat.
From Verif Require Import GoBase GoStrings PathSpec PathModel PathProofs WinSpec WinModel WinProofs.
Import ListNotations.
Open Scope Z_scope.

(** ** Changing separators *)
Lemma until_map f s : (forall c, is_sep (f c) = is_sep c) -> until_sep (map f s) = until_sep s.
Proof. intros H. induction s as [|c s IH]; [reflexivity|]. cbn [map until_sep]. rewrite H, IH. reflexivity. Qed.
Lemma unc_cons c d t n : unc_loop (c :: d :: t) n =
  if is_sep c then if is_sep d then 0%nat else if d =? 46 then 0%nat else (S n + until_sep (d :: t))%nat else unc_loop (d :: t) (S n).
Proof. reflexivity. Qed.
Lemma unc_map f s : (forall c, is_sep (f c) = is_sep c) -> (forall c, is_sep c = false -> f c = c) -> forall n, unc_loop (map f s) n = unc_loop s n.
Proof.
  intros H1 H2. induction s as [|c s IH]; intros n; [reflexivity|]. destruct s as [|d t]; [reflexivity|].
  change (map f (c :: d :: t)) with (f c :: f d :: map f t). rewrite !unc_cons. rewrite !H1. destruct (is_sep c).
  - destruct (is_sep d) eqn:D; [reflexivity|]. rewrite (H2 d D). destruct (d =? 46); [reflexivity|].
    pose proof (until_map f (d :: t) H1) as U. cbn [map] in U. rewrite (H2 d D) in U. now rewrite U.
  - exact (IH (S n)).
Qed.
Lemma vol_len_map f s : (forall c, is_sep (f c) = is_sep c) -> (forall c, is_sep c = false -> f c = c) -> vol_len (map f s) = vol_len s.
Proof.
  intros H1 H2. destruct s as [|c [|d r]]; try reflexivity. cbn [map vol_len].
  assert (D : (f d =? 58) = (d =? 58)). { destruct (is_sep d) eqn:E; [pose proof (H1 d) as X; rewrite E in X; unfold is_sep in *; lia|now rewrite H2]. }
  assert (L : is_letter (f c) = is_letter c). { destruct (is_sep c) eqn:E; [pose proof (H1 c) as X; rewrite E in X; unfold is_sep, is_letter in *; lia|now rewrite H2]. }
  rewrite D, L. destruct ((d =? 58) && is_letter c); [reflexivity|]. destruct r as [|e r]; [reflexivity|]. cbn [map].
  rewrite !H1. cbn [length]. rewrite map_length, (unc_map f r H1 H2).
  destruct (is_sep e) eqn:E; [now rewrite !andb_false_r|]. now rewrite (H2 e E).
Qed.
Lemma vol_len_from s : vol_len (from_slash s) = vol_len s.
Proof. apply vol_len_map; intros c; unfold is_sep; destruct (Z.eqb_spec c 47); try lia. Qed.
Lemma vol_len_slashed s : vol_len (slashed s) = vol_len s.
Proof. apply vol_len_map; intros c; unfold is_sep; destruct (Z.eq_dec c 92); try lia. Qed.
Lemma no_volume_slashed s : no_volume (slashed s) <-> no_volume s.
Proof. rewrite !no_volume_len, vol_len_slashed. reflexivity. Qed.
Lemma no_volume_from s : no_volume (from_slash s) <-> no_volume s.
Proof. rewrite !no_volume_len, vol_len_from. reflexivity. Qed.
Lemma volumed_slashed s v r : volumed s v r -> volumed (slashed s) (slashed v) (slashed r).
Proof.
  intros [-> [D|[S R]]]; (split; [apply slashed_app|]).
  - left. now rewrite drive_slashed.
  - right. split; [now apply share_slashed|]. destruct r as [|c r]; [exact Logic.I|]. cbn [slashed map]. rewrite sep_slashed by assumption. now left.
Qed.
Lemma volumed_from s v r : volumed s v r -> volumed (from_slash s) (from_slash v) (from_slash r).
Proof.
  intros [-> [D|[S R]]]; (split; [apply from_app|]).
  - left. now rewrite drive_from.
  - right. split; [now apply share_from|]. destruct r as [|c r]; [exact Logic.I|]. cbn [from_slash map]. rewrite sep_from by assumption. now right.
Qed.
Lemma win_path_from s : win_path (from_slash s) = win_path s.
Proof.
  destruct (volumed_cases s) as [N|(v & r & V & [D|S])].
  - rewrite (win_path_none _ N), (win_path_none _ (proj2 (no_volume_from s) N)), slashed_from. reflexivity.
  - pose proof (volumed_from s v r V) as V'. rewrite (drive_from v D) in V'. rewrite (win_path_drive _ _ _ V D), (win_path_drive _ _ _ V' D), slashed_from. reflexivity.
  - rewrite (win_path_share _ _ _ V S), (win_path_share _ _ _ (volumed_from s v r V) (share_from v S)), !slashed_from. destruct r; reflexivity.
Qed.
Lemma win_path_slashed s : win_path (slashed s) = win_path s.
Proof.
  destruct (volumed_cases s) as [N|(v & r & V & [D|S])].
  - rewrite (win_path_none _ N), (win_path_none _ (proj2 (no_volume_slashed s) N)), slashed_idem. reflexivity.
  - pose proof (volumed_slashed s v r V) as V'. rewrite (drive_slashed v D) in V'. rewrite (win_path_drive _ _ _ V D), (win_path_drive _ _ _ V' D), slashed_idem. reflexivity.
  - rewrite (win_path_share _ _ _ V S), (win_path_share _ _ _ (volumed_slashed s v r V) (share_slashed v S)), !slashed_idem. destruct r; reflexivity.
Qed.
Lemma win_path_clean s : win_path (win_clean s) = win_path (win_path s).
Proof. rewrite <- (win_path_slashed (win_clean s)). unfold win_path at 3. now rewrite to_slash_slashed. Qed.
Lemma stands_sys cur cwd s v d : stands cur cwd s v d -> stands cur cwd (string_sys s) v d.
Proof.
  intros H. unfold string_sys. inversion H as [? ? r V D|? v0 r V S|? N]; subst.
  - rewrite <- (slashed_from r). apply st_drive; [|assumption]. rewrite <- (drive_from v D). now apply volumed_from.
  - rewrite <- (slashed_from r), <- (slashed_from v0). apply st_share; [now apply volumed_from|now apply share_from].
  - rewrite <- (slashed_from s). apply st_none. now apply no_volume_from.
Qed.
Lemma sys_path cur cwd s v d : win_path (string_sys s) = win_path s /\ ~ In 47 (string_sys s) /\ (stands cur cwd (string_sys s) v d <-> stands cur cwd s v d).
Proof.
  split; [apply win_path_from|]. split; [apply from_no|]. split; [|apply stands_sys]. intros H.
  destruct (stands_total cur cwd s) as (v' & d' & H'). destruct (stands_fun _ _ _ _ _ _ _ H (stands_sys _ _ _ _ _ H')). now subst.
Qed.

(** ** Paths without a volume *)
Lemma clean_not_share s : ~ In 92 s -> forall v r, share v -> clean s = v ++ r -> False.
Proof.
  intros N v r (a & b & h & d & w & SA & SB & _ & _ & _ & ->) E. pose proof (clean_slashes s N) as NC. rewrite E in NC.
  assert (a = 47) by (destruct SA; [assumption|subst; destruct NC; cbn; auto]).
  assert (b = 47) by (destruct SB; [assumption|subst; destruct NC; cbn; auto]). subst a b. cbn [app] in E.
  destruct (clean_form s) as [(_ & cs & F & C & _)|(_ & k & cs & F & C & _)]; rewrite C in E.
  - destruct cs as [|x cs]; [discriminate|]. inversion F as [|? ? (X1 & _ & _ & X2) _]; subst. cbn in E.
    destruct x as [|y x]; [congruence|]. cbn in E. apply X2. left. congruence.
  - pose proof (rel_not_rooted k cs F) as R. unfold dd in *. rewrite E in R. discriminate.
Qed.
Lemma plain_kept s : ~ In 58 s -> no_volume s -> no_volume (win_path s).
Proof.
  intros NC N v r V. rewrite (win_path_none s N) in V. destruct V as [E [(c & L & ->)|[S _]]].
  - assert (F : Forall (fun c => c <> 58) (clean (slashed s))).
    { apply clean_all; try discriminate. unfold slashed. rewrite Forall_map. apply Forall_forall. intros x I. destruct (Z.eq_dec x 92); [discriminate|].
      intros ->. contradiction. }
    rewrite E in F. inversion F as [|? ? _ F']; subst. inversion F'; subst. congruence.
  - exact (clean_not_share _ (slashed_no s) v r S E).
Qed.

(** ** Equal places *)
Lemma win_unique s t : not_share s -> not_share t -> (no_volume s -> no_volume (win_path s)) -> (no_volume t -> no_volume (win_path t)) ->
  (forall cur cwd v d, stands cur cwd s v d <-> stands cur cwd t v d) <-> win_path s = win_path t.
Proof.
  intros NS NT KS KT. split.
  2: { intros E cur cwd v d. rewrite <- (stands_iff _ _ s _ _ KS), <- (stands_iff _ _ t _ _ KT), E. reflexivity. }
  intros H. destruct (volumed_cases s) as [N|(v & r & V & _)]; destruct (volumed_cases t) as [N'|(v' & r' & V' & _)].
  - rewrite (win_path_none _ N), (win_path_none _ N'). apply (clean_unique (slashed s) (slashed t)). intros p.
    pose proof (proj1 (H [] (fun _ => p) _ _) (st_none _ _ s N)) as X. exact (proj2 (stands_fun _ _ _ _ _ _ _ X (st_none _ _ t N'))).
  - exfalso. pose proof (proj1 (H [] (fun _ => []) _ _) (st_none _ _ s N)) as X. pose proof (NT _ _ V') as D.
    destruct (stands_fun _ _ _ _ _ _ _ X (st_drive _ _ t v' r' V' D)) as [E _]. destruct D as (c & _ & ->). discriminate.
  - exfalso. pose proof (proj2 (H [] (fun _ => []) _ _) (st_none _ _ t N')) as X. pose proof (NS _ _ V) as D.
    destruct (stands_fun _ _ _ _ _ _ _ X (st_drive _ _ s v r V D)) as [E _]. destruct D as (c & _ & ->). discriminate.
  - pose proof (NS _ _ V) as D. pose proof (NT _ _ V') as D'. rewrite (win_path_drive _ _ _ V D), (win_path_drive _ _ _ V' D').
    assert (X : forall p, v = v' /\ leads p (slashed r) = leads p (slashed r')).
    { intros p. pose proof (proj1 (H [] (fun _ => p) _ _) (st_drive _ _ s v r V D)) as X. exact (stands_fun _ _ _ _ _ _ _ X (st_drive _ _ t v' r' V' D')). }
    destruct (X []) as [-> _]. f_equal. apply (clean_unique (slashed r) (slashed r')). intros p. apply X.
Qed.

(** ** SplitAll *)
Lemma split_sep_path s : ~ In 92 s -> split_sep s = split_path s.
Proof.
  induction s as [|c s IH]; intros N; [reflexivity|]. cbn [split_sep split_path]. rewrite IH by (cbn in N; tauto).
  replace (is_sep c) with (c =? 47); [reflexivity|]. unfold is_sep. cbn in N. lia.
Qed.
Lemma win_split_vol v r : volumed (v ++ r) v r -> ~ In 92 r -> win_split (v ++ r) = (v ++ fst (split_path r), snd (split_path r)).
Proof. intros V N. unfold win_split. destruct (vol_ok _ _ _ V) as [-> ->]. rewrite split_sep_path by assumption. now destruct (split_path r). Qed.
Lemma win_split_none s : no_volume s -> ~ In 92 s -> win_split s = split_path s.
Proof. intros V N. unfold win_split. destruct (no_vol s V) as [-> ->]. rewrite split_sep_path by assumption. now destruct (split_path s). Qed.
Lemma base_volumed v cs : plain_volume v -> volumed (v ++ base cs) v (base cs).
Proof. intros [D|[S _]]; (split; [reflexivity|]); [now left|right; split; [assumption|]]. destruct cs; [exact Logic.I|now left]. Qed.
Lemma base_no cs : Forall wname cs -> ~ In 92 (base cs).
Proof.
  unfold base. intros F I. apply in_concat in I as (x & IX & I). apply in_map_iff in IX as (y & <- & IY). rewrite Forall_forall in F. destruct (F y IY) as [_ N].
  cbn in I. destruct I as [I|I]; [discriminate|contradiction].
Qed.
Lemma wname_name cs : Forall wname cs -> Forall name cs.
Proof. apply Forall_impl. intros x H. apply H. Qed.
Lemma win_split_base v cs : plain_volume v -> v <> [] -> Forall wname cs -> forall n acc, (length cs < n)%nat ->
  win_split_loop n (v ++ base cs) acc = Ok (v :: cs ++ acc).
Proof.
  intros PV NV. induction cs as [|x cs IH] using rev_ind; intros F n acc L; (destruct n as [|n]; [lia|]); cbn [win_split_loop];
    rewrite (win_split_vol v _ (base_volumed v _ PV) (base_no _ F)).
  - cbn. rewrite app_nil_r. destruct v; [congruence|reflexivity].
  - apply Forall_app in F as [F X]. inversion X as [|? ? [NX _] _]; subst. rewrite app_length in L. cbn [length] in L.
    rewrite base_snoc, split_slash by (now apply name_flat). cbn [fst snd]. destruct x as [|c x]; [destruct NX; congruence|].
    rewrite app_assoc, trim_slash_snoc, IH by (assumption || lia). now rewrite <- app_assoc.
Qed.
Lemma plain_ne v : plain_volume v -> v <> [].
Proof. intros [(c & _ & ->)|[(a & b & h & d & w & _ & _ & _ & _ & _ & ->) _]]; discriminate. Qed.
Lemma split_all_vol v cs : plain_volume v -> Forall wname cs -> cs <> [] -> win_split_all (v ++ abs_path cs) = Ok (v :: cs).
Proof.
  intros PV F N. unfold win_split_all. assert (E : abs_path cs = base cs) by (destruct cs; [congruence|reflexivity]). rewrite E.
  rewrite win_split_base; [now rewrite app_nil_r|assumption|now apply plain_ne|assumption|].
  rewrite count_slash_app, base_count by (now apply wname_name). lia.
Qed.
Lemma drive_count v : drive v -> count_slash v = 0%nat.
Proof. intros (c & L & ->). unfold count_slash. cbn [filter]. replace (c =? 47) with false by lia. reflexivity. Qed.
Lemma win_loop_drive v cs : drive v -> cs <> [] -> Forall flat cs -> Forall (fun x => x <> [] /\ ~ In 92 x) cs -> forall acc,
  win_split_loop (length cs) (v ++ join_slash cs) acc = Panic.
Proof.
  intros D. induction cs as [|x cs IH] using rev_ind; intros N F Ne acc; [congruence|].
  assert (NB : ~ In 92 (join_slash (cs ++ [x]))).
  { intros I. assert (G : Forall (fun c => c <> 92) (join_slash (cs ++ [x]))).
    { apply join_all; [discriminate|]. eapply Forall_impl; [|exact Ne]. intros y [_ Y]. apply Forall_forall. intros c IC ->. contradiction. }
    rewrite Forall_forall in G. now apply (G _ I). }
  apply Forall_app in F as [Fc Fx]. apply Forall_cons_iff in Fx as [Fx _]. apply Forall_app in Ne as [Nc Nx]. apply Forall_cons_iff in Nx as [[Nx _] _].
  rewrite app_length, Nat.add_comm. cbn [length Nat.add win_split_loop]. rewrite (win_split_vol v _ (volumed_drive v _ D) NB). destruct cs as [|y cs].
  - cbn [app join_slash]. rewrite split_flat by auto. cbn [fst snd]. destruct x; [congruence|]. reflexivity.
  - rewrite join_snoc by discriminate. rewrite split_slash by auto. cbn [fst snd]. destruct x as [|c x]; [congruence|]. rewrite app_assoc, trim_slash_snoc.
    apply IH; auto. discriminate.
Qed.
Lemma join_first_sep cs : cs <> [] -> Forall flat cs -> Forall (fun x => x <> [] /\ ~ In 92 x) cs -> exists c t, join_slash cs = c :: t /\ ~ sep c.
Proof.
  destruct cs as [|x cs]; [congruence|]. intros _ F N. inversion F as [|? ? Fx _]; subst. inversion N as [|? ? [Nx N92] _]; subst.
  destruct x as [|c x]; [congruence|]. exists c. cbn [join_slash]. assert (S : ~ sep c) by (intros [->| ->]; [apply Fx; now left|apply N92; now left]).
  destruct cs; eexists; split; eauto. cbn. reflexivity.
Qed.
Lemma win_loop_rel cs : cs <> [] -> Forall flat cs -> Forall (fun x => x <> [] /\ ~ In 92 x) cs -> no_volume (join_slash cs) -> forall acc,
  win_split_loop (length cs) (join_slash cs) acc = Panic.
Proof.
  induction cs as [|x cs IH] using rev_ind; intros N F Ne NV acc; [congruence|].
  assert (NB : ~ In 92 (join_slash (cs ++ [x]))).
  { intros I. assert (G : Forall (fun c => c <> 92) (join_slash (cs ++ [x]))).
    { apply join_all; [discriminate|]. eapply Forall_impl; [|exact Ne]. intros y [_ Y]. apply Forall_forall. intros c IC ->. contradiction. }
    rewrite Forall_forall in G. now apply (G _ I). }
  apply Forall_app in F as [Fc Fx]. apply Forall_cons_iff in Fx as [Fx _]. apply Forall_app in Ne as [Nc Nx]. apply Forall_cons_iff in Nx as [[Nx _] _].
  rewrite app_length, Nat.add_comm. cbn [length Nat.add win_split_loop]. rewrite (win_split_none _ NV NB). destruct cs as [|y cs].
  - cbn [app join_slash]. rewrite split_flat by auto. destruct x; [congruence|]. reflexivity.
  - rewrite join_snoc in * by discriminate. rewrite split_slash by auto. destruct x as [|c x]; [congruence|]. rewrite trim_slash_snoc.
    apply IH; auto; [discriminate|]. intros v r [E [D|[(a & b & h & d & w & SA & _ & _ & _ & _ & ->) _]]].
    + apply (NV v (r ++ 47 :: c :: x)). rewrite E, <- app_assoc. now apply volumed_drive.
    + destruct (join_first_sep (y :: cs) ltac:(discriminate) Fc Nc) as (z & t & EZ & SZ). rewrite EZ in E. cbn in E. assert (z = a) by congruence. subst. contradiction.
Qed.
(** The elements of a relative clean path. *)
Lemma rel_elements s : ~ In 92 s -> is_rooted s = false -> exists l, l <> [] /\ clean s = join_slash l /\ Forall flat l /\ Forall (fun x => x <> [] /\ ~ In 92 x) l.
Proof.
  intros N R. destruct (clean_form s) as [(R' & _)|(_ & k & cs & F & C & _)]; [congruence|].
  pose proof (clean_slashes s N) as NC. set (l := match repeat dd k ++ cs with [] => [[46]] | l => l end).
  assert (EL : clean s = join_slash l /\ l <> [] /\ Forall flat l /\ Forall (fun x => x <> []) l).
  { unfold l. destruct (repeat dd k ++ cs) as [|x y] eqn:E.
    - rewrite C. repeat split; try discriminate; repeat constructor; try discriminate. intros [?|[]]; discriminate.
    - rewrite C, rel_path_join by discriminate. split; [reflexivity|]. split; [discriminate|]. rewrite <- E. split; [now apply ups_names_flat|].
      apply Forall_app. split; [apply Forall_forall; intros z Hz; apply repeat_spec in Hz; subst; discriminate|].
      eapply Forall_impl; [|exact F]. intros z Hz. apply Hz. }
  destruct EL as (EC & NL & FL & EL). exists l. repeat split; try assumption. rewrite EC in NC.
  pose proof (segments_join_flat l NL FL) as SG. assert (A : Forall (Forall (fun c => c <> 92)) l).
  { rewrite <- SG. apply segments_all. apply Forall_forall. intros c I ->. contradiction. }
  rewrite Forall_forall in *. intros x I. split; [now apply EL|]. intros I2. specialize (A x I). rewrite Forall_forall in A. now apply (A _ I2).
Qed.
Lemma rooted_is s : ~ rooted s -> is_rooted (slashed s) = false.
Proof.
  intros H. destruct s as [|c s]; [reflexivity|]. cbn [slashed map is_rooted]. destruct (Z.eq_dec c 92) as [->|N].
  - destruct H. exists 92, s. split; [reflexivity|now right].
  - destruct (Z.eqb_spec c 47) as [->|]; [|reflexivity]. destruct H. exists 47, s. split; [reflexivity|now left].
Qed.
Lemma split_all_panics s : (no_volume s /\ no_volume (win_path s) /\ ~ rooted s) \/ (exists v r, volumed s v r /\ drive v /\ ~ rooted r) ->
  win_split_all (win_path s) = Panic.
Proof.
  intros [(N & K & R)|(v & r & V & D & R)]; apply rooted_is in R; unfold win_split_all.
  - rewrite (win_path_none s N) in *. destruct (rel_elements _ (slashed_no s) R) as (l & NL & E & FL & EL). rewrite E in *.
    rewrite Nat.add_1_r, join_count by assumption. now apply win_loop_rel.
  - rewrite (win_path_drive s v r V D). destruct (rel_elements _ (slashed_no r) R) as (l & NL & E & FL & EL). rewrite E in *.
    rewrite count_slash_app, (drive_count v D), Nat.add_1_r, Nat.add_0_l, join_count by assumption. now apply win_loop_drive.
Qed.

(** ** Joins *)
Lemma join_back_slashed l : Forall (fun x => ~ In 92 x) l -> slashed (join_back l) = join_slash l.
Proof.
  induction l as [|x l IH]; intros F; [reflexivity|]. inversion F; subst. cbn [join_back join_slash]. destruct l as [|y l]; [now apply slashed_id|].
  rewrite slashed_app. cbn [slashed map]. fold (slashed (join_back (y :: l))). rewrite IH by assumption. now rewrite slashed_id.
Qed.
Lemma wname_no cs : Forall wname cs -> Forall (fun x => ~ In 92 x) cs.
Proof. apply Forall_impl. intros x H. apply H. Qed.
Lemma clean_names cs : Forall name cs -> cs <> [] -> clean (join_slash cs) = rel_path cs.
Proof. intros F N. rewrite <- rel_path_join by assumption. exact (rel_fix 0 cs F). Qed.
Lemma joins_drive v cs : drive v -> Forall wname cs -> cs <> [] -> win_joins (v :: cs) = v ++ rel_path cs.
Proof.
  intros D F N. unfold win_joins. assert (E : win_join (v :: cs) = win_clean (v ++ join_back cs)) by (destruct D as (c & L & ->); reflexivity).
  rewrite E, win_path_clean. pose proof (volumed_drive v (join_back cs) D) as V.
  rewrite win_path_idem by (intros NV; destruct (NV _ _ V)). rewrite (win_path_drive _ _ _ V D), join_back_slashed by (now apply wname_no).
  now rewrite clean_names by (assumption || now apply wname_name).
Qed.
Lemma share_long v : share v -> (4 < length v)%nat.
Proof.
  intros (a & b & h & d & w & _ & _ & (NH & _) & _ & (NW & _) & ->). cbn [length]. rewrite app_length. cbn [length].
  destruct h; [congruence|]. destruct w; [congruence|]. cbn. lia.
Qed.
Lemma unc_share s v r : volumed s v r -> share v -> is_unc (win_clean s) = true.
Proof.
  intros V S. unfold is_unc. rewrite <- vol_len_slashed, <- to_slash_slashed. fold (win_path s).
  rewrite (vol_len_ok _ _ _ (volumed_share s v r V S)). pose proof (share_long _ (share_slashed v S)). apply Nat.ltb_lt. lia.
Qed.
Lemma unc_drive s v r : volumed s v r -> drive v -> is_unc (win_clean s) = false.
Proof.
  intros V S. unfold is_unc. rewrite <- vol_len_slashed, <- to_slash_slashed. fold (win_path s).
  rewrite (win_path_drive s v r V S), (vol_len_ok _ _ _ (volumed_drive v _ S)). destruct S as (c & _ & ->). reflexivity.
Qed.
(** Joining something behind a path with a volume. *)
Lemma join_volumed h t v r : volumed h v r -> h <> v \/ share v -> win_path (join_non_empty h t) = win_path (join_back (h :: t)).
Proof.
  intros V HV. unfold join_non_empty.
  assert (L2 : (length h =? 2)%nat && (nth 1 h 0 =? 58) = false).
  { destruct V as [E [D|[S R]]].
    - destruct D as (c & L & EV). subst v. destruct r as [|x r]; [|rewrite E; cbn; reflexivity].
      rewrite app_nil_r in E. destruct HV as [HV|HV]; [congruence|]. exfalso. refine (drive_share [c; 58] _ HV). exists c. auto.
    - pose proof (share_long v S). rewrite E, app_length. replace (length v + length r =? 2)%nat with false by lia. reflexivity. }
  rewrite L2. set (X := join_back (h :: t)).
  assert (VX : exists r', volumed X v r' /\ (h = v -> t = [] \/ exists y, r' = 92 :: y)).
  { unfold X. destruct t as [|y t]; [exists r; split; [assumption|auto]|].
    exists (r ++ 92 :: join_back (y :: t)). split.
    - destruct V as [-> VV]. split; [change (join_back ((v ++ r) :: y :: t)) with ((v ++ r) ++ 92 :: join_back (y :: t)); now rewrite <- app_assoc|].
      destruct VV as [D|[S R]]; [now left|right; split; [assumption|]]. destruct r; [now right|exact R].
    - intros ->. right. destruct V as [E _]. assert (r = []) by (destruct r; [reflexivity|apply (f_equal (@length Z)) in E; rewrite app_length in E; cbn in E; lia]). subst. eexists. reflexivity. }
  destruct VX as (r' & VX & _). assert (ID : win_path (win_clean X) = win_path X).
  { rewrite win_path_clean. apply win_path_idem. intros NV. destruct (NV _ _ VX). }
  destruct VX as [EX [D|[S R]]].
  - assert (VX : volumed X v r') by (split; [assumption|now left]). rewrite (unc_drive X v r' VX D). exact ID.
  - assert (VX : volumed X v r') by (split; [assumption|right; auto]). rewrite (unc_share X v r' VX S), (unc_share h v r V S). exact ID.
Qed.
Lemma joins_share v cs : share v -> ~ In 92 v -> Forall wname cs -> cs <> [] -> win_joins (v :: cs) = v ++ abs_path cs.
Proof.
  intros S N92 F N. unfold win_joins. assert (VV : volumed v v []) by (split; [now rewrite app_nil_r|right; auto]).
  assert (E : win_join (v :: cs) = join_non_empty v cs) by (destruct v; [destruct (plain_ne [] (or_intror (conj S N92)) eq_refl)|reflexivity]).
  rewrite E, (join_volumed v cs v [] VV (or_intror S)). destruct cs as [|x cs]; [congruence|].
  assert (VX : volumed (join_back (v :: x :: cs)) v (92 :: join_back (x :: cs))) by (split; [reflexivity|right; split; [assumption|now right]]).
  rewrite (win_path_share _ _ _ VX S), slashed_id by assumption. f_equal. cbn [slashed map]. fold (slashed (join_back (x :: cs))).
  rewrite join_back_slashed by (now apply wname_no). change (if Z.eq_dec 92 92 then 47 else 92) with 47. rewrite <- abs_path_join.
  apply file_path_fix_abs. now apply wname_name.
Qed.

(** ** Rename and Move *)
Lemma volume_name_ne s v r : volumed s v r -> volume_name s <> [].
Proof.
  intros V. unfold volume_name. destruct (vol_ok s v r V) as [-> _]. intros E. apply map_eq_nil in E. subst.
  destruct V as [_ [(c & _ & E)|[(a & b & h & d & w & _ & _ & _ & _ & _ & E) _]]]; discriminate.
Qed.
Lemma volumed_path s v r : volumed s v r -> exists r', volumed (win_path s) (slashed v) r'.
Proof.
  intros V. assert (DS : drive v \/ share v) by (destruct V as [_ [D|[S _]]]; auto). destruct DS as [D|S].
  - exists (clean (slashed r)). rewrite (win_path_drive s v r V D), (drive_slashed v D). now apply volumed_drive.
  - eexists. apply (volumed_share s v r V S).
Qed.
Lemma rename_volume me dest v r : volumed dest v r -> win_rename me dest = win_path dest.
Proof.
  intros V. unfold win_rename, win_relate_this. destruct (volumed_path dest v r V) as [r' V']. pose proof (volume_name_ne _ _ _ V') as N.
  destruct (volume_name (win_path dest)); [congruence|reflexivity].
Qed.
Lemma dir_path v cs x : plain_volume v -> Forall wname cs -> wname x -> win_dir (v ++ abs_path (cs ++ [x])) = from_slash (v ++ abs_path cs).
Proof.
  intros PV F X. assert (E : abs_path (cs ++ [x]) = base (cs ++ [x])) by (destruct cs; reflexivity). rewrite E.
  assert (FX : Forall wname (cs ++ [x])) by (apply Forall_app; auto).
  unfold win_dir, volume_name. destruct (vol_ok _ _ _ (base_volumed v (cs ++ [x]) PV)) as [-> ->].
  rewrite (split_sep_path _ (base_no _ FX)), base_snoc, split_slash by (apply name_flat, X). cbn [fst].
  assert (NB : ~ In 92 (base cs ++ [47])) by (rewrite in_app_iff; intros [I|[I|[]]]; [now apply (base_no cs F)|discriminate]).
  assert (CB : clean (base cs ++ [47]) = abs_path cs).
  { pose proof (dir_abs cs x (wname_name _ F) (proj1 X)) as D. unfold dir_of in D. rewrite E, base_snoc, split_slash in D by (apply name_flat, X). exact D. }
  assert (NV : vol_len (base cs ++ [47]) = 0%nat).
  { apply no_volume_len. intros v' r' [EV [(c & L & ->)|[(a & b & h & d & w & SA & SB & (NH & FH & _) & _ & _ & ->) _]]].
    - destruct cs as [|y cs]; cbn in EV; assert (47 = c) by congruence; lia.
    - destruct cs as [|y cs]; [cbn in EV; discriminate|]. inversion F as [|? ? [(Y1 & _ & _ & Y2) Y3] _]; subst. destruct y as [|y0 y]; [congruence|].
      cbn in EV. assert (y0 = b) by congruence. subst. destruct SB; subst; [apply Y2|apply Y3]; now left. }
  assert (WC : win_clean (base cs ++ [47]) = from_slash (abs_path cs)).
  { unfold win_clean, rest, vol. rewrite NV. cbn [skipn firstn app]. destruct (base cs ++ [47]) eqn:EB; [destruct (base cs); discriminate|].
    rewrite <- EB in *. rewrite to_slash_slashed, slashed_id by assumption. now rewrite CB. }
  rewrite WC, from_app. replace (str_eqb (from_slash (abs_path cs)) [46]) with false; [reflexivity|].
  symmetry. apply not_true_iff_false. intros H. apply str_eqb_eq in H. rewrite abs_path_join in H. discriminate.
Qed.
Lemma rename_relative v cs x dest : plain_volume v -> Forall wname cs -> wname x -> no_volume dest -> no_volume (win_path dest) ->
  win_rename (v ++ abs_path (cs ++ [x])) dest = v ++ clean (abs_path cs ++ 47 :: clean (slashed dest)).
Proof.
  intros PV F X N K. unfold win_rename, win_relate_this. assert (VN : volume_name (win_path dest) = []).
  { unfold volume_name. destruct (no_vol _ K) as [-> _]. reflexivity. }
  rewrite VN, (dir_path v cs x PV F X). set (h := from_slash (v ++ abs_path cs)). set (n := win_path dest).
  assert (DS : drive v \/ share v) by (destruct PV as [D|[S _]]; auto).
  assert (NV : ~ In 92 v). { destruct PV as [(c & L & ->)|[_ N92]]; [cbn; intros [I|[I|[]]]; lia|assumption]. }
  assert (V0 : volumed (v ++ abs_path cs) v (abs_path cs)).
  { split; [reflexivity|]. destruct DS as [D|S]; [now left|right; split; [assumption|]]. rewrite abs_path_join. now left. }
  pose proof (volumed_from _ _ _ V0) as VH. fold h in VH.
  assert (J : win_joins [h; n] = win_path (join_back [h; n])).
  { unfold win_joins. assert (HN : h <> []) by (unfold h; intros E; apply map_eq_nil in E; destruct v; [destruct (plain_ne [] PV eq_refl)|discriminate]).
    replace (win_join [h; n]) with (join_non_empty h [n]) by (destruct h; [congruence|reflexivity]).
    apply (join_volumed h [n] (from_slash v) (from_slash (abs_path cs)) VH). left. intros E. destruct VH as [E2 _]. rewrite E in E2.
    apply (f_equal (@length Z)) in E2. rewrite app_length in E2. rewrite (from_length (abs_path cs)), abs_path_join in E2. cbn in E2. lia. }
  assert (SX : slashed (join_back [h; n]) = v ++ abs_path cs ++ 47 :: n).
  { cbn [join_back]. rewrite slashed_app. cbn [slashed map]. fold (slashed n). unfold h at 1. rewrite slashed_from, slashed_app, (slashed_id v NV).
    rewrite slashed_id. 2: { rewrite abs_path_join. cbn. intros [I|I]; [discriminate|]. destruct cs as [|y cs]; [contradiction|].
      apply (base_no (y :: cs) F). change (In 92 (abs_path (y :: cs))). rewrite abs_path_join. now right. }
    unfold n. rewrite (slashed_id (win_path dest)) by apply win_path_slashes. rewrite <- app_assoc. reflexivity. }
  assert (VX : volumed (v ++ abs_path cs ++ 47 :: n) v (abs_path cs ++ 47 :: n)).
  { split; [reflexivity|]. destruct DS as [D|S]; [now left|right; split; [assumption|]]. rewrite abs_path_join. now left. }
  assert (NR : ~ In 92 (abs_path cs ++ 47 :: n)).
  { intros I. pose proof (slashed_no (join_back [h; n])) as Q. rewrite SX in Q. apply Q. rewrite in_app_iff. now right. }
  assert (PX : win_path (join_back [h; n]) = v ++ clean (abs_path cs ++ 47 :: n)).
  { rewrite <- win_path_slashed, SX. destruct DS as [D|S].
    - rewrite (win_path_drive _ _ _ VX D). now rewrite slashed_id.
    - rewrite (win_path_share _ _ _ VX S), (slashed_id v NV), (slashed_id _ NR). rewrite abs_path_join. reflexivity. }
  rewrite J. rewrite win_path_idem.
  - rewrite PX. unfold n. now rewrite (win_path_none dest N).
  - intros NVX. exfalso. rewrite <- no_volume_slashed, SX in NVX. destruct (NVX _ _ VX).
Qed.
Lemma rename_place v cs x dest cur cwd : plain_volume v -> Forall wname cs -> wname x -> no_volume dest -> no_volume (win_path dest) -> ~ rooted dest ->
  stands cur cwd (win_rename (v ++ abs_path (cs ++ [x])) dest) v (leads (rev cs) (slashed dest)).
Proof.
  intros PV F X N K R. rewrite (rename_relative v cs x dest PV F X N K).
  assert (NV : ~ In 92 v). { destruct PV as [(c & L & ->)|[_ N92]]; [cbn; intros [I|[I|[]]]; lia|assumption]. }
  set (q := abs_path cs ++ 47 :: clean (slashed dest)).
  assert (RQ : is_rooted q = true) by (unfold q; rewrite abs_path_join; reflexivity).
  assert (NC : ~ In 92 (clean q)).
  { apply clean_slashes. unfold q. rewrite abs_path_join. cbn. rewrite in_app_iff. cbn. intros [I|[I|[I|I]]]; try discriminate.
    - destruct cs as [|y cs]; [contradiction|]. apply (base_no (y :: cs) F). change (In 92 (abs_path (y :: cs))). rewrite abs_path_join. now right.
    - now apply (clean_slashes _ (slashed_no dest)). }
  assert (L : forall p, leads p (slashed (clean q)) = leads (rev cs) (slashed dest)).
  { intros p. rewrite (slashed_id _ NC). transitivity (leads p q); [exact (clean_leads q p)|]. rewrite leads_fold, RQ.
    unfold q. rewrite segments_app, fold_left_app. pose proof (leads_abs cs [] (wname_name _ F)) as LA. rewrite leads_fold, is_rooted_abs in LA. rewrite LA.
    rewrite <- (clean_leads (slashed dest) (rev cs)). unfold file_path. rewrite leads_fold, clean_rooted, (rooted_is dest R). reflexivity. }
  destruct (clean_head q RQ) as [t EQ].
  destruct PV as [D|[S _]].
  - rewrite <- (L (cwd v)). apply st_drive; [now apply volumed_drive|assumption].
  - rewrite <- (L []). rewrite <- (slashed_id v NV) at 2. apply st_share; [|assumption]. split; [reflexivity|right; split; [assumption|]]. rewrite EQ. now left.
Qed.
Lemma plain_slashed v : plain_volume v -> slashed v = v.
Proof. intros [D|[_ N]]; [now apply drive_slashed|now apply slashed_id]. Qed.
Lemma from_inj a b : from_slash a = from_slash b -> slashed a = slashed b.
Proof. intros E. rewrite <- (slashed_from a), <- (slashed_from b), E. reflexivity. Qed.
Lemma slashed_from_eq a b : slashed a = slashed b -> from_slash a = from_slash b.
Proof.
  unfold slashed, from_slash. revert b. induction a as [|x a IH]; intros [|y b] E; try discriminate; [reflexivity|]. cbn in *.
  assert (map (fun c : Z => if Z.eq_dec c 92 then 47 else c) a = map (fun c : Z => if Z.eq_dec c 92 then 47 else c) b) by congruence.
  rewrite (IH b) by assumption. f_equal. assert (X : (if Z.eq_dec x 92 then 47 else x) = (if Z.eq_dec y 92 then 47 else y)) by congruence.
  destruct (Z.eq_dec x 92), (Z.eq_dec y 92), (Z.eqb_spec x 47), (Z.eqb_spec y 47); congruence.
Qed.
Lemma volume_name_path s v r : volumed s v r -> volume_name (win_path s) = from_slash v.
Proof.
  intros V. destruct (volumed_path s v r V) as [r' V']. unfold volume_name. destruct (vol_ok _ _ _ V') as [-> _]. apply slashed_from_eq, slashed_idem.
Qed.
Lemma move_volume me dest v v' r r' : volumed me v r -> volumed dest v' r' ->
  win_move me dest = if list_eq_dec Z.eq_dec (slashed v) (slashed v') then Some (win_path dest) else None.
Proof.
  intros V V'. unfold win_move. change (win_relate_this me dest) with (win_rename me dest). rewrite (rename_volume me dest v' r' V').
  rewrite (volume_name_path _ _ _ V'). unfold volume_name. destruct (vol_ok _ _ _ V) as [-> _].
  destruct (list_eq_dec Z.eq_dec (slashed v) (slashed v')) as [E|E].
  - apply slashed_from_eq in E. rewrite E. replace (str_eqb _ _) with true by (symmetry; now apply str_eqb_eq).
    destruct (volumed_path dest v' r' V') as [r2 V2]. rewrite (rename_volume me _ _ _ V2). f_equal. apply win_path_idem. intros NV. destruct (NV _ _ V').
  - replace (str_eqb _ _) with false; [reflexivity|]. symmetry. apply not_true_iff_false. intros H. apply str_eqb_eq in H. apply from_inj in H. contradiction.
Qed.
Lemma move_relative v cs x dest : plain_volume v -> Forall wname cs -> wname x -> no_volume dest -> no_volume (win_path dest) ->
  win_move (v ++ abs_path (cs ++ [x])) dest = Some (win_rename (v ++ abs_path (cs ++ [x])) dest).
Proof.
  intros PV F X N K. set (me := v ++ abs_path (cs ++ [x])). assert (E : abs_path (cs ++ [x]) = base (cs ++ [x])) by (destruct cs; reflexivity).
  assert (VM : volumed me v (abs_path (cs ++ [x]))) by (unfold me; rewrite E; now apply base_volumed).
  unfold win_move. change (win_relate_this me dest) with (win_rename me dest). set (n := win_rename me dest).
  assert (EN : n = v ++ clean (abs_path cs ++ 47 :: clean (slashed dest))) by (apply rename_relative; assumption).
  assert (VN : exists r, volumed n v r).
  { eexists. rewrite EN. destruct PV as [D|[S _]]; [now apply volumed_drive|]. split; [reflexivity|right; split; [assumption|]].
    destruct (clean_head (abs_path cs ++ 47 :: clean (slashed dest))) as [t ->]; [rewrite abs_path_join; reflexivity|now left]. }
  destruct VN as [r VN]. unfold volume_name. destruct (vol_ok _ _ _ VM) as [-> _]. destruct (vol_ok _ _ _ VN) as [-> _].
  replace (str_eqb _ _) with true by (symmetry; now apply str_eqb_eq). rewrite (rename_volume me n v r VN). f_equal.
  assert (NC : ~ In 92 (abs_path cs ++ 47 :: clean (slashed dest))).
  { intros I. apply in_app_or in I as [I|[I|I]]; [|discriminate|now apply (clean_slashes _ (slashed_no dest))].
    rewrite abs_path_join in I. destruct I as [I|I]; [discriminate|]. destruct cs as [|y cs]; [contradiction|].
    apply (base_no (y :: cs) F). change (In 92 (abs_path (y :: cs))). rewrite abs_path_join. now right. }
  set (q := abs_path cs ++ 47 :: clean (slashed dest)) in *.
  assert (ER : r = clean q). { destruct VN as [E2 _]. rewrite EN in E2. now apply app_inv_head in E2. }
  subst r. assert (CQ : clean (slashed (clean q)) = clean q) by (rewrite slashed_id by (now apply clean_slashes); apply clean_fix).
  destruct PV as [D|[S N92]].
  - rewrite (win_path_drive _ _ _ VN D), CQ. now symmetry.
  - rewrite (win_path_share _ _ _ VN S), CQ, (slashed_id v N92). rewrite EN. destruct (clean_head q) as [t ->]; [unfold q; rewrite abs_path_join; reflexivity|]. reflexivity.
Qed.

(** ** SplitAll of the root, of a share and of rooted paths without volume *)
Lemma split_all_root v : plain_volume v -> win_split_all (v ++ [47]) = Ok [v ++ [47]].
Proof.
  intros PV. unfold win_split_all. rewrite Nat.add_1_r. cbn [win_split_loop].
  assert (V : volumed (v ++ [47]) v [47]) by (split; [reflexivity|]; destruct PV as [D|[S _]]; [now left|right; split; [assumption|now left]]).
  rewrite (win_split_vol v [47] V) by (intros [I|[]]; discriminate). cbn [split_path fst snd]. destruct v; reflexivity.
Qed.
Lemma split_all_share v : share v -> win_split_all v = Ok [v].
Proof.
  intros S. unfold win_split_all. rewrite Nat.add_1_r. cbn [win_split_loop]. assert (V : volumed (v ++ []) v []) by (split; [reflexivity|right; auto]).
  pose proof (win_split_vol v [] V (fun x => x)) as E. rewrite app_nil_r in E. rewrite E. cbn. rewrite app_nil_r.
  destruct v; [destruct S as (? & ? & ? & ? & ? & _ & _ & _ & _ & _ & ?); discriminate|reflexivity].
Qed.
Lemma base_no_volume cs : Forall wname cs -> no_volume (base cs).
Proof.
  intros F v' r' [EV [(c & L & ->)|[(a & b & h & d & w & SA & SB & _ & _ & _ & ->) _]]].
  - destruct cs as [|y cs]; cbn in EV; [discriminate|]. assert (47 = c) by congruence; lia.
  - destruct cs as [|y cs]; [cbn in EV; discriminate|]. inversion F as [|? ? [(Y1 & _ & _ & Y2) Y3] _]; subst. destruct y as [|y0 y]; [congruence|].
    cbn in EV. assert (y0 = b) by congruence. subst. destruct SB; subst; [apply Y2|apply Y3]; now left.
Qed.
Lemma win_loop_base cs : Forall wname cs -> forall n acc, (length cs < n)%nat -> win_split_loop n (base cs) acc = Ok (cs ++ acc).
Proof.
  induction cs as [|x cs IH] using rev_ind; intros F n acc L; (destruct n as [|n]; [lia|]); cbn [win_split_loop].
  - reflexivity.
  - rewrite (win_split_none _ (base_no_volume _ F) (base_no _ F)).
    apply Forall_app in F as [F X]. inversion X as [|? ? [NX _] _]; subst. rewrite app_length in L. cbn [length] in L.
    rewrite base_snoc, split_slash by (now apply name_flat). destruct x as [|c x]; [destruct NX; congruence|].
    rewrite trim_slash_snoc, IH by (assumption || lia). now rewrite <- app_assoc.
Qed.
Lemma win_split_all_abs cs : Forall wname cs -> cs <> [] -> win_split_all (abs_path cs) = Ok cs.
Proof.
  intros F N. unfold win_split_all. assert (E : abs_path cs = base cs) by (destruct cs; [congruence|reflexivity]). rewrite E.
  rewrite win_loop_base; [now rewrite app_nil_r|assumption|]. rewrite base_count by (now apply wname_name). lia.
Qed.
Lemma wnames_in cs : Forall name cs -> ~ In 92 (abs_path cs) -> Forall wname cs.
Proof.
  intros F N. apply Forall_forall. intros x I. rewrite Forall_forall in F. split; [now apply F|]. intros I2. apply N. rewrite abs_path_join. right.
  clear - I I2. induction cs as [|y cs IH]; [contradiction|]. cbn [join_slash]. destruct I as [->|I].
  - destruct cs; [assumption|]. apply in_or_app. now left.
  - destruct cs; [contradiction|]. apply in_or_app. right. right. now apply IH.
Qed.
Lemma clean_abs s : ~ In 92 s -> is_rooted s = true -> exists cs, Forall wname cs /\ clean s = abs_path cs /\ forall p, leads p s = rev cs.
Proof.
  intros N R. destruct (clean_form s) as [(_ & cs & F & C & L)|(R' & _)]; [|congruence]. exists cs.
  split; [apply wnames_in; [assumption|]; rewrite <- C; now apply clean_slashes|]. split; [assumption|]. intros p.
  pose proof (clean_leads s p) as X. unfold file_path in X. rewrite <- X, C. now apply leads_abs.
Qed.
Lemma rooted_yes r : rooted r -> is_rooted (slashed r) = true.
Proof. intros (c & t & -> & S). now apply rooted_slashed. Qed.
Lemma rooted_dec r : rooted r \/ ~ rooted r.
Proof.
  destruct r as [|c t]; [right; intros (? & ? & E & _); discriminate|]. destruct (is_sep c) eqn:E.
  - left. exists c, t. split; [reflexivity|now apply is_sep_spec].
  - right. intros (? & ? & E2 & S). apply is_sep_false in E. assert (c = x) by congruence. now subst.
Qed.
(** What SplitAll gives for a path with a volume or a rooted one. *)
Lemma split_all_volumed s v r : volumed s v r -> rooted r -> exists cs, Forall wname cs /\ (forall p, leads p (slashed r) = rev cs) /\
  win_path s = slashed v ++ abs_path cs /\ win_split_all (win_path s) = Ok (match cs with [] => [slashed v ++ [47]] | _ => slashed v :: cs end).
Proof.
  intros V R. destruct (clean_abs (slashed r) (slashed_no r) (rooted_yes r R)) as (cs & F & C & L). exists cs. split; [assumption|]. split; [assumption|].
  assert (PV : plain_volume (slashed v)).
  { destruct V as [_ [D|[S _]]]; [left; now rewrite (drive_slashed v D)|right; split; [now apply share_slashed|apply slashed_no]]. }
  assert (E : win_path s = slashed v ++ abs_path cs).
  { assert (DS : drive v \/ share v) by (destruct V as [_ [D|[S _]]]; auto). destruct DS as [D|S].
    - now rewrite (win_path_drive s v r V D), C, (drive_slashed v D).
    - rewrite (win_path_share s v r V S). destruct R as (c & t & -> & _). now rewrite C. }
  split; [assumption|]. rewrite E. destruct cs as [|x cs]; [now apply split_all_root|]. apply split_all_vol; [assumption|assumption|discriminate].
Qed.
Lemma split_all_rooted s : no_volume s -> rooted s -> exists cs, Forall wname cs /\ (forall p, leads p (slashed s) = rev cs) /\
  win_path s = abs_path cs /\ win_split_all (win_path s) = Ok (match cs with [] => [[47]] | _ => cs end).
Proof.
  intros N R. destruct (clean_abs (slashed s) (slashed_no s) (rooted_yes s R)) as (cs & F & C & L). exists cs. split; [assumption|]. split; [assumption|].
  rewrite (win_path_none s N), C. split; [reflexivity|]. destruct cs as [|x cs]; [reflexivity|]. apply win_split_all_abs; [assumption|discriminate].
Qed.
Lemma split_all_bare s v : volumed s v [] -> share v -> win_path s = slashed v /\ win_split_all (win_path s) = Ok [slashed v].
Proof.
  intros V S. rewrite (win_path_share s v [] V S), app_nil_r. split; [reflexivity|]. now apply split_all_share, share_slashed.
Qed.

(** ** Paths that lead below a name like a drive *)
Lemma kept_iff s : no_volume s -> (no_volume (win_path s) <-> unhidden s).
Proof.
  intros N. rewrite (win_path_none s N). unfold unhidden. split.
  - intros K (_ & c & t & cs & D & L).
    destruct (clean_form (slashed s)) as [(_ & ds & F & C & E)|(_ & k & ds & F & C & E)].
    + pose proof (L []) as L1. pose proof (L [[1]]) as L2. rewrite E in L1, L2. rewrite L1 in L2. apply (f_equal (@length _)) in L2. rewrite !app_length in L2. cbn [length] in L2. lia.
    + assert (K0 : k = 0%nat /\ ds = (c :: 58 :: t) :: cs).
      { destruct k as [|k].
        - split; [reflexivity|]. pose proof (L []) as L1. rewrite E in L1. cbn [skipn] in L1. rewrite !app_nil_r in L1. apply (f_equal (@rev _)) in L1. now rewrite !rev_involutive in L1.
        - exfalso. pose proof (L []) as L1. pose proof (L [[1]]) as L2. rewrite E in L1, L2. rewrite skipn_nil in L1. cbn [skipn] in L2. rewrite skipn_nil in L2. rewrite L1 in L2.
          apply (f_equal (@length _)) in L2. rewrite !app_length in L2. cbn [length] in L2. lia. }
      destruct K0 as [-> ->]. cbn [repeat app] in C. destruct cs as [|y cs].
      * apply (K [c; 58] t). rewrite C. exact (volumed_drive [c; 58] t D).
      * apply (K [c; 58] (t ++ 47 :: rel_path (y :: cs))). rewrite C. exact (volumed_drive [c; 58] _ D).
  - intros NH v r V. destruct V as [E [(c & L & ->)|[S _]]]; [|exact (clean_not_share _ (slashed_no s) v r S E)].
    apply NH. split; [assumption|]. destruct (clean_form (slashed s)) as [(_ & ds & F & C & LD)|(_ & k & ds & F & C & LD)]; rewrite C in E.
    + rewrite abs_path_join in E. assert (47 = c) by (cbn in E; congruence). lia.
    + destruct k as [|k]; [|exfalso; change (repeat dd (S k) ++ ds) with (dd :: (repeat dd k ++ ds)) in E; destruct (repeat dd k ++ ds) as [|z l]; unfold dd in E; cbn in E; assert (46 = c) by congruence; lia].
      cbn [repeat app] in E. destruct ds as [|x ds]; [cbn in E; discriminate|].
      inversion F as [|? ? (X1 & _ & _ & X2) _]; subst. destruct x as [|x0 x]; [congruence|].
      assert (x0 = c) by (destruct ds; cbn in E; congruence). subst x0.
      destruct x as [|x1 x]; [destruct ds; cbn in E; discriminate|].
      assert (x1 = 58) by (destruct ds; cbn in E; congruence). subst x1.
      exists c, x, ds. split; [exists c; auto|]. intros p. now rewrite LD.
Qed.
Lemma kept s : unhidden s -> no_volume s -> no_volume (win_path s).
Proof. intros U N. now apply kept_iff. Qed.
Lemma no_colon s : ~ In 58 s -> unhidden s.
Proof. intros H U. destruct U as [N U]. pose proof (plain_kept s H N) as K. apply (kept_iff s N) in K. apply K. now split. Qed.
Lemma hidden_changes s : hides_drive s -> exists v r, volumed (win_path s) v r /\ drive v.
Proof.
  intros H. destruct (volumed_cases (win_path s)) as [K|(v & r & V & [D|S])]; [|eauto|].
  - exfalso. exact (proj1 (kept_iff s (proj1 H)) K H).
  - exfalso. destruct H as [N _]. rewrite (win_path_none s N) in V. destruct V as [E _]. exact (clean_not_share _ (slashed_no s) v r S E).
Qed.

(** ** Joins behind SplitAll *)
Lemma joins_single h v r : volumed h v r -> share v -> win_joins [h] = win_path h.
Proof.
  intros V S. unfold win_joins. assert (h <> []).
  { destruct V as [-> _]. destruct S as (? & ? & ? & ? & ? & _ & _ & _ & _ & _ & ->). discriminate. }
  replace (win_join [h]) with (join_non_empty h []) by (destruct h; [congruence|reflexivity]).
  now rewrite (join_volumed h [] v r V (or_intror S)).
Qed.
Lemma split_joins_share s v r : volumed s v r -> share v -> exists parts, win_split_all (win_path s) = Ok parts /\ win_joins parts = win_path s.
Proof.
  intros V S. assert (ID : win_path (win_path s) = win_path s) by (apply win_path_idem; intros NV; destruct (NV _ _ V)).
  destruct r as [|c t].
  - destruct (split_all_bare s v V S) as [E P]. eexists. split; [exact P|].
    pose proof (volumed_share s v [] V S) as V2. rewrite <- E. rewrite (joins_single _ _ _ V2 (share_slashed v S)). exact ID.
  - assert (R : rooted (c :: t)) by (exists c, t; split; [reflexivity|now apply (share_rest s v c t)]).
    destruct (split_all_volumed s v (c :: t) V R) as (cs & F & L & E & P). eexists. split; [exact P|].
    pose proof (volumed_share s v (c :: t) V S) as V2. destruct cs as [|x cs].
    + change (slashed v ++ [47]) with (slashed v ++ abs_path []). rewrite <- E. rewrite (joins_single _ _ _ V2 (share_slashed v S)). exact ID.
    + rewrite E. apply joins_share; [now apply share_slashed|apply slashed_no|assumption|discriminate].
Qed.
Lemma split_joins_drive s v r : volumed s v r -> drive v -> rooted r -> leads [] (slashed r) <> [] ->
  exists parts cs, win_split_all (win_path s) = Ok parts /\ win_path s = v ++ abs_path cs /\ win_joins parts = v ++ rel_path cs.
Proof.
  intros V D R N. destruct (split_all_volumed s v r V R) as (cs & F & L & E & P). rewrite (drive_slashed v D) in *.
  destruct cs as [|x cs]; [rewrite L in N; cbn in N; congruence|]. exists (v :: x :: cs), (x :: cs). split; [exact P|]. split; [exact E|].
  apply joins_drive; [assumption|assumption|discriminate].
Qed.
Lemma rename_bad me dest v cs x cur cwd : plain_volume v -> Forall wname cs -> wname x -> me = v ++ abs_path (cs ++ [x]) ->
  (forall v' r, volumed dest v' r -> win_rename me dest = win_path dest /\ (forall d w, stands cur cwd (win_rename me dest) w d <-> stands cur cwd dest w d)) /\
  (no_volume dest -> unhidden dest -> ~ rooted dest -> stands cur cwd (win_rename me dest) v (leads (rev cs) (slashed dest))).
Proof.
  intros PV F X ->. split.
  - intros v' r V. rewrite (rename_volume _ dest v' r V). split; [reflexivity|]. intros d w. apply stands_iff. intros NV. destruct (NV _ _ V).
  - intros N U R. apply rename_place; try assumption. now apply kept.
Qed.
Lemma move_all me dest v cs x : plain_volume v -> Forall wname cs -> wname x -> me = v ++ abs_path (cs ++ [x]) ->
  (forall v' r, volumed dest v' r -> slashed v' = v -> win_move me dest = Some (win_rename me dest)) /\
  (forall v' r, volumed dest v' r -> slashed v' <> v -> win_move me dest = None) /\
  (no_volume dest -> unhidden dest -> win_move me dest = Some (win_rename me dest)).
Proof.
  intros PV F X ->. assert (E : abs_path (cs ++ [x]) = base (cs ++ [x])) by (destruct cs; reflexivity).
  assert (VM : volumed (v ++ abs_path (cs ++ [x])) v (abs_path (cs ++ [x]))) by (rewrite E; now apply base_volumed).
  split; [|split].
  - intros v' r V EV. rewrite (move_volume _ dest v v' _ r VM V), (rename_volume _ dest v' r V), (plain_slashed v PV), EV.
    destruct (list_eq_dec Z.eq_dec v v); [reflexivity|congruence].
  - intros v' r V EV. rewrite (move_volume _ dest v v' _ r VM V), (plain_slashed v PV).
    destruct (list_eq_dec Z.eq_dec v (slashed v')); [congruence|reflexivity].
  - intros N U. apply move_relative; try assumption. now apply kept.
Qed.
Lemma rename_rooted v cs x dest : plain_volume v -> Forall wname cs -> wname x -> no_volume dest -> rooted dest ->
  forall cur cwd, stands cur cwd (win_rename (v ++ abs_path (cs ++ [x])) dest) v (leads [] (slashed dest) ++ rev cs).
Proof.
  intros PV F X N R cur cwd. destruct (clean_abs (slashed dest) (slashed_no dest) (rooted_yes dest R)) as (ds & FD & C & L).
  assert (K : no_volume (win_path dest)).
  { rewrite (win_path_none dest N). intros v' r' [EV [(c & LC & ->)|[S _]]]; [|exact (clean_not_share _ (slashed_no dest) _ _ S EV)].
    rewrite C, abs_path_join in EV. assert (47 = c) by (cbn in EV; congruence). lia. }
  rewrite (rename_relative v cs x dest PV F X N K), L, C.
  assert (CD : clean (abs_path cs ++ 47 :: abs_path ds) = abs_path (cs ++ ds)).
  { apply (eq_trans (clean_unique (abs_path cs ++ 47 :: abs_path ds) (abs_path (cs ++ ds)) ltac:(intros p;
      rewrite leads_abs by (apply wname_name; apply Forall_app; auto);
      rewrite leads_fold; replace (is_rooted (abs_path cs ++ 47 :: abs_path ds)) with true by (rewrite abs_path_join; reflexivity);
      rewrite segments_app, fold_left_app; pose proof (leads_abs cs [] (wname_name _ F)) as LA; rewrite leads_fold, is_rooted_abs in LA; rewrite LA;
      rewrite segs_abs by (now apply wname_name); cbn [fold_left]; change (go (rev cs) []) with (rev cs);
      destruct ds as [|y ds]; [now rewrite app_nil_r|]; rewrite fold_names by (now apply wname_name); now rewrite rev_app_distr))).
    apply file_path_fix_abs. apply wname_name, Forall_app; auto. }
  rewrite CD. assert (NV : ~ In 92 v). { destruct PV as [(c & LC & ->)|[_ N92]]; [cbn; intros [I|[I|[]]]; lia|assumption]. }
  assert (FA : Forall wname (cs ++ ds)) by (apply Forall_app; auto).
  assert (NA : ~ In 92 (abs_path (cs ++ ds))).
  { destruct (cs ++ ds) as [|y l] eqn:EL; [intros [I|[]]; discriminate|]. exact (base_no (y :: l) FA). }
  rewrite <- rev_app_distr. destruct PV as [D|[S _]].
  - rewrite <- (leads_abs (cs ++ ds) (cwd v) (wname_name _ FA)). rewrite <- (slashed_id _ NA) at 2. apply st_drive; [now apply volumed_drive|assumption].
  - rewrite <- (leads_abs (cs ++ ds) [] (wname_name _ FA)). rewrite <- (slashed_id _ NA) at 2. rewrite <- (slashed_id v NV) at 2. apply st_share; [|assumption].
    split; [reflexivity|right; split; [assumption|]]. rewrite abs_path_join. now left.
Qed.

(** ** Witnesses *)
Lemma hidden_moves : exists s cur cwd v d, stands cur cwd s v d /\ ~ stands cur cwd (win_path s) v d.
Proof.
  exists w_hidden, [100; 58], (fun _ => []), [100; 58], [[120]; [99; 58]]. split.
  - change [[120]; [99; 58]] with (leads [] (slashed w_hidden)). apply st_none. now apply no_volume_len.
  - intros H. assert (V : volumed (win_path w_hidden) [99; 58] [47; 120]) by (apply (volumed_drive [99; 58]); exists 99; split; [lia|reflexivity]).
    destruct (stands_fun _ _ _ _ _ _ _ H (st_drive _ _ _ _ _ V ltac:(exists 99; split; [lia|reflexivity]))) as [E _]. discriminate.
Qed.
Lemma hidden_not_idem : exists s, win_path (win_path s) <> win_path s.
Proof. exists w_hidden2. vm_compute. discriminate. Qed.
Lemma share_not_unique : exists s t, (forall cur cwd v d, stands cur cwd s v d <-> stands cur cwd t v d) /\ win_path s <> win_path t.
Proof.
  exists w_share_root, w_share_bare. split; [|vm_compute; discriminate].
  assert (S : share w_share_bare).
  { exists 47, 47, [104], 47, [115]. repeat split; try (now left); try discriminate; repeat constructor; intros [?|?]; discriminate. }
  assert (V1 : volumed w_share_root w_share_bare [47]) by (split; [reflexivity|right; split; [assumption|now left]]).
  assert (V2 : volumed w_share_bare w_share_bare []) by (split; [reflexivity|right; split; [assumption|exact Logic.I]]).
  intros cur cwd v d. split; intros H.
  - destruct (stands_fun _ _ _ _ _ _ _ H (st_share cur cwd _ _ _ V1 S)) as [-> ->]. exact (st_share cur cwd _ _ _ V2 S).
  - destruct (stands_fun _ _ _ _ _ _ _ H (st_share cur cwd _ _ _ V2 S)) as [-> ->]. exact (st_share cur cwd _ _ _ V1 S).
Qed.
Lemma drive_not_back : exists s parts, win_split_all (win_path s) = Ok parts /\ win_joins parts <> win_path s.
Proof. exists w_drive, [[99; 58]; [98]]. split; [reflexivity|vm_compute; discriminate]. Qed.
Lemma relative_panics : exists s, win_split_all (win_path s) = Panic.
Proof. exists [120]. reflexivity. Qed.
Lemma move_lost : exists me dest v r, volumed dest v r /\ win_move me dest = None /\ win_rename me dest = dest.
Proof.
  exists w_me, w_other, [100; 58], [47; 103]. split; [|split; reflexivity]. apply (volumed_drive [100; 58]). exists 100. split; [lia|reflexivity].
Qed.
Lemma rooted_inside : exists me dest, rooted dest /\ no_volume dest /\ forall cur cwd, ~ stands cur cwd (win_rename me dest) [99; 58] (leads [] (slashed dest)).
Proof.
  exists w_me, w_rooted. split; [exists 47, (tl w_rooted); split; [reflexivity|now left]|]. split; [now apply no_volume_len|]. intros cur cwd H.
  assert (V : volumed (win_rename w_me w_rooted) [99; 58] [47; 97; 47; 116; 109; 112; 47; 103]) by (apply (volumed_drive [99; 58]); exists 99; split; [lia|reflexivity]).
  destruct (stands_fun _ _ _ _ _ _ _ H (st_drive _ _ _ _ _ V ltac:(exists 99; split; [lia|reflexivity]))) as [_ E]. discriminate.
Qed.
