(** Proofs about paths on Windows. *)
From Coq Require Import ZArith List Bool Arith Lia ZifyBool ZifyNat.
From Verif Require Import GoBase GoStrings PathSpec PathModel PathProofs WinSpec WinModel.
Import ListNotations.
Open Scope Z_scope.

(** ** Separators *)
Lemma is_sep_spec c : is_sep c = true <-> sep c.
Proof. unfold is_sep, sep. lia. Qed.
Lemma is_sep_false c : is_sep c = false <-> ~ sep c.
Proof. unfold is_sep, sep. lia. Qed.
Lemma to_slash_slashed s : to_slash s = slashed s.
Proof. unfold to_slash, slashed. apply map_ext. intros c. destruct (Z.eqb_spec c 92), (Z.eq_dec c 92); congruence. Qed.
Lemma slashed_app a b : slashed (a ++ b) = slashed a ++ slashed b.
Proof. apply map_app. Qed.
Lemma slashed_no s : ~ In 92 (slashed s).
Proof. unfold slashed. rewrite in_map_iff. intros (c & E & _). destruct (Z.eq_dec c 92); congruence. Qed.
Lemma slashed_id s : ~ In 92 s -> slashed s = s.
Proof.
  unfold slashed. intros H. rewrite <- (map_id s) at 2. apply map_ext_in. intros c I. destruct (Z.eq_dec c 92); [subst; contradiction|reflexivity].
Qed.
Lemma slashed_idem s : slashed (slashed s) = slashed s.
Proof. apply slashed_id, slashed_no. Qed.
Lemma slashed_from s : slashed (from_slash s) = slashed s.
Proof. unfold slashed, from_slash. rewrite map_map. apply map_ext. intros c. destruct (Z.eqb_spec c 47), (Z.eq_dec c 92); try congruence; subst; reflexivity. Qed.
Lemma from_no s : ~ In 47 (from_slash s).
Proof. unfold from_slash. rewrite in_map_iff. intros (c & E & _). destruct (Z.eqb_spec c 47); congruence. Qed.
Lemma from_app a b : from_slash (a ++ b) = from_slash a ++ from_slash b.
Proof. apply map_app. Qed.
Lemma from_length s : length (from_slash s) = length s.
Proof. apply map_length. Qed.
Lemma sep_slashed c : sep c -> (if Z.eq_dec c 92 then 47 else c) = 47.
Proof. intros [->| ->]; reflexivity. Qed.
Lemma sep_from c : sep c -> (if c =? 47 then 92 else c) = 92.
Proof. intros [->| ->]; reflexivity. Qed.
Lemma nosep_slashed w : Forall (fun c => ~ sep c) w -> slashed w = w.
Proof. intros F. apply slashed_id. intros I. rewrite Forall_forall in F. apply (F _ I). now right. Qed.
Lemma nosep_from w : Forall (fun c => ~ sep c) w -> from_slash w = w.
Proof.
  intros F. unfold from_slash. rewrite <- (map_id w) at 2. apply map_ext_in. intros c I. rewrite Forall_forall in F. specialize (F c I).
  destruct (Z.eqb_spec c 47); [|reflexivity]. destruct F. now left.
Qed.

(** ** Volumes *)
Lemma until_word w r : Forall (fun c => ~ sep c) w -> match r with [] => True | c :: _ => sep c end -> until_sep (w ++ r) = length w.
Proof.
  induction 1 as [|c w N F IH]; intros R; cbn [app until_sep length].
  - destruct r as [|c r]; [reflexivity|]. cbn. apply is_sep_spec in R. now rewrite R.
  - apply is_sep_false in N. rewrite N. now rewrite IH.
Qed.
Lemma unc_loop_ok h d w r : Forall (fun c => ~ sep c) h -> sep d -> word w -> match r with [] => True | c :: _ => sep c end ->
  forall n, unc_loop (h ++ d :: w ++ r) n = (n + length h + 1 + length w)%nat.
Proof.
  intros FH SD (NW & FW & HW) R. induction FH as [|c h N F IH]; intros n; cbn [app unc_loop].
  - destruct w as [|x w]; [congruence|]. cbn [app]. apply is_sep_spec in SD. rewrite SD.
    inversion FW as [|? ? NX FX]; subst. pose proof (proj2 (is_sep_false x) NX) as EX. rewrite EX. cbn in HW. replace (x =? 46) with false by lia.
    change (x :: w ++ r) with ((x :: w) ++ r). rewrite until_word by assumption. cbn [length]. lia.
  - destruct (h ++ d :: w ++ r) as [|e t] eqn:E; [destruct h; discriminate|].
    apply is_sep_false in N. rewrite N, IH. cbn [length]. lia.
Qed.
Lemma until_split s : exists w r, s = w ++ r /\ Forall (fun c => ~ sep c) w /\ match r with [] => True | c :: _ => sep c end /\ until_sep s = length w.
Proof.
  induction s as [|c s (w & r & -> & F & R & E)]; [exists [], []; repeat split; auto|]. cbn [until_sep].
  destruct (is_sep c) eqn:C.
  - apply is_sep_spec in C. exists [], (c :: w ++ r). repeat split; auto.
  - apply is_sep_false in C. exists (c :: w), r. cbn. repeat split; auto.
Qed.
Lemma unc_loop_inv p : forall n, unc_loop p n <> 0%nat -> exists h d w r, p = h ++ d :: w ++ r /\ Forall (fun c => ~ sep c) h /\ sep d /\ word w /\
  match r with [] => True | c :: _ => sep c end /\ unc_loop p n = (n + length h + 1 + length w)%nat.
Proof.
  induction p as [|c p IH]; intros n N; [now destruct N|]. cbn [unc_loop] in *. destruct p as [|e t]; [now destruct N|].
  destruct (is_sep c) eqn:C.
  - destruct (is_sep e) eqn:E; [now destruct N|]. destruct (Z.eqb_spec e 46); [now destruct N|].
    apply is_sep_spec in C. apply is_sep_false in E. destruct (until_split (e :: t)) as (w & r & EQ & F & R & U).
    exists [], c, w, r. rewrite U, EQ. cbn [app length]. repeat split; auto; try lia.
    + intros ->. cbn in EQ. destruct r as [|x r]; [discriminate|]. assert (x = e) by congruence. subst. contradiction.
    + destruct w as [|x w]; [cbn; lia|]. cbn. assert (x = e) by (cbn in EQ; congruence). now subst.
  - apply is_sep_false in C. destruct (IH (S n) N) as (h & d & w & r & EQ & F & SD & W & R & L).
    exists (c :: h), d, w, r. rewrite L, EQ. cbn [app length]. repeat split; auto; try lia; apply W.
Qed.
Lemma vol_len_ok s v r : volumed s v r -> vol_len s = length v.
Proof.
  intros [-> [(c & L & ->)|[(a & b & h & d & w & SA & SB & WH & SD & WW & ->) R]]].
  - cbn [app vol_len]. change (58 =? 58) with true. replace (is_letter c) with true by (unfold is_letter; lia). reflexivity.
  - destruct WH as (NH & FH & HH). destruct h as [|e h]; [congruence|]. cbn [hd] in HH. inversion FH as [|? ? NE FH']; subst.
    rewrite <- !app_comm_cons, <- app_assoc. cbn [app vol_len].
    replace (b =? 58) with false by (destruct SB; subst; reflexivity). cbn [andb].
    apply is_sep_spec in SA, SB. apply is_sep_false in NE. rewrite SA, SB, NE. replace (e =? 46) with false by lia.
    replace (5 <=? length (a :: b :: e :: h ++ d :: w ++ r))%nat with true.
    2: { symmetry. apply Nat.leb_le. cbn [length]. rewrite app_length. cbn [length]. rewrite app_length. destruct WW as [NW _]. destruct w; [congruence|]. cbn [length]. lia. }
    cbn [andb negb]. rewrite unc_loop_ok by assumption. cbn [length]. rewrite app_length. cbn [length]. lia.
Qed.
Lemma vol_ok s v r : volumed s v r -> vol s = v /\ rest s = r.
Proof.
  intros V. pose proof (vol_len_ok s v r V) as L. destruct V as [-> _]. unfold vol, rest. rewrite L.
  rewrite firstn_app, firstn_all, Nat.sub_diag, skipn_app, skipn_all, Nat.sub_diag. cbn. now rewrite app_nil_r.
Qed.
Lemma vol_len_inv s : vol_len s <> 0%nat -> volumed s (vol s) (rest s).
Proof.
  intros N. assert (E : exists v r, s = v ++ r /\ vol_len s = length v /\ (drive v \/ share v /\ match r with [] => True | c :: _ => sep c end)).
  { destruct s as [|c [|d t]]; try (now destruct N). cbn [vol_len] in *. destruct ((d =? 58) && is_letter c) eqn:D.
    - exists [c; 58], t. split; [|split; [reflexivity|left; exists c; split; [unfold is_letter in D; lia|reflexivity]]].
      cbn [app]. replace d with 58 by lia. reflexivity.
    - destruct t as [|e t]; [now destruct N|]. destruct (_ && _ && _ && _ && _) eqn:C; [|now destruct N].
      rewrite !andb_true_iff in C. destruct C as ((((_ & SC) & SD) & SE) & E46).
      destruct (unc_loop_inv t 3 N) as (h & x & w & r & -> & F & SX & W & R & L).
      exists (c :: d :: (e :: h) ++ x :: w), r. rewrite L. split; [|split].
      + cbn [app]. rewrite <- app_assoc. reflexivity.
      + cbn [app length]. rewrite app_length. cbn [length]. lia.
      + right. split; [|assumption]. exists c, d, (e :: h), x, w. rewrite negb_true_iff in SE. apply is_sep_spec in SC, SD. apply is_sep_false in SE.
        assert (WE : word (e :: h)). { split; [discriminate|]. split; [constructor; assumption|]. cbn. destruct (Z.eqb_spec e 46); [discriminate|assumption]. }
        repeat split; auto; try apply WE; apply W. }
  destruct E as (v & r & EQ & L & D). assert (V : volumed s v r) by (split; assumption). destruct (vol_ok s v r V) as [-> ->]. exact V.
Qed.
Lemma no_volume_len s : no_volume s <-> vol_len s = 0%nat.
Proof.
  split; intros H.
  - destruct (Nat.eq_dec (vol_len s) 0) as [|N]; [assumption|]. destruct (H _ _ (vol_len_inv s N)).
  - intros v r V. rewrite (vol_len_ok s v r V) in H. destruct V as [_ [(c & _ & ->)|[(a & b & h & d & w & _ & _ & _ & _ & _ & ->) _]]]; discriminate.
Qed.
Lemma volumed_cases s : no_volume s \/ exists v r, volumed s v r /\ (drive v \/ share v).
Proof.
  destruct (Nat.eq_dec (vol_len s) 0) as [N|N]; [left; now apply no_volume_len|]. right. apply vol_len_inv in N. exists (vol s), (rest s). split; [assumption|].
  destruct N as [_ [D|[S _]]]; auto.
Qed.
Lemma volumed_fun s v r v' r' : volumed s v r -> volumed s v' r' -> v = v' /\ r = r'.
Proof. intros V V'. apply vol_ok in V, V'. destruct V, V'. subst. auto. Qed.
Lemma drive_share v : drive v -> share v -> False.
Proof. intros (c & L & ->) (a & b & h & d & w & SA & _ & _ & _ & _ & E). assert (a = c) by congruence. subst. destruct SA; lia. Qed.
Lemma no_vol s : no_volume s -> vol s = [] /\ rest s = s.
Proof. intros N. apply no_volume_len in N. unfold vol, rest. rewrite N. auto. Qed.
Lemma share_slashed v : share v -> share (slashed v).
Proof.
  intros (a & b & h & d & w & SA & SB & (NH & FH & HH) & SD & (NW & FW & HW) & ->).
  exists 47, 47, h, 47, w. split; [now left|]. split; [now left|]. split; [repeat split; assumption|]. split; [now left|]. split; [repeat split; assumption|].
  cbn [slashed map]. fold (slashed (h ++ d :: w)). rewrite slashed_app. cbn [slashed map]. fold (slashed w).
  rewrite !sep_slashed, !nosep_slashed by assumption. reflexivity.
Qed.
Lemma share_from v : share v -> share (from_slash v).
Proof.
  intros (a & b & h & d & w & SA & SB & (NH & FH & HH) & SD & (NW & FW & HW) & ->).
  exists 92, 92, h, 92, w. split; [now right|]. split; [now right|]. split; [repeat split; assumption|]. split; [now right|]. split; [repeat split; assumption|].
  cbn [from_slash map]. fold (from_slash (h ++ d :: w)). rewrite from_app. cbn [from_slash map]. fold (from_slash w).
  rewrite !sep_from, !nosep_from by assumption. reflexivity.
Qed.
Lemma drive_slashed v : drive v -> slashed v = v.
Proof. intros (c & L & ->). cbn. destruct (Z.eq_dec c 92); [lia|reflexivity]. Qed.
Lemma drive_from v : drive v -> from_slash v = v.
Proof. intros (c & L & ->). cbn. destruct (Z.eqb_spec c 47); [lia|reflexivity]. Qed.

(** ** Clean *)
Lemma segments_all (Q : Z -> Prop) s : Forall Q s -> Forall (Forall Q) (segments s).
Proof.
  induction 1 as [|c s H F IH]; cbn [segments]; [repeat constructor|]. destruct (c =? 47); [constructor; [constructor|assumption]|].
  destruct (segments s) as [|h r]; [repeat constructor; assumption|]. inversion IH; subst. constructor; [constructor; assumption|assumption].
Qed.
Lemma join_all (Q : Z -> Prop) l : Q 47 -> Forall (Forall Q) l -> Forall Q (join_slash l).
Proof.
  intros H. induction l as [|x l IH]; intros F; [constructor|]. inversion F; subst. cbn [join_slash]. destruct l as [|y l]; [assumption|].
  apply Forall_app. split; [assumption|]. constructor; [assumption|]. now apply IH.
Qed.
Lemma clean_all (Q : Z -> Prop) s : Q 47 -> Q 46 -> Forall Q s -> Forall Q (clean s).
Proof.
  intros H1 H2 F. unfold clean.
  assert (G : forall l st, Forall (Forall Q) l -> Forall (Forall Q) st -> Forall (Forall Q) (fold_left (clean_step (is_rooted s)) l st)).
  { induction l as [|x l IH]; intros st FL FS; [assumption|]. inversion FL; subst. cbn [fold_left]. apply IH; [assumption|].
    unfold clean_step. destruct (_ || _); [assumption|]. destruct (str_eqb x [46; 46]).
    - destruct st as [|t st]; [destruct (is_rooted s); repeat constructor; assumption|]. inversion FS; subst.
      destruct (str_eqb t [46; 46]); [constructor; assumption|assumption].
    - constructor; assumption. }
  assert (J : Forall Q (join_slash (rev (fold_left (clean_step (is_rooted s)) (segments s) [])))).
  { apply join_all; [assumption|]. apply Forall_rev, G; [now apply segments_all|constructor]. }
  destruct (is_rooted s); [constructor; assumption|]. destruct (join_slash _); [repeat constructor; assumption|assumption].
Qed.
Lemma clean_slashes s : ~ In 92 s -> ~ In 92 (clean s).
Proof.
  intros H I. assert (F : Forall (fun c => c <> 92) (clean s)).
  { apply clean_all; [discriminate|discriminate|]. apply Forall_forall. intros c IC ->. contradiction. }
  rewrite Forall_forall in F. now apply (F _ I).
Qed.
Lemma win_path_none s : no_volume s -> win_path s = clean (slashed s).
Proof.
  intros N. destruct (no_vol s N) as [V R]. unfold win_path, win_clean. rewrite R, V. apply no_volume_len in N. rewrite N.
  destruct s as [|c s]; [reflexivity|]. cbn [app]. rewrite !to_slash_slashed, slashed_from. apply slashed_id, clean_slashes, slashed_no.
Qed.
Lemma win_path_drive s v r : volumed s v r -> drive v -> win_path s = v ++ clean (slashed r).
Proof.
  intros V D. destruct (vol_ok s v r V) as [EV ER]. pose proof (vol_len_ok s v r V) as L. unfold win_path, win_clean. rewrite EV, ER, L.
  destruct r as [|c r].
  - destruct V as [-> _]. rewrite app_nil_r. destruct D as (c & LC & ->). cbn [length nth andb Nat.ltb Nat.leb]. change (58 =? 58) with true. cbn [negb].
    rewrite to_slash_slashed, slashed_id; [reflexivity|]. cbn. intuition lia.
  - rewrite !to_slash_slashed, slashed_from, slashed_app, (drive_slashed v D). f_equal. apply slashed_id, clean_slashes, slashed_no.
Qed.
Lemma win_path_share s v r : volumed s v r -> share v -> win_path s = slashed v ++ match r with [] => [] | _ => clean (slashed r) end.
Proof.
  intros V D. destruct (vol_ok s v r V) as [EV ER]. pose proof (vol_len_ok s v r V) as L. unfold win_path, win_clean. rewrite EV, ER, L.
  destruct r as [|c r].
  - destruct V as [-> _]. rewrite app_nil_r. assert (E : (1 <? length v)%nat && negb (nth 1 (v ++ []) 0 =? 58) = true).
    { destruct D as (a & b & h & d & w & SA & SB & _ & _ & _ & ->). cbn. destruct SB; subst; reflexivity. }
    rewrite app_nil_r in *. rewrite E, to_slash_slashed, slashed_from. reflexivity.
  - rewrite !to_slash_slashed, slashed_from, slashed_app. f_equal. apply slashed_id, clean_slashes, slashed_no.
Qed.
(** What is left of a path with a volume is again a path with this volume. *)
Lemma volumed_drive v r : drive v -> volumed (v ++ r) v r.
Proof. intros D. split; [reflexivity|now left]. Qed.
Lemma share_rest s v c r : volumed s v (c :: r) -> share v -> sep c.
Proof. intros [_ [D|[_ R]]] S; [destruct (drive_share v D S)|exact R]. Qed.
Lemma clean_head s : is_rooted s = true -> exists t, clean s = 47 :: t.
Proof. intros R. unfold clean. rewrite R. eauto. Qed.
Lemma rooted_slashed c r : sep c -> is_rooted (slashed (c :: r)) = true.
Proof. intros S. cbn [slashed map is_rooted]. rewrite sep_slashed by assumption. reflexivity. Qed.
Lemma volumed_share s v r : volumed s v r -> share v -> volumed (win_path s) (slashed v) (match r with [] => [] | _ => clean (slashed r) end).
Proof.
  intros V S. rewrite (win_path_share s v r V S). split; [reflexivity|]. right. split; [now apply share_slashed|].
  destruct r as [|c r]; [exact Logic.I|]. pose proof (share_rest s v c r V S) as SC.
  destruct (clean_head (slashed (c :: r)) (rooted_slashed c r SC)) as [t ->]. now left.
Qed.
Lemma win_path_slashes s : ~ In 92 (win_path s).
Proof. unfold win_path. rewrite to_slash_slashed. apply slashed_no. Qed.
Lemma clean_fix s : clean (clean s) = clean s.
Proof. exact (clean_idem s). Qed.
Lemma slashed_clean s : slashed (clean (slashed s)) = clean (slashed s).
Proof. apply slashed_id, clean_slashes, slashed_no. Qed.
Lemma win_path_idem s : (no_volume s -> no_volume (win_path s)) -> win_path (win_path s) = win_path s.
Proof.
  intros K. destruct (volumed_cases s) as [N|(v & r & V & [D|S])].
  - specialize (K N). rewrite (win_path_none _ K), (win_path_none _ N), slashed_clean. apply clean_fix.
  - rewrite (win_path_drive _ _ _ V D), (win_path_drive _ _ _ (volumed_drive v _ D) D), slashed_clean. now rewrite clean_fix.
  - rewrite (win_path_share _ _ _ (volumed_share _ _ _ V S) (share_slashed v S)), (win_path_share _ _ _ V S), slashed_idem. f_equal.
    destruct r as [|c r]; [reflexivity|]. destruct (clean (slashed (c :: r))) eqn:E; [reflexivity|]. rewrite <- E, slashed_clean. apply clean_fix.
Qed.

(** ** Places *)
Lemma stands_fun cur cwd s v d v' d' : stands cur cwd s v d -> stands cur cwd s v' d' -> v = v' /\ d = d'.
Proof.
  intros H H'. inversion H as [? ? r V D|? v0 r V D|? N]; subst; inversion H' as [? ? r' V' D'|? v0' r' V' D'|? N']; subst;
    try (destruct (volumed_fun _ _ _ _ _ V V'); subst; auto); try (exfalso; eapply N; eassumption); try (exfalso; eapply N'; eassumption);
    try (exfalso; eapply drive_share; eassumption); auto.
Qed.
Lemma stands_total cur cwd s : exists v d, stands cur cwd s v d.
Proof. destruct (volumed_cases s) as [N|(v & r & V & [D|S])]; do 2 eexists; [apply st_none|eapply st_drive|eapply st_share]; eassumption. Qed.
Lemma leads_clean p s : leads p (slashed (clean (slashed s))) = leads p (slashed s).
Proof. rewrite slashed_clean. exact (clean_leads (slashed s) p). Qed.
Lemma stands_path cur cwd s v d : (no_volume s -> no_volume (win_path s)) -> stands cur cwd s v d -> stands cur cwd (win_path s) v d.
Proof.
  intros K H. inversion H as [? ? r V D|? v0 r V S|? N]; subst.
  - rewrite (win_path_drive _ _ _ V D). rewrite <- (leads_clean (cwd v) r). apply st_drive; [now apply volumed_drive|assumption].
  - rewrite <- (slashed_idem v0). replace (leads [] (slashed r)) with (leads [] (slashed match r with [] => [] | _ => clean (slashed r) end)).
    + apply st_share; [now apply volumed_share|now apply share_slashed].
    + destruct r; [reflexivity|apply leads_clean].
  - replace (leads (cwd v) (slashed s)) with (leads (cwd v) (slashed (win_path s))); [apply st_none; auto|].
    rewrite (win_path_none s N). apply leads_clean.
Qed.
Lemma stands_iff cur cwd s v d : (no_volume s -> no_volume (win_path s)) -> stands cur cwd (win_path s) v d <-> stands cur cwd s v d.
Proof.
  intros K. split; [|now apply stands_path]. intros H. destruct (stands_total cur cwd s) as (v' & d' & H').
  pose proof (stands_path _ _ _ _ _ K H') as H2. destruct (stands_fun _ _ _ _ _ _ _ H H2). now subst.
Qed.
