(** Proofs about Joins on Windows. *)
From Coq Require Import ZArith List Bool Arith Lia ZifyBool ZifyNat.
From Verif Require Import GoBase GoStrings PathSpec PathModel PathProofs WinSpec WinModel WinProofs WinMore.
Import ListNotations.
Open Scope Z_scope.

Lemma back_slashed l : slashed (join_back l) = join_slash (map slashed l).
Proof.
  induction l as [|x l IH]; [reflexivity|]. destruct l as [|y l]; [reflexivity|].
  change (join_back (x :: y :: l)) with (x ++ 92 :: join_back (y :: l)). rewrite slashed_app.
  change (slashed (92 :: join_back (y :: l))) with (47 :: slashed (join_back (y :: l))). rewrite IH. reflexivity.
Qed.
Lemma onwards_fold t : forall d, onwards t d = fold_left go (concat (map segments (map slashed t))) d.
Proof.
  induction t as [|x t IH]; intros d; [reflexivity|]. cbn [map concat]. rewrite fold_left_app, <- IH. unfold onwards. cbn [fold_left]. now rewrite follow_fold.
Qed.
(** A part [r] behind a volume, followed by the elements. *)
Lemma leads_tail p r x t : r <> [] \/ p = [] -> leads p (slashed (r ++ 92 :: join_back (x :: t))) = onwards (x :: t) (leads p (slashed r)).
Proof.
  intros H. rewrite slashed_app. change (slashed (92 :: join_back (x :: t))) with (47 :: slashed (join_back (x :: t))).
  rewrite back_slashed, onwards_fold, !leads_fold, segments_app, fold_left_app, segments_join by discriminate. f_equal. f_equal.
  destruct r as [|c r]; [|reflexivity]. destruct H as [H| ->]; [congruence|reflexivity].
Qed.
Lemma leads_list p x t : ~ rooted x -> x <> [] -> leads p (slashed (join_back (x :: t))) = onwards (x :: t) p.
Proof.
  intros R N. rewrite back_slashed, onwards_fold, leads_fold, segments_join by discriminate. f_equal. cbn [map]. rewrite rooted_first by (destruct x; [congruence|discriminate]).
  now rewrite (rooted_is x R).
Qed.
Lemma joins_first_win h t : h <> [] -> win_joins (h :: t) = win_path (join_non_empty h t).
Proof. intros N. unfold win_joins. destruct h; [congruence|reflexivity]. Qed.

(** A path with a volume in front. *)
Lemma joins_volumed cur cwd h t v r : volumed h v r -> h <> v \/ share v ->
  exists d, stands cur cwd h (slashed v) d /\ stands cur cwd (win_joins (h :: t)) (slashed v) (onwards t d).
Proof.
  intros V HV. assert (HN : h <> []). { destruct V as [-> [(c & _ & ->)|[(a & b & w & d & x & _ & _ & _ & _ & _ & ->) _]]]; discriminate. }
  rewrite joins_first_win by assumption. rewrite (join_volumed h t v r V HV).
  set (X := join_back (h :: t)).
  assert (VX : exists r', volumed X v r' /\ (t = [] /\ r' = r \/ exists x t', t = x :: t' /\ r' = r ++ 92 :: join_back (x :: t'))).
  { unfold X. destruct t as [|y t]; [exists r; split; [assumption|auto]|].
    exists (r ++ 92 :: join_back (y :: t)). split; [|right; eauto].
    destruct V as [-> VV]. split; [change (join_back ((v ++ r) :: y :: t)) with ((v ++ r) ++ 92 :: join_back (y :: t)); now rewrite <- app_assoc|].
    destruct VV as [D|[S R]]; [now left|right; split; [assumption|]]. destruct r; [now right|exact R]. }
  destruct VX as (r' & VX & ER). assert (K : no_volume X -> no_volume (win_path X)) by (intros NV; destruct (NV _ _ VX)).
  assert (DS : drive v \/ share v) by (destruct V as [_ [D|[S _]]]; auto). destruct DS as [D|S].
  - exists (leads (cwd v) (slashed r)). rewrite (drive_slashed v D). split; [now apply st_drive|]. apply stands_iff; [assumption|].
    replace (onwards t (leads (cwd v) (slashed r))) with (leads (cwd v) (slashed r')); [now apply st_drive|].
    destruct ER as [[-> ->]|(x & t' & -> & ->)]; [reflexivity|]. apply leads_tail. left. intros ->. destruct V as [E _]. rewrite app_nil_r in E.
    destruct HV as [HV|S]; [congruence|]. exact (drive_share v D S).
  - exists (leads [] (slashed r)). split; [now apply st_share|]. apply stands_iff; [assumption|].
    replace (onwards t (leads [] (slashed r))) with (leads [] (slashed r')); [now apply st_share|].
    destruct ER as [[-> ->]|(x & t' & -> & ->)]; [reflexivity|]. apply leads_tail. now right.
Qed.
(** A drive alone in front. *)
Lemma joins_bare cur cwd v t : drive v -> t = [] \/ (exists x t', t = x :: t' /\ x <> [] /\ ~ rooted x) ->
  stands cur cwd (win_joins (v :: t)) v (onwards t (cwd v)).
Proof.
  intros D H. rewrite joins_first_win by (destruct D as (c & _ & ->); discriminate).
  assert (E : join_non_empty v t = win_clean (v ++ join_back t)) by (destruct D as (c & L & ->); reflexivity).
  pose proof (volumed_drive v (join_back t) D) as V. assert (K : no_volume (v ++ join_back t) -> no_volume (win_path (v ++ join_back t))) by (intros NV; destruct (NV _ _ V)).
  rewrite E, win_path_clean, win_path_idem by assumption. apply stands_iff; [assumption|].
  replace (onwards t (cwd v)) with (leads (cwd v) (slashed (join_back t))); [now apply st_drive|].
  destruct H as [->|(x & t' & -> & N & R)]; [reflexivity|]. now apply leads_list.
Qed.
(** No volume in front: what is joined can look like a share. *)
Lemma sep_prefix (w h T r : list Z) : Forall (fun c => ~ sep c) w -> h ++ 92 :: T = w ++ r -> exists h', h = w ++ h' /\ h' ++ 92 :: T = r.
Proof.
  revert h. induction w as [|c w IH]; intros h F E; [exists h; auto|]. inversion F; subst. destruct h as [|b h].
  - cbn in E. assert (92 = c) by congruence. subst. destruct H1. now right.
  - cbn in E. assert (b = c) by congruence. subst. destruct (IH h H2) as (h' & -> & E'); [congruence|]. exists h'. auto.
Qed.
Lemma false_share h T v r : h <> [] -> no_volume h -> volumed (h ++ 92 :: T) v r -> share v -> rooted h /\ exists c T', T = c :: T' /\ ~ sep c.
Proof.
  intros HN NV [E VV] S. destruct S as (a & b & hh & d & w & SA & SB & (NH & FH & DH) & SD & (NW & FW & DW) & EV).
  assert (R : match r with [] => True | c :: _ => sep c end).
  { destruct VV as [(c & L & E2)|[_ R]]; [|exact R]. rewrite E2 in EV. assert (a = c) by (cbn in EV; congruence). destruct SA; subst; lia. }
  subst v. cbn [app] in E. destruct h as [|a' h]; [congruence|]. cbn in E. assert (a' = a) by congruence. subst a'.
  split; [exists a, h; auto|]. assert (E1 : h ++ 92 :: T = b :: (hh ++ d :: w) ++ r) by congruence. clear E. rewrite <- app_assoc in E1. cbn [app] in E1.
  destruct h as [|b' h].
  - cbn in E1. assert (ET : T = hh ++ d :: w ++ r) by congruence. subst T. destruct hh as [|c hh]; [congruence|]. inversion FH; subst. exists c. eexists. split; [reflexivity|assumption].
  - cbn in E1. assert (b' = b) by congruence. subst b'. assert (E2 : h ++ 92 :: T = hh ++ d :: w ++ r) by congruence. clear E1.
    destruct (sep_prefix hh h T _ FH E2) as (h' & -> & E3). destruct h' as [|d' h'].
    + cbn in E3. assert (ET : T = w ++ r) by congruence. destruct w as [|c w]; [congruence|]. inversion FW; subst. exists c. eexists. split; [reflexivity|assumption].
    + exfalso. cbn in E3. assert (d' = d) by congruence. subst d'. assert (E4 : h' ++ 92 :: T = w ++ r) by congruence.
      destruct (sep_prefix w h' T r FW E4) as (h4 & -> & E5). apply (NV (a :: b :: hh ++ d :: w) h4). split; [cbn; now rewrite <- app_assoc|].
      right. split; [exists a, b, hh, d, w; repeat split; assumption|]. destruct h4 as [|c h4]; [exact Logic.I|]. rewrite <- E5 in R. exact R.
Qed.
Lemma no_in (c : Z) l : ~ In c l -> Forall (fun x => x <> c) l.
Proof. intros N. apply Forall_forall. intros x I ->. contradiction. Qed.
Lemma in_no (c : Z) l : Forall (fun x => x <> c) l -> ~ In c l.
Proof. intros F I. rewrite Forall_forall in F. now apply (F c I). Qed.
Lemma slashed_colon s : ~ In 58 s -> ~ In 58 (slashed s).
Proof. intros N I. apply in_map_iff in I as (x & E & I). destruct (Z.eq_dec x 92); [discriminate|congruence]. Qed.
Lemma unslashed_colon s : ~ In 58 (slashed s) -> ~ In 58 s.
Proof. intros N I. apply N. apply in_map_iff. exists 58. auto. Qed.
Lemma back_colon l : Forall (fun x => ~ In 58 x) l -> ~ In 58 (join_back l).
Proof.
  induction l as [|x l IH]; intros F; [intros []|]. inversion F; subst. destruct l as [|y l]; [assumption|].
  change (join_back (x :: y :: l)) with (x ++ 92 :: join_back (y :: l)). rewrite in_app_iff. intros [I|[I|I]]; [contradiction|discriminate|now apply IH].
Qed.
Lemma clean_colon s : ~ In 58 s -> ~ In 58 (clean s).
Proof. intros N. apply in_no, clean_all; try discriminate. now apply no_in. Qed.
Lemma colon_drive s v r : ~ In 58 s -> volumed s v r -> drive v -> False.
Proof. intros N [-> _] (c & _ & ->). apply N. cbn. auto. Qed.
Lemma win_clean_none s : no_volume s -> s <> [] -> win_clean s = from_slash (clean (slashed s)).
Proof.
  intros N NE. unfold win_clean. destruct (no_vol s N) as [-> ->]. destruct s; [congruence|]. now rewrite to_slash_slashed.
Qed.
Lemma second_share s x y t : slashed s = x :: y :: t -> ~ sep y -> forall v r, volumed s v r -> share v -> False.
Proof.
  intros E N v r [-> _] (a & b & h & d & w & SA & SB & _ & _ & _ & ->). cbn in E. rewrite !sep_slashed in E by assumption. apply N. left. congruence.
Qed.
Lemma last_app_ne {A} (a b : list A) d : b <> [] -> last (a ++ b) d = last b d.
Proof. induction a as [|x a IH]; intros N; [reflexivity|]. cbn [app]. rewrite <- (IH N). destruct (a ++ b) eqn:E; [destruct a; [now subst|discriminate]|reflexivity]. Qed.
Lemma last_in {A} (l : list A) d : l <> [] -> In (last l d) l.
Proof. induction l as [|x l IH]; intros N; [congruence|]. destruct l as [|y l]; [now left|]. right. apply IH. discriminate. Qed.
Lemma joins_none cur cwd h t : h <> [] -> no_volume h -> Forall (fun x => ~ In 58 x) (h :: t) ->
  stands cur cwd (win_joins (h :: t)) cur (onwards t (leads (cwd cur) (slashed h))).
Proof.
  intros HN NV FC. inversion FC as [|? ? HC TC]; subst. rewrite joins_first_win by assumption. unfold join_non_empty.
  assert (L2 : (length h =? 2)%nat && (nth 1 h 0 =? 58) = false).
  { destruct h as [|a [|b [|c h]]]; try reflexivity. cbn. destruct (Z.eqb_spec b 58) as [->|]; [|reflexivity]. destruct HC. cbn. auto. }
  rewrite L2. set (X := join_back (h :: t)). pose proof (back_colon _ FC) as XC. fold X in XC.
  assert (LX : leads (cwd cur) (slashed X) = onwards t (leads (cwd cur) (slashed h))).
  { unfold X. destruct t as [|x t]; [reflexivity|]. apply leads_tail. now left. }
  destruct (volumed_cases X) as [NX|(v & r & V & [D|S])]; [|destruct (colon_drive X v r XC V D)|].
  - assert (U : is_unc (win_clean X) = false).
    { unfold is_unc. rewrite <- vol_len_slashed, <- to_slash_slashed. fold (win_path X). rewrite (proj1 (no_volume_len _) (plain_kept X XC NX)). reflexivity. }
    rewrite U. cbn [negb]. rewrite win_path_clean, win_path_idem by (now apply plain_kept). apply stands_iff; [now apply plain_kept|]. rewrite <- LX. now apply st_none.
  - rewrite (unc_share X v r V S). cbn [negb].
    assert (U : is_unc (win_clean h) = false).
    { unfold is_unc. rewrite <- vol_len_slashed, <- to_slash_slashed. fold (win_path h). rewrite (proj1 (no_volume_len _) (plain_kept h HC NV)). reflexivity. }
    rewrite U. destruct t as [|x t]; [destruct (NV v r V)|].
    set (T := join_back (x :: t)). assert (EX : X = h ++ 92 :: T) by reflexivity. rewrite EX in V.
    destruct (false_share h T v r HN NV V S) as (RH & c & T' & ET & NS).
    assert (TCol : ~ In 58 T) by (apply back_colon; assumption).
    assert (NT : no_volume T).
    { intros v' r' V'. assert (DS : drive v' \/ share v') by (destruct V' as [_ [?|[? _]]]; auto). destruct DS as [D|S']; [exact (colon_drive T v' r' TCol V' D)|].
      destruct V' as [E' _]. destruct S' as (a & b & hh & d & w & SA & _ & _ & _ & _ & ->). rewrite ET in E'. assert (c = a) by (cbn in E'; congruence). now subst. }
    assert (RT : ~ rooted T). { intros (z & u & E & SZ). rewrite ET in E. assert (c = z) by congruence. now subst. }
    rewrite (win_clean_none h NV HN), (win_clean_none T NT) by (rewrite ET; discriminate).
    destruct (clean_abs (slashed h) (slashed_no h) (rooted_yes h RH)) as (hs & FH & CH & LH). rewrite CH.
    pose proof (clean_slashes _ (slashed_no T)) as NC. pose proof (clean_rooted (slashed T)) as CR. rewrite (rooted_is T RT) in CR.
    pose proof (clean_colon _ (slashed_colon _ TCol)) as CC. pose proof (clean_colon _ (slashed_colon _ HC)) as HCC. rewrite CH in HCC.
    assert (NAH : ~ In 92 (abs_path hs)) by (rewrite <- CH; apply clean_slashes, slashed_no).
    pose proof (clean_ne (slashed T)) as CNE. destruct (clean (slashed T)) as [|z Z] eqn:EC; [congruence|].
    assert (SZ : ~ sep z). { intros [-> | ->]; [cbn in CR; discriminate|]. apply NC. now left. }
    set (Y := if last (from_slash (abs_path hs)) 0 =? 92 then from_slash (abs_path hs) ++ from_slash (z :: Z) else from_slash (abs_path hs) ++ 92 :: from_slash (z :: Z)).
    assert (YS : slashed Y = match hs with [] => 47 :: z :: Z | _ => abs_path hs ++ 47 :: z :: Z end).
    { unfold Y. destruct hs as [|x0 hs].
      - change (slashed (from_slash (47 :: z :: Z)) = 47 :: z :: Z). rewrite slashed_from. apply slashed_id. intros [I|I]; [discriminate|contradiction].
      - assert (EL : last (from_slash (abs_path (x0 :: hs))) 0 =? 92 = false).
        { destruct (exists_last (l := x0 :: hs)) as (l & y & EL); [discriminate|]. rewrite EL in *. apply Forall_app in FH as [_ FY]. inversion FY as [|? ? [(Y1 & _ & _ & Y2) Y3] _]; subst.
          assert (EB : abs_path (l ++ [y]) = base l ++ 47 :: y) by (rewrite <- base_snoc; destruct l; reflexivity). rewrite EB, from_app.
          change (from_slash (47 :: y)) with ([92] ++ from_slash y). rewrite app_assoc, last_app_ne by (destruct y; [congruence|discriminate]).
          rewrite nosep_from. 2: { apply Forall_forall. intros u I [->| ->]; contradiction. }
          pose proof (last_in y 0 Y1) as I. apply Z.eqb_neq. intros E. rewrite E in I. contradiction. }
        rewrite EL. change (92 :: from_slash (z :: Z)) with (from_slash (47 :: z :: Z)). rewrite <- from_app, slashed_from. apply slashed_id.
        rewrite in_app_iff. intros [I|[I|I]]; [contradiction|discriminate|contradiction]. }
    assert (YC : ~ In 58 Y).
    { apply unslashed_colon. rewrite YS. destruct hs; [intros [I|I]; [discriminate|contradiction]|]. rewrite in_app_iff. intros [I|[I|I]]; [contradiction|discriminate|contradiction]. }
    assert (NY : no_volume Y).
    { intros v' r' V'. assert (DS : drive v' \/ share v') by (destruct V' as [_ [?|[? _]]]; auto). destruct DS as [D|S']; [exact (colon_drive Y v' r' YC V' D)|].
      destruct hs as [|x0 hs]; [exact (second_share Y _ _ _ YS SZ v' r' V' S')|]. inversion FH as [|? ? [(X1 & _ & _ & X2) X3] _]; subst. destruct x0 as [|y0 x0]; [congruence|].
      refine (second_share Y _ _ _ YS _ v' r' V' S'). intros [->| ->]; [apply X2|apply X3]; now left. }
    apply stands_iff; [now apply plain_kept|].
    assert (LY : leads (cwd cur) (slashed Y) = onwards (x :: t) (leads (cwd cur) (slashed h))).
    { assert (LT : forall q, fold_left go (segments (z :: Z)) q = onwards (x :: t) q).
      { intros q. pose proof (clean_leads (slashed T) q) as CL. unfold file_path in CL. rewrite EC, !leads_fold, CR, (rooted_is T RT) in CL. rewrite CL.
        unfold T. now rewrite back_slashed, segments_join, onwards_fold by discriminate. }
      rewrite LH, <- LT, YS, leads_fold. destruct hs as [|x0 hs].
      - change (47 :: z :: Z) with ([] ++ 47 :: (z :: Z)). rewrite segments_app, fold_left_app. reflexivity.
      - rewrite segments_app, fold_left_app. change (is_rooted (abs_path (x0 :: hs) ++ 47 :: z :: Z)) with true.
        pose proof (leads_abs (x0 :: hs) [] (wname_name _ FH)) as LA. rewrite leads_fold, is_rooted_abs in LA. now rewrite <- LA. }
    rewrite <- LY. now apply st_none.
Qed.
Lemma joins_place cur cwd h t v d : joinable h t -> stands cur cwd h v d -> stands cur cwd (win_joins (h :: t)) v (onwards t d).
Proof.
  intros (HN & HD & HC) ST. destruct (volumed_cases h) as [NV|(v' & r & V & DS)].
  - destruct (stands_fun _ _ _ _ _ _ _ ST (st_none cur cwd h NV)) as [-> ->]. apply joins_none; auto.
  - assert (BD : h = v' /\ drive v' \/ (h <> v' \/ share v')).
    { destruct DS as [D|S]; [|auto]. destruct (list_eq_dec Z.eq_dec h v'); auto. }
    destruct BD as [[E D]|HV].
    + subst v'. assert (VD : volumed h h []) by (split; [now rewrite app_nil_r|now left]).
      destruct (stands_fun _ _ _ _ _ _ _ ST (st_drive cur cwd h h [] VD D)) as [-> ->]. exact (joins_bare cur cwd h t D (HD D)).
    + destruct (joins_volumed cur cwd h t v' r V HV) as (d' & S1 & S2). destruct (stands_fun _ _ _ _ _ _ _ ST S1) as [-> ->]. exact S2.
Qed.
Lemma joins_empties n l : win_joins (repeat [] n ++ l) = win_joins l.
Proof. induction n as [|n IH]; [reflexivity|exact IH]. Qed.
Lemma joins_all cur cwd n h t v d : joinable h t -> stands cur cwd h v d -> stands cur cwd (win_joins (repeat [] n ++ h :: t)) v (onwards t d).
Proof. rewrite joins_empties. apply joins_place. Qed.
Lemma joins_root : exists h t cur cwd v d, h <> [] /\ Forall (fun x => ~ rooted x) t /\ stands cur cwd h v d /\ ~ stands cur cwd (win_joins (h :: t)) v (onwards t d).
Proof.
  exists [99; 58], [[]; [120]], [], (fun _ => [[97]]), [99; 58], [[97]]. split; [discriminate|]. assert (D : drive [99; 58]) by (exists 99; split; [lia|reflexivity]). split; [|split].
  - repeat constructor; intros (c & t & E & S); [discriminate|]. assert (120 = c) by congruence. subst. destruct S; discriminate.
  - exact (st_drive [] (fun _ => [[97]]) [99; 58] [99; 58] [] (volumed_drive [99; 58] [] D) D).
  - intros H. assert (V : volumed (win_joins [[99; 58]; []; [120]]) [99; 58] [47; 120]) by (apply (volumed_drive [99; 58] [47; 120] D)).
    destruct (stands_fun _ _ _ _ _ _ _ H (st_drive _ _ _ _ _ V D)) as [_ E]. discriminate.
Qed.
