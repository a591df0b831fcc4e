(** Proofs about filepath.Match on Windows: malformed patterns that are reported. *)
From Coq Require Import ZArith List Bool Arith Lia ZifyBool ZifyNat.
From Verif Require Import GoBase GoStrings MatchSpec MatchModel MatchProofs MatchScan MatchMain MatchErr MatchBad WmatchSpec WmatchModel WmatchProofs WmatchErr.
Import ListNotations.
Open Scope Z_scope.

(** ** A chunk in front of something else *)
Definition wthen_ok (X : list Z) (r : chunk_res) (o : option (list Z)) : Prop :=
  match o with Some t => exists f, (length (utf8 X) <= f)%nat /\ r = wmatch_chunk f (utf8 X) (utf8 t) | None => r = MNo end.
Lemma wmatch_chunk_then ps ts : wpattern ps ts -> star_free ts -> text ps -> forall X fuel cs, text cs ->
  (length (utf8 (ps ++ X)) <= fuel)%nat ->
  wthen_ok X (wmatch_chunk fuel (utf8 (ps ++ X)) (utf8 cs)) (wchunk_match ts cs).
Proof.
  induction 1 as [|s ts P IH|s ts P IH|c s ts N1 N2 N3 P IH|b l s ts RS HD P IH|b l s ts RS P IH];
    intros SF T X fuel cs TC L.
  - exists fuel. split; [exact L|reflexivity].
  - inversion SF; congruence.
  - inversion SF as [|? ? _ SF']; subst. inversion T as [|? ? _ T']; subst.
    change (utf8 ((63 :: s) ++ X)) with (63 :: utf8 (s ++ X)) in *. cbn [length] in L. destruct fuel as [|fuel]; [lia|].
    destruct cs as [|c cs]; [reflexivity|]. inversion TC as [|? ? R TC']; subst.
    cbn [wmatch_chunk wchunk_match wtmatch]. destruct (utf8 (c :: cs)) as [|x y] eqn:E; [destruct (utf8_ne _ _ E)|].
    change (63 =? 91) with false; change (63 =? 63) with true; cbv iota.
    assert (XE : (x =? 92) = (c =? 92)).
    { rewrite utf8_cons in E. destruct (enc1 c) as [|a t] eqn:EE; [destruct (enc1_ne c EE)|]. injection E as -> _.
      destruct (enc1_head c x t R EE) as [(-> & _)|(? & ? & _)]; lia. }
    rewrite XE. destruct (c =? 92); [reflexivity|]. cbn [negb]. rewrite <- E, utf8_cons, decode_enc by assumption.
    cbn [snd]. replace (skipn (length (enc1 c)) (enc1 c ++ utf8 cs)) with (utf8 cs) by (clear; induction (enc1 c); cbn; auto).
    apply IH; auto; lia.
  - inversion SF as [|? ? _ SF']; subst. inversion T as [|? ? R T']; subst.
    change ((c :: s) ++ X) with (c :: (s ++ X)) in *. rewrite utf8_cons, app_length in *. rewrite wmatch_plain; [|apply wenc1_plain; [assumption|unfold wplain; auto]|lia].
    cbn [wchunk_match wtmatch]. destruct cs as [|d cs].
    + destruct (enc1 c) eqn:E; [destruct (enc1_ne c E)|reflexivity].
    + inversion TC as [|? ? R' TC']; subst. rewrite utf8_cons, strip_enc by assumption.
      destruct (c =? d); [|reflexivity]. apply IH; auto; lia.
  - inversion SF as [|? ? _ SF']; subst. inversion T as [|? ? _ T']; subst. apply Forall_app in T' as [TB T''].
    inversion T'' as [|? ? _ TS]; subst.
    replace ((91 :: b ++ 93 :: s) ++ X) with (91 :: b ++ 93 :: (s ++ X)) in * by (cbn; now rewrite <- app_assoc).
    change (utf8 (91 :: b ++ 93 :: (s ++ X))) with (91 :: utf8 (b ++ 93 :: (s ++ X))) in *. cbn [length] in L. destruct fuel as [|fuel]; [lia|].
    destruct cs as [|c cs]; [reflexivity|]. inversion TC as [|? ? R TC']; subst.
    cbn [wmatch_chunk wchunk_match wtmatch]. destruct (utf8 (c :: cs)) as [|x y] eqn:E; [destruct (utf8_ne _ _ E)|].
    change (91 =? 91) with true; cbv iota. rewrite <- E, utf8_cons, decode_enc by assumption.
    replace (skipn (length (enc1 c)) (enc1 c ++ utf8 cs)) with (utf8 cs) by (clear; induction (enc1 c); cbn; auto).
    destruct (wranges_head b l (utf8 (93 :: (s ++ X))) RS TB) as (x' & y' & E' & X1 & X2). rewrite <- utf8_app in E'.
    rewrite E'. replace (x' =? 94) with false.
    + rewrite <- E', (wclass_loop_ranges b l RS TB).
      * cbn [orb]. destruct (in_rb l c); cbn [negb Bool.eqb]; [|reflexivity]. apply IH; auto.
        rewrite utf8_app, utf8_cons, !app_length in L. lia.
      * rewrite utf8_app, app_length, utf8_cons, app_length in L. pose proof (length_utf8 b). change (length (enc1 93)) with 1%nat in L. lia.
    + destruct b as [|b0 b]; [destruct (wranges_head [] l [] RS TB) as (? & ? & ? & _); discriminate|]. cbn in HD.
      inversion TB as [|? ? RB _]; subst.
      rewrite <- app_comm_cons, utf8_cons in E'. destruct (enc1 b0) as [|p q] eqn:EB; [destruct (enc1_ne _ EB)|].
      injection E' as -> _. destruct (enc1_head b0 x' q RB EB) as [(-> & _)|(_ & ? & _)]; lia.
  - inversion SF as [|? ? _ SF']; subst. inversion T as [|? ? _ T0]; subst. inversion T0 as [|? ? _ T']; subst.
    apply Forall_app in T' as [TB T''].
    inversion T'' as [|? ? _ TS]; subst.
    replace ((91 :: 94 :: b ++ 93 :: s) ++ X) with (91 :: 94 :: b ++ 93 :: (s ++ X)) in * by (cbn; now rewrite <- app_assoc).
    change (utf8 (91 :: 94 :: b ++ 93 :: (s ++ X))) with (91 :: 94 :: utf8 (b ++ 93 :: (s ++ X))) in *. cbn [length] in L. destruct fuel as [|fuel]; [lia|].
    destruct cs as [|c cs]; [reflexivity|]. inversion TC as [|? ? R TC']; subst.
    cbn [wmatch_chunk wchunk_match wtmatch]. destruct (utf8 (c :: cs)) as [|x y] eqn:E; [destruct (utf8_ne _ _ E)|].
    change (91 =? 91) with true; change (94 =? 94) with true; cbv iota. rewrite <- E, utf8_cons, decode_enc by assumption.
    replace (skipn (length (enc1 c)) (enc1 c ++ utf8 cs)) with (utf8 cs) by (clear; induction (enc1 c); cbn; auto).
    rewrite (wclass_loop_ranges b l RS TB).
    * cbn [orb]. destruct (in_rb l c); cbn [negb Bool.eqb]; [reflexivity|]. apply IH; auto.
      rewrite utf8_app, utf8_cons, !app_length in L. lia.
    * rewrite utf8_app, app_length, utf8_cons, app_length in L. pose proof (length_utf8 b). change (length (enc1 93)) with 1%nat in L. lia.
Qed.
Lemma wchunk_then ps ts : wpattern ps ts -> star_free ts -> text ps -> forall X fuel s, (length (utf8 (ps ++ X)) <= fuel)%nat ->
  wmatch_chunk fuel (utf8 (ps ++ X)) s = MNo \/ exists f s', (length (utf8 X) <= f)%nat /\ wmatch_chunk fuel (utf8 (ps ++ X)) s = wmatch_chunk f (utf8 X) s'.
Proof.
  induction 1 as [|s ts P IH|s ts P IH|c s ts N1 N2 N3 P IH|b l s ts RS HD P IH|b l s ts RS P IH];
    intros SF T X fuel nm L.
  - right. exists fuel, nm. split; [exact L|reflexivity].
  - inversion SF; congruence.
  - inversion SF as [|? ? _ SF']; subst. inversion T as [|? ? _ T']; subst.
    change (utf8 ((63 :: s) ++ X)) with (63 :: utf8 (s ++ X)) in *. cbn [length] in L. destruct fuel as [|fuel]; [lia|].
    cbn [wmatch_chunk]. destruct nm as [|x nm]; [now left|].
    change (63 =? 91) with false; change (63 =? 63) with true; cbv iota. destruct (x =? 92); [now left|]. apply IH; auto; lia.
  - inversion SF as [|? ? _ SF']; subst. inversion T as [|? ? R T']; subst.
    change ((c :: s) ++ X) with (c :: (s ++ X)) in *. rewrite utf8_cons, app_length in *. rewrite wmatch_plain; [|apply wenc1_plain; [assumption|unfold wplain; auto]|lia].
    destruct (strip_prefix (enc1 c) nm); [|now left]. apply IH; auto; lia.
  - inversion SF as [|? ? _ SF']; subst. inversion T as [|? ? _ T']; subst. apply Forall_app in T' as [TB T''].
    inversion T'' as [|? ? _ TS]; subst.
    replace ((91 :: b ++ 93 :: s) ++ X) with (91 :: b ++ 93 :: (s ++ X)) in * by (cbn; now rewrite <- app_assoc).
    change (utf8 (91 :: b ++ 93 :: (s ++ X))) with (91 :: utf8 (b ++ 93 :: (s ++ X))) in *. cbn [length] in L. destruct fuel as [|fuel]; [lia|].
    cbn [wmatch_chunk]. destruct nm as [|s0 st]; [now left|].
    change (91 =? 91) with true; cbv iota. destruct (decode_rune (s0 :: st)) as [r n].
    destruct (wranges_head b l (utf8 (93 :: (s ++ X))) RS TB) as (x' & y' & E' & X1 & X2). rewrite <- utf8_app in E'.
    rewrite E'. replace (x' =? 94) with false.
    + rewrite <- E', (wclass_loop_ranges b l RS TB).
      * destruct (Bool.eqb _ _); [now left|]. apply IH; auto.
        rewrite utf8_app, utf8_cons, !app_length in L. lia.
      * rewrite utf8_app, app_length, utf8_cons, app_length in L. pose proof (length_utf8 b). change (length (enc1 93)) with 1%nat in L. lia.
    + destruct b as [|b0 b]; [destruct (wranges_head [] l [] RS TB) as (? & ? & ? & _); discriminate|]. cbn in HD.
      inversion TB as [|? ? RB _]; subst.
      rewrite <- app_comm_cons, utf8_cons in E'. destruct (enc1 b0) as [|p q] eqn:EB; [destruct (enc1_ne _ EB)|].
      injection E' as -> _. destruct (enc1_head b0 x' q RB EB) as [(-> & _)|(_ & ? & _)]; lia.
  - inversion SF as [|? ? _ SF']; subst. inversion T as [|? ? _ T0]; subst. inversion T0 as [|? ? _ T']; subst.
    apply Forall_app in T' as [TB T''].
    inversion T'' as [|? ? _ TS]; subst.
    replace ((91 :: 94 :: b ++ 93 :: s) ++ X) with (91 :: 94 :: b ++ 93 :: (s ++ X)) in * by (cbn; now rewrite <- app_assoc).
    change (utf8 (91 :: 94 :: b ++ 93 :: (s ++ X))) with (91 :: 94 :: utf8 (b ++ 93 :: (s ++ X))) in *. cbn [length] in L. destruct fuel as [|fuel]; [lia|].
    cbn [wmatch_chunk]. destruct nm as [|s0 st]; [now left|].
    change (91 =? 91) with true; change (94 =? 94) with true; cbv iota. destruct (decode_rune (s0 :: st)) as [r n].
    rewrite (wclass_loop_ranges b l RS TB).
    * destruct (Bool.eqb _ _); [now left|]. apply IH; auto.
      rewrite utf8_app, utf8_cons, !app_length in L. lia.
    * rewrite utf8_app, app_length, utf8_cons, app_length in L. pose proof (length_utf8 b). change (length (enc1 93)) with 1%nat in L. lia.
Qed.

(** ** Malformed terms *)
Lemma wbad_chunk bad : text bad -> wmalformed_term bad -> forall fuel s, (length (utf8 bad) <= fuel)%nat -> s <> [] -> wmatch_chunk fuel (utf8 bad) s = MBad.
Proof.
  intros T (b & -> & H) fuel s L NS; (destruct s as [|s0 st]; [congruence|]).
  - change (utf8 (91 :: b)) with (91 :: utf8 b) in *. cbn [length] in L. destruct fuel as [|fuel]; [lia|]. inversion T as [|? ? _ TB]; subst.
    cbn [wmatch_chunk]. change (91 =? 91) with true; cbv iota. destruct (decode_rune (s0 :: st)) as [r k].
    destruct (utf8 b) as [|c1 ct] eqn:EB; [reflexivity|]. destruct (Z.eqb_spec c1 94) as [->|N].
    + destruct (utf8_head_ascii b 94 ct TB EB ltac:(lia)) as (Y & -> & ->). inversion TB as [|? ? _ TY]; subst. cbn [length] in L.
      destruct (wclass_total fuel r (utf8 Y) false false) as [->|(m & rest & E & _)]; [lia|lia|reflexivity|].
      destruct (wclass_inv _ _ _ _ _ _ _ TY E) as (b' & Q & -> & _ & [[HF _]|[l RS]]); [discriminate|]. destruct (proj2 (H b' l Q RS) eq_refl).
    + rewrite <- EB in *. destruct (wclass_total fuel r (utf8 b) false false) as [->|(m & rest & E & _)]; [rewrite EB in L |- *; cbn in *; lia|rewrite EB in L; cbn in L; lia|reflexivity|].
      destruct (wclass_inv _ _ _ _ _ _ _ TB E) as (b' & Q & -> & _ & [[HF _]|[l RS]]); [discriminate|].
      exfalso. apply (proj1 (H b' l Q RS)); [|reflexivity]. intros HD. destruct b' as [|x b']; [cbn in HD; lia|]. cbn in HD. subst x.
      rewrite <- app_comm_cons, utf8_cons in EB. cbn in EB. congruence.
Qed.
Lemma wbad_chunk_nil bad : wmalformed_term bad -> forall fuel, wmatch_chunk fuel (utf8 bad) [] = MNo.
Proof. intros (b & -> & _) [|fuel]; reflexivity. Qed.
Lemma wbad_ne bad : wmalformed_term bad -> bad <> [] /\ hd 0 bad <> 42.
Proof. intros (b & -> & _); split; discriminate. Qed.

Lemma wscan_nostar n : forall X i, (length X <= n)%nat -> ~ In 42 X -> wscan X i = (X, []).
Proof.
  induction n as [|n IH]; intros X i L N; (destruct X as [|c X]; [reflexivity|]); cbn [length] in L; [lia|].
  assert (NX : ~ In 42 X) by (cbn in N; tauto). assert (C42 : (c =? 42) = false) by (cbn in N; lia). cbn [wscan]. rewrite C42. cbn [andb].
  rewrite !IH by (assumption || lia). destruct (c =? 91), (c =? 93); reflexivity.
Qed.
Lemma wscan_chunk_then g gt : wpattern g gt -> star_free gt -> forall X, wscan (g ++ X) false = let '(a, b) := wscan X false in (g ++ a, b).
Proof.
  induction 1 as [|s ts P IH|s ts P IH|c s ts N1 N2 N3 P IH|b l s ts RS HD P IH|b l s ts RS P IH]; intros SF X.
  - cbn [app]. now destruct (wscan X false).
  - inversion SF; congruence.
  - inversion SF as [|? ? _ SF']; subst. cbn [app wscan]. change (63 =? 91) with false; change (63 =? 93) with false; change (63 =? 42) with false.
    cbv iota. cbn [andb]. rewrite IH by assumption. now destruct (wscan X false).
  - inversion SF as [|? ? _ SF']; subst. cbn [app wscan]. replace (c =? 91) with false by lia. replace (c =? 42) with false by lia.
    cbn [andb]. rewrite IH by assumption. destruct (c =? 93); now destruct (wscan X false).
  - inversion SF as [|? ? _ SF']; subst. replace ((91 :: b ++ 93 :: s) ++ X) with (91 :: b ++ 93 :: (s ++ X)) by (cbn; now rewrite <- app_assoc).
    cbn [wscan]. change (91 =? 91) with true. cbv iota. rewrite (wscan_ranges b l RS), IH by assumption.
    destruct (wscan X false). cbn. now rewrite <- app_assoc.
  - inversion SF as [|? ? _ SF']; subst. replace ((91 :: 94 :: b ++ 93 :: s) ++ X) with (91 :: 94 :: b ++ 93 :: (s ++ X)) by (cbn; now rewrite <- app_assoc).
    cbn [wscan]. change (91 =? 91) with true; change (94 =? 91) with false; change (94 =? 93) with false; change (94 =? 42) with false. cbv iota. cbn [andb]. rewrite (wscan_ranges b l RS), IH by assumption.
    destruct (wscan X false). cbn. now rewrite <- app_assoc.
Qed.
Lemma wstar_free_head g gt : wpattern g gt -> star_free gt -> forall X, hd 0 X <> 42 -> hd 0 (g ++ X) <> 42.
Proof. intros P SF X H. inversion P; subst; cbn; try discriminate; try assumption. inversion SF; congruence. Qed.
Lemma wchunk_match_more ck : forall cs x t, wchunk_match ck cs = Some x -> wchunk_match ck (cs ++ t) = Some (x ++ t).
Proof.
  induction ck as [|y ck IH]; intros cs x t E; cbn [wchunk_match] in *; [congruence|]. destruct cs as [|c cs]; [discriminate|]. cbn [app].
  destruct (wtmatch y c); [now apply IH|discriminate].
Qed.
Lemma wmatches_chunk ck cs t : star_free ck -> wmatches ck cs -> wchunk_match ck (cs ++ t) = Some t.
Proof.
  intros SF M. rewrite <- (app_nil_r ck) in M. apply (wchunk_spec ck SF [] cs) in M as (x & E & MX). inversion MX; subst.
  now rewrite (wchunk_match_more ck cs [] t E).
Qed.
Lemma wskip_bad mc K last w : (forall s, mc s = MNo \/ mc s = MBad) -> mc w = MBad -> forall u, u <> [] -> ~ In 92 u -> wskip_loop mc K last (u ++ w) = Ok None.
Proof.
  intros M B. induction u as [|c u IH]; intros NE N; [congruence|]. cbn [app wskip_loop]. replace (c =? 92) with false by (cbn in N; lia).
  destruct u as [|d u].
  - cbn [app]. now rewrite B.
  - specialize (IH ltac:(discriminate) ltac:(cbn in *; tauto)). destruct (M ((d :: u) ++ w)) as [E|E]; rewrite E; [exact IH|reflexivity].
Qed.
Lemma wutf8_noslash u : text u -> Forall (fun c => c <> 92) u -> ~ In 92 (utf8 u).
Proof.
  intros T F. pose proof (wexistsb_slash u T) as E. intros I.
  assert (X : existsb (fun c => c =? 92) (utf8 u) = true) by (apply existsb_exists; exists 92; split; [assumption|reflexivity]).
  rewrite E in X. apply existsb_exists in X as (c & IC & EC). rewrite Forall_forall in F. specialize (F c IC). lia.
Qed.
Lemma wbad_reported n g gt bad u cs d r : wpattern g gt -> no_stars gt -> text (g ++ bad) -> wmalformed_term bad -> ~ In 42 bad ->
  text (u ++ cs ++ d :: r) -> (u = [] \/ (n <> 0%nat /\ Forall (fun c => c <> 92) u)) -> wmatches gt cs ->
  wfs_match (utf8 (u ++ cs ++ d :: r)) (utf8 (repeat 42 n ++ g ++ bad)) = Ok None.
Proof.
  intros P SF T B NS TC U M. destruct (wbad_ne bad B) as [NE HB].
  assert (TB := proj2 (text_app _ _ T)). assert (TG := proj1 (text_app _ _ T)).
  apply text_app in TC as [TU TC]. assert (TT := TC). apply text_app in TT as [_ TD].
  assert (TP : text (repeat 42 n ++ g ++ bad)).
  { apply Forall_app. split; [|assumption]. apply Forall_forall. intros c I. apply repeat_spec in I. subst. unfold rune. lia. }
  assert (GN : g ++ bad <> []) by (intros E; apply app_eq_nil in E as [_ E]; contradiction).
  unfold wfs_match. set (p := utf8 (repeat 42 n ++ g ++ bad)).
  assert (SC : wscan_chunk p = (negb (n =? 0)%nat, utf8 (g ++ bad), [])).
  { unfold wscan_chunk, p. rewrite strip_stars_utf8, strip_stars_repeat by (assumption || now apply (wstar_free_head g gt)). cbn [orb].
    rewrite (wscan_utf8 (length (g ++ bad))) by (assumption || apply Nat.le_refl).
    rewrite (wscan_chunk_then g gt P SF), (wscan_nostar (length bad) bad false (Nat.le_refl _) NS). reflexivity. }
  assert (PN : p <> []). { unfold p. destruct (repeat 42 n ++ g ++ bad) as [|x y] eqn:E; [apply app_eq_nil in E as [_ E]; contradiction|]. apply utf8_ne. }
  destruct p as [|p0 p'] eqn:EP; [congruence|]. rewrite <- EP in *. clear PN.
  replace (length p) with (Datatypes.S (length p')) by (rewrite EP; reflexivity). cbn [wmatch_loop]. rewrite EP at 1. rewrite SC.
  assert (EE : is_empty (utf8 (g ++ bad)) = false). { rewrite is_empty_utf8. destruct (g ++ bad); [congruence|reflexivity]. }
  rewrite EE, andb_false_r. set (mc := wmatch_chunk (length (utf8 (g ++ bad))) (utf8 (g ++ bad))).
  assert (MB : mc (utf8 (cs ++ d :: r)) = MBad).
  { pose proof (wmatch_chunk_then g gt P SF TG bad _ (cs ++ d :: r) TC (Nat.le_refl _)) as H. rewrite (wmatches_chunk gt cs (d :: r) SF M) in H.
    destruct H as (f & LF & E). unfold mc. rewrite E. apply wbad_chunk; try assumption. apply utf8_ne. }
  assert (MA : forall s, mc s = MNo \/ mc s = MBad).
  { intros s. destruct (wchunk_then g gt P SF TG bad _ s (Nat.le_refl _)) as [E|(f & s' & LF & E)]; [now left|]. unfold mc. rewrite E.
    destruct s' as [|x s']; [left; now apply wbad_chunk_nil|right; apply wbad_chunk; try assumption; discriminate]. }
  destruct U as [->|[N0 FU]].
  - cbn [app]. rewrite MB. reflexivity.
  - destruct u as [|u0 u]; [cbn [app]; now rewrite MB|]. rewrite utf8_app.
    assert (SK : wskip_loop mc (wmatch_loop (length p') []) (is_empty []) (utf8 (u0 :: u) ++ utf8 (cs ++ d :: r)) = Ok None).
    { apply wskip_bad; try assumption; [apply utf8_ne|now apply wutf8_noslash]. }
    replace (negb (n =? 0)%nat) with true by (destruct n; [congruence|reflexivity]).
    destruct (MA (utf8 (u0 :: u) ++ utf8 (cs ++ d :: r))) as [E|E]; rewrite E; [exact SK|reflexivity].
Qed.

(** Every text is a wpattern, or has a malformed term behind a wpattern. *)
Lemma wclass_dec b : text b -> (exists b' l Q, wranges b' l /\ b = b' ++ 93 :: Q) \/ (forall b' l Q, wranges b' l -> b <> b' ++ 93 :: Q).
Proof.
  intros T. destruct (wclass_total (Datatypes.S (length (utf8 b))) 0 (utf8 b) false false) as [E|(m & rest & E & _)]; try lia.
  - right. intros b' l Q RS ->. rewrite (wclass_loop_ranges b' l RS) in E; [discriminate|now apply text_app in T|].
    pose proof (length_utf8 (b' ++ 93 :: Q)). rewrite app_length in H. cbn in *. lia.
  - left. destruct (wclass_inv _ _ _ _ _ _ _ T E) as (b' & Q & -> & _ & [[HF _]|[l RS]]); [discriminate|]. eauto.
Qed.
Lemma wpattern_or_bad n : forall ps, (length ps <= n)%nat -> text ps ->
  (exists ts, wpattern ps ts) \/ exists g ts bad, ps = g ++ bad /\ wpattern g ts /\ wmalformed_term bad.
Proof.
  induction n as [|n IH]; intros ps L T; (destruct ps as [|c ps]; [left; exists []; constructor|]); cbn [length] in L; [lia|].
  inversion T as [|? ? _ T']; subst.
  assert (EXT : forall w t Q, (forall s ts, wpattern s ts -> wpattern (w ++ s) (t :: ts)) -> c :: ps = w ++ Q -> (length Q <= n)%nat -> text Q ->
            (exists ts, wpattern (c :: ps) ts) \/ exists g ts bad, c :: ps = g ++ bad /\ wpattern g ts /\ wmalformed_term bad).
  { intros w t Q K E LQ TQ. rewrite E. destruct (IH Q LQ TQ) as [[ts P]|(g & ts & bad & -> & P & B)]; [left; eauto|].
    right. exists (w ++ g), (t :: ts), bad. rewrite app_assoc. auto. }
  destruct (Z.eq_dec c 42) as [->|N1]; [apply (EXT [42] Star ps); auto; [intros; now constructor|lia]|].
  destruct (Z.eq_dec c 63) as [->|N2]; [apply (EXT [63] Any ps); auto; [intros; now constructor|lia]|].
  destruct (Z.eq_dec c 91) as [->|N4]; [|apply (EXT [c] (Lit c) ps); auto; [intros; now constructor|lia]].
  assert (BAD : (forall b' l r, wranges b' l -> (hd 0 b' <> 94 -> ps <> b' ++ 93 :: r) /\ ps <> 94 :: b' ++ 93 :: r) ->
    (exists ts, wpattern (91 :: ps) ts) \/ exists g ts bad, 91 :: ps = g ++ bad /\ wpattern g ts /\ wmalformed_term bad).
  { intros H. right. exists [], [], (91 :: ps). split; [reflexivity|]. split; [constructor|]. exists ps. auto. }
  destruct ps as [|x Y]; [apply BAD; intros b' l r RS; split; [|discriminate]; destruct b'; discriminate|].
  inversion T' as [|? ? RX TY]; subst. destruct (Z.eq_dec x 94) as [->|NX].
  - destruct (wclass_dec Y TY) as [(b & l & Q & RS & ->)|H].
    + apply (EXT (91 :: 94 :: b ++ [93]) (Class true l) Q).
      * intros s ts P. cbn. rewrite <- app_assoc. now constructor.
      * cbn. now rewrite <- app_assoc.
      * cbn [length] in L. rewrite app_length in L. cbn in L. lia.
      * apply text_app in TY as [_ TQ]. now inversion TQ.
    + apply BAD. intros b' l r RS. split; [|intros E; apply (H b' l r RS); congruence].
      intros HD E. destruct b' as [|y b']; [cbn in E; congruence|]. cbn in *. congruence.
  - destruct (wclass_dec (x :: Y) T') as [(b & l & Q & RS & E)|H].
    + apply (EXT (91 :: b ++ [93]) (Class false l) Q).
      * intros s ts P. cbn. rewrite <- app_assoc. constructor; try assumption. destruct b as [|y b]; [discriminate|]. cbn in *. congruence.
      * cbn. rewrite <- app_assoc. cbn. congruence.
      * cbn [length] in L. assert (length (x :: Y) = length (b ++ 93 :: Q)) by congruence. rewrite app_length in H. cbn in H. lia.
      * rewrite E in T'. apply text_app in T' as [_ TQ]. now inversion TQ.
    + apply BAD. intros b' l r RS. split; [intros _; exact (H b' l r RS)|congruence].
Qed.
Lemma wreported_example :
  wpattern [98] [Lit 98] /\ wmalformed_term [91; 97; 45; 93] /\
  wfs_match [120; 98; 98] [42; 98; 91; 97; 45; 93] = Ok None /\ wfs_match [120; 98] [42; 98; 91; 97; 45; 93] = Ok (Some false).
Proof.
  split; [constructor; try lia; constructor|]. split; [|split; reflexivity]. exists [97; 45; 93]. split; [reflexivity|].
  intros b' l r RS. split; [|discriminate]. intros _ E.
  assert (X : wclass_loop 9 0 (utf8 (b' ++ 93 :: r)) false false = CBad) by (rewrite <- E; reflexivity).
  assert (T : text b').
  { refine (proj1 (text_app b' (93 :: r) _)). rewrite <- E. repeat constructor; unfold rune; lia. }
  assert (L : length (b' ++ 93 :: r) = 3%nat) by (rewrite <- E; reflexivity). rewrite app_length in L. cbn in L.
  rewrite (wclass_loop_ranges b' l RS T) in X; [discriminate|lia].
Qed.
