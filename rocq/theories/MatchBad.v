(** Proofs about filepath.Match: malformed patterns that are reported. *)
From Coq Require Import ZArith List Bool Arith Lia ZifyBool ZifyNat.
From Verif Require Import GoBase GoStrings MatchSpec MatchModel MatchProofs MatchScan MatchMain MatchErr.
Import ListNotations.
Open Scope Z_scope.

(** ** A chunk in front of something else *)
Definition then_ok (X : list Z) (r : chunk_res) (o : option (list Z)) : Prop :=
  match o with Some t => exists f, (length (utf8 X) <= f)%nat /\ r = match_chunk f (utf8 X) (utf8 t) | None => r = MNo end.
Lemma match_chunk_then ps ts : pattern ps ts -> star_free ts -> text ps -> forall X fuel cs, text cs ->
  (length (utf8 (ps ++ X)) <= fuel)%nat ->
  then_ok X (match_chunk fuel (utf8 (ps ++ X)) (utf8 cs)) (chunk_match ts cs).
Proof.
  induction 1 as [|s ts P IH|s ts P IH|c s ts N1 N2 N3 N4 P IH|c s ts P IH|b l s ts RS HD P IH|b l s ts RS P IH];
    intros SF T X fuel cs TC L.
  - exists fuel. split; [exact L|reflexivity].
  - inversion SF; congruence.
  - inversion SF as [|? ? _ SF']; subst. inversion T as [|? ? _ T']; subst.
    change (utf8 ((63 :: s) ++ X)) with (63 :: utf8 (s ++ X)) in *. cbn [length] in L. destruct fuel as [|fuel]; [lia|].
    destruct cs as [|c cs]; [reflexivity|]. inversion TC as [|? ? R TC']; subst.
    cbn [match_chunk chunk_match tmatch]. destruct (utf8 (c :: cs)) as [|x y] eqn:E; [destruct (utf8_ne _ _ E)|].
    change (63 =? 91) with false; change (63 =? 63) with true; cbv iota.
    assert (XE : (x =? 47) = (c =? 47)).
    { rewrite utf8_cons in E. destruct (enc1 c) as [|a t] eqn:EE; [destruct (enc1_ne c EE)|]. injection E as -> _.
      destruct (enc1_head c x t R EE) as [(-> & _)|(? & ? & _)]; lia. }
    rewrite XE. destruct (c =? 47); [reflexivity|]. cbn [negb]. rewrite <- E, utf8_cons, decode_enc by assumption.
    cbn [snd]. replace (skipn (length (enc1 c)) (enc1 c ++ utf8 cs)) with (utf8 cs) by (clear; induction (enc1 c); cbn; auto).
    apply IH; auto; lia.
  - inversion SF as [|? ? _ SF']; subst. inversion T as [|? ? R T']; subst.
    change ((c :: s) ++ X) with (c :: (s ++ X)) in *. rewrite utf8_cons, app_length in *. rewrite match_plain; [|apply enc1_plain; [assumption|unfold plain; auto]|lia].
    cbn [chunk_match tmatch]. destruct cs as [|d cs].
    + destruct (enc1 c) eqn:E; [destruct (enc1_ne c E)|reflexivity].
    + inversion TC as [|? ? R' TC']; subst. rewrite utf8_cons, strip_enc by assumption.
      destruct (c =? d); [|reflexivity]. apply IH; auto; lia.
  - inversion SF as [|? ? _ SF']; subst. inversion T as [|? ? _ T']; subst. inversion T' as [|? ? R T'']; subst.
    change (utf8 ((92 :: c :: s) ++ X)) with (92 :: enc1 c ++ utf8 (s ++ X)) in *. cbn [length] in L. rewrite app_length in L.
    destruct fuel as [|fuel]; [lia|]. cbn [chunk_match tmatch]. destruct cs as [|d cs]; [reflexivity|].
    inversion TC as [|? ? R' TC']; subst. rewrite utf8_cons. pose proof (strip_enc c d (utf8 cs) R R') as SE.
    destruct (enc1 d ++ utf8 cs) as [|s0 st] eqn:ED; [destruct (app_eq_nil _ _ ED) as [E' _]; destruct (enc1_ne d E')|].
    destruct (enc1 c) as [|a t] eqn:EC; [destruct (enc1_ne c EC)|]. cbn [app length] in *. cbn [match_chunk].
    change (92 =? 91) with false; change (92 =? 63) with false; change (92 =? 92) with true; cbv iota.
    cbn [strip_prefix] in SE. destruct (a =? s0) eqn:AS.
    + rewrite match_plain; [|exact (enc1_tail_plain c a t R EC)|lia].
      rewrite SE. destruct (c =? d); [|reflexivity]. apply IH; auto; lia.
    + destruct (c =? d); [discriminate|reflexivity].
  - inversion SF as [|? ? _ SF']; subst. inversion T as [|? ? _ T']; subst. apply Forall_app in T' as [TB T''].
    inversion T'' as [|? ? _ TS]; subst.
    replace ((91 :: b ++ 93 :: s) ++ X) with (91 :: b ++ 93 :: (s ++ X)) in * by (cbn; now rewrite <- app_assoc).
    change (utf8 (91 :: b ++ 93 :: (s ++ X))) with (91 :: utf8 (b ++ 93 :: (s ++ X))) in *. cbn [length] in L. destruct fuel as [|fuel]; [lia|].
    destruct cs as [|c cs]; [reflexivity|]. inversion TC as [|? ? R TC']; subst.
    cbn [match_chunk chunk_match tmatch]. destruct (utf8 (c :: cs)) as [|x y] eqn:E; [destruct (utf8_ne _ _ E)|].
    change (91 =? 91) with true; cbv iota. rewrite <- E, utf8_cons, decode_enc by assumption.
    replace (skipn (length (enc1 c)) (enc1 c ++ utf8 cs)) with (utf8 cs) by (clear; induction (enc1 c); cbn; auto).
    destruct (ranges_head b l (utf8 (93 :: (s ++ X))) RS TB) as (x' & y' & E' & X1 & X2). rewrite <- utf8_app in E'.
    rewrite E'. replace (x' =? 94) with false.
    + rewrite <- E', (class_loop_ranges b l RS TB).
      * cbn [orb]. destruct (in_rb l c); cbn [negb Bool.eqb]; [|reflexivity]. apply IH; auto.
        rewrite utf8_app, utf8_cons, !app_length in L. lia.
      * rewrite utf8_app, app_length, utf8_cons, app_length in L. pose proof (length_utf8 b). change (length (enc1 93)) with 1%nat in L. lia.
    + destruct b as [|b0 b]; [destruct (ranges_head [] l [] RS TB) as (? & ? & ? & _); discriminate|]. cbn in HD.
      inversion TB as [|? ? RB _]; subst.
      rewrite <- app_comm_cons, utf8_cons in E'. destruct (enc1 b0) as [|p q] eqn:EB; [destruct (enc1_ne _ EB)|].
      injection E' as -> _. destruct (enc1_head b0 x' q RB EB) as [(-> & _)|(_ & ? & _)]; lia.
  - inversion SF as [|? ? _ SF']; subst. inversion T as [|? ? _ T0]; subst. inversion T0 as [|? ? _ T']; subst.
    apply Forall_app in T' as [TB T''].
    inversion T'' as [|? ? _ TS]; subst.
    replace ((91 :: 94 :: b ++ 93 :: s) ++ X) with (91 :: 94 :: b ++ 93 :: (s ++ X)) in * by (cbn; now rewrite <- app_assoc).
    change (utf8 (91 :: 94 :: b ++ 93 :: (s ++ X))) with (91 :: 94 :: utf8 (b ++ 93 :: (s ++ X))) in *. cbn [length] in L. destruct fuel as [|fuel]; [lia|].
    destruct cs as [|c cs]; [reflexivity|]. inversion TC as [|? ? R TC']; subst.
    cbn [match_chunk chunk_match tmatch]. destruct (utf8 (c :: cs)) as [|x y] eqn:E; [destruct (utf8_ne _ _ E)|].
    change (91 =? 91) with true; change (94 =? 94) with true; cbv iota. rewrite <- E, utf8_cons, decode_enc by assumption.
    replace (skipn (length (enc1 c)) (enc1 c ++ utf8 cs)) with (utf8 cs) by (clear; induction (enc1 c); cbn; auto).
    rewrite (class_loop_ranges b l RS TB).
    * cbn [orb]. destruct (in_rb l c); cbn [negb Bool.eqb]; [reflexivity|]. apply IH; auto.
      rewrite utf8_app, utf8_cons, !app_length in L. lia.
    * rewrite utf8_app, app_length, utf8_cons, app_length in L. pose proof (length_utf8 b). change (length (enc1 93)) with 1%nat in L. lia.
Qed.
Lemma chunk_then ps ts : pattern ps ts -> star_free ts -> text ps -> forall X fuel s, (length (utf8 (ps ++ X)) <= fuel)%nat ->
  match_chunk fuel (utf8 (ps ++ X)) s = MNo \/ exists f s', (length (utf8 X) <= f)%nat /\ match_chunk fuel (utf8 (ps ++ X)) s = match_chunk f (utf8 X) s'.
Proof.
  induction 1 as [|s ts P IH|s ts P IH|c s ts N1 N2 N3 N4 P IH|c s ts P IH|b l s ts RS HD P IH|b l s ts RS P IH];
    intros SF T X fuel nm L.
  - right. exists fuel, nm. split; [exact L|reflexivity].
  - inversion SF; congruence.
  - inversion SF as [|? ? _ SF']; subst. inversion T as [|? ? _ T']; subst.
    change (utf8 ((63 :: s) ++ X)) with (63 :: utf8 (s ++ X)) in *. cbn [length] in L. destruct fuel as [|fuel]; [lia|].
    cbn [match_chunk]. destruct nm as [|x nm]; [now left|].
    change (63 =? 91) with false; change (63 =? 63) with true; cbv iota. destruct (x =? 47); [now left|]. apply IH; auto; lia.
  - inversion SF as [|? ? _ SF']; subst. inversion T as [|? ? R T']; subst.
    change ((c :: s) ++ X) with (c :: (s ++ X)) in *. rewrite utf8_cons, app_length in *. rewrite match_plain; [|apply enc1_plain; [assumption|unfold plain; auto]|lia].
    destruct (strip_prefix (enc1 c) nm); [|now left]. apply IH; auto; lia.
  - inversion SF as [|? ? _ SF']; subst. inversion T as [|? ? _ T']; subst. inversion T' as [|? ? R T'']; subst.
    change (utf8 ((92 :: c :: s) ++ X)) with (92 :: enc1 c ++ utf8 (s ++ X)) in *. cbn [length] in L. rewrite app_length in L.
    destruct fuel as [|fuel]; [lia|]. cbn [match_chunk]. destruct nm as [|s0 st]; [now left|].
    destruct (enc1 c) as [|a t] eqn:EC; [destruct (enc1_ne c EC)|]. cbn [app length] in *.
    change (92 =? 91) with false; change (92 =? 63) with false; change (92 =? 92) with true; cbv iota.
    destruct (a =? s0); [|now left].
    rewrite match_plain; [|exact (enc1_tail_plain c a t R EC)|lia]. destruct (strip_prefix t st); [|now left]. apply IH; auto; lia.
  - inversion SF as [|? ? _ SF']; subst. inversion T as [|? ? _ T']; subst. apply Forall_app in T' as [TB T''].
    inversion T'' as [|? ? _ TS]; subst.
    replace ((91 :: b ++ 93 :: s) ++ X) with (91 :: b ++ 93 :: (s ++ X)) in * by (cbn; now rewrite <- app_assoc).
    change (utf8 (91 :: b ++ 93 :: (s ++ X))) with (91 :: utf8 (b ++ 93 :: (s ++ X))) in *. cbn [length] in L. destruct fuel as [|fuel]; [lia|].
    cbn [match_chunk]. destruct nm as [|s0 st]; [now left|].
    change (91 =? 91) with true; cbv iota. destruct (decode_rune (s0 :: st)) as [r n].
    destruct (ranges_head b l (utf8 (93 :: (s ++ X))) RS TB) as (x' & y' & E' & X1 & X2). rewrite <- utf8_app in E'.
    rewrite E'. replace (x' =? 94) with false.
    + rewrite <- E', (class_loop_ranges b l RS TB).
      * destruct (Bool.eqb _ _); [now left|]. apply IH; auto.
        rewrite utf8_app, utf8_cons, !app_length in L. lia.
      * rewrite utf8_app, app_length, utf8_cons, app_length in L. pose proof (length_utf8 b). change (length (enc1 93)) with 1%nat in L. lia.
    + destruct b as [|b0 b]; [destruct (ranges_head [] l [] RS TB) as (? & ? & ? & _); discriminate|]. cbn in HD.
      inversion TB as [|? ? RB _]; subst.
      rewrite <- app_comm_cons, utf8_cons in E'. destruct (enc1 b0) as [|p q] eqn:EB; [destruct (enc1_ne _ EB)|].
      injection E' as -> _. destruct (enc1_head b0 x' q RB EB) as [(-> & _)|(_ & ? & _)]; lia.
  - inversion SF as [|? ? _ SF']; subst. inversion T as [|? ? _ T0]; subst. inversion T0 as [|? ? _ T']; subst.
    apply Forall_app in T' as [TB T''].
    inversion T'' as [|? ? _ TS]; subst.
    replace ((91 :: 94 :: b ++ 93 :: s) ++ X) with (91 :: 94 :: b ++ 93 :: (s ++ X)) in * by (cbn; now rewrite <- app_assoc).
    change (utf8 (91 :: 94 :: b ++ 93 :: (s ++ X))) with (91 :: 94 :: utf8 (b ++ 93 :: (s ++ X))) in *. cbn [length] in L. destruct fuel as [|fuel]; [lia|].
    cbn [match_chunk]. destruct nm as [|s0 st]; [now left|].
    change (91 =? 91) with true; change (94 =? 94) with true; cbv iota. destruct (decode_rune (s0 :: st)) as [r n].
    rewrite (class_loop_ranges b l RS TB).
    * destruct (Bool.eqb _ _); [now left|]. apply IH; auto.
      rewrite utf8_app, utf8_cons, !app_length in L. lia.
    * rewrite utf8_app, app_length, utf8_cons, app_length in L. pose proof (length_utf8 b). change (length (enc1 93)) with 1%nat in L. lia.
Qed.

(** ** Malformed terms *)
Lemma bad_chunk bad : text bad -> malformed_term bad -> forall fuel s, (length (utf8 bad) <= fuel)%nat -> s <> [] -> match_chunk fuel (utf8 bad) s = MBad.
Proof.
  intros T [->|(b & -> & H)] fuel s L NS; (destruct s as [|s0 st]; [congruence|]).
  - destruct fuel; [cbn in L; lia|reflexivity].
  - change (utf8 (91 :: b)) with (91 :: utf8 b) in *. cbn [length] in L. destruct fuel as [|fuel]; [lia|]. inversion T as [|? ? _ TB]; subst.
    cbn [match_chunk]. change (91 =? 91) with true; cbv iota. destruct (decode_rune (s0 :: st)) as [r k].
    destruct (utf8 b) as [|c1 ct] eqn:EB; [reflexivity|]. destruct (Z.eqb_spec c1 94) as [->|N].
    + destruct (utf8_head_ascii b 94 ct TB EB ltac:(lia)) as (Y & -> & ->). inversion TB as [|? ? _ TY]; subst. cbn [length] in L.
      destruct (class_total fuel r (utf8 Y) false false) as [->|(m & rest & E & _)]; [lia|lia|reflexivity|].
      destruct (class_inv _ _ _ _ _ _ _ TY E) as (b' & Q & -> & _ & [[HF _]|[l RS]]); [discriminate|]. destruct (proj2 (H b' l Q RS) eq_refl).
    + rewrite <- EB in *. destruct (class_total fuel r (utf8 b) false false) as [->|(m & rest & E & _)]; [rewrite EB in L |- *; cbn in *; lia|rewrite EB in L; cbn in L; lia|reflexivity|].
      destruct (class_inv _ _ _ _ _ _ _ TB E) as (b' & Q & -> & _ & [[HF _]|[l RS]]); [discriminate|].
      exfalso. apply (proj1 (H b' l Q RS)); [|reflexivity]. intros HD. destruct b' as [|x b']; [cbn in HD; lia|]. cbn in HD. subst x.
      rewrite <- app_comm_cons, utf8_cons in EB. cbn in EB. congruence.
Qed.
Lemma bad_chunk_nil bad : malformed_term bad -> forall fuel, match_chunk fuel (utf8 bad) [] = MNo.
Proof. intros [->|(b & -> & _)] [|fuel]; reflexivity. Qed.
Lemma bad_ne bad : malformed_term bad -> bad <> [] /\ hd 0 bad <> 42.
Proof. intros [->|(b & -> & _)]; split; discriminate. Qed.

Lemma scan_nostar n : forall X i, (length X <= n)%nat -> ~ In 42 X -> scan X i = (X, []).
Proof.
  induction n as [|n IH]; intros X i L N; (destruct X as [|c X]; [reflexivity|]); cbn [length] in L; [lia|].
  assert (NX : ~ In 42 X) by (cbn in N; tauto). assert (C42 : (c =? 42) = false) by (cbn in N; lia). cbn [scan]. rewrite C42. cbn [andb].
  rewrite !IH by (assumption || lia). destruct (c =? 92).
  - destruct X as [|d X]; [reflexivity|]. cbn [length] in L. rewrite IH; [reflexivity|lia|cbn in NX; tauto].
  - destruct (c =? 91), (c =? 93); reflexivity.
Qed.
Lemma scan_chunk_then g gt : pattern g gt -> star_free gt -> forall X, scan (g ++ X) false = let '(a, b) := scan X false in (g ++ a, b).
Proof.
  induction 1 as [|s ts P IH|s ts P IH|c s ts N1 N2 N3 N4 P IH|c s ts P IH|b l s ts RS HD P IH|b l s ts RS P IH]; intros SF X.
  - cbn [app]. now destruct (scan X false).
  - inversion SF; congruence.
  - inversion SF as [|? ? _ SF']; subst. cbn [app scan]. change (63 =? 92) with false; change (63 =? 91) with false; change (63 =? 93) with false; change (63 =? 42) with false.
    cbv iota. cbn [andb]. rewrite IH by assumption. now destruct (scan X false).
  - inversion SF as [|? ? _ SF']; subst. cbn [app scan]. replace (c =? 92) with false by lia. replace (c =? 91) with false by lia. replace (c =? 42) with false by lia.
    cbn [andb]. rewrite IH by assumption. destruct (c =? 93); now destruct (scan X false).
  - inversion SF as [|? ? _ SF']; subst. cbn [app scan]. change (92 =? 92) with true. cbv iota. rewrite IH by assumption. now destruct (scan X false).
  - inversion SF as [|? ? _ SF']; subst. replace ((91 :: b ++ 93 :: s) ++ X) with (91 :: b ++ 93 :: (s ++ X)) by (cbn; now rewrite <- app_assoc).
    cbn [scan]. change (91 =? 92) with false; change (91 =? 91) with true. cbv iota. rewrite (scan_ranges b l RS), IH by assumption.
    destruct (scan X false). cbn. now rewrite <- app_assoc.
  - inversion SF as [|? ? _ SF']; subst. replace ((91 :: 94 :: b ++ 93 :: s) ++ X) with (91 :: 94 :: b ++ 93 :: (s ++ X)) by (cbn; now rewrite <- app_assoc).
    cbn [scan]. change (91 =? 92) with false; change (91 =? 91) with true; change (94 =? 92) with false;
      change (94 =? 91) with false; change (94 =? 93) with false; change (94 =? 42) with false. cbv iota. cbn [andb]. rewrite (scan_ranges b l RS), IH by assumption.
    destruct (scan X false). cbn. now rewrite <- app_assoc.
Qed.
Lemma star_free_head g gt : pattern g gt -> star_free gt -> forall X, hd 0 X <> 42 -> hd 0 (g ++ X) <> 42.
Proof. intros P SF X H. inversion P; subst; cbn; try discriminate; try assumption. inversion SF; congruence. Qed.
Lemma strip_stars_repeat n q : hd 0 q <> 42 -> forall b, strip_stars (repeat 42 n ++ q) b = (b || negb (n =? 0)%nat, q).
Proof.
  intros H. induction n as [|n IH]; intros b; cbn [repeat app].
  - cbn [Nat.eqb negb]. rewrite orb_false_r. destruct q as [|c q]; [reflexivity|]. cbn in H. cbn [strip_stars]. now replace (c =? 42) with false by lia.
  - cbn [strip_stars]. change (42 =? 42) with true. cbv iota. rewrite IH. cbn. now rewrite orb_true_r.
Qed.
Lemma chunk_match_more ck : forall cs x t, chunk_match ck cs = Some x -> chunk_match ck (cs ++ t) = Some (x ++ t).
Proof.
  induction ck as [|y ck IH]; intros cs x t E; cbn [chunk_match] in *; [congruence|]. destruct cs as [|c cs]; [discriminate|]. cbn [app].
  destruct (tmatch y c); [now apply IH|discriminate].
Qed.
Lemma matches_chunk ck cs t : star_free ck -> matches ck cs -> chunk_match ck (cs ++ t) = Some t.
Proof.
  intros SF M. rewrite <- (app_nil_r ck) in M. apply (chunk_spec ck SF [] cs) in M as (x & E & MX). inversion MX; subst.
  now rewrite (chunk_match_more ck cs [] t E).
Qed.
Lemma skip_bad mc K last w : (forall s, mc s = MNo \/ mc s = MBad) -> mc w = MBad -> forall u, u <> [] -> ~ In 47 u -> skip_loop mc K last (u ++ w) = Ok None.
Proof.
  intros M B. induction u as [|c u IH]; intros NE N; [congruence|]. cbn [app skip_loop]. replace (c =? 47) with false by (cbn in N; lia).
  destruct u as [|d u].
  - cbn [app]. now rewrite B.
  - specialize (IH ltac:(discriminate) ltac:(cbn in *; tauto)). destruct (M ((d :: u) ++ w)) as [E|E]; rewrite E; [exact IH|reflexivity].
Qed.
Lemma utf8_noslash u : text u -> Forall (fun c => c <> 47) u -> ~ In 47 (utf8 u).
Proof.
  intros T F. pose proof (existsb_slash u T) as E. intros I.
  assert (X : existsb (fun c => c =? 47) (utf8 u) = true) by (apply existsb_exists; exists 47; split; [assumption|reflexivity]).
  rewrite E in X. apply existsb_exists in X as (c & IC & EC). rewrite Forall_forall in F. specialize (F c IC). lia.
Qed.
Lemma bad_reported n g gt bad u cs d r : pattern g gt -> no_stars gt -> text (g ++ bad) -> malformed_term bad -> ~ In 42 bad ->
  text (u ++ cs ++ d :: r) -> (u = [] \/ (n <> 0%nat /\ Forall (fun c => c <> 47) u)) -> matches gt cs ->
  fs_match (utf8 (u ++ cs ++ d :: r)) (utf8 (repeat 42 n ++ g ++ bad)) = Ok None.
Proof.
  intros P SF T B NS TC U M. destruct (bad_ne bad B) as [NE HB].
  assert (TB := proj2 (text_app _ _ T)). assert (TG := proj1 (text_app _ _ T)).
  apply text_app in TC as [TU TC]. assert (TT := TC). apply text_app in TT as [_ TD].
  assert (TP : text (repeat 42 n ++ g ++ bad)).
  { apply Forall_app. split; [|assumption]. apply Forall_forall. intros c I. apply repeat_spec in I. subst. unfold rune. lia. }
  assert (GN : g ++ bad <> []) by (intros E; apply app_eq_nil in E as [_ E]; contradiction).
  unfold fs_match. set (p := utf8 (repeat 42 n ++ g ++ bad)).
  assert (SC : scan_chunk p = (negb (n =? 0)%nat, utf8 (g ++ bad), [])).
  { unfold scan_chunk, p. rewrite strip_stars_utf8, strip_stars_repeat by (assumption || now apply (star_free_head g gt)). cbn [orb].
    rewrite (scan_utf8 (length (g ++ bad))) by (assumption || apply Nat.le_refl).
    rewrite (scan_chunk_then g gt P SF), (scan_nostar (length bad) bad false (Nat.le_refl _) NS). reflexivity. }
  assert (PN : p <> []). { unfold p. destruct (repeat 42 n ++ g ++ bad) as [|x y] eqn:E; [apply app_eq_nil in E as [_ E]; contradiction|]. apply utf8_ne. }
  destruct p as [|p0 p'] eqn:EP; [congruence|]. rewrite <- EP in *. clear PN.
  replace (length p) with (Datatypes.S (length p')) by (rewrite EP; reflexivity). cbn [match_loop]. rewrite EP at 1. rewrite SC.
  assert (EE : is_empty (utf8 (g ++ bad)) = false). { rewrite is_empty_utf8. destruct (g ++ bad); [congruence|reflexivity]. }
  rewrite EE, andb_false_r. set (mc := match_chunk (length (utf8 (g ++ bad))) (utf8 (g ++ bad))).
  assert (MB : mc (utf8 (cs ++ d :: r)) = MBad).
  { pose proof (match_chunk_then g gt P SF TG bad _ (cs ++ d :: r) TC (Nat.le_refl _)) as H. rewrite (matches_chunk gt cs (d :: r) SF M) in H.
    destruct H as (f & LF & E). unfold mc. rewrite E. apply bad_chunk; try assumption. apply utf8_ne. }
  assert (MA : forall s, mc s = MNo \/ mc s = MBad).
  { intros s. destruct (chunk_then g gt P SF TG bad _ s (Nat.le_refl _)) as [E|(f & s' & LF & E)]; [now left|]. unfold mc. rewrite E.
    destruct s' as [|x s']; [left; now apply bad_chunk_nil|right; apply bad_chunk; try assumption; discriminate]. }
  destruct U as [->|[N0 FU]].
  - cbn [app]. rewrite MB. reflexivity.
  - destruct u as [|u0 u]; [cbn [app]; now rewrite MB|]. rewrite utf8_app.
    assert (SK : skip_loop mc (match_loop (length p') []) (is_empty []) (utf8 (u0 :: u) ++ utf8 (cs ++ d :: r)) = Ok None).
    { apply skip_bad; try assumption; [apply utf8_ne|now apply utf8_noslash]. }
    replace (negb (n =? 0)%nat) with true by (destruct n; [congruence|reflexivity]).
    destruct (MA (utf8 (u0 :: u) ++ utf8 (cs ++ d :: r))) as [E|E]; rewrite E; [exact SK|reflexivity].
Qed.

(** Every text is a pattern, or has a malformed term behind a pattern. *)
Lemma class_dec b : text b -> (exists b' l Q, ranges b' l /\ b = b' ++ 93 :: Q) \/ (forall b' l Q, ranges b' l -> b <> b' ++ 93 :: Q).
Proof.
  intros T. destruct (class_total (Datatypes.S (length (utf8 b))) 0 (utf8 b) false false) as [E|(m & rest & E & _)]; try lia.
  - right. intros b' l Q RS ->. rewrite (class_loop_ranges b' l RS) in E; [discriminate|now apply text_app in T|].
    pose proof (length_utf8 (b' ++ 93 :: Q)). rewrite app_length in H. cbn in *. lia.
  - left. destruct (class_inv _ _ _ _ _ _ _ T E) as (b' & Q & -> & _ & [[HF _]|[l RS]]); [discriminate|]. eauto.
Qed.
Lemma pattern_or_bad n : forall ps, (length ps <= n)%nat -> text ps ->
  (exists ts, pattern ps ts) \/ exists g ts bad, ps = g ++ bad /\ pattern g ts /\ malformed_term bad.
Proof.
  induction n as [|n IH]; intros ps L T; (destruct ps as [|c ps]; [left; exists []; constructor|]); cbn [length] in L; [lia|].
  inversion T as [|? ? _ T']; subst.
  assert (EXT : forall w t Q, (forall s ts, pattern s ts -> pattern (w ++ s) (t :: ts)) -> c :: ps = w ++ Q -> (length Q <= n)%nat -> text Q ->
            (exists ts, pattern (c :: ps) ts) \/ exists g ts bad, c :: ps = g ++ bad /\ pattern g ts /\ malformed_term bad).
  { intros w t Q K E LQ TQ. rewrite E. destruct (IH Q LQ TQ) as [[ts P]|(g & ts & bad & -> & P & B)]; [left; eauto|].
    right. exists (w ++ g), (t :: ts), bad. rewrite app_assoc. auto. }
  destruct (Z.eq_dec c 42) as [->|N1]; [apply (EXT [42] Star ps); auto; [intros; now constructor|lia]|].
  destruct (Z.eq_dec c 63) as [->|N2]; [apply (EXT [63] Any ps); auto; [intros; now constructor|lia]|].
  destruct (Z.eq_dec c 92) as [->|N3].
  { destruct ps as [|d Q]; [right; exists [], [], [92]; repeat split; [constructor|now left]|].
    apply (EXT [92; d] (Lit d) Q); auto; [intros; now constructor|cbn in L; lia|now inversion T']. }
  destruct (Z.eq_dec c 91) as [->|N4]; [|apply (EXT [c] (Lit c) ps); auto; [intros; now constructor|lia]].
  assert (BAD : (forall b' l r, ranges b' l -> (hd 0 b' <> 94 -> ps <> b' ++ 93 :: r) /\ ps <> 94 :: b' ++ 93 :: r) ->
    (exists ts, pattern (91 :: ps) ts) \/ exists g ts bad, 91 :: ps = g ++ bad /\ pattern g ts /\ malformed_term bad).
  { intros H. right. exists [], [], (91 :: ps). repeat split; [constructor|]. right. exists ps. auto. }
  destruct ps as [|x Y]; [apply BAD; intros b' l r RS; split; [|discriminate]; destruct b'; discriminate|].
  inversion T' as [|? ? RX TY]; subst. destruct (Z.eq_dec x 94) as [->|NX].
  - destruct (class_dec Y TY) as [(b & l & Q & RS & ->)|H].
    + apply (EXT (91 :: 94 :: b ++ [93]) (Class true l) Q).
      * intros s ts P. cbn. rewrite <- app_assoc. now constructor.
      * cbn. now rewrite <- app_assoc.
      * cbn [length] in L. rewrite app_length in L. cbn in L. lia.
      * apply text_app in TY as [_ TQ]. now inversion TQ.
    + apply BAD. intros b' l r RS. split; [|intros E; apply (H b' l r RS); congruence].
      intros HD E. destruct b' as [|y b']; [cbn in E; congruence|]. cbn in *. congruence.
  - destruct (class_dec (x :: Y) T') as [(b & l & Q & RS & E)|H].
    + apply (EXT (91 :: b ++ [93]) (Class false l) Q).
      * intros s ts P. cbn. rewrite <- app_assoc. constructor; try assumption. destruct b as [|y b]; [discriminate|]. cbn in *. congruence.
      * cbn. rewrite <- app_assoc. cbn. congruence.
      * cbn [length] in L. assert (length (x :: Y) = length (b ++ 93 :: Q)) by congruence. rewrite app_length in H. cbn in H. lia.
      * rewrite E in T'. apply text_app in T' as [_ TQ]. now inversion TQ.
    + apply BAD. intros b' l r RS. split; [intros _; exact (H b' l r RS)|congruence].
Qed.
Lemma reported_example :
  pattern [98] [Lit 98] /\ malformed_term [91; 97; 45; 93] /\
  fs_match [120; 98; 98] [42; 98; 91; 97; 45; 93] = Ok None /\ fs_match [120; 98] [42; 98; 91; 97; 45; 93] = Ok (Some false).
Proof.
  split; [constructor; try lia; constructor|]. split; [|split; reflexivity]. right. exists [97; 45; 93]. split; [reflexivity|].
  intros b' l r RS. split; [|discriminate]. intros _ E.
  assert (X : class_loop 9 0 (utf8 (b' ++ 93 :: r)) false false = CBad) by (rewrite <- E; reflexivity).
  assert (T : text b').
  { refine (proj1 (text_app b' (93 :: r) _)). rewrite <- E. repeat constructor; unfold rune; lia. }
  assert (L : length (b' ++ 93 :: r) = 3%nat) by (rewrite <- E; reflexivity). rewrite app_length in L. cbn in L.
  rewrite (class_loop_ranges b' l RS T) in X; [discriminate|lia].
Qed.
