(** Proofs about filepath.Match: it returns, and which patterns it rejects. *)
From Coq Require Import ZArith List Bool Arith Lia ZifyBool ZifyNat.
From Verif Require Import GoBase GoStrings MatchSpec MatchModel MatchProofs MatchScan MatchMain.
Import ListNotations.
Open Scope Z_scope.

(** ** Match returns *)
Lemma decode_pos a t : (0 < snd (decode_rune (a :: t)))%nat.
Proof.
  cbn [decode_rune]. destruct (a <? 128); [cbn; lia|]. destruct (a <? 194); [cbn; lia|].
  destruct (a <? 224). { destruct t as [|b t]; [cbn; lia|]. destruct (in_range _ _ b); cbn; lia. }
  destruct (a <? 240). { destruct t as [|b [|c t]]; try (cbn; lia). destruct (in_range _ _ b && _); cbn; lia. }
  destruct (a <? 245); [|cbn; lia]. destruct t as [|b [|c [|d t]]]; try (cbn; lia). destruct (in_range _ _ b && _ && _); cbn; lia.
Qed.
Lemma get_esc_shorter ch c r : get_esc ch = Some (c, r) -> (length r < length ch)%nat /\ r <> [].
Proof.
  unfold get_esc. destruct ch as [|x ch]; [discriminate|]. destruct ((x =? 45) || (x =? 93)); [discriminate|].
  assert (H : forall l, (l <> [] -> (length l <= length (x :: ch))%nat) -> forall n, 
              match l with [] => None | _ :: _ => let '(r0, n0) := decode_rune l in
                if (r0 =? 65533) && (n0 =? 1)%nat then None else match skipn n0 l with [] => None | nchunk => Some (r0, nchunk) end end = Some (c, n) ->
              (length n < length (x :: ch))%nat /\ n <> []).
  { intros l L n E. destruct l as [|y l]; [discriminate|]. destruct (decode_rune (y :: l)) as [r0 n0] eqn:D.
    destruct ((r0 =? 65533) && (n0 =? 1)%nat); [discriminate|]. destruct (skipn n0 (y :: l)) as [|z k] eqn:SK; [discriminate|].
    assert (n = z :: k) by congruence; subst n. split; [|discriminate]. rewrite <- SK, skipn_length.
    specialize (L ltac:(discriminate)). cbn [length] in *.
    pose proof (decode_pos y l) as DP. rewrite D in DP. cbn in DP. lia. }
  intros E. apply (H (if x =? 92 then ch else x :: ch)); [destruct (x =? 92); cbn; lia|exact E].
Qed.
Lemma class_total fuel : forall r ch m seen, (length ch <= fuel)%nat -> (0 < fuel)%nat ->
  class_loop fuel r ch m seen = CBad \/ exists m' rest, class_loop fuel r ch m seen = CDone m' rest /\ (length rest < length ch)%nat.
Proof.
  induction fuel as [|f IH]; intros r ch m seen L P; [lia|]. cbn [class_loop].
  assert (G : let g := match get_esc ch with
        | None => CBad
        | Some (lo, chunk) =>
            match chunk with
            | 45 :: t =>
                match get_esc t with
                | None => CBad
                | Some (hi, chunk) => class_loop f r chunk (m || ((lo <=? r) && (r <=? hi))) true
                end
            | _ => class_loop f r chunk (m || ((lo <=? r) && (r <=? lo))) true
            end
        end in g = CBad \/ exists m' rest, g = CDone m' rest /\ (length rest < length ch)%nat).
  { cbv zeta. destruct (get_esc ch) as [[lo c1]|] eqn:E1; [|now left]. apply get_esc_shorter in E1 as [L1 N1].
    assert (D : forall mm cc, (length cc < length ch)%nat -> cc <> [] -> class_loop f r cc mm true = CBad \/
              exists m' rest, class_loop f r cc mm true = CDone m' rest /\ (length rest < length ch)%nat).
    { intros mm cc LC NC. destruct (IH r cc mm true) as [B|(m' & rest & E & LR)]; [lia|destruct cc; [congruence|cbn in *; lia]|now left|].
      right. exists m', rest. split; [assumption|lia]. }
    assert (D1 := D (m || ((lo <=? r) && (r <=? lo))) c1 L1 N1).
    destruct c1 as [|x t]; [congruence|].
    assert (HX : {x = 45} + {x <> 45}) by (destruct (Z.eq_dec x 45); auto). destruct HX as [->|NX].
    - destruct (get_esc t) as [[hi c2]|] eqn:E2; [|now left]. apply get_esc_shorter in E2 as [L2 N2]. apply D; [cbn in L1; lia|assumption].
    - destruct x as [|p|p]; try exact D1. repeat (destruct p; try exact D1). congruence. }
  cbv zeta in G. destruct ch as [|c t]; [exact G|]. destruct ((c =? 93) && seen); [|exact G].
  right. exists m, t. split; [reflexivity|cbn; lia].
Qed.
Lemma chunk_total fuel : forall ch s, (length ch <= fuel)%nat -> match_chunk fuel ch s <> MDiverge.
Proof.
  induction fuel as [|f IH]; intros ch s L; (destruct ch as [|c ct]; [discriminate|]); cbn [length] in L; [lia|].
  cbn [match_chunk]. destruct s as [|s0 st]; [discriminate|]. destruct (c =? 91).
  - destruct (decode_rune (s0 :: st)) as [r n]. destruct ct as [|c1 ct1]; [discriminate|].
    set (body := if c1 =? 94 then ct1 else c1 :: ct1). assert (LB : (length body <= f)%nat) by (unfold body; destruct (c1 =? 94); cbn in *; lia).
    destruct (class_total f r body false false LB) as [->|(m & rest & -> & LR)]; [cbn in L; lia|discriminate|].
    destruct (Bool.eqb m (c1 =? 94)); [discriminate|]. apply IH. lia.
  - destruct (c =? 63).
    + destruct (s0 =? 47); [discriminate|]. apply IH; lia.
    + destruct (c =? 92).
      * destruct ct as [|c1 ct1]; [discriminate|]. destruct (c1 =? s0); [|discriminate]. apply IH. cbn in L; lia.
      * destruct (c =? s0); [|discriminate]. apply IH; lia.
Qed.
Lemma skip_total mc K last : (forall s, mc s <> MDiverge) -> (forall s, exists b, K s = Ok b) ->
  forall name, exists b, skip_loop mc K last name = Ok b.
Proof.
  intros M HK. induction name as [|c name IH]; cbn [skip_loop]; [eauto|]. destruct (c =? 47); [eauto|].
  specialize (M name). destruct (mc name) as [t| | |]; [|exact IH|eauto|congruence].
  destruct (last && negb (is_empty t)); [exact IH|apply HK].
Qed.
Lemma strip_stars_length p : forall b, (length (snd (strip_stars p b)) <= length p)%nat.
Proof. induction p as [|c p IH]; intros b; cbn [strip_stars]; [apply Nat.le_refl|]. destruct (c =? 42); [|apply Nat.le_refl]. specialize (IH true). cbn [length]. lia. Qed.
Lemma strip_stars_star p : fst (strip_stars p false) = false -> snd (strip_stars p false) = p /\ hd 0 p <> 42.
Proof.
  destruct p as [|c p]; cbn [strip_stars hd]; [intros _; split; [reflexivity|discriminate]|].
  destruct (Z.eqb_spec c 42) as [->|N]; [|auto].
  intros H. exfalso. assert (A : forall q, fst (strip_stars q true) = true).
  { induction q as [|x q IH]; cbn; [reflexivity|]. destruct (x =? 42); [assumption|reflexivity]. }
  rewrite A in H; discriminate.
Qed.
Lemma scan_split n : forall p i, (length p <= n)%nat -> fst (scan p i) ++ snd (scan p i) = p.
Proof.
  induction n as [|n IH]; intros p i L; (destruct p as [|c p]; [reflexivity|]); cbn [length] in L; [lia|]. cbn [scan].
  assert (S1 : forall j, fst (let '(a, b) := scan p j in (c :: a, b)) ++ snd (let '(a, b) := scan p j in (c :: a, b)) = c :: p).
  { intros j. specialize (IH p j ltac:(lia)). destruct (scan p j) as [a b]; cbn in *. now rewrite IH. }
  destruct (c =? 92).
  - destruct p as [|d p]; [reflexivity|]. cbn [length] in L. specialize (IH p i ltac:(lia)). destruct (scan p i) as [a b]; cbn in *. now rewrite IH.
  - destruct (c =? 91); [apply S1|]. destruct (c =? 93); [apply S1|]. destruct ((c =? 42) && negb i); [reflexivity|apply S1].
Qed.
Lemma scan_nonempty p : p <> [] -> hd 0 p <> 42 -> fst (scan p false) <> [].
Proof.
  destruct p as [|c p]; [congruence|]. intros _ N. cbn in N. cbn [scan].
  destruct (c =? 92). { destruct p; [discriminate|]. now destruct (scan p false). }
  replace (c =? 42) with false by lia. cbn [andb].
  destruct (c =? 91); [now destruct (scan p true)|]. destruct (c =? 93); now destruct (scan p false).
Qed.
Lemma scan_chunk_split p : p <> [] -> let '(star, chunk, rest) := scan_chunk p in
  (length rest <= length p)%nat /\ (star && is_empty chunk = false -> (length rest < length p)%nat /\ chunk <> []).
Proof.
  intros NP. unfold scan_chunk. pose proof (strip_stars_length p false) as LS. pose proof (strip_stars_star p) as SS.
  destruct (strip_stars p false) as [star q]. cbn [fst snd] in *. pose proof (scan_split (length q) q false (Nat.le_refl _)) as SP.
  pose proof (scan_nonempty q) as NE. destruct (scan q false) as [chunk rest]. cbn [fst snd] in *. subst q. rewrite app_length in LS.
  split; [lia|]. intros E.
  assert (CN : chunk <> []).
  { destruct star; [destruct chunk; [discriminate|discriminate]|]. destruct (SS eq_refl) as [EQ H]. apply NE; [rewrite EQ; assumption|rewrite EQ; assumption]. }
  split; [|assumption]. destruct chunk; [congruence|cbn in *; lia].
Qed.
Lemma match_total fuel : forall p name, (length p <= fuel)%nat -> exists b, match_loop fuel p name = Ok b.
Proof.
  induction fuel as [|f IH]; intros p name L; (destruct p as [|c p]; [cbn; eauto|]); [cbn in L; lia|].
  remember (c :: p) as q eqn:EQ. cbn [match_loop]. pose proof (scan_chunk_split q ltac:(subst; discriminate)) as SC.
  destruct q as [|x q']; [discriminate|]. remember (x :: q') as q. destruct (scan_chunk q) as [[star chunk] rest].
  destruct SC as [_ SC]. destruct (star && is_empty chunk); [eauto|]. destruct (SC eq_refl) as [LR CN].
  assert (HK : forall s, exists b, match_loop f rest s = Ok b) by (intros; apply IH; lia).
  assert (M : forall s, match_chunk (length chunk) chunk s <> MDiverge) by (intros; now apply chunk_total).
  assert (NO : exists b, (if star then skip_loop (match_chunk (length chunk) chunk) (match_loop f rest) (is_empty rest) name else Ok (Some false)) = Ok b).
  { destruct star; [now apply skip_total|eauto]. }
  specialize (M name). destruct (match_chunk (length chunk) chunk name) as [t| | |]; [|exact NO|eauto|congruence].
  destruct (is_empty t || negb (is_empty rest)); [apply HK|exact NO].
Qed.

(** ** A well-formed pattern is not rejected *)
Lemma chunk_wf ps ts : pattern ps ts -> star_free ts -> text ps -> forall fuel s, (length (utf8 ps) <= fuel)%nat ->
  match_chunk fuel (utf8 ps) s <> MBad.
Proof.
  induction 1 as [|s ts P IH|s ts P IH|c s ts N1 N2 N3 N4 P IH|c s ts P IH|b l s ts RS HD P IH|b l s ts RS P IH];
    intros SF T fuel nm L.
  - destruct fuel; discriminate.
  - inversion SF; congruence.
  - inversion SF as [|? ? _ SF']; subst. inversion T as [|? ? _ T']; subst.
    change (utf8 (63 :: s)) with (63 :: utf8 s) in *. cbn [length] in L. destruct fuel as [|fuel]; [lia|].
    cbn [match_chunk]. destruct nm as [|x nm]; [discriminate|].
    change (63 =? 91) with false; change (63 =? 63) with true; cbv iota. destruct (x =? 47); [discriminate|]. apply IH; auto; lia.
  - inversion SF as [|? ? _ SF']; subst. inversion T as [|? ? R T']; subst.
    rewrite utf8_cons, app_length in *. rewrite match_plain; [|apply enc1_plain; [assumption|unfold plain; auto]|lia].
    destruct (strip_prefix (enc1 c) nm); [|discriminate]. apply IH; auto; lia.
  - inversion SF as [|? ? _ SF']; subst. inversion T as [|? ? _ T']; subst. inversion T' as [|? ? R T'']; subst.
    change (utf8 (92 :: c :: s)) with (92 :: enc1 c ++ utf8 s) in *. cbn [length] in L. rewrite app_length in L.
    destruct fuel as [|fuel]; [lia|]. cbn [match_chunk]. destruct nm as [|s0 st]; [discriminate|].
    destruct (enc1 c) as [|a t] eqn:EC; [destruct (enc1_ne c EC)|]. cbn [app length] in *.
    change (92 =? 91) with false; change (92 =? 63) with false; change (92 =? 92) with true; cbv iota.
    destruct (a =? s0); [|discriminate].
    rewrite match_plain; [|exact (enc1_tail_plain c a t R EC)|lia]. destruct (strip_prefix t st); [|discriminate]. apply IH; auto; lia.
  - inversion SF as [|? ? _ SF']; subst. inversion T as [|? ? _ T']; subst. apply Forall_app in T' as [TB T''].
    inversion T'' as [|? ? _ TS]; subst.
    change (utf8 (91 :: b ++ 93 :: s)) with (91 :: utf8 (b ++ 93 :: s)) in *. cbn [length] in L. destruct fuel as [|fuel]; [lia|].
    cbn [match_chunk]. destruct nm as [|s0 st]; [discriminate|].
    change (91 =? 91) with true; cbv iota. destruct (decode_rune (s0 :: st)) as [r n].
    destruct (ranges_head b l (utf8 (93 :: s)) RS TB) as (x' & y' & E' & X1 & X2). rewrite <- utf8_app in E'.
    rewrite E'. replace (x' =? 94) with false.
    + rewrite <- E', (class_loop_ranges b l RS TB).
      * destruct (Bool.eqb _ _); [discriminate|]. apply IH; auto.
        rewrite utf8_app, utf8_cons, !app_length in L. lia.
      * rewrite utf8_app, app_length, utf8_cons, app_length in L. pose proof (length_utf8 b). change (length (enc1 93)) with 1%nat in L. lia.
    + destruct b as [|b0 b]; [destruct (ranges_head [] l [] RS TB) as (? & ? & ? & _); discriminate|]. cbn in HD.
      inversion TB as [|? ? RB _]; subst.
      rewrite <- app_comm_cons, utf8_cons in E'. destruct (enc1 b0) as [|p q] eqn:EB; [destruct (enc1_ne _ EB)|].
      injection E' as -> _. destruct (enc1_head b0 x' q RB EB) as [(-> & _)|(_ & ? & _)]; lia.
  - inversion SF as [|? ? _ SF']; subst. inversion T as [|? ? _ T0]; subst. inversion T0 as [|? ? _ T']; subst.
    apply Forall_app in T' as [TB T''].
    inversion T'' as [|? ? _ TS]; subst.
    change (utf8 (91 :: 94 :: b ++ 93 :: s)) with (91 :: 94 :: utf8 (b ++ 93 :: s)) in *. cbn [length] in L. destruct fuel as [|fuel]; [lia|].
    cbn [match_chunk]. destruct nm as [|s0 st]; [discriminate|].
    change (91 =? 91) with true; change (94 =? 94) with true; cbv iota. destruct (decode_rune (s0 :: st)) as [r n].
    rewrite (class_loop_ranges b l RS TB).
    * destruct (Bool.eqb _ _); [discriminate|]. apply IH; auto.
      rewrite utf8_app, utf8_cons, !app_length in L. lia.
    * rewrite utf8_app, app_length, utf8_cons, app_length in L. pose proof (length_utf8 b). change (length (enc1 93)) with 1%nat in L. lia.
Qed.
Lemma skip_wf mc K last : (forall s, mc s <> MBad) -> (forall s, K s <> Ok None) -> forall name, skip_loop mc K last name <> Ok None.
Proof.
  intros M HK. induction name as [|c name IH]; cbn [skip_loop]; [discriminate|]. destruct (c =? 47); [discriminate|].
  specialize (M name). destruct (mc name) as [t| | |]; [|exact IH|congruence|discriminate].
  destruct (last && negb (is_empty t)); [exact IH|apply HK].
Qed.
(** Cutting a pattern of characters. *)
Lemma scan_chunk_pattern ps ts : pattern ps ts -> text ps -> exists star ch ck rs rt, scan_chunk (utf8 ps) = (star, utf8 ch, utf8 rs) /\
  pattern ch ck /\ star_free ck /\ text ch /\ pattern rs rt /\ text rs.
Proof.
  intros P T. destruct (strip_stars_pattern ps ts P T false) as (n & r & tt & ES & ETS & PR & TR & EP & NS).
  destruct (scan_pattern r tt PR TR) as (ch & rs & ck & rt & ESC & ETT & PC & SF & PRS & SS & TCH & TRS & ER).
  exists (negb (n =? 0)%nat), ch, ck, rs, rt. split; [|auto].
  unfold scan_chunk. rewrite strip_stars_utf8, ES by assumption. cbn [orb]. rewrite (scan_utf8 (length r)), ESC by (assumption || apply Nat.le_refl).
  reflexivity.
Qed.
Lemma match_wf fuel : forall ps ts, pattern ps ts -> text ps -> forall name, match_loop fuel (utf8 ps) name <> Ok None.
Proof.
  induction fuel as [|f IH]; intros ps ts P T name; cbn [match_loop].
  { destruct (utf8 ps); discriminate. }
  destruct (utf8 ps) as [|x y] eqn:EU; [discriminate|]. rewrite <- EU.
  destruct (scan_chunk_pattern ps ts P T) as (star & ch & ck & rs & rt & -> & PC & SF & TC & PR & TR).
  destruct (star && is_empty (utf8 ch)); [discriminate|].
  assert (HK : forall s, match_loop f (utf8 rs) s <> Ok None) by (apply (IH rs rt); assumption).
  assert (M : forall s, match_chunk (length (utf8 ch)) (utf8 ch) s <> MBad) by (intros; now apply (chunk_wf ch ck)).
  assert (NO : (if star then skip_loop (match_chunk (length (utf8 ch)) (utf8 ch)) (match_loop f (utf8 rs)) (is_empty (utf8 rs)) name else Ok (Some false)) <> Ok None).
  { destruct star; [now apply skip_wf|discriminate]. }
  specialize (M name). destruct (match_chunk (length (utf8 ch)) (utf8 ch) name) as [t| | |]; [|exact NO|congruence|discriminate].
  destruct (is_empty t || negb (is_empty (utf8 rs))); [apply HK|exact NO].
Qed.

(** ** A pattern that matches something is well-formed *)
Lemma get_esc_inv Y c rest : text Y -> get_esc (utf8 Y) = Some (c, rest) ->
  exists b Q, Y = b ++ Q /\ class_char b c /\ rest = utf8 Q /\ Q <> [].
Proof.
  intros T E. destruct Y as [|y Y]; [discriminate|]. inversion T as [|? ? R T']; subst. rewrite utf8_cons in E.
  assert (FIN : forall d X, rune d -> (let '(r, n) := decode_rune (enc1 d ++ utf8 X) in
            if (r =? 65533) && (n =? 1)%nat then None else match skipn n (enc1 d ++ utf8 X) with [] => None | nchunk => Some (r, nchunk) end) = Some (c, rest) ->
            d = c /\ rest = utf8 X /\ X <> []).
  { intros d X RD E'. rewrite decode_enc in E' by assumption. destruct ((d =? 65533) && _); [discriminate|].
    rewrite skipn_app, skipn_all, Nat.sub_diag in E'. cbn [app skipn] in E'. destruct (utf8 X) as [|a t] eqn:EX; [discriminate|].
    split; [congruence|]. split; [congruence|]. intros ->. discriminate. }
  destruct (enc1 y) as [|a t] eqn:EY; [destruct (enc1_ne _ EY)|]. cbn [app get_esc] in E.
  destruct ((a =? 45) || (a =? 93)) eqn:A; [discriminate|].
  destruct (enc1_head y a t R EY) as [(-> & -> & LT)|(GE & HA & _)].
  - destruct (Z.eqb_spec y 92) as [->|N].
    + cbn [app] in E. destruct Y as [|d X]; [discriminate|]. inversion T' as [|? ? RD TX]; subst.
      rewrite utf8_cons in E. destruct (enc1 d) as [|p q] eqn:ED; [destruct (enc1_ne _ ED)|]. cbn [app] in E.
      change (p :: q ++ utf8 X) with ((p :: q) ++ utf8 X) in E. rewrite <- ED in E.
      destruct (FIN d X RD E) as (-> & -> & NX). exists [92; c], X. repeat split; auto. apply cc_escaped.
    + cbn [app] in E. change (y :: utf8 Y) with ([y] ++ utf8 Y) in E. rewrite <- EY in E.
      destruct (FIN y Y R E) as (-> & -> & NX). exists [c], Y. repeat split; auto. apply cc_plain; lia.
  - replace (a =? 92) with false in E by lia. change (a :: t ++ utf8 Y) with ((a :: t) ++ utf8 Y) in E. rewrite <- EY in E.
    destruct (FIN y Y R E) as (-> & -> & NX). exists [c], Y. repeat split; auto. apply cc_plain; lia.
Qed.
Lemma utf8_head_ascii Y a t : text Y -> utf8 Y = a :: t -> a < 128 -> exists Q, Y = a :: Q /\ t = utf8 Q.
Proof.
  intros T E L. destruct Y as [|y Y]; [discriminate|]. inversion T; subst. rewrite utf8_cons in E.
  destruct (enc1 y) as [|p q] eqn:EY; [destruct (enc1_ne _ EY)|]. cbn [app] in E. assert (p = a) by congruence; subst p. assert (ET : q ++ utf8 Y = t) by congruence.
  destruct (enc1_head y a q) as [(-> & -> & LT)|(GE & HA & _)]; [assumption|assumption|exists Y; auto|lia].
Qed.
Lemma text_app a b : text (a ++ b) -> text a /\ text b.
Proof. apply Forall_app. Qed.
Lemma class_inv fuel : forall r Y m seen m' rest, text Y -> class_loop fuel r (utf8 Y) m seen = CDone m' rest ->
  exists b Q, Y = b ++ 93 :: Q /\ rest = utf8 Q /\ ((seen = true /\ b = []) \/ exists l, ranges b l).
Proof.
  induction fuel as [|f IH]; intros r Y m seen m' rest T E; [discriminate|]. cbn [class_loop] in E.
  assert (G : match get_esc (utf8 Y) with
        | None => CBad
        | Some (lo, chunk) =>
            match chunk with
            | 45 :: t =>
                match get_esc t with
                | None => CBad
                | Some (hi, chunk) => class_loop f r chunk (m || ((lo <=? r) && (r <=? hi))) true
                end
            | _ => class_loop f r chunk (m || ((lo <=? r) && (r <=? lo))) true
            end
        end = CDone m' rest -> exists b Q, Y = b ++ 93 :: Q /\ rest = utf8 Q /\ exists l, ranges b l).
  { clear E. intros E. destruct (get_esc (utf8 Y)) as [[lo c1]|] eqn:E1; [|discriminate].
    destruct (get_esc_inv Y lo c1 T E1) as (b1 & Q1 & -> & CC & -> & NQ). apply text_app in T as [_ T1].
    assert (D : forall mm b rg Q, range b rg -> text Q -> class_loop f r (utf8 Q) mm true = CDone m' rest ->
              exists b' Q', b ++ Q = b' ++ 93 :: Q' /\ rest = utf8 Q' /\ exists l, ranges b' l).
    { intros mm b rg Q RG TQ EQ. destruct (IH _ _ _ _ _ _ TQ EQ) as (b' & Q' & -> & ER & [[_ ->]|[l RS]]).
      - exists b, Q'. split; [reflexivity|]. split; [assumption|]. exists [rg]. now constructor.
      - exists (b ++ b'), Q'. split; [now rewrite app_assoc|]. split; [assumption|]. exists (rg :: l). now constructor. }
    assert (D1 := D (m || ((lo <=? r) && (r <=? lo))) b1 (lo, lo) Q1 (rg_one _ _ CC) T1).
    destruct (utf8 Q1) as [|x t] eqn:EQ1; [apply D1; exact E|].
    assert (HX : {x = 45} + {x <> 45}) by (destruct (Z.eq_dec x 45); auto). destruct HX as [->|NX].
    - destruct (utf8_head_ascii Q1 45 t T1 EQ1 ltac:(lia)) as (Q2 & -> & ->). inversion T1 as [|? ? _ T2]; subst.
      destruct (get_esc (utf8 Q2)) as [[hi c2]|] eqn:E2; [|discriminate].
      destruct (get_esc_inv Q2 hi c2 T2 E2) as (b2 & Q3 & -> & CC2 & -> & NQ3). apply text_app in T2 as [_ T3].
      destruct (D _ (b1 ++ 45 :: b2) (lo, hi) Q3 (rg_two _ _ _ _ CC CC2) T3 E) as (b' & Q' & EB & R & l).
      exists b', Q'. rewrite <- EB, <- app_assoc. auto.
    - apply D1. destruct x as [|p|p]; try exact E. repeat (destruct p; try exact E). congruence. }
  destruct (utf8 Y) as [|a t] eqn:EY.
  - destruct (G E) as (b & Q & HH & R & l). exists b, Q. auto.
  - destruct ((a =? 93) && seen) eqn:C.
    + apply andb_true_iff in C as [C S]. apply Z.eqb_eq in C; subst a seen.
      destruct (utf8_head_ascii Y 93 t T EY ltac:(lia)) as (Q & -> & ->). exists [], Q. split; [reflexivity|]. split; [congruence|auto].
    + destruct (G E) as (b & Q & HH & R & l). exists b, Q. auto.
Qed.
Lemma chunk_inv n : forall X s t fuel, (length X <= n)%nat -> (length (utf8 X) <= fuel)%nat -> text X -> match_chunk fuel (utf8 X) s = MOk t -> scan X false = (X, []) ->
  exists ts, pattern X ts.
Proof.
  induction n as [|n IH]; intros X s t fuel L LF T E SC; (destruct X as [|x X]; [exists []; constructor|]); cbn [length] in L; [lia|].
  inversion T as [|? ? R T']; subst.
  assert (NB : x <> 92 -> x <> 91 -> x <> 42 /\ scan X false = (X, [])).
  { intros N1 N2. cbn [scan] in SC. replace (x =? 92) with false in SC by lia. replace (x =? 91) with false in SC by lia.
    destruct (Z.eqb_spec x 93).
    - split; [lia|]. destruct (scan X false). congruence.
    - destruct (Z.eqb_spec x 42); cbn [andb negb] in SC; [discriminate|]. split; [assumption|]. destruct (scan X false). congruence. }
  destruct (Z.eq_dec x 91) as [->|N91]; [|destruct (Z.eq_dec x 63) as [->|N63]; [|destruct (Z.eq_dec x 92) as [->|N92]]].
  - change (utf8 (91 :: X)) with (91 :: utf8 X) in *. cbn [length] in LF. destruct fuel as [|fuel]; [lia|].
    cbn [match_chunk] in E. destruct s as [|s0 st]; [discriminate|]. change (91 =? 91) with true in E; cbv iota in E.
    destruct (decode_rune (s0 :: st)) as [r k]. destruct (utf8 X) as [|c1 ct] eqn:EX; [discriminate|].
    destruct (Z.eqb_spec c1 94) as [->|N94].
    + destruct (utf8_head_ascii X 94 ct T' EX ltac:(lia)) as (Y & -> & ->). inversion T' as [|? ? _ TY]; subst.
      destruct (class_loop fuel r (utf8 Y) false false) as [|m rest|] eqn:EC; try discriminate.
      destruct (class_inv _ _ _ _ _ _ _ TY EC) as (b & Q & -> & -> & [[HF _]|[l RS]]); [discriminate|].
      destruct (Bool.eqb m true); [discriminate|]. apply text_app in TY as [_ TQ]. inversion TQ as [|? ? _ TQ']; subst.
      assert (HQ : scan Q false = (Q, [])).
      { cbn [scan] in SC. change (91 =? 92) with false in SC; change (91 =? 91) with true in SC; change (94 =? 92) with false in SC;
          change (94 =? 91) with false in SC; change (94 =? 93) with false in SC; change (94 =? 42) with false in SC. cbv iota in SC. cbn [andb] in SC.
        rewrite (scan_ranges b l RS) in SC. destruct (scan Q false) as [u v]. assert (EA : b ++ 93 :: u = b ++ 93 :: Q) by congruence.
        apply app_inv_head in EA. congruence. }
      edestruct IH with (5 := HQ) (4 := E) as [ts P]; try assumption.
      * cbn [length] in L. rewrite app_length in L. cbn [length] in L. lia.
      * assert (EL : length (utf8 (94 :: b ++ 93 :: Q)) = length (94 :: utf8 (b ++ 93 :: Q))) by reflexivity.
        rewrite EX in EL. rewrite utf8_app, utf8_cons in LF. cbn [length] in LF. rewrite !app_length in LF. lia.
      * exists (Class true l :: ts). now constructor.
    + rewrite <- EX in E. destruct (class_loop fuel r (utf8 X) false false) as [|m rest|] eqn:EC; try discriminate.
      destruct (class_inv _ _ _ _ _ _ _ T' EC) as (b & Q & -> & -> & [[HF _]|[l RS]]); [discriminate|].
      destruct (Bool.eqb m false); [discriminate|]. apply text_app in T' as [TB TQ]. inversion TQ as [|? ? _ TQ']; subst.
      assert (HQ : scan Q false = (Q, [])).
      { cbn [scan] in SC. change (91 =? 92) with false in SC; change (91 =? 91) with true in SC. cbv iota in SC.
        rewrite (scan_ranges b l RS) in SC. destruct (scan Q false) as [u v]. assert (EA : b ++ 93 :: u = b ++ 93 :: Q) by congruence.
        apply app_inv_head in EA. congruence. }
      edestruct IH with (5 := HQ) (4 := E) as [ts P]; try assumption.
      * rewrite app_length in L. cbn [length] in L. lia.
      * rewrite <- EX, utf8_app, utf8_cons, !app_length in LF. lia.
      * exists (Class false l :: ts). constructor; [assumption| |assumption].
        destruct b as [|b0 b]; [cbn; lia|]. cbn [hd]. intros ->. apply N94. rewrite <- app_comm_cons, utf8_cons in EX. cbn in EX. congruence.
  - destruct (NB ltac:(lia) ltac:(lia)) as [_ HX]. change (utf8 (63 :: X)) with (63 :: utf8 X) in *. cbn [length] in LF. destruct fuel as [|fuel]; [lia|].
    cbn [match_chunk] in E. destruct s as [|s0 st]; [discriminate|].
    change (63 =? 91) with false in E; change (63 =? 63) with true in E; cbv iota in E. destruct (s0 =? 47); [discriminate|].
    edestruct IH with (5 := HX) (4 := E) as [ts P]; try assumption; try lia. exists (Any :: ts). now constructor.
  - change (utf8 (92 :: X)) with (92 :: utf8 X) in *. cbn [length] in LF. destruct fuel as [|fuel]; [lia|].
    cbn [match_chunk] in E. destruct s as [|s0 st]; [discriminate|].
    change (92 =? 91) with false in E; change (92 =? 63) with false in E; change (92 =? 92) with true in E; cbv iota in E.
    destruct X as [|d X]; [discriminate|]. inversion T' as [|? ? RD TX]; subst. rewrite utf8_cons in *.
    destruct (enc1 d) as [|a q] eqn:ED; [destruct (enc1_ne _ ED)|]. cbn [app length] in *. destruct (a =? s0); [|discriminate].
    rewrite app_length in LF. rewrite match_plain in E; [|exact (enc1_tail_plain d a q RD ED)|lia].
    destruct (strip_prefix q st) as [s'|]; [|discriminate].
    assert (HX : scan X false = (X, [])). { change (92 =? 92) with true in SC. cbn [scan] in SC. change (92 =? 92) with true in SC. cbv iota in SC. destruct (scan X false). congruence. }
    edestruct IH with (5 := HX) (4 := E) as [ts P]; try assumption; try lia. exists (Lit d :: ts). now constructor.
  - destruct (NB N92 N91) as [N42 HX]. rewrite utf8_cons, app_length in *.
    rewrite match_plain in E; [|apply enc1_plain; [assumption|unfold plain; auto]|lia].
    destruct (strip_prefix (enc1 x) s) as [s'|]; [|discriminate].
    edestruct IH with (5 := HX) (4 := E) as [ts P]; try assumption; try lia. exists (Lit x :: ts). now constructor.
Qed.
Lemma scan_again n : forall p i, (length p <= n)%nat -> scan (fst (scan p i)) i = (fst (scan p i), []).
Proof.
  induction n as [|n IH]; intros p i L; (destruct p as [|c p]; [reflexivity|]); cbn [length] in L; [lia|]. cbn [scan].
  destruct (c =? 92) eqn:C1.
  - destruct p as [|d p]; [cbn; now rewrite C1|]. cbn [length] in L. specialize (IH p i ltac:(lia)). destruct (scan p i) as [a b]; cbn [fst] in *. cbn [scan]. now rewrite C1, IH.
  - destruct (c =? 91) eqn:C2; [specialize (IH p true ltac:(lia)); destruct (scan p true) as [a b]; cbn [fst] in *; cbn [scan]; now rewrite C1, C2, IH|].
    destruct (c =? 93) eqn:C3; [specialize (IH p false ltac:(lia)); destruct (scan p false) as [a b]; cbn [fst] in *; cbn [scan]; now rewrite C1, C2, C3, IH|].
    destruct ((c =? 42) && negb i) eqn:C4; [reflexivity|].
    specialize (IH p i ltac:(lia)); destruct (scan p i) as [a b]; cbn [fst] in *; cbn [scan]; now rewrite C1, C2, C3, C4, IH.
Qed.
Lemma strip_stars_form p : forall b, exists n, p = repeat 42 n ++ snd (strip_stars p b).
Proof.
  induction p as [|c p IH]; intros b; cbn [strip_stars]; [now exists 0%nat|]. destruct (Z.eqb_spec c 42) as [->|N]; [|now exists 0%nat].
  destruct (IH true) as [n E]. exists (S n). cbn [repeat app]. now rewrite <- E.
Qed.
Lemma strip_stars_head p : forall b, hd 0 (snd (strip_stars p b)) <> 42.
Proof. induction p as [|c p IH]; intros b; cbn [strip_stars]; [discriminate|]. destruct (Z.eqb_spec c 42); [apply IH|assumption]. Qed.
Lemma pattern_stars n : forall q ts, pattern q ts -> pattern (repeat 42 n ++ q) (repeat Star n ++ ts).
Proof. induction n; intros q ts P; [exact P|]. cbn. constructor. auto. Qed.
Lemma pattern_app a ta : pattern a ta -> forall b tb, pattern b tb -> pattern (a ++ b) (ta ++ tb).
Proof.
  induction 1; intros b0 tb P; cbn [app]; try (now constructor; auto); auto.
  - rewrite <- app_assoc. cbn [app]. constructor; auto.
  - rewrite <- app_assoc. cbn [app]. constructor; auto.
Qed.
Lemma skip_true mc K last : forall name, skip_loop mc K last name = Ok (Some true) -> exists s t, mc s = MOk t /\ K t = Ok (Some true).
Proof.
  induction name as [|c name IH]; cbn [skip_loop]; [discriminate|]. destruct (c =? 47); [discriminate|].
  destruct (mc name) as [t| | |] eqn:E; [|exact IH|discriminate|discriminate].
  destruct (last && negb (is_empty t)); [exact IH|]. eauto.
Qed.
Lemma match_true_wf fuel : forall ps name, text ps -> match_loop fuel (utf8 ps) name = Ok (Some true) -> exists ts, pattern ps ts.
Proof.
  induction fuel as [|f IH]; intros ps name T E; cbn [match_loop] in E.
  { destruct ps as [|x ps]; [exists []; constructor|]. destruct (utf8 (x :: ps)) eqn:EU; [destruct (utf8_ne _ _ EU)|discriminate]. }
  destruct (utf8 ps) as [|x y] eqn:EU. { destruct ps; [exists []; constructor|destruct (utf8_ne _ _ EU)]. }
  rewrite <- EU in E. unfold scan_chunk in E. rewrite strip_stars_utf8 in E by assumption.
  destruct (strip_stars_form ps false) as [n EP]. pose proof (strip_stars_head ps false) as SH. destruct (strip_stars ps false) as [star q]. cbn [fst snd] in *.
  assert (TQ : text q) by (rewrite EP in T; now apply text_app in T).
  rewrite (scan_utf8 (length q)) in E by (assumption || apply Nat.le_refl).
  pose proof (scan_again (length q) q false (Nat.le_refl _)) as SA. pose proof (scan_split (length q) q false (Nat.le_refl _)) as SP.
  pose proof (scan_nonempty q) as NE.
  destruct (scan q false) as [ch rs]. cbn [fst snd] in *. cbn [u2 fst snd] in E. subst q. apply text_app in TQ as [TC TR].
  assert (WF : forall tc tr, pattern ch tc -> pattern rs tr -> exists ts, pattern ps ts).
  { intros tc tr PC PR. rewrite EP. eexists. apply pattern_stars. apply (pattern_app ch tc PC rs tr PR). }
  destruct (star && is_empty (utf8 ch)) eqn:SE.
  - apply andb_true_iff in SE as [-> SE]. destruct ch as [|c0 ch]; [|destruct (utf8 (c0 :: ch)) eqn:Z; [destruct (utf8_ne _ _ Z)|discriminate]].
    cbn [app] in *. destruct rs as [|r0 rs]; [apply (WF [] []); constructor|].
    exfalso. destruct (Z.eq_dec r0 42) as [->|N]; [|exact (NE ltac:(discriminate) N eq_refl)].
    now apply SH.
  - assert (TRY : forall s t, match_chunk (length (utf8 ch)) (utf8 ch) s = MOk t -> match_loop f (utf8 rs) t = Ok (Some true) -> exists ts, pattern ps ts).
    { intros s t E1 E2. destruct (chunk_inv (length ch) ch s t _ (Nat.le_refl _) (Nat.le_refl _) TC E1 SA) as [tc PC].
      destruct (IH rs t TR E2) as [tr PR]. exact (WF tc tr PC PR). }
    assert (NO : (if star then skip_loop (match_chunk (length (utf8 ch)) (utf8 ch)) (match_loop f (utf8 rs)) (is_empty (utf8 rs)) name else Ok (Some false)) = Ok (Some true) ->
              exists ts, pattern ps ts).
    { destruct star; [|discriminate]. intros H. destruct (skip_true _ _ _ _ H) as (s & t & E1 & E2). exact (TRY s t E1 E2). }
    destruct (match_chunk (length (utf8 ch)) (utf8 ch) name) as [t| | |] eqn:EM; [|exact (NO E)|discriminate|discriminate].
    destruct (is_empty t || negb (is_empty (utf8 rs))); [exact (TRY _ _ EM E)|exact (NO E)].
Qed.

(** ** Examples and witnesses *)
Ltac rn := repeat (constructor; [unfold rune; lia|]); constructor.
Lemma match_wrong :
  (exists ps ts cs, pattern ps ts /\ text ps /\ text cs /\ Forall slash_free ts /\
     fs_match (utf8 cs) (utf8 ps) = Ok (Some true) /\ ~ matches ts cs) /\
  (exists ps ts cs, pattern ps ts /\ text ps /\ ascii cs /\ text cs /\
     fs_match (utf8 cs) (utf8 ps) = Ok (Some false) /\ matches ts cs).
Proof.
  split.
  - exists [42; 63; 63], [Star; Any; Any], [19990]. split; [repeat constructor|]. split; [rn|]. split; [rn|]. split; [repeat constructor|].
    split; [reflexivity|]. intros M. inversion M as [|? ? M1|? ? ? _ M1| | | |]; subst; inversion M1 as [|? ? M2|? ? ? _ M2|? ? ? _ M2| | |]; subst; inversion M2 as [| | |? ? ? _ M3| | |]; subst.
  - exists [42; 91; 94; 120; 93; 42; 98], [Star; Class true [(120, 120)]; Star; Lit 98], [97; 47; 98].
    split. { constructor. apply (pt_negated [120] [(120, 120)] [42; 98]); [repeat constructor; lia|]. constructor. constructor; try lia. constructor. }
    split; [rn|]. split; [repeat constructor|]. split; [rn|]. split; [reflexivity|].
    apply mt_star_more; [lia|]. apply mt_star_none. apply mt_negated; [|apply mt_star_none, mt_lit, mt_end].
    intros (lo & hi & [E|[]] & L). assert (lo = 120) by congruence. assert (hi = 120) by congruence. lia.
Qed.
Lemma bad_unreported : exists ps name, text ps /\ (forall ts, ~ pattern ps ts) /\ fs_match name (utf8 ps) = Ok (Some false).
Proof.
  exists [97; 91], [98]. split; [rn|]. split; [|reflexivity]. intros ts P. inversion P; subst.
  match goal with H : pattern [91] _ |- _ => inversion H; subst end; try congruence.
  all: match goal with H : ?b ++ 93 :: _ = [] |- _ => destruct b; discriminate end.
Qed.
Lemma match_example :
  pattern ex_pattern ex_terms /\ text ex_pattern /\ Forall slash_free ex_terms /\ stars_anchored ex_terms /\
  fs_match (utf8 ex_yes) (utf8 ex_pattern) = Ok (Some true) /\ matches ex_terms ex_yes /\
  fs_match (utf8 ex_no) (utf8 ex_pattern) = Ok (Some false) /\ ~ matches ex_terms ex_no.
Proof.
  assert (P : pattern ex_pattern ex_terms).
  { unfold ex_pattern, ex_terms. constructor; try lia. apply (pt_class [98; 45; 100] [(98, 100)] [42; 47; 63; 92; 42]); [|discriminate|].
    - constructor. apply (rg_two [98] 98 [100] 100); constructor; lia.
    - constructor. constructor; try lia. constructor. apply pt_escaped. constructor. }
  assert (T : text ex_pattern) by rn. assert (TY : text ex_yes) by rn. assert (TN : text ex_no) by rn.
  assert (SF : Forall slash_free ex_terms).
  { unfold ex_terms. repeat constructor. intros (lo & hi & [E|[]] & L). assert (lo = 98) by congruence. lia. }
  assert (SA : stars_anchored ex_terms) by (cbn; auto).
  assert (EY : fs_match (utf8 ex_yes) (utf8 ex_pattern) = Ok (Some true)) by reflexivity.
  assert (EN : fs_match (utf8 ex_no) (utf8 ex_pattern) = Ok (Some false)) by reflexivity.
  destruct (match_main _ _ _ ex_yes P T TY (Nat.le_refl _) SF (or_intror SA)) as (b & B1 & B2).
  destruct (match_main _ _ _ ex_no P T TN (Nat.le_refl _) SF (or_intror SA)) as (b' & B1' & B2').
  unfold fs_match in EY, EN. rewrite EY in B1. rewrite EN in B1'. assert (b = true) by congruence. assert (b' = false) by congruence. subst.
  repeat split; auto.
  - now apply B2.
  - intros M. apply B2' in M. discriminate.
Qed.
