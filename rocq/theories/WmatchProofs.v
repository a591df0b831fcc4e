(** Proofs about filepath.Match on Windows, after the pattern of those for Unix. *)
From Coq Require Import ZArith List Bool Arith Lia ZifyBool ZifyNat.
From Verif Require Import GoBase GoStrings MatchSpec MatchModel MatchProofs MatchScan MatchMain WmatchSpec WmatchModel.
Import ListNotations.
Open Scope Z_scope.

(** ** Characters of a class *)
Lemma wget_esc_char b c s : wclass_char b c -> text b -> s <> [] -> wget_esc (utf8 b ++ utf8 s) = Some (c, utf8 s).
Proof.
  intros C T N. destruct C as [c A2 A3].
  inversion T as [|? ? R _]; subst. unfold utf8 at 1; cbn [map concat]; rewrite app_nil_r.
  destruct (enc1 c) as [|a t] eqn:E; [destruct (enc1_ne c E)|]. unfold wget_esc; cbn [app].
  assert (H : (a =? 45) || (a =? 93) = false) by (destruct (enc1_head c a t R E) as [(-> & _)|(_ & ? & _)]; lia).
  rewrite H. change (a :: t ++ utf8 s) with ((a :: t) ++ utf8 s). rewrite <- E, decode_enc by assumption.
  replace ((c =? 65533) && (length (enc1 c) =? 1)%nat) with false.
  - replace (skipn (length (enc1 c)) (enc1 c ++ utf8 s)) with (utf8 s).
    + destruct s as [|x s]; [congruence|]. destruct (utf8 (x :: s)) eqn:U; [destruct (utf8_ne _ _ U)|reflexivity].
    + clear; induction (enc1 c); cbn; auto.
  - unfold enc1; destruct (c <? 128) eqn:?, (c <? 2048), (c <? 65536); cbn [length]; lia.
Qed.
Lemma wclass_char_ne b c : wclass_char b c -> b <> [].
Proof. destruct 1; discriminate. Qed.
Lemma wrange_ne b r : wrange b r -> b <> [].
Proof. destruct 1 as [? ? H|? ? ? ? H]; [eapply wclass_char_ne; eauto|]. destruct s; [destruct (wclass_char_ne _ _ H eq_refl)|discriminate]. Qed.
(** The first byte of a class character is neither a hyphen nor a closing bracket. *)
Lemma wclass_char_head b c s : wclass_char b c -> text b -> exists a t, utf8 b ++ s = a :: t /\ a <> 45 /\ a <> 93.
Proof.
  intros C T; destruct C as [c A2 A3]; inversion T as [|? ? R ?]; subst; rewrite utf8_cons.
  destruct (enc1 c) as [|a t] eqn:E; [destruct (enc1_ne c E)|]. exists a; eexists; split; [reflexivity|].
  destruct (enc1_head c a t R E) as [(-> & _)|(_ & ? & _)]; lia.
Qed.
Lemma wrange_head b r s : wrange b r -> text b -> exists a t, utf8 b ++ s = a :: t /\ a <> 45 /\ a <> 93.
Proof.
  destruct 1 as [b c H|b lo b' hi H H']; intros T.
  - exact (wclass_char_head b c s H T).
  - rewrite utf8_app, <- app_assoc. apply (wclass_char_head b lo); auto. now apply Forall_app in T.
Qed.
Lemma wranges_head b l s : wranges b l -> text b -> exists a t, utf8 b ++ s = a :: t /\ a <> 45 /\ a <> 93.
Proof.
  destruct 1 as [b r H|b r b' l H H']; intros T.
  - exact (wrange_head b r s H T).
  - rewrite utf8_app, <- app_assoc. apply (wrange_head b r); auto. now apply Forall_app in T.
Qed.

(** One range. *)
Lemma wclass_step b rg : wrange b rg -> text b -> forall f r s a t m seen, utf8 s = a :: t -> a <> 45 ->
  wclass_loop (S f) r (utf8 b ++ utf8 s) m seen = wclass_loop f r (utf8 s) (m || ((fst rg <=? r) && (r <=? snd rg))) true.
Proof.
  intros RG T f r s a t m seen U NA.
  assert (SN : s <> []) by (intros ->; discriminate).
  destruct (wrange_head b rg (utf8 s) RG T) as (x & y & E & X1 & X2).
  cbn [wclass_loop]. rewrite E. replace ((x =? 93) && seen) with false by lia. rewrite <- E; clear x y E X1 X2.
  destruct RG as [b c C|b lo b' hi C C'].
  - rewrite (wget_esc_char b c s C T SN), U; cbn [fst snd].
    destruct a as [|p|p]; try reflexivity. repeat (destruct p; try reflexivity); congruence.
  - apply Forall_app in T as [T1 T2]. inversion T2 as [|? ? _ T3]; subst.
    rewrite utf8_app, <- app_assoc. change (utf8 (45 :: b')) with (45 :: utf8 b'). cbn [app].
    replace (45 :: utf8 b' ++ utf8 s) with (utf8 (45 :: b' ++ s)) by (rewrite utf8_cons, utf8_app; reflexivity).
    rewrite (wget_esc_char b lo (45 :: b' ++ s) C T1 ltac:(discriminate)).
    replace (utf8 (45 :: b' ++ s)) with (45 :: utf8 b' ++ utf8 s) by (rewrite utf8_cons, utf8_app; reflexivity).
    cbv iota. rewrite (wget_esc_char b' hi s C' T3 SN). reflexivity.
Qed.
Lemma wclass_end f r s m : wclass_loop (S f) r (utf8 (93 :: s)) m true = CDone m (utf8 s).
Proof. reflexivity. Qed.
Lemma wclass_loop_ranges b l : wranges b l -> text b -> forall fuel r s m seen, (length b < fuel)%nat ->
  wclass_loop fuel r (utf8 (b ++ 93 :: s)) m seen = CDone (m || in_rb l r) (utf8 s).
Proof.
  induction 1 as [b rg RG|b rg b' l RG RS IH]; intros T fuel r s m seen L; (destruct fuel as [|fuel]; [lia|]).
  - rewrite utf8_app, (wclass_step b rg RG T fuel r (93 :: s) 93 (utf8 s)) by (reflexivity || lia).
    pose proof (wrange_ne _ _ RG). destruct fuel; [destruct b; cbn in *; [congruence|lia]|].
    rewrite wclass_end. unfold in_rb; cbn [existsb]. now rewrite orb_false_r.
  - apply Forall_app in T as [T1 T2]. rewrite <- app_assoc, utf8_app.
    destruct (wranges_head b' l (utf8 (93 :: s)) RS T2) as (x & y & E & X1 & X2).
    rewrite <- utf8_app in E.
    rewrite (wclass_step b rg RG T1 fuel r (b' ++ 93 :: s) x y) by assumption.
    rewrite IH; [|assumption|]. { unfold in_rb; cbn [existsb]. now rewrite orb_assoc. }
    rewrite app_length in L. pose proof (wrange_ne _ _ RG); destruct b; [congruence|cbn in *; lia].
Qed.

(** ** A chunk: terms without stars *)
Definition wtmatch (t : term) (c : Z) : bool :=
  match t with
  | Star => false
  | Any => negb (c =? 92)
  | Lit d => d =? c
  | Class neg l => negb (Bool.eqb (in_rb l c) neg)
  end.
Fixpoint wchunk_match (ts : list term) (cs : list Z) : option (list Z) :=
  match ts with
  | [] => Some cs
  | t :: ts => match cs with [] => None | c :: cs => if wtmatch t c then wchunk_match ts cs else None end
  end.
(** Literal bytes. *)
Definition wplain (b : Z) : Prop := b <> 42 /\ b <> 63 /\ b <> 91.
Lemma wmatch_plain bs : Forall wplain bs -> forall fuel X s, (length bs <= fuel)%nat ->
  wmatch_chunk fuel (bs ++ X) s =
  match strip_prefix bs s with Some r => wmatch_chunk (fuel - length bs) X r | None => MNo end.
Proof.
  induction 1 as [|b bs P F IH]; intros fuel X s L; cbn [app length strip_prefix].
  - now rewrite Nat.sub_0_r.
  - cbn in L. destruct fuel as [|fuel]; [lia|]. cbn [wmatch_chunk].
    destruct s as [|s0 st]; [reflexivity|].
    replace (b =? 91) with false by (unfold wplain in P; lia). replace (b =? 63) with false by (unfold wplain in P; lia).
    destruct (b =? s0); [|reflexivity]. rewrite IH by lia. now rewrite Nat.sub_succ.
Qed.
Lemma wenc1_tail_plain c a t : rune c -> enc1 c = a :: t -> Forall wplain t.
Proof.
  intros R E. destruct (enc1_head c a t R E) as [(_ & -> & _)|(_ & _ & _ & F)]; [constructor|].
  eapply Forall_impl; [|exact F]. unfold cont, wplain; intros; lia.
Qed.
Lemma wenc1_plain c : rune c -> wplain c -> Forall wplain (enc1 c).
Proof.
  intros R P. destruct (enc1 c) as [|a t] eqn:E; [constructor|]. constructor; [|eapply wenc1_tail_plain; eauto].
  destruct (enc1_head c a t R E) as [(-> & _)|(_ & ? & _)]; [assumption|unfold wplain; lia].
Qed.

Definition wchunk_ok (r : chunk_res) (o : option (list Z)) : Prop :=
  match o with Some cs => r = MOk (utf8 cs) | None => r = MNo end.

Lemma wmatch_chunk_spec ps ts : wpattern ps ts -> star_free ts -> text ps -> forall fuel cs, text cs ->
  (length (utf8 ps) <= fuel)%nat ->
  wchunk_ok (wmatch_chunk fuel (utf8 ps) (utf8 cs)) (wchunk_match ts cs).
Proof.
  induction 1 as [|s ts P IH|s ts P IH|c s ts N1 N2 N4 P IH|b l s ts RS HD P IH|b l s ts RS P IH];
    intros SF T fuel cs TC L.
  - destruct fuel; reflexivity.
  - inversion SF; congruence.
  - inversion SF as [|? ? _ SF']; subst. inversion T as [|? ? _ T']; subst.
    change (utf8 (63 :: s)) with (63 :: utf8 s) in *. cbn [length] in L. destruct fuel as [|fuel]; [lia|].
    destruct cs as [|c cs]; [reflexivity|]. inversion TC as [|? ? R TC']; subst.
    cbn [wmatch_chunk wchunk_match wtmatch]. destruct (utf8 (c :: cs)) as [|x y] eqn:E; [destruct (utf8_ne _ _ E)|].
    change (63 =? 91) with false; change (63 =? 63) with true; cbv iota.
    assert (XE : (x =? 92) = (c =? 92)).
    { rewrite utf8_cons in E. destruct (enc1 c) as [|a t] eqn:EE; [destruct (enc1_ne c EE)|]. injection E as -> _.
      destruct (enc1_head c x t R EE) as [(-> & _)|(? & ? & _)]; lia. }
    rewrite XE. destruct (c =? 92); [reflexivity|]. cbn [negb]. rewrite <- E, utf8_cons, decode_enc by assumption.
    cbn [snd]. replace (skipn (length (enc1 c)) (enc1 c ++ utf8 cs)) with (utf8 cs) by (clear; induction (enc1 c); cbn; auto).
    apply IH; auto; lia.
  - inversion SF as [|? ? _ SF']; subst. inversion T as [|? ? R T']; subst.
    rewrite utf8_cons, app_length in *. rewrite wmatch_plain; [|apply wenc1_plain; [assumption|unfold wplain; auto]|lia].
    cbn [wchunk_match wtmatch]. destruct cs as [|d cs].
    + destruct (enc1 c) eqn:E; [destruct (enc1_ne c E)|reflexivity].
    + inversion TC as [|? ? R' TC']; subst. rewrite utf8_cons, strip_enc by assumption.
      destruct (c =? d); [|reflexivity]. apply IH; auto; lia.
  - inversion SF as [|? ? _ SF']; subst. inversion T as [|? ? _ T']; subst. apply Forall_app in T' as [TB T''].
    inversion T'' as [|? ? _ TS]; subst.
    change (utf8 (91 :: b ++ 93 :: s)) with (91 :: utf8 (b ++ 93 :: s)) in *. cbn [length] in L. destruct fuel as [|fuel]; [lia|].
    destruct cs as [|c cs]; [reflexivity|]. inversion TC as [|? ? R TC']; subst.
    cbn [wmatch_chunk wchunk_match wtmatch]. destruct (utf8 (c :: cs)) as [|x y] eqn:E; [destruct (utf8_ne _ _ E)|].
    change (91 =? 91) with true; cbv iota. rewrite <- E, utf8_cons, decode_enc by assumption.
    replace (skipn (length (enc1 c)) (enc1 c ++ utf8 cs)) with (utf8 cs) by (clear; induction (enc1 c); cbn; auto).
    destruct (wranges_head b l (utf8 (93 :: s)) RS TB) as (x' & y' & E' & X1 & X2). rewrite <- utf8_app in E'.
    rewrite E'. replace (x' =? 94) with false.
    + rewrite <- E', (wclass_loop_ranges b l RS TB).
      * cbn [orb]. destruct (in_rb l c); cbn [negb Bool.eqb]; [|reflexivity]. apply IH; auto.
        rewrite utf8_app, utf8_cons, !app_length in L. lia.
      * rewrite utf8_app, app_length, utf8_cons, app_length in L. pose proof (length_utf8 b). change (length (enc1 93)) with 1%nat in L. lia.
    + destruct b as [|b0 b]; [destruct (wranges_head [] l [] RS TB) as (? & ? & ? & _); discriminate|]. cbn in HD.
      inversion TB as [|? ? RB _]; subst.
      rewrite <- app_comm_cons, utf8_cons in E'. destruct (enc1 b0) as [|p q] eqn:EB; [destruct (enc1_ne _ EB)|].
      injection E' as -> _. destruct (enc1_head b0 x' q RB EB) as [(-> & _)|(_ & ? & _)]; lia.
  - inversion SF as [|? ? _ SF']; subst. inversion T as [|? ? _ T0]; subst. inversion T0 as [|? ? _ T']; subst.
    apply Forall_app in T' as [TB T''].
    inversion T'' as [|? ? _ TS]; subst.
    change (utf8 (91 :: 94 :: b ++ 93 :: s)) with (91 :: 94 :: utf8 (b ++ 93 :: s)) in *. cbn [length] in L. destruct fuel as [|fuel]; [lia|].
    destruct cs as [|c cs]; [reflexivity|]. inversion TC as [|? ? R TC']; subst.
    cbn [wmatch_chunk wchunk_match wtmatch]. destruct (utf8 (c :: cs)) as [|x y] eqn:E; [destruct (utf8_ne _ _ E)|].
    change (91 =? 91) with true; change (94 =? 94) with true; cbv iota. rewrite <- E, utf8_cons, decode_enc by assumption.
    replace (skipn (length (enc1 c)) (enc1 c ++ utf8 cs)) with (utf8 cs) by (clear; induction (enc1 c); cbn; auto).
    rewrite (wclass_loop_ranges b l RS TB).
    * cbn [orb]. destruct (in_rb l c); cbn [negb Bool.eqb]; [reflexivity|]. apply IH; auto.
      rewrite utf8_app, utf8_cons, !app_length in L. lia.
    * rewrite utf8_app, app_length, utf8_cons, app_length in L. pose proof (length_utf8 b). change (length (enc1 93)) with 1%nat in L. lia.
Qed.
Lemma wscan_high h : Forall high h -> forall s i, wscan (h ++ s) i = let '(a, b) := wscan s i in (h ++ a, b).
Proof.
  induction 1 as [|c h H F IH]; intros s i; [cbn; now destruct (wscan s i)|]. cbn [app wscan].
  unfold high in H.  replace (c =? 91) with false by lia;
  replace (c =? 93) with false by lia; replace (c =? 42) with false by lia. cbn [andb]. rewrite IH. now destruct (wscan s i).
Qed.
Lemma wscan_utf8 n : forall ps i, (length ps <= n)%nat -> text ps -> wscan (utf8 ps) i = u2 (wscan ps i).
Proof.
  induction n as [|n IH]; intros ps i L T; (destruct ps as [|c ps]; [reflexivity|]); [cbn in L; lia|].
  cbn [length] in L. inversion T as [|? ? R T']; subst. rewrite utf8_cons.
  destruct (enc1 c) as [|a t] eqn:E; [destruct (enc1_ne c E)|].
  destruct (enc1_high c a t R E) as [(-> & LT & ->)|(GE & HA & HT)].
  - cbn [app wscan].
    assert (S1 : forall j, (let '(a, b) := wscan (utf8 ps) j in (c :: a, b)) = u2 (let '(a, b) := wscan ps j in (c :: a, b))).
      { intros j. rewrite IH by (assumption || lia). destruct (wscan ps j) as [p q]. unfold u2; cbn [fst snd].
        rewrite utf8_cons, enc1_ascii by assumption. reflexivity. }
      destruct (c =? 91); [apply S1|]. destruct (c =? 93); [apply S1|]. destruct ((c =? 42) && negb i); [|apply S1].
      unfold u2; cbn [fst snd]. now rewrite utf8_cons, E.
  - change (a :: t) with ([a] ++ t). rewrite <- app_assoc. change ([a] ++ t ++ utf8 ps) with ((a :: t) ++ utf8 ps).
    rewrite wscan_high by (constructor; assumption). rewrite IH by (assumption || lia). cbn [wscan].  replace (c =? 91) with false by lia;
    replace (c =? 93) with false by lia; replace (c =? 42) with false by lia. cbn [andb].
    destruct (wscan ps i) as [p q]. unfold u2; cbn [fst snd]. now rewrite utf8_cons, E.
Qed.
(** A pattern and its chunks. *)
Lemma wscan_class_char b c : wclass_char b c -> forall s, wscan (b ++ s) true = let '(x, y) := wscan s true in (b ++ x, y).
Proof.
  intros [d A2 A3] s; cbn [app wscan]. replace (d =? 93) with false by lia. rewrite andb_false_r. destruct (d =? 91); now destruct (wscan s true).
Qed.
Lemma wscan_range b r : wrange b r -> forall s, wscan (b ++ s) true = let '(x, y) := wscan s true in (b ++ x, y).
Proof.
  intros [b' c C|b' lo b'' hi C C'] s.
  - now apply (wscan_class_char _ c).
  - rewrite <- app_assoc, <- app_comm_cons, (wscan_class_char _ lo C). cbn [wscan].
    change (45 =? 91) with false; change (45 =? 93) with false; change (45 =? 42) with false.
    cbn [andb]. rewrite (wscan_class_char _ hi C'). destruct (wscan s true). now rewrite <- app_assoc.
Qed.
Lemma wscan_ranges b l : wranges b l -> forall s, wscan (b ++ 93 :: s) true = let '(x, y) := wscan s false in (b ++ 93 :: x, y).
Proof.
  induction 1 as [b r R|b r b' l R RS IH]; intros s.
  - rewrite (wscan_range _ r R). cbn [wscan]. change (93 =? 91) with false; change (93 =? 93) with true.
    now destruct (wscan s false).
  - rewrite <- app_assoc, (wscan_range _ r R), IH. destruct (wscan s false). now rewrite <- app_assoc.
Qed.
Lemma wscan_pattern ps ts : wpattern ps ts -> text ps -> exists c r ct rt, wscan ps false = (c, r) /\ ts = ct ++ rt /\
  wpattern c ct /\ star_free ct /\ wpattern r rt /\ starts_star rt /\ text c /\ text r /\ ps = c ++ r.
Proof.
  induction 1 as [|s ts P IH|s ts P IH|c s ts N1 N2 N4 P IH|b l s ts RS HD P IH|b l s ts RS P IH]; intros T.
  - exists [], [], [], []. repeat split; constructor.
  - exists [], (42 :: s), [], (Star :: ts). cbn [wscan]. change (42 =? 91) with false;
    change (42 =? 93) with false; change (42 =? 42) with true; cbn [andb negb].
    repeat split; try constructor; auto. now inversion T. now inversion T.
  - inversion T as [|? ? R T']; subst. destruct (IH T') as (c & r & ct & rt & E & -> & PC & SF & PR & SS & TC & TR & ->).
    exists (63 :: c), r, (Any :: ct), rt. cbn [wscan]. rewrite E. repeat split; auto; constructor; auto; discriminate.
  - inversion T as [|? ? R T']; subst. destruct (IH T') as (c' & r & ct & rt & E & -> & PC & SF & PR & SS & TC & TR & ->).
    exists (c :: c'), r, (Lit c :: ct), rt. cbn [wscan].  replace (c =? 91) with false by lia;
    replace (c =? 42) with false by lia. cbn [andb]. rewrite E.
    repeat split; auto; try (constructor; auto; discriminate). now destruct (c =? 93).
  - inversion T as [|? ? R T0]; subst. apply Forall_app in T0 as [TB T1]. inversion T1 as [|? ? R' T']; subst.
    destruct (IH T') as (c' & r & ct & rt & E & -> & PC & SF & PR & SS & TC & TR & ->).
    exists (91 :: b ++ 93 :: c'), r, (Class false l :: ct), rt. cbn [wscan]. change (91 =? 91) with true; cbv iota.
    rewrite (wscan_ranges b l RS), E. repeat split; auto; try (constructor; auto; discriminate).
    + constructor; [assumption|]. apply Forall_app; split; [assumption|constructor; assumption].
    + cbn [app]. now rewrite <- app_assoc.
  - inversion T as [|? ? R T0]; subst. inversion T0 as [|? ? R0 T00]; subst. apply Forall_app in T00 as [TB T1]. inversion T1 as [|? ? R' T']; subst.
    destruct (IH T') as (c' & r & ct & rt & E & -> & PC & SF & PR & SS & TC & TR & ->).
    exists (91 :: 94 :: b ++ 93 :: c'), r, (Class true l :: ct), rt. cbn [wscan]. change (91 =? 91) with true;
    change (94 =? 91) with false; change (94 =? 93) with false; change (94 =? 42) with false; cbn [andb]; cbv iota.
    rewrite (wscan_ranges b l RS), E. repeat split; auto; try (constructor; auto; discriminate).
    + constructor; [assumption|]. constructor; [assumption|]. apply Forall_app; split; [assumption|constructor; assumption].
    + cbn [app]. now rewrite <- app_assoc.
Qed.
(** Leading stars. *)
Lemma wstrip_stars_pattern ps ts : wpattern ps ts -> text ps -> forall b, exists n r rt, strip_stars ps b = (b || negb (Nat.eqb n 0), r) /\
  ts = repeat Star n ++ rt /\ wpattern r rt /\ text r /\ ps = repeat 42 n ++ r /\ (forall u, rt <> Star :: u).
Proof.
  induction 1 as [|s ts P IH|s ts P IH|c s ts N1 N2 N4 P IH|b' l s ts RS HD P IH|b' l s ts RS P IH]; intros T b.
  2: { inversion T as [|? ? R T']; subst. destruct (IH T' true) as (n & r & rt & E & -> & PR & TR & -> & NS).
       exists (S n), r, rt. cbn [strip_stars]. change (42 =? 42) with true; cbv iota. rewrite E.
       repeat split; auto. cbn. now rewrite orb_true_r. }
  all: match goal with |- exists n r rt, strip_stars ?p _ = _ /\ ?t = _ /\ _ => exists 0%nat, p, t end;
       cbn [Nat.eqb negb repeat app]; rewrite orb_false_r; split;
       [cbn [strip_stars]; try reflexivity|split; [reflexivity|split; [econstructor; eassumption|split; [assumption|split; [reflexivity|discriminate]]]]].
  now replace (c =? 42) with false by lia.
Qed.
(** ** Matching by characters *)
Lemma forall2_len {A B} (R : A -> B -> Prop) l l' : Forall2 R l l' -> length l = length l'.
Proof. induction 1; cbn; auto. Qed.
Definition wnoslash (u : list Z) : Prop := Forall (fun c => c <> 92) u.
Lemma wstar_spec X cs : wmatches (Star :: X) cs <-> exists u v, cs = u ++ v /\ wnoslash u /\ wmatches X v.
Proof.
  split.
  - intros M. remember (Star :: X) as ts eqn:E. induction M; inversion E; subst.
    + exists [], cs. repeat split; [constructor|assumption].
    + destruct (IHM eq_refl) as (u & v & -> & N & MX). exists (c :: u), v. repeat split; [constructor; assumption|assumption].
  - intros (u & v & -> & N & M). induction N; cbn; [now constructor|]. apply wmt_star_more; assumption.
Qed.
Lemma wstars_spec n X cs : wmatches (repeat Star (S n) ++ X) cs <-> wmatches (Star :: X) cs.
Proof.
  revert cs; induction n as [|n IHn]; intros cs; [reflexivity|]. change (repeat Star (S (S n)) ++ X) with (Star :: repeat Star (S n) ++ X).
  rewrite !wstar_spec. split; intros (u & v & -> & N & M).
  - apply IHn, wstar_spec in M as (u' & v' & -> & N' & M). exists (u ++ u'), v'. split; [now rewrite app_assoc|].
    split; [now apply Forall_app|assumption].
  - exists u, v. repeat split; auto. apply IHn. now apply wmt_star_none.
Qed.
Lemma wtmatch_spec t ts c cs : t <> Star -> wmatches (t :: ts) (c :: cs) <-> wtmatch t c = true /\ wmatches ts cs.
Proof.
  intros N; destruct t as [| |d|[|] l]; [congruence|..]; cbn [wtmatch]; split.
  - intros M; inversion M; subst; split; [lia|assumption].
  - intros [E M]; constructor; [lia|assumption].
  - intros M; inversion M; subst; split; [lia|assumption].
  - intros [E M]. assert (d = c) by lia; subst. now constructor.
  - intros M; inversion M as [| | | | | |? ? ? ? NI]; subst; split; [|assumption]. rewrite <- in_rb_spec in NI. now destruct (in_rb l c).
  - intros [E M]; constructor; [|assumption]. rewrite <- in_rb_spec. now destruct (in_rb l c).
  - intros M; inversion M as [| | | | |? ? ? ? NI|]; subst; split; [|assumption]. rewrite <- in_rb_spec in NI. now destruct (in_rb l c).
  - intros [E M]; constructor; [|assumption]. rewrite <- in_rb_spec. now destruct (in_rb l c).
Qed.
Lemma wchunk_spec ck : star_free ck -> forall rt cs, wmatches (ck ++ rt) cs <-> exists t, wchunk_match ck cs = Some t /\ wmatches rt t.
Proof.
  induction 1 as [|t ck N SF IH]; intros rt cs; cbn [app wchunk_match].
  - split; [intros M; exists cs; auto|intros (t & E & M); now injection E as ->].
  - destruct cs as [|c cs].
    + split; [|intros (? & ? & _); discriminate]. intros M; inversion M; subst; congruence.
    + rewrite (wtmatch_spec t _ c cs N), IH. destruct (wtmatch t c).
      * split; [now intros [_ ?]|intros; auto].
      * split; [intros [? _]; discriminate|intros (? & ? & _); discriminate].
Qed.
Lemma wchunk_split ck : forall cs t, wchunk_match ck cs = Some t -> exists w, cs = w ++ t /\ Forall2 (fun x c => wtmatch x c = true) ck w.
Proof.
  induction ck as [|x ck IH]; intros cs t E; cbn in E.
  - injection E as ->. exists []. split; [reflexivity|constructor].
  - destruct cs as [|c cs]; [discriminate|]. destruct (wtmatch x c) eqn:M; [|discriminate].
    apply IH in E as (w & -> & F). exists (c :: w). split; [reflexivity|constructor; assumption].
Qed.

(** Without separators in the text, a later match of the chunk leaves none behind. *)
Lemma wgreedy ck rt cs t u v t' : wnoslash cs -> wchunk_match ck cs = Some t -> cs = u ++ v ->
  wchunk_match ck v = Some t' -> wmatches (Star :: rt) t' -> wmatches (Star :: rt) t.
Proof.
  intros N C -> C' M. apply wchunk_split in C as (w & E & W). apply wchunk_split in C' as (w' & -> & W').
  assert (LW : length w = length w') by (rewrite <- (forall2_len _ _ _ W), <- (forall2_len _ _ _ W'); reflexivity).
  rewrite app_assoc in E.
  assert (exists z, u ++ w' = w ++ z /\ t = z ++ t') as (z & EZ & ->).
  { exists (skipn (length w) (u ++ w')). assert (L : (length w <= length (u ++ w'))%nat) by (rewrite app_length; lia).
    pose proof (f_equal (firstn (length w)) E) as E1. rewrite (firstn_app (length w) (u ++ w') t') in E1.
    replace (length w - length (u ++ w'))%nat with 0%nat in E1 by lia. rewrite firstn_O, app_nil_r in E1.
    rewrite (firstn_app (length w) w t), firstn_all, Nat.sub_diag, firstn_O, app_nil_r in E1.
    pose proof (firstn_skipn (length w) (u ++ w')) as FS. rewrite E1 in FS.
    split; [now rewrite FS|]. rewrite <- FS, <- app_assoc in E. now apply app_inv_head in E. }
  apply wstar_spec in M as (u2 & v2 & -> & N2 & M). apply wstar_spec. exists (z ++ u2), v2. split; [now rewrite app_assoc|].
  split; [|assumption]. rewrite app_assoc, EZ in N. apply Forall_app in N as [N _]. apply Forall_app in N as [_ N]. now apply Forall_app.
Qed.

(** ** Skipping *)
Lemma wmatch_chunk_cont c ts ps : wpattern ps (Lit c :: ts) -> text ps -> forall b s fuel, cont b -> (0 < fuel)%nat ->
  wmatch_chunk fuel (utf8 ps) (b :: s) = MNo.
Proof.
  intros P T b s fuel B L. destruct fuel as [|fuel]; [lia|]. inversion P; subst.
  - inversion T as [|? ? R _]; subst. rewrite utf8_cons. destruct (enc1 c) as [|a t] eqn:E; [destruct (enc1_ne c E)|].
    cbn [app wmatch_chunk].
    assert (A : a <> 91 /\ a <> 63 /\ a <> b) by (unfold cont in B; destruct (enc1_head c a t R E) as [(-> & _ & ?)|(_ & ? & _)]; lia).
    replace (a =? 91) with false by lia; replace (a =? 63) with false by lia; 
    replace (a =? b) with false by lia. reflexivity.
Qed.
Fixpoint wcskip (ck : list term) (K : list Z -> outcome (option bool)) (last : bool) (cs : list Z) : outcome (option bool) :=
  match cs with
  | [] => Ok (Some false)
  | c :: cs =>
      if c =? 92 then Ok (Some false)
      else match wchunk_match ck cs with
           | None => wcskip ck K last cs
           | Some t => if last && negb (is_empty (utf8 t)) then wcskip ck K last cs else K (utf8 t)
           end
  end.
Lemma wskip_cont mc K last bs s : Forall cont bs -> (forall b r, cont b -> mc (b :: r) = MNo) -> bs <> [] ->
  wskip_loop mc K last (bs ++ s) = match mc s with
           | MDiverge => Diverge
           | MBad => Ok None
           | MNo => wskip_loop mc K last s
           | MOk t => if last && negb (is_empty t) then wskip_loop mc K last s else K t
           end.
Proof.
  intros F H N. induction F as [|b bs B F IH]; [congruence|]. cbn [app wskip_loop].
  replace (b =? 92) with false by (unfold cont in B; lia). destruct bs as [|b' bs]; [reflexivity|].
  inversion F; subst. cbn [app]. rewrite H by assumption. apply IH. discriminate.
Qed.
Lemma wskip_utf8 ps ck K last : wpattern ps ck -> star_free ck -> text ps -> ps <> [] -> forall cs, text cs -> ascii cs \/ lit_first ck ->
  wskip_loop (wmatch_chunk (length (utf8 ps)) (utf8 ps)) K last (utf8 cs) = wcskip ck K last cs.
Proof.
  intros P SF T NE. induction cs as [|c cs IH]; intros TC A; [reflexivity|]. inversion TC as [|? ? R TC']; subst.
  assert (A' : ascii cs \/ lit_first ck) by (destruct A as [A|A]; [left; now inversion A|now right]). specialize (IH TC' A').
  pose proof (wmatch_chunk_spec ps ck P SF T (length (utf8 ps)) cs TC' (Nat.le_refl _)) as MS.
  rewrite utf8_cons. destruct (enc1 c) as [|a t] eqn:E; [destruct (enc1_ne c E)|].
  cbn [wcskip]. destruct (enc1_head c a t R E) as [(-> & -> & LT)|(GE & HA & TN & F)].
  - cbn [app wskip_loop]. destruct (c =? 92); [reflexivity|].
    destruct (wchunk_match ck cs) as [r|]; cbn in MS; rewrite MS; [|exact IH]. destruct (last && negb (is_empty (utf8 r))); [exact IH|reflexivity].
  - destruct A as [A|A]; [inversion A; lia|].
    assert (MC : forall b r, cont b -> wmatch_chunk (length (utf8 ps)) (utf8 ps) (b :: r) = MNo).
    { intros b r B. destruct ck as [|[| |d|] ck]; cbn in A; try contradiction. apply (wmatch_chunk_cont d ck); auto.
      destruct ps as [|p ps]; [congruence|]. pose proof (length_utf8 (p :: ps)); cbn in *; lia. }
    cbn [app wskip_loop]. replace (a =? 92) with false by lia. replace (c =? 92) with false by lia.
    destruct t as [|b t]; [congruence|]. cbn [app]. inversion F as [|? ? B F']; subst. rewrite MC by assumption.
    change (b :: t ++ utf8 cs) with ((b :: t) ++ utf8 cs). rewrite wskip_cont by (assumption || discriminate).
    destruct (wchunk_match ck cs) as [r|]; cbn in MS; rewrite MS; [|exact IH]. destruct (last && negb (is_empty (utf8 r))); [exact IH|reflexivity].
Qed.

(** ** The loop *)
Definition wreach (ck rt : list term) (cs : list Z) : Prop := exists u v t, cs = u ++ v /\ wnoslash u /\ wchunk_match ck v = Some t /\ wmatches rt t.
Lemma wreach_spec ck rt cs : star_free ck -> wmatches (Star :: ck ++ rt) cs <-> wreach ck rt cs.
Proof.
  intros SF. rewrite wstar_spec. split.
  - intros (u & v & -> & N & M). apply wchunk_spec in M as (t & C & M); [|assumption]. exists u, v, t; auto.
  - intros (u & v & t & -> & N & C & M). exists u, v. repeat split; auto. apply wchunk_spec; [assumption|]. exists t; auto.
Qed.
Lemma wreach_step ck rt cs : wreach ck rt cs <->
  (exists t, wchunk_match ck cs = Some t /\ wmatches rt t) \/ (exists c cs', cs = c :: cs' /\ c <> 92 /\ wreach ck rt cs').
Proof.
  split.
  - intros (u & v & t & -> & N & C & M). destruct u as [|c u]; [left; exists t; auto|].
    right. inversion N; subst. exists c, (u ++ v). repeat split; auto. exists u, v, t; auto.
  - intros [(t & C & M)|(c & cs' & -> & N & (u & v & t & -> & NU & C & M))].
    + exists [], cs, t. repeat split; auto. constructor.
    + exists (c :: u), v, t. repeat split; auto. constructor; assumption.
Qed.
Lemma wchunk_suffix ck cs t : wchunk_match ck cs = Some t -> exists w, cs = w ++ t.
Proof. intros C; apply wchunk_split in C as (w & -> & _); eauto. Qed.
Lemma wexistsb_slash cs : text cs -> existsb (fun c => c =? 92) (utf8 cs) = existsb (fun c => c =? 92) cs.
Proof.
  induction 1 as [|c cs R F IH]; [reflexivity|]. rewrite utf8_cons, existsb_app, IH. cbn [existsb]. f_equal.
  destruct (enc1 c) as [|a t] eqn:E; [destruct (enc1_ne c E)|].
  destruct (enc1_head c a t R E) as [(-> & -> & _)|(GE & HA & _ & FC)]; [cbn; apply orb_false_r|].
  cbn [existsb]. replace (a =? 92) with false by lia. replace (c =? 92) with false by lia. cbn [orb].
  clear -FC. induction FC as [|b t B]; [reflexivity|]. cbn. unfold cont in B. replace (b =? 92) with false by lia. assumption.
Qed.

Lemma wmatch_main fuel : forall ps ts cs, wpattern ps ts -> text ps -> text cs -> (length (utf8 ps) <= fuel)%nat ->
  wnoslash cs -> ascii cs \/ stars_anchored ts ->
  exists b, wmatch_loop fuel (utf8 ps) (utf8 cs) = Ok (Some b) /\ (b = true <-> wmatches ts cs).
Proof.
  induction fuel as [|f IH]; intros ps ts cs P T TC L SL A.
  { destruct ps as [|p ps]; [|pose proof (length_utf8 (p :: ps)); cbn in *; lia]. inversion P; subst.
    exists (is_empty cs). cbn [wmatch_loop utf8 map concat]. rewrite is_empty_utf8. split; [reflexivity|].
    destruct cs; cbn; split; try congruence; intros; try constructor. inversion H. }
  destruct ps as [|p ps].
  { inversion P; subst. exists (is_empty cs). cbn [wmatch_loop utf8 map concat]. rewrite is_empty_utf8. split; [reflexivity|].
    destruct cs; cbn; split; try congruence; intros; try constructor. inversion H. }
  remember (p :: ps) as pp eqn:EPP.
  destruct (wstrip_stars_pattern pp ts P T false) as (n & r & tt & ES & ETS & PR & TR & EP & NS).
  destruct (wscan_pattern r tt PR TR) as (ch & rs & ck & rt & ESC & ETT & PC & SF & PRS & SS & TCH & TRS & ER).
  assert (SCH : wscan_chunk (utf8 pp) = (negb (n =? 0)%nat, utf8 ch, utf8 rs)).
  { unfold wscan_chunk. rewrite strip_stars_utf8, ES by assumption. cbn [orb]. rewrite (wscan_utf8 (length r)), ESC by (assumption || apply Nat.le_refl).
    reflexivity. }
  assert (NEU : utf8 pp <> []) by (rewrite EPP; apply utf8_ne).
  cbn [wmatch_loop]. destruct (utf8 pp) as [|x y] eqn:EU; [congruence|]. rewrite SCH.
  assert (EMP : is_empty (utf8 ch) = is_empty ch) by apply is_empty_utf8.
  assert (CE : ch = [] -> ck = [] /\ rt = [] /\ rs = []).
  { intros ->. inversion PC; subst ck. repeat split. all: destruct rt as [|[| | |] rt]; cbn in SS; try contradiction; try reflexivity.
    - destruct (NS rt ETT).
    - inversion PRS; reflexivity.
    - destruct (NS rt ETT). }
  destruct (negb (n =? 0)%nat && is_empty (utf8 ch)) eqn:TRAIL.
  { rewrite EMP in TRAIL. assert (ch = []) by (destruct ch; [reflexivity|cbn in TRAIL; lia]). destruct (CE H) as (-> & -> & ->).
    exists (negb (existsb (fun c => c =? 92) cs)). rewrite wexistsb_slash by assumption. split; [reflexivity|].
    rewrite ETS, ETT. destruct n as [|n]; [cbn in TRAIL; lia|]. cbn [app]. rewrite wstars_spec, wstar_spec. split.
    - intros N. exists cs, []. rewrite app_nil_r. repeat split; [|constructor]. apply Forall_forall. intros c I ->.
      assert (existsb (fun c => c =? 92) cs = true) by (apply existsb_exists; exists 92; auto). rewrite H0 in N; discriminate.
    - intros (u & v & -> & N & M). inversion M; subst. rewrite app_nil_r. destruct (existsb (fun c => c =? 92) u) eqn:EX; [|reflexivity].
      apply existsb_exists in EX as (c & I & E). unfold wnoslash in N. rewrite Forall_forall in N. specialize (N c I). lia. }
  assert (CN : ch <> []).
  { intros HC. rewrite EMP, HC in TRAIL. cbn in TRAIL. destruct n; [|cbn in TRAIL; lia]. destruct (CE HC) as (_ & _ & ->). rewrite HC in ER.
    rewrite ER in EP. cbn in EP. congruence. }
  rewrite ETT in ETS. rewrite ETS in A.
  assert (AR : forall t, (exists w, cs = w ++ t) -> ascii t \/ stars_anchored rt).
  { intros t (w & ->). destruct A as [A|A]; [left; now apply ascii_suffix in A|right]. now apply anchored_app, anchored_app in A. }
  assert (TT : forall t, (exists w, cs = w ++ t) -> text t) by (intros t (w & ->); now apply Forall_app in TC).
  assert (NT : forall t, (exists w, cs = w ++ t) -> wnoslash t) by (intros t (w & ->); now apply Forall_app in SL).
  assert (LR : (length (utf8 rs) <= f)%nat).
  { rewrite EP, ER in EU. apply (f_equal (@length Z)) in EU. rewrite !utf8_app, !app_length in EU.
    destruct ch as [|c0 ch]; [congruence|]. pose proof (length_utf8 (c0 :: ch)). cbn [length] in *. lia. }
  assert (KS : forall t, (exists w, cs = w ++ t) -> exists b, wmatch_loop f (utf8 rs) (utf8 t) = Ok (Some b) /\ (b = true <-> wmatches rt t)).
  { intros t W. apply IH; auto. }
  assert (RN : is_empty (utf8 rs) = true -> rt = []).
  { rewrite is_empty_utf8. destruct rs; [|discriminate]. intros _. inversion PRS; reflexivity. }
  assert (RN' : is_empty (utf8 rs) = false -> exists rt', rt = Star :: rt').
  { rewrite is_empty_utf8. destruct rs; [discriminate|]. intros _. destruct rt as [|[| | |] rt]; cbn in SS; try contradiction; [inversion PRS|eauto]. }
  pose proof (wmatch_chunk_spec ch ck PC SF TCH (length (utf8 ch)) cs TC (Nat.le_refl _)) as MS.
  (* a good position decides *)
  assert (GOOD : forall v t, (exists w, cs = w ++ v) -> wchunk_match ck v = Some t -> is_empty (utf8 t) || negb (is_empty (utf8 rs)) = true -> wreach ck rt v <-> wmatches rt t).
  { intros v t WV C G. split.
    - intros (u & v' & t' & E & N & C' & M). destruct (is_empty (utf8 rs)) eqn:ERS.
      + rewrite orb_false_r, is_empty_utf8 in G. destruct t; [|discriminate]. rewrite (RN eq_refl). constructor.
      + destruct (RN' eq_refl) as (rt' & ->). exact (wgreedy ck rt' v t u v' t' (NT v WV) C E C' M).
    - intros M. exists [], v, t. repeat split; auto. constructor. }
  (* a bad one does not count *)
  assert (BADP : forall v t, wchunk_match ck v = Some t -> is_empty (utf8 t) || negb (is_empty (utf8 rs)) = false -> ~ wmatches rt t).
  { intros v t C G M. apply orb_false_iff in G as [G1 G2]. apply negb_false_iff in G2. rewrite (RN G2) in M. inversion M; subst. discriminate. }
  assert (SKIP : forall v, (exists w, cs = w ++ v) -> exists b, wcskip ck (wmatch_loop f (utf8 rs)) (is_empty (utf8 rs)) v = Ok (Some b) /\
            (b = true <-> exists c v', v = c :: v' /\ c <> 92 /\ wreach ck rt v')).
  { induction v as [|c v IHv]; intros W; cbn [wcskip].
    - exists false. split; [reflexivity|]. split; [discriminate|]. intros (? & ? & ? & _); discriminate.
    - destruct (Z.eqb_spec c 92) as [->|NC].
      + exists false. split; [reflexivity|]. split; [discriminate|]. intros (? & ? & E & N & _). congruence.
      + assert (W' : exists w, cs = w ++ v) by (destruct W as (w & ->); exists (w ++ [c]); now rewrite <- app_assoc).
        assert (CONT : (~ exists t, wchunk_match ck v = Some t /\ wmatches rt t) -> exists b,
                  wcskip ck (wmatch_loop f (utf8 rs)) (is_empty (utf8 rs)) v = Ok (Some b) /\
                  (b = true <-> exists c' v', c :: v = c' :: v' /\ c' <> 92 /\ wreach ck rt v')).
        { intros NO. destruct (IHv W') as (b & E & B). exists b. split; [assumption|]. rewrite B. split.
          - intros R. exists c, v. repeat split; auto. apply wreach_step. now right.
          - intros (c' & v' & E' & N & R). injection E' as <- <-. apply wreach_step in R as [R|R]; [contradiction|assumption]. }
        destruct (wchunk_match ck v) as [t|] eqn:C.
        * destruct (is_empty (utf8 t) || negb (is_empty (utf8 rs))) eqn:G.
          -- replace (is_empty (utf8 rs) && negb (is_empty (utf8 t))) with false by (destruct (is_empty (utf8 rs)), (is_empty (utf8 t)); cbn in *; congruence).
             destruct (KS t) as (b & E & B). { destruct W' as (w & ->). destruct (wchunk_suffix _ _ _ C) as (w2 & ->). exists (w ++ w2). now rewrite app_assoc. }
             exists b. split; [assumption|]. rewrite B, <- (GOOD v t W' C G). split.
             ++ intros R. exists c, v. auto.
             ++ intros (c' & v' & E' & N & R). now injection E' as <- <-.
          -- replace (is_empty (utf8 rs) && negb (is_empty (utf8 t))) with true by (destruct (is_empty (utf8 rs)), (is_empty (utf8 t)); cbn in *; congruence).
             apply CONT. intros (t' & E & M). injection E as <-. exact (BADP v t C G M).
        * apply CONT. intros (t' & E & _). discriminate. }
  assert (SKIPU : forall n', n = S n' -> wskip_loop (wmatch_chunk (length (utf8 ch)) (utf8 ch)) (wmatch_loop f (utf8 rs)) (is_empty (utf8 rs)) (utf8 cs)
            = wcskip ck (wmatch_loop f (utf8 rs)) (is_empty (utf8 rs)) cs).
  { intros n' EN. apply wskip_utf8; auto. destruct A as [A|A]; [now left|right]. subst n.
    destruct ck as [|[| |d|] ck]; [|inversion SF; congruence|..]; cbn; auto.
    - inversion PC; subst; congruence.
    - exfalso. clear -A. induction n'; cbn in A; [tauto|]. apply IHn'. cbn. cbn in A. tauto.
    - exfalso. clear -A. induction n'; cbn in A; [tauto|]. apply IHn'. cbn. cbn in A. tauto. }
  assert (W0 : exists w, cs = w ++ cs) by (exists []; reflexivity).
  rewrite ETS.
  assert (NO : (~ exists t, wchunk_match ck cs = Some t /\ wmatches rt t) -> exists b,
     (if negb (n =? 0)%nat then wskip_loop (wmatch_chunk (length (utf8 ch)) (utf8 ch)) (wmatch_loop f (utf8 rs)) (is_empty (utf8 rs)) (utf8 cs)
      else Ok (Some false)) = Ok (Some b) /\ (b = true <-> wmatches (repeat Star n ++ ck ++ rt) cs)).
  { intros NO. destruct n as [|n]; cbn [Nat.eqb negb].
    - exists false. split; [reflexivity|]. cbn [repeat app]. rewrite wchunk_spec by assumption. split; [discriminate|contradiction].
    - rewrite (SKIPU n eq_refl). destruct (SKIP cs W0) as (b & E & B). exists b. split; [assumption|].
      rewrite B, wstars_spec, wreach_spec, wreach_step by assumption. tauto. }
  destruct (wchunk_match ck cs) as [t|] eqn:C; cbn in MS; rewrite MS.
  - destruct (is_empty (utf8 t) || negb (is_empty (utf8 rs))) eqn:G.
    + destruct (KS t) as (b & E & B). { destruct (wchunk_suffix _ _ _ C) as (w & ->). exists w; reflexivity. }
      exists b. split; [assumption|]. rewrite B. destruct n as [|n].
      * cbn [repeat app]. rewrite wchunk_spec by assumption. rewrite C. split; [intros M; exists t; auto|intros (t' & E' & M); now injection E' as <-].
      * rewrite wstars_spec, wreach_spec by assumption. symmetry. apply GOOD; assumption.
    + apply NO. intros (t' & E' & M). injection E' as <-. exact (BADP cs t C G M).
  - apply NO. intros (t' & E' & _); discriminate.
Qed.
