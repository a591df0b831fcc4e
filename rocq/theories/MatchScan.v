(** Proofs about filepath.Match: how a pattern is cut into chunks. *)
From Coq Require Import ZArith List Bool Arith Lia ZifyBool ZifyNat.
From Verif Require Import GoBase GoStrings MatchSpec MatchModel MatchProofs.
Import ListNotations.
Open Scope Z_scope.

(** Cutting bytes is cutting characters. *)
Definition high (b : Z) : Prop := 128 <= b.
Lemma scan_high h : Forall high h -> forall s i, scan (h ++ s) i = let '(a, b) := scan s i in (h ++ a, b).
Proof.
  induction 1 as [|c h H F IH]; intros s i; [cbn; now destruct (scan s i)|]. cbn [app scan].
  unfold high in H. replace (c =? 92) with false by lia; replace (c =? 91) with false by lia;
  replace (c =? 93) with false by lia; replace (c =? 42) with false by lia. cbn [andb]. rewrite IH. now destruct (scan s i).
Qed.
Lemma enc1_high c a t : rune c -> enc1 c = a :: t -> (a = c /\ c < 128 /\ t = []) \/ (128 <= c /\ high a /\ Forall high t).
Proof.
  intros R E. destruct (enc1_head c a t R E) as [(-> & -> & ?)|(? & ? & _ & F)]; [left; auto|right].
  split; [assumption|]. split; [unfold high; lia|]. eapply Forall_impl; [|exact F]. unfold cont, high; intros; lia.
Qed.
Definition u2 (p : list Z * list Z) : list Z * list Z := (utf8 (fst p), utf8 (snd p)).
Lemma scan_utf8 n : forall ps i, (length ps <= n)%nat -> text ps -> scan (utf8 ps) i = u2 (scan ps i).
Proof.
  induction n as [|n IH]; intros ps i L T; (destruct ps as [|c ps]; [reflexivity|]); [cbn in L; lia|].
  cbn [length] in L. inversion T as [|? ? R T']; subst. rewrite utf8_cons.
  destruct (enc1 c) as [|a t] eqn:E; [destruct (enc1_ne c E)|].
  destruct (enc1_high c a t R E) as [(-> & LT & ->)|(GE & HA & HT)].
  - cbn [app scan]. destruct (c =? 92) eqn:E92.
    + destruct ps as [|d ps]; [unfold u2; cbn [fst snd]; rewrite utf8_cons, E; reflexivity|]. inversion T' as [|? ? R' T'']; subst.
      rewrite utf8_cons. destruct (enc1 d) as [|x y] eqn:ED; [destruct (enc1_ne d ED)|]. cbn [app].
      assert (HY : Forall high y).
      { destruct (enc1_high d x y R' ED) as [(_ & _ & ->)|(_ & _ & ?)]; [constructor|assumption]. }
      rewrite (scan_high y HY), IH by (assumption || (cbn in L; lia)).
      destruct (scan ps i) as [p q]. unfold u2; cbn [fst snd]. rewrite !utf8_cons, ED, enc1_ascii by lia. reflexivity.
    + assert (S1 : forall j, (let '(a, b) := scan (utf8 ps) j in (c :: a, b)) = u2 (let '(a, b) := scan ps j in (c :: a, b))).
      { intros j. rewrite IH by (assumption || lia). destruct (scan ps j) as [p q]. unfold u2; cbn [fst snd].
        rewrite utf8_cons, enc1_ascii by assumption. reflexivity. }
      destruct (c =? 91); [apply S1|]. destruct (c =? 93); [apply S1|]. destruct ((c =? 42) && negb i); [|apply S1].
      unfold u2; cbn [fst snd]. now rewrite utf8_cons, E.
  - change (a :: t) with ([a] ++ t). rewrite <- app_assoc. change ([a] ++ t ++ utf8 ps) with ((a :: t) ++ utf8 ps).
    rewrite scan_high by (constructor; assumption). rewrite IH by (assumption || lia). cbn [scan].
    replace (c =? 92) with false by lia; replace (c =? 91) with false by lia;
    replace (c =? 93) with false by lia; replace (c =? 42) with false by lia. cbn [andb].
    destruct (scan ps i) as [p q]. unfold u2; cbn [fst snd]. now rewrite utf8_cons, E.
Qed.
Lemma strip_stars_utf8 ps : text ps -> forall b, strip_stars (utf8 ps) b = let '(s, r) := strip_stars ps b in (s, utf8 r).
Proof.
  induction ps as [|c ps IH]; intros T b; [reflexivity|]. inversion T as [|? ? R T']; subst. rewrite utf8_cons.
  destruct (enc1 c) as [|a t] eqn:E; [destruct (enc1_ne c E)|]. cbn [app strip_stars].
  destruct (enc1_high c a t R E) as [(-> & LT & ->)|(GE & HA & HT)].
  - destruct (c =? 42); [apply IH; assumption|]. now rewrite utf8_cons, E.
  - unfold high in HA. replace (a =? 42) with false by lia; replace (c =? 42) with false by lia. now rewrite utf8_cons, E.
Qed.

(** A pattern and its chunks. *)
Lemma scan_class_char b c : class_char b c -> forall s, scan (b ++ s) true = let '(x, y) := scan s true in (b ++ x, y).
Proof.
  intros [d A1 A2 A3|d] s; cbn [app scan].
  - replace (d =? 92) with false by lia; replace (d =? 93) with false by lia. rewrite andb_false_r.
    destruct (d =? 91); now destruct (scan s true).
  - change (92 =? 92) with true; cbv iota. now destruct (scan s true).
Qed.
Lemma scan_range b r : range b r -> forall s, scan (b ++ s) true = let '(x, y) := scan s true in (b ++ x, y).
Proof.
  intros [b' c C|b' lo b'' hi C C'] s.
  - now apply (scan_class_char _ c).
  - rewrite <- app_assoc, <- app_comm_cons, (scan_class_char _ lo C). cbn [scan].
    change (45 =? 92) with false; change (45 =? 91) with false; change (45 =? 93) with false; change (45 =? 42) with false.
    cbn [andb]. rewrite (scan_class_char _ hi C'). destruct (scan s true). now rewrite <- app_assoc.
Qed.
Lemma scan_ranges b l : ranges b l -> forall s, scan (b ++ 93 :: s) true = let '(x, y) := scan s false in (b ++ 93 :: x, y).
Proof.
  induction 1 as [b r R|b r b' l R RS IH]; intros s.
  - rewrite (scan_range _ r R). cbn [scan]. change (93 =? 92) with false; change (93 =? 91) with false; change (93 =? 93) with true.
    now destruct (scan s false).
  - rewrite <- app_assoc, (scan_range _ r R), IH. destruct (scan s false). now rewrite <- app_assoc.
Qed.
Definition starts_star (ts : list term) : Prop := match ts with [] | Star :: _ => True | _ => False end.
Lemma scan_pattern ps ts : pattern ps ts -> text ps -> exists c r ct rt, scan ps false = (c, r) /\ ts = ct ++ rt /\
  pattern c ct /\ star_free ct /\ pattern r rt /\ starts_star rt /\ text c /\ text r /\ ps = c ++ r.
Proof.
  induction 1 as [|s ts P IH|s ts P IH|c s ts N1 N2 N3 N4 P IH|c s ts P IH|b l s ts RS HD P IH|b l s ts RS P IH]; intros T.
  - exists [], [], [], []. repeat split; constructor.
  - exists [], (42 :: s), [], (Star :: ts). cbn [scan]. change (42 =? 92) with false; change (42 =? 91) with false;
    change (42 =? 93) with false; change (42 =? 42) with true; cbn [andb negb].
    repeat split; try constructor; auto. now inversion T. now inversion T.
  - inversion T as [|? ? R T']; subst. destruct (IH T') as (c & r & ct & rt & E & -> & PC & SF & PR & SS & TC & TR & ->).
    exists (63 :: c), r, (Any :: ct), rt. cbn [scan]. rewrite E. repeat split; auto; constructor; auto; discriminate.
  - inversion T as [|? ? R T']; subst. destruct (IH T') as (c' & r & ct & rt & E & -> & PC & SF & PR & SS & TC & TR & ->).
    exists (c :: c'), r, (Lit c :: ct), rt. cbn [scan]. replace (c =? 92) with false by lia; replace (c =? 91) with false by lia;
    replace (c =? 42) with false by lia. cbn [andb]. rewrite E.
    repeat split; auto; try (constructor; auto; discriminate). now destruct (c =? 93).
  - inversion T as [|? ? R T0]; subst. inversion T0 as [|? ? R' T']; subst.
    destruct (IH T') as (c' & r & ct & rt & E & -> & PC & SF & PR & SS & TC & TR & ->).
    exists (92 :: c :: c'), r, (Lit c :: ct), rt. cbn [scan]. change (92 =? 92) with true; cbv iota. rewrite E.
    repeat split; auto; try (constructor; auto; discriminate).
  - inversion T as [|? ? R T0]; subst. apply Forall_app in T0 as [TB T1]. inversion T1 as [|? ? R' T']; subst.
    destruct (IH T') as (c' & r & ct & rt & E & -> & PC & SF & PR & SS & TC & TR & ->).
    exists (91 :: b ++ 93 :: c'), r, (Class false l :: ct), rt. cbn [scan]. change (91 =? 92) with false; change (91 =? 91) with true; cbv iota.
    rewrite (scan_ranges b l RS), E. repeat split; auto; try (constructor; auto; discriminate).
    + constructor; [assumption|]. apply Forall_app; split; [assumption|constructor; assumption].
    + cbn [app]. now rewrite <- app_assoc.
  - inversion T as [|? ? R T0]; subst. inversion T0 as [|? ? R0 T00]; subst. apply Forall_app in T00 as [TB T1]. inversion T1 as [|? ? R' T']; subst.
    destruct (IH T') as (c' & r & ct & rt & E & -> & PC & SF & PR & SS & TC & TR & ->).
    exists (91 :: 94 :: b ++ 93 :: c'), r, (Class true l :: ct), rt. cbn [scan]. change (91 =? 92) with false; change (91 =? 91) with true;
    change (94 =? 92) with false; change (94 =? 91) with false; change (94 =? 93) with false; change (94 =? 42) with false; cbn [andb]; cbv iota.
    rewrite (scan_ranges b l RS), E. repeat split; auto; try (constructor; auto; discriminate).
    + constructor; [assumption|]. constructor; [assumption|]. apply Forall_app; split; [assumption|constructor; assumption].
    + cbn [app]. now rewrite <- app_assoc.
Qed.
(** Leading stars. *)
Lemma strip_stars_pattern ps ts : pattern ps ts -> text ps -> forall b, exists n r rt, strip_stars ps b = (b || negb (Nat.eqb n 0), r) /\
  ts = repeat Star n ++ rt /\ pattern r rt /\ text r /\ ps = repeat 42 n ++ r /\ (forall u, rt <> Star :: u).
Proof.
  induction 1 as [|s ts P IH|s ts P IH|c s ts N1 N2 N3 N4 P IH|c s ts P IH|b' l s ts RS HD P IH|b' l s ts RS P IH]; intros T b.
  2: { inversion T as [|? ? R T']; subst. destruct (IH T' true) as (n & r & rt & E & -> & PR & TR & -> & NS).
       exists (S n), r, rt. cbn [strip_stars]. change (42 =? 42) with true; cbv iota. rewrite E.
       repeat split; auto. cbn. now rewrite orb_true_r. }
  all: match goal with |- exists n r rt, strip_stars ?p _ = _ /\ ?t = _ /\ _ => exists 0%nat, p, t end;
       cbn [Nat.eqb negb repeat app]; rewrite orb_false_r; split;
       [cbn [strip_stars]; try reflexivity|split; [reflexivity|split; [econstructor; eassumption|split; [assumption|split; [reflexivity|discriminate]]]]].
  now replace (c =? 42) with false by lia.
Qed.
