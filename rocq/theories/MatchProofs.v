(** Proofs about filepath.Match: UTF-8, chunks. *)
From Coq Require Import ZArith List Bool Arith Lia ZifyBool ZifyNat.
From Verif Require Import GoBase GoStrings MatchSpec MatchModel.
Import ListNotations.
Open Scope Z_scope.

Ltac Zify.zify_post_hook ::= Z.div_mod_to_equations.

(** ** UTF-8 *)
Definition cont (b : Z) : Prop := 128 <= b < 192.
Lemma enc1_shape c : rune c ->
  (c < 128 /\ enc1 c = [c]) \/
  (128 <= c /\ exists a t, enc1 c = a :: t /\ 192 <= a /\ t <> [] /\ Forall cont t /\ (length t <= 3)%nat).
Proof.
  intros R; unfold enc1, rune in *; destruct (c <? 128) eqn:E1; [left; split; [lia|reflexivity]|right; split; [lia|]].
  destruct (c <? 2048) eqn:E2; [|destruct (c <? 65536) eqn:E3].
  all: eexists; eexists; split; [reflexivity|]; split; [lia|]; split; [discriminate|]; split; [|cbn; lia];
       repeat constructor; unfold cont; lia.
Qed.
Lemma decode_enc c s : rune c -> decode_rune (enc1 c ++ s) = (c, length (enc1 c)).
Proof.
  intros R; unfold rune in R; unfold enc1; destruct (c <? 128) eqn:E1; cbn [app decode_rune length].
  - now rewrite E1.
  - destruct (c <? 2048) eqn:E2; [|destruct (c <? 65536) eqn:E3]; cbn [app decode_rune length].
    + replace (192 + c / 64 <? 128) with false by lia; replace (192 + c / 64 <? 194) with false by lia;
      replace (192 + c / 64 <? 224) with true by lia.
      replace (in_range 128 191 (128 + c mod 64)) with true by (unfold in_range; lia). f_equal; lia.
    + replace (224 + c / 4096 <? 128) with false by lia; replace (224 + c / 4096 <? 194) with false by lia;
      replace (224 + c / 4096 <? 224) with false by lia; replace (224 + c / 4096 <? 240) with true by lia.
      match goal with |- (if ?b then _ else _) = _ => replace b with true end.
      * f_equal; lia.
      * unfold in_range; destruct (224 + c / 4096 =? 224) eqn:?; destruct (224 + c / 4096 =? 237) eqn:?; lia.
    + replace (240 + c / 262144 <? 128) with false by lia; replace (240 + c / 262144 <? 194) with false by lia;
      replace (240 + c / 262144 <? 224) with false by lia; replace (240 + c / 262144 <? 240) with false by lia;
      replace (240 + c / 262144 <? 245) with true by lia.
      match goal with |- (if ?b then _ else _) = _ => replace b with true end.
      * f_equal; lia.
      * unfold in_range; destruct (240 + c / 262144 =? 240) eqn:?; destruct (240 + c / 262144 =? 244) eqn:?; lia.
Qed.
Lemma enc1_ne c : enc1 c <> [].
Proof. unfold enc1; destruct (c <? 128), (c <? 2048), (c <? 65536); discriminate. Qed.
Lemma enc1_inj c d s t : rune c -> rune d -> enc1 c ++ s = enc1 d ++ t -> c = d /\ s = t.
Proof.
  intros Rc Rd E. pose proof (decode_enc c s Rc) as A. rewrite E, decode_enc in A by assumption.
  assert (d = c) by congruence; subst. split; [reflexivity|]. exact (app_inv_head _ _ _ E).
Qed.
Lemma utf8_app a b : utf8 (a ++ b) = utf8 a ++ utf8 b.
Proof. unfold utf8; now rewrite map_app, concat_app. Qed.
Lemma utf8_cons c l : utf8 (c :: l) = enc1 c ++ utf8 l.
Proof. reflexivity. Qed.
Lemma enc1_ascii c : c < 128 -> enc1 c = [c].
Proof. intros H; unfold enc1; now replace (c <? 128) with true by lia. Qed.
Lemma utf8_ne c l : utf8 (c :: l) <> [].
Proof. rewrite utf8_cons; pose proof (enc1_ne c); destruct (enc1 c); [congruence|discriminate]. Qed.
Lemma enc1_head c a t : rune c -> enc1 c = a :: t -> (a = c /\ t = [] /\ c < 128) \/ (128 <= c /\ 192 <= a /\ t <> [] /\ Forall cont t).
Proof.
  intros R E. destruct (enc1_shape c R) as [[L E']|[L (a' & t' & E' & A & N & F & _)]]; rewrite E in E'.
  - left; inversion E'; auto.
  - right; injection E' as -> ->; auto.
Qed.
Lemma strip_enc c d s : rune c -> rune d -> strip_prefix (enc1 c) (enc1 d ++ s) = if c =? d then Some s else None.
Proof.
  intros Rc Rd. destruct (strip_prefix (enc1 c) (enc1 d ++ s)) as [r|] eqn:E.
  - apply strip_prefix_spec in E. symmetry in E. apply enc1_inj in E as [-> ->]; auto. now rewrite Z.eqb_refl.
  - destruct (Z.eqb_spec c d) as [->|]; [|reflexivity].
    assert (strip_prefix (enc1 d) (enc1 d ++ s) = Some s) by (apply strip_prefix_spec; reflexivity). congruence.
Qed.

(** ** Characters of a class *)
Lemma get_esc_char b c s : class_char b c -> text b -> s <> [] -> get_esc (utf8 b ++ utf8 s) = Some (c, utf8 s).
Proof.
  intros C T N. destruct C as [c A1 A2 A3|c].
  - inversion T as [|? ? R _]; subst. unfold utf8 at 1; cbn [map concat]; rewrite app_nil_r.
    destruct (enc1 c) as [|a t] eqn:E; [destruct (enc1_ne c E)|]. unfold get_esc; cbn [app].
    assert (H : (a =? 45) || (a =? 93) = false /\ (a =? 92) = false)
      by (destruct (enc1_head c a t R E) as [(-> & _)|(_ & ? & _)]; lia).
    destruct H as [-> ->]. change (a :: t ++ utf8 s) with ((a :: t) ++ utf8 s). rewrite <- E, decode_enc by assumption.
    replace ((c =? 65533) && (length (enc1 c) =? 1)%nat) with false.
    + replace (skipn (length (enc1 c)) (enc1 c ++ utf8 s)) with (utf8 s).
      * destruct s as [|x s]; [congruence|]. destruct (utf8 (x :: s)) eqn:U; [destruct (utf8_ne _ _ U)|reflexivity].
      * clear; induction (enc1 c); cbn; auto.
    + unfold enc1; destruct (c <? 128) eqn:?, (c <? 2048), (c <? 65536); cbn [length]; lia.
  - inversion T as [|? ? _ T']; subst. inversion T' as [|? ? R _]; subst.
    change (utf8 [92; c]) with (92 :: utf8 [c]). unfold utf8 at 1; cbn [map concat]; rewrite app_nil_r.
    unfold get_esc; cbn [app]. change ((92 =? 45) || (92 =? 93)) with false; change (92 =? 92) with true; cbv iota zeta.
    destruct (enc1 c ++ utf8 s) as [|a t] eqn:E; [destruct (app_eq_nil _ _ E) as [E' _]; destruct (enc1_ne c E')|].
    rewrite <- E, decode_enc by assumption.
    replace ((c =? 65533) && (length (enc1 c) =? 1)%nat) with false.
    + replace (skipn (length (enc1 c)) (enc1 c ++ utf8 s)) with (utf8 s).
      * destruct s as [|x s]; [congruence|]. destruct (utf8 (x :: s)) eqn:U; [destruct (utf8_ne _ _ U)|reflexivity].
      * clear; induction (enc1 c); cbn; auto.
    + unfold enc1; destruct (c <? 128) eqn:?, (c <? 2048), (c <? 65536); cbn [length]; lia.
Qed.

Definition in_rb (l : list (Z * Z)) (c : Z) : bool := existsb (fun p => (fst p <=? c) && (c <=? snd p)) l.
Lemma in_rb_spec l c : in_rb l c = true <-> in_ranges l c.
Proof.
  unfold in_rb, in_ranges; rewrite existsb_exists; split.
  - intros ([lo hi] & I & H); exists lo, hi; cbn in H; split; [assumption|lia].
  - intros (lo & hi & I & H); exists (lo, hi); cbn; split; [assumption|lia].
Qed.
Lemma class_char_ne b c : class_char b c -> b <> [].
Proof. destruct 1; discriminate. Qed.
Lemma range_ne b r : range b r -> b <> [].
Proof. destruct 1 as [? ? H|? ? ? ? H]; [eapply class_char_ne; eauto|]. destruct s; [destruct (class_char_ne _ _ H eq_refl)|discriminate]. Qed.
(** The first byte of a class character is neither a hyphen nor a closing bracket. *)
Lemma class_char_head b c s : class_char b c -> text b -> exists a t, utf8 b ++ s = a :: t /\ a <> 45 /\ a <> 93.
Proof.
  intros C T; destruct C as [c A1 A2 A3|c]; inversion T as [|? ? R ?]; subst; rewrite utf8_cons.
  - destruct (enc1 c) as [|a t] eqn:E; [destruct (enc1_ne c E)|]. exists a; eexists; split; [reflexivity|].
    destruct (enc1_head c a t R E) as [(-> & _)|(_ & ? & _)]; lia.
  - exists 92; eexists; split; [reflexivity|lia].
Qed.
Lemma range_head b r s : range b r -> text b -> exists a t, utf8 b ++ s = a :: t /\ a <> 45 /\ a <> 93.
Proof.
  destruct 1 as [b c H|b lo b' hi H H']; intros T.
  - exact (class_char_head b c s H T).
  - rewrite utf8_app, <- app_assoc. apply (class_char_head b lo); auto. now apply Forall_app in T.
Qed.
Lemma ranges_head b l s : ranges b l -> text b -> exists a t, utf8 b ++ s = a :: t /\ a <> 45 /\ a <> 93.
Proof.
  destruct 1 as [b r H|b r b' l H H']; intros T.
  - exact (range_head b r s H T).
  - rewrite utf8_app, <- app_assoc. apply (range_head b r); auto. now apply Forall_app in T.
Qed.

(** One range. *)
Lemma class_step b rg : range b rg -> text b -> forall f r s a t m seen, utf8 s = a :: t -> a <> 45 ->
  class_loop (S f) r (utf8 b ++ utf8 s) m seen = class_loop f r (utf8 s) (m || ((fst rg <=? r) && (r <=? snd rg))) true.
Proof.
  intros RG T f r s a t m seen U NA.
  assert (SN : s <> []) by (intros ->; discriminate).
  destruct (range_head b rg (utf8 s) RG T) as (x & y & E & X1 & X2).
  cbn [class_loop]. rewrite E. replace ((x =? 93) && seen) with false by lia. rewrite <- E; clear x y E X1 X2.
  destruct RG as [b c C|b lo b' hi C C'].
  - rewrite (get_esc_char b c s C T SN), U; cbn [fst snd].
    destruct a as [|p|p]; try reflexivity. repeat (destruct p; try reflexivity); congruence.
  - apply Forall_app in T as [T1 T2]. inversion T2 as [|? ? _ T3]; subst.
    rewrite utf8_app, <- app_assoc. change (utf8 (45 :: b')) with (45 :: utf8 b'). cbn [app].
    replace (45 :: utf8 b' ++ utf8 s) with (utf8 (45 :: b' ++ s)) by (rewrite utf8_cons, utf8_app; reflexivity).
    rewrite (get_esc_char b lo (45 :: b' ++ s) C T1 ltac:(discriminate)).
    replace (utf8 (45 :: b' ++ s)) with (45 :: utf8 b' ++ utf8 s) by (rewrite utf8_cons, utf8_app; reflexivity).
    cbv iota. rewrite (get_esc_char b' hi s C' T3 SN). reflexivity.
Qed.
Lemma class_end f r s m : class_loop (S f) r (utf8 (93 :: s)) m true = CDone m (utf8 s).
Proof. reflexivity. Qed.
Lemma length_utf8 b : (length b <= length (utf8 b))%nat.
Proof.
  induction b as [|c b]; [apply Nat.le_refl|]. rewrite utf8_cons, app_length; cbn [length].
  pose proof (enc1_ne c); destruct (enc1 c); [congruence|cbn; lia].
Qed.
Lemma class_loop_ranges b l : ranges b l -> text b -> forall fuel r s m seen, (length b < fuel)%nat ->
  class_loop fuel r (utf8 (b ++ 93 :: s)) m seen = CDone (m || in_rb l r) (utf8 s).
Proof.
  induction 1 as [b rg RG|b rg b' l RG RS IH]; intros T fuel r s m seen L; (destruct fuel as [|fuel]; [lia|]).
  - rewrite utf8_app, (class_step b rg RG T fuel r (93 :: s) 93 (utf8 s)) by (reflexivity || lia).
    pose proof (range_ne _ _ RG). destruct fuel; [destruct b; cbn in *; [congruence|lia]|].
    rewrite class_end. unfold in_rb; cbn [existsb]. now rewrite orb_false_r.
  - apply Forall_app in T as [T1 T2]. rewrite <- app_assoc, utf8_app.
    destruct (ranges_head b' l (utf8 (93 :: s)) RS T2) as (x & y & E & X1 & X2).
    rewrite <- utf8_app in E.
    rewrite (class_step b rg RG T1 fuel r (b' ++ 93 :: s) x y) by assumption.
    rewrite IH; [|assumption|]. { unfold in_rb; cbn [existsb]. now rewrite orb_assoc. }
    rewrite app_length in L. pose proof (range_ne _ _ RG); destruct b; [congruence|cbn in *; lia].
Qed.

(** ** A chunk: terms without stars *)
Definition tmatch (t : term) (c : Z) : bool :=
  match t with
  | Star => false
  | Any => negb (c =? 47)
  | Lit d => d =? c
  | Class neg l => negb (Bool.eqb (in_rb l c) neg)
  end.
Fixpoint chunk_match (ts : list term) (cs : list Z) : option (list Z) :=
  match ts with
  | [] => Some cs
  | t :: ts => match cs with [] => None | c :: cs => if tmatch t c then chunk_match ts cs else None end
  end.
Definition star_free (ts : list term) : Prop := Forall (fun t => t <> Star) ts.

(** Literal bytes. *)
Definition plain (b : Z) : Prop := b <> 42 /\ b <> 63 /\ b <> 92 /\ b <> 91.
Lemma match_plain bs : Forall plain bs -> forall fuel X s, (length bs <= fuel)%nat ->
  match_chunk fuel (bs ++ X) s =
  match strip_prefix bs s with Some r => match_chunk (fuel - length bs) X r | None => MNo end.
Proof.
  induction 1 as [|b bs P F IH]; intros fuel X s L; cbn [app length strip_prefix].
  - now rewrite Nat.sub_0_r.
  - cbn in L. destruct fuel as [|fuel]; [lia|]. cbn [match_chunk].
    destruct s as [|s0 st]; [reflexivity|].
    replace (b =? 91) with false by (unfold plain in P; lia). replace (b =? 63) with false by (unfold plain in P; lia).
    replace (b =? 92) with false by (unfold plain in P; lia).
    destruct (b =? s0); [|reflexivity]. rewrite IH by lia. now rewrite Nat.sub_succ.
Qed.
Lemma enc1_tail_plain c a t : rune c -> enc1 c = a :: t -> Forall plain t.
Proof.
  intros R E. destruct (enc1_head c a t R E) as [(_ & -> & _)|(_ & _ & _ & F)]; [constructor|].
  eapply Forall_impl; [|exact F]. unfold cont, plain; intros; lia.
Qed.
Lemma enc1_plain c : rune c -> plain c -> Forall plain (enc1 c).
Proof.
  intros R P. destruct (enc1 c) as [|a t] eqn:E; [constructor|]. constructor; [|eapply enc1_tail_plain; eauto].
  destruct (enc1_head c a t R E) as [(-> & _)|(_ & ? & _)]; [assumption|unfold plain; lia].
Qed.

Definition chunk_ok (r : chunk_res) (o : option (list Z)) : Prop :=
  match o with Some cs => r = MOk (utf8 cs) | None => r = MNo end.

Lemma match_chunk_spec ps ts : pattern ps ts -> star_free ts -> text ps -> forall fuel cs, text cs ->
  (length (utf8 ps) <= fuel)%nat ->
  chunk_ok (match_chunk fuel (utf8 ps) (utf8 cs)) (chunk_match ts cs).
Proof.
  induction 1 as [|s ts P IH|s ts P IH|c s ts N1 N2 N3 N4 P IH|c s ts P IH|b l s ts RS HD P IH|b l s ts RS P IH];
    intros SF T fuel cs TC L.
  - destruct fuel; reflexivity.
  - inversion SF; congruence.
  - inversion SF as [|? ? _ SF']; subst. inversion T as [|? ? _ T']; subst.
    change (utf8 (63 :: s)) with (63 :: utf8 s) in *. cbn [length] in L. destruct fuel as [|fuel]; [lia|].
    destruct cs as [|c cs]; [reflexivity|]. inversion TC as [|? ? R TC']; subst.
    cbn [match_chunk chunk_match tmatch]. destruct (utf8 (c :: cs)) as [|x y] eqn:E; [destruct (utf8_ne _ _ E)|].
    change (63 =? 91) with false; change (63 =? 63) with true; cbv iota.
    assert (XE : (x =? 47) = (c =? 47)).
    { rewrite utf8_cons in E. destruct (enc1 c) as [|a t] eqn:EE; [destruct (enc1_ne c EE)|]. injection E as -> _.
      destruct (enc1_head c x t R EE) as [(-> & _)|(? & ? & _)]; lia. }
    rewrite XE. destruct (c =? 47); [reflexivity|]. cbn [negb]. rewrite <- E, utf8_cons, decode_enc by assumption.
    cbn [snd]. replace (skipn (length (enc1 c)) (enc1 c ++ utf8 cs)) with (utf8 cs) by (clear; induction (enc1 c); cbn; auto).
    apply IH; auto; lia.
  - inversion SF as [|? ? _ SF']; subst. inversion T as [|? ? R T']; subst.
    rewrite utf8_cons, app_length in *. rewrite match_plain; [|apply enc1_plain; [assumption|unfold plain; auto]|lia].
    cbn [chunk_match tmatch]. destruct cs as [|d cs].
    + destruct (enc1 c) eqn:E; [destruct (enc1_ne c E)|reflexivity].
    + inversion TC as [|? ? R' TC']; subst. rewrite utf8_cons, strip_enc by assumption.
      destruct (c =? d); [|reflexivity]. apply IH; auto; lia.
  - inversion SF as [|? ? _ SF']; subst. inversion T as [|? ? _ T']; subst. inversion T' as [|? ? R T'']; subst.
    change (utf8 (92 :: c :: s)) with (92 :: enc1 c ++ utf8 s) in *. cbn [length] in L. rewrite app_length in L.
    destruct fuel as [|fuel]; [lia|]. cbn [chunk_match tmatch]. destruct cs as [|d cs]; [reflexivity|].
    inversion TC as [|? ? R' TC']; subst. rewrite utf8_cons. pose proof (strip_enc c d (utf8 cs) R R') as SE.
    destruct (enc1 d ++ utf8 cs) as [|s0 st] eqn:ED; [destruct (app_eq_nil _ _ ED) as [E' _]; destruct (enc1_ne d E')|].
    destruct (enc1 c) as [|a t] eqn:EC; [destruct (enc1_ne c EC)|]. cbn [app length] in *. cbn [match_chunk].
    change (92 =? 91) with false; change (92 =? 63) with false; change (92 =? 92) with true; cbv iota.
    cbn [strip_prefix] in SE. destruct (a =? s0) eqn:AS.
    + rewrite match_plain; [|exact (enc1_tail_plain c a t R EC)|lia].
      rewrite SE. destruct (c =? d); [|reflexivity]. apply IH; auto; lia.
    + destruct (c =? d); [discriminate|reflexivity].
  - inversion SF as [|? ? _ SF']; subst. inversion T as [|? ? _ T']; subst. apply Forall_app in T' as [TB T''].
    inversion T'' as [|? ? _ TS]; subst.
    change (utf8 (91 :: b ++ 93 :: s)) with (91 :: utf8 (b ++ 93 :: s)) in *. cbn [length] in L. destruct fuel as [|fuel]; [lia|].
    destruct cs as [|c cs]; [reflexivity|]. inversion TC as [|? ? R TC']; subst.
    cbn [match_chunk chunk_match tmatch]. destruct (utf8 (c :: cs)) as [|x y] eqn:E; [destruct (utf8_ne _ _ E)|].
    change (91 =? 91) with true; cbv iota. rewrite <- E, utf8_cons, decode_enc by assumption.
    replace (skipn (length (enc1 c)) (enc1 c ++ utf8 cs)) with (utf8 cs) by (clear; induction (enc1 c); cbn; auto).
    destruct (ranges_head b l (utf8 (93 :: s)) RS TB) as (x' & y' & E' & X1 & X2). rewrite <- utf8_app in E'.
    rewrite E'. replace (x' =? 94) with false.
    + rewrite <- E', (class_loop_ranges b l RS TB).
      * cbn [orb]. destruct (in_rb l c); cbn [negb Bool.eqb]; [|reflexivity]. apply IH; auto.
        rewrite utf8_app, utf8_cons, !app_length in L. lia.
      * rewrite utf8_app, app_length, utf8_cons, app_length in L. pose proof (length_utf8 b). change (length (enc1 93)) with 1%nat in L. lia.
    + destruct b as [|b0 b]; [destruct (ranges_head [] l [] RS TB) as (? & ? & ? & _); discriminate|]. cbn in HD.
      inversion TB as [|? ? RB _]; subst.
      rewrite <- app_comm_cons, utf8_cons in E'. destruct (enc1 b0) as [|p q] eqn:EB; [destruct (enc1_ne _ EB)|].
      injection E' as -> _. destruct (enc1_head b0 x' q RB EB) as [(-> & _)|(_ & ? & _)]; lia.
  - inversion SF as [|? ? _ SF']; subst. inversion T as [|? ? _ T0]; subst. inversion T0 as [|? ? _ T']; subst.
    apply Forall_app in T' as [TB T''].
    inversion T'' as [|? ? _ TS]; subst.
    change (utf8 (91 :: 94 :: b ++ 93 :: s)) with (91 :: 94 :: utf8 (b ++ 93 :: s)) in *. cbn [length] in L. destruct fuel as [|fuel]; [lia|].
    destruct cs as [|c cs]; [reflexivity|]. inversion TC as [|? ? R TC']; subst.
    cbn [match_chunk chunk_match tmatch]. destruct (utf8 (c :: cs)) as [|x y] eqn:E; [destruct (utf8_ne _ _ E)|].
    change (91 =? 91) with true; change (94 =? 94) with true; cbv iota. rewrite <- E, utf8_cons, decode_enc by assumption.
    replace (skipn (length (enc1 c)) (enc1 c ++ utf8 cs)) with (utf8 cs) by (clear; induction (enc1 c); cbn; auto).
    rewrite (class_loop_ranges b l RS TB).
    * cbn [orb]. destruct (in_rb l c); cbn [negb Bool.eqb]; [reflexivity|]. apply IH; auto.
      rewrite utf8_app, utf8_cons, !app_length in L. lia.
    * rewrite utf8_app, app_length, utf8_cons, app_length in L. pose proof (length_utf8 b). change (length (enc1 93)) with 1%nat in L. lia.
Qed.
