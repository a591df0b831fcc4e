(** Proofs about filepath.Match: the greedy search finds a match whenever there is one. *)
From Coq Require Import ZArith List Bool Arith Lia ZifyBool ZifyNat.
From Verif Require Import GoBase GoStrings MatchSpec MatchModel MatchProofs MatchScan.
Import ListNotations.
Open Scope Z_scope.

(** ** Matching by characters *)
Definition noslash (u : list Z) : Prop := Forall (fun c => c <> 47) u.
Lemma star_spec X cs : matches (Star :: X) cs <-> exists u v, cs = u ++ v /\ noslash u /\ matches X v.
Proof.
  split.
  - intros M. remember (Star :: X) as ts eqn:E. induction M; inversion E; subst.
    + exists [], cs. repeat split; [constructor|assumption].
    + destruct (IHM eq_refl) as (u & v & -> & N & MX). exists (c :: u), v. repeat split; [constructor; assumption|assumption].
  - intros (u & v & -> & N & M). induction N; cbn; [now constructor|]. apply mt_star_more; assumption.
Qed.
Lemma stars_spec n X cs : matches (repeat Star (S n) ++ X) cs <-> matches (Star :: X) cs.
Proof.
  revert cs; induction n as [|n IHn]; intros cs; [reflexivity|]. change (repeat Star (S (S n)) ++ X) with (Star :: repeat Star (S n) ++ X).
  rewrite !star_spec. split; intros (u & v & -> & N & M).
  - apply IHn, star_spec in M as (u' & v' & -> & N' & M). exists (u ++ u'), v'. split; [now rewrite app_assoc|].
    split; [now apply Forall_app|assumption].
  - exists u, v. repeat split; auto. apply IHn. now apply mt_star_none.
Qed.
Lemma tmatch_spec t ts c cs : t <> Star -> matches (t :: ts) (c :: cs) <-> tmatch t c = true /\ matches ts cs.
Proof.
  intros N; destruct t as [| |d|[|] l]; [congruence|..]; cbn [tmatch]; split.
  - intros M; inversion M; subst; split; [lia|assumption].
  - intros [E M]; constructor; [lia|assumption].
  - intros M; inversion M; subst; split; [lia|assumption].
  - intros [E M]. assert (d = c) by lia; subst. now constructor.
  - intros M; inversion M as [| | | | | |? ? ? ? NI]; subst; split; [|assumption]. rewrite <- in_rb_spec in NI. now destruct (in_rb l c).
  - intros [E M]; constructor; [|assumption]. rewrite <- in_rb_spec. now destruct (in_rb l c).
  - intros M; inversion M as [| | | | |? ? ? ? NI|]; subst; split; [|assumption]. rewrite <- in_rb_spec in NI. now destruct (in_rb l c).
  - intros [E M]; constructor; [|assumption]. rewrite <- in_rb_spec. now destruct (in_rb l c).
Qed.
Lemma chunk_spec ck : star_free ck -> forall rt cs, matches (ck ++ rt) cs <-> exists t, chunk_match ck cs = Some t /\ matches rt t.
Proof.
  induction 1 as [|t ck N SF IH]; intros rt cs; cbn [app chunk_match].
  - split; [intros M; exists cs; auto|intros (t & E & M); now injection E as ->].
  - destruct cs as [|c cs].
    + split; [|intros (? & ? & _); discriminate]. intros M; inversion M; subst; congruence.
    + rewrite (tmatch_spec t _ c cs N), IH. destruct (tmatch t c).
      * split; [now intros [_ ?]|intros; auto].
      * split; [intros [? _]; discriminate|intros (? & ? & _); discriminate].
Qed.
Lemma chunk_split ck : forall cs t, chunk_match ck cs = Some t -> exists w, cs = w ++ t /\ Forall2 (fun x c => tmatch x c = true) ck w.
Proof.
  induction ck as [|x ck IH]; intros cs t E; cbn in E.
  - injection E as ->. exists []. split; [reflexivity|constructor].
  - destruct cs as [|c cs]; [discriminate|]. destruct (tmatch x c) eqn:M; [|discriminate].
    apply IH in E as (w & -> & F). exists (c :: w). split; [reflexivity|constructor; assumption].
Qed.

(** A term that is not the slash itself does not match a slash. *)
Definition is_slash (t : term) : bool := match t with Lit c => c =? 47 | _ => false end.
Lemma tmatch_slash t c : slash_free t -> tmatch t c = true -> (c =? 47) = is_slash t.
Proof.
  destruct t as [| |d|[|] l]; cbn [slash_free tmatch is_slash]; intros SF M; try discriminate; try lia.
  - rewrite <- in_rb_spec in SF. destruct (Z.eqb_spec c 47) as [->|]; [|reflexivity]. rewrite SF in M. discriminate.
  - rewrite <- in_rb_spec in SF. destruct (Z.eqb_spec c 47) as [->|]; [|reflexivity]. destruct (in_rb l 47); [congruence|discriminate].
Qed.
Lemma slashes ck w : Forall slash_free ck -> Forall2 (fun x c => tmatch x c = true) ck w ->
  map (fun c => c =? 47) w = map is_slash ck.
Proof.
  intros F M; revert F; induction M as [|x c ck w E M IH]; intros F; [reflexivity|]. inversion F; subst. cbn.
  rewrite (tmatch_slash x c), IH by assumption. reflexivity.
Qed.

(** The first slash is where the chunk says; so a later match of the chunk leaves no slash behind. *)
Lemma noslash_map u : noslash u <-> map (fun c => c =? 47) u = repeat false (length u).
Proof.
  split.
  - induction 1; cbn; [reflexivity|]. rewrite IHForall. f_equal. lia.
  - induction u; cbn; intros E; constructor; injection E; intros; [lia|]. apply IHu; assumption.
Qed.
Lemma shift_slash (l : list bool) : forall k r r' n, repeat false n ++ l ++ r' = l ++ r -> length (repeat false n) = k ->
  existsb (fun b => b) l = true -> n = 0%nat.
Proof.
  induction l as [|b l IH]; intros k r r' n E LK EX; [discriminate|].
  destruct n; [reflexivity|]. cbn in E. injection E as <- E. cbn in EX.
  assert (n = 0%nat \/ n <> 0%nat) as [->|N] by lia.
  - (* false :: l ++ r' = l ++ r *)
    exfalso. clear IH LK k. cbn in E. revert r r' E EX. induction l as [|c l IH]; intros r r' E EX; [discriminate|].
    cbn in E. injection E as <- E. cbn in EX. eapply IH; eauto.
  - exfalso. destruct n as [|n]; [lia|]. clear N LK k.
    (* repeat false (S n) ++ false :: l ++ r' = l ++ r *)
    assert (E' : repeat false (S (S n)) ++ l ++ r' = l ++ r).
    { rewrite <- E. change (repeat false (S (S n))) with (false :: repeat false (S n)).
      rewrite (repeat_cons (S n) false), <- app_assoc. reflexivity. }
    specialize (IH _ _ _ _ E' eq_refl EX). discriminate.
Qed.
Lemma greedy ck rt cs t u v t' : Forall slash_free ck -> chunk_match ck cs = Some t -> cs = u ++ v -> noslash u ->
  chunk_match ck v = Some t' -> matches (Star :: rt) t' -> matches (Star :: rt) t.
Proof.
  intros SF C -> N C' M. apply chunk_split in C as (w & E & W). apply chunk_split in C' as (w' & -> & W').
  pose proof (slashes ck w SF W) as SW. pose proof (slashes ck w' SF W') as SW'.
  assert (LW : length w = length w') by (rewrite <- (map_length (fun c => c =? 47) w), <- (map_length (fun c => c =? 47) w'), SW, SW'; reflexivity).
  rewrite app_assoc in E.
  (* t = z ++ t' where z is the end of u ++ w' *)
  assert (exists z, u ++ w' = w ++ z /\ t = z ++ t') as (z & EZ & ->).
  { exists (skipn (length w) (u ++ w')). assert (L : (length w <= length (u ++ w'))%nat) by (rewrite app_length; lia).
    pose proof (f_equal (firstn (length w)) E) as E1. rewrite (firstn_app (length w) (u ++ w') t') in E1.
    replace (length w - length (u ++ w'))%nat with 0%nat in E1 by lia. rewrite firstn_O, app_nil_r in E1.
    rewrite (firstn_app (length w) w t), firstn_all, Nat.sub_diag, firstn_O, app_nil_r in E1.
    pose proof (firstn_skipn (length w) (u ++ w')) as FS. rewrite E1 in FS.
    split; [now rewrite FS|]. rewrite <- FS, <- app_assoc in E. now apply app_inv_head in E. }
  apply star_spec in M as (u2 & v2 & -> & N2 & M). apply star_spec. exists (z ++ u2), v2. split; [now rewrite app_assoc|].
  split; [|assumption]. apply Forall_app; split; [|assumption].
  pose proof (f_equal (map (fun c => c =? 47)) EZ) as EM. rewrite !map_app, SW, SW' in EM.
  apply noslash_map in N. rewrite N in EM.
  destruct (existsb (fun b => b) (map is_slash ck)) eqn:EX.
  - assert (length u = 0%nat).
    { eapply (shift_slash (map is_slash ck) _ (map (fun c => c =? 47) z) [] (length u)); [|reflexivity|exact EX]. now rewrite app_nil_r. }
    destruct u; [|discriminate]. cbn in EZ.
    assert (z = []). { apply (f_equal (@length Z)) in EZ. rewrite app_length in EZ. destruct z; [reflexivity|cbn in EZ; lia]. }
    subst; constructor.
  - apply noslash_map.
    assert (AF : Forall (fun b => b = false) (repeat false (length u) ++ map is_slash ck)).
    { apply Forall_app; split; [clear; induction (length u); cbn; constructor; auto|]. apply Forall_forall. intros b I.
      destruct b; [|reflexivity]. assert (existsb (fun b => b) (map is_slash ck) = true) by (apply existsb_exists; exists true; auto). congruence. }
    rewrite EM in AF. apply Forall_app in AF as [_ AF]. clear -AF. induction z; cbn in *; [reflexivity|]. inversion AF; subst. f_equal; auto.
Qed.

(** ** Skipping *)
Lemma match_chunk_cont c ts ps : pattern ps (Lit c :: ts) -> text ps -> forall b s fuel, cont b -> (0 < fuel)%nat ->
  match_chunk fuel (utf8 ps) (b :: s) = MNo.
Proof.
  intros P T b s fuel B L. destruct fuel as [|fuel]; [lia|]. inversion P; subst.
  - inversion T as [|? ? R _]; subst. rewrite utf8_cons. destruct (enc1 c) as [|a t] eqn:E; [destruct (enc1_ne c E)|].
    cbn [app match_chunk].
    assert (A : a <> 91 /\ a <> 63 /\ a <> 92 /\ a <> b) by (unfold cont in B; destruct (enc1_head c a t R E) as [(-> & _ & ?)|(_ & ? & _)]; lia).
    replace (a =? 91) with false by lia; replace (a =? 63) with false by lia; replace (a =? 92) with false by lia;
    replace (a =? b) with false by lia. reflexivity.
  - inversion T as [|? ? _ T']; subst. inversion T' as [|? ? R _]; subst.
    rewrite !utf8_cons. change (enc1 92) with [92]. destruct (enc1 c) as [|a t] eqn:E; [destruct (enc1_ne c E)|].
    cbn [app match_chunk]. change (92 =? 91) with false; change (92 =? 63) with false; change (92 =? 92) with true; cbv iota.
    assert (A : a <> b) by (unfold cont in B; destruct (enc1_head c a t R E) as [(-> & _ & ?)|(_ & ? & _)]; lia).
    now replace (a =? b) with false by lia.
Qed.
Fixpoint cskip (ck : list term) (K : list Z -> outcome (option bool)) (last : bool) (cs : list Z) : outcome (option bool) :=
  match cs with
  | [] => Ok (Some false)
  | c :: cs =>
      if c =? 47 then Ok (Some false)
      else match chunk_match ck cs with
           | None => cskip ck K last cs
           | Some t => if last && negb (is_empty (utf8 t)) then cskip ck K last cs else K (utf8 t)
           end
  end.
Definition lit_first (ck : list term) : Prop := match ck with Lit _ :: _ => True | _ => False end.
Lemma skip_cont mc K last bs s : Forall cont bs -> (forall b r, cont b -> mc (b :: r) = MNo) -> bs <> [] ->
  skip_loop mc K last (bs ++ s) = match mc s with
           | MDiverge => Diverge
           | MBad => Ok None
           | MNo => skip_loop mc K last s
           | MOk t => if last && negb (is_empty t) then skip_loop mc K last s else K t
           end.
Proof.
  intros F H N. induction F as [|b bs B F IH]; [congruence|]. cbn [app skip_loop].
  replace (b =? 47) with false by (unfold cont in B; lia). destruct bs as [|b' bs]; [reflexivity|].
  inversion F; subst. cbn [app]. rewrite H by assumption. apply IH. discriminate.
Qed.
Lemma skip_utf8 ps ck K last : pattern ps ck -> star_free ck -> text ps -> ps <> [] -> forall cs, text cs -> ascii cs \/ lit_first ck ->
  skip_loop (match_chunk (length (utf8 ps)) (utf8 ps)) K last (utf8 cs) = cskip ck K last cs.
Proof.
  intros P SF T NE. induction cs as [|c cs IH]; intros TC A; [reflexivity|]. inversion TC as [|? ? R TC']; subst.
  assert (A' : ascii cs \/ lit_first ck) by (destruct A as [A|A]; [left; now inversion A|now right]). specialize (IH TC' A').
  pose proof (match_chunk_spec ps ck P SF T (length (utf8 ps)) cs TC' (Nat.le_refl _)) as MS.
  rewrite utf8_cons. destruct (enc1 c) as [|a t] eqn:E; [destruct (enc1_ne c E)|].
  cbn [cskip]. destruct (enc1_head c a t R E) as [(-> & -> & LT)|(GE & HA & TN & F)].
  - cbn [app skip_loop]. destruct (c =? 47); [reflexivity|].
    destruct (chunk_match ck cs) as [r|]; cbn in MS; rewrite MS; [|exact IH]. destruct (last && negb (is_empty (utf8 r))); [exact IH|reflexivity].
  - destruct A as [A|A]; [inversion A; lia|].
    assert (MC : forall b r, cont b -> match_chunk (length (utf8 ps)) (utf8 ps) (b :: r) = MNo).
    { intros b r B. destruct ck as [|[| |d|] ck]; cbn in A; try contradiction. apply (match_chunk_cont d ck); auto.
      destruct ps as [|p ps]; [congruence|]. pose proof (length_utf8 (p :: ps)); cbn in *; lia. }
    cbn [app skip_loop]. replace (a =? 47) with false by lia. replace (c =? 47) with false by lia.
    destruct t as [|b t]; [congruence|]. cbn [app]. inversion F as [|? ? B F']; subst. rewrite MC by assumption.
    change (b :: t ++ utf8 cs) with ((b :: t) ++ utf8 cs). rewrite skip_cont by (assumption || discriminate).
    destruct (chunk_match ck cs) as [r|]; cbn in MS; rewrite MS; [|exact IH]. destruct (last && negb (is_empty (utf8 r))); [exact IH|reflexivity].
Qed.

(** ** The loop *)
Definition reach (ck rt : list term) (cs : list Z) : Prop := exists u v t, cs = u ++ v /\ noslash u /\ chunk_match ck v = Some t /\ matches rt t.
Lemma reach_spec ck rt cs : star_free ck -> matches (Star :: ck ++ rt) cs <-> reach ck rt cs.
Proof.
  intros SF. rewrite star_spec. split.
  - intros (u & v & -> & N & M). apply chunk_spec in M as (t & C & M); [|assumption]. exists u, v, t; auto.
  - intros (u & v & t & -> & N & C & M). exists u, v. repeat split; auto. apply chunk_spec; [assumption|]. exists t; auto.
Qed.
Lemma reach_step ck rt cs : reach ck rt cs <->
  (exists t, chunk_match ck cs = Some t /\ matches rt t) \/ (exists c cs', cs = c :: cs' /\ c <> 47 /\ reach ck rt cs').
Proof.
  split.
  - intros (u & v & t & -> & N & C & M). destruct u as [|c u]; [left; exists t; auto|].
    right. inversion N; subst. exists c, (u ++ v). repeat split; auto. exists u, v, t; auto.
  - intros [(t & C & M)|(c & cs' & -> & N & (u & v & t & -> & NU & C & M))].
    + exists [], cs, t. repeat split; auto. constructor.
    + exists (c :: u), v, t. repeat split; auto. constructor; assumption.
Qed.
Lemma is_empty_utf8 cs : is_empty (utf8 cs) = is_empty cs.
Proof. destruct cs; [reflexivity|]. destruct (utf8 (z :: cs)) eqn:E; [destruct (utf8_ne _ _ E)|reflexivity]. Qed.
Lemma ascii_suffix w t : ascii (w ++ t) -> ascii t.
Proof. intros A; now apply Forall_app in A. Qed.
Lemma chunk_suffix ck cs t : chunk_match ck cs = Some t -> exists w, cs = w ++ t.
Proof. intros C; apply chunk_split in C as (w & -> & _); eauto. Qed.
Lemma anchored_app a b : stars_anchored (a ++ b) -> stars_anchored b.
Proof. induction a as [|t a IH]; cbn [app]; [auto|]. intros H; apply IH. destruct t; cbn [stars_anchored] in H; tauto. Qed.
Lemma existsb_slash cs : text cs -> existsb (fun c => c =? 47) (utf8 cs) = existsb (fun c => c =? 47) cs.
Proof.
  induction 1 as [|c cs R F IH]; [reflexivity|]. rewrite utf8_cons, existsb_app, IH. cbn [existsb]. f_equal.
  destruct (enc1 c) as [|a t] eqn:E; [destruct (enc1_ne c E)|].
  destruct (enc1_head c a t R E) as [(-> & -> & _)|(GE & HA & _ & FC)]; [cbn; apply orb_false_r|].
  cbn [existsb]. replace (a =? 47) with false by lia. replace (c =? 47) with false by lia. cbn [orb].
  clear -FC. induction FC as [|b t B]; [reflexivity|]. cbn. unfold cont in B. replace (b =? 47) with false by lia. assumption.
Qed.

Lemma match_main fuel : forall ps ts cs, pattern ps ts -> text ps -> text cs -> (length (utf8 ps) <= fuel)%nat ->
  Forall slash_free ts -> ascii cs \/ stars_anchored ts ->
  exists b, match_loop fuel (utf8 ps) (utf8 cs) = Ok (Some b) /\ (b = true <-> matches ts cs).
Proof.
  induction fuel as [|f IH]; intros ps ts cs P T TC L SL A.
  { destruct ps as [|p ps]; [|pose proof (length_utf8 (p :: ps)); cbn in *; lia]. inversion P; subst.
    exists (is_empty cs). cbn [match_loop utf8 map concat]. rewrite is_empty_utf8. split; [reflexivity|].
    destruct cs; cbn; split; try congruence; intros; try constructor. inversion H. }
  destruct ps as [|p ps].
  { inversion P; subst. exists (is_empty cs). cbn [match_loop utf8 map concat]. rewrite is_empty_utf8. split; [reflexivity|].
    destruct cs; cbn; split; try congruence; intros; try constructor. inversion H. }
  remember (p :: ps) as pp eqn:EPP.
  destruct (strip_stars_pattern pp ts P T false) as (n & r & tt & ES & ETS & PR & TR & EP & NS).
  destruct (scan_pattern r tt PR TR) as (ch & rs & ck & rt & ESC & ETT & PC & SF & PRS & SS & TCH & TRS & ER).
  assert (SCH : scan_chunk (utf8 pp) = (negb (n =? 0)%nat, utf8 ch, utf8 rs)).
  { unfold scan_chunk. rewrite strip_stars_utf8, ES by assumption. cbn [orb]. rewrite (scan_utf8 (length r)), ESC by (assumption || apply Nat.le_refl).
    reflexivity. }
  assert (NEU : utf8 pp <> []) by (rewrite EPP; apply utf8_ne).
  cbn [match_loop]. destruct (utf8 pp) as [|x y] eqn:EU; [congruence|]. rewrite SCH.
  assert (EMP : is_empty (utf8 ch) = is_empty ch) by apply is_empty_utf8.
  assert (CE : ch = [] -> ck = [] /\ rt = [] /\ rs = []).
  { intros ->. inversion PC; subst ck. repeat split. all: destruct rt as [|[| | |] rt]; cbn in SS; try contradiction; try reflexivity.
    - destruct (NS rt ETT).
    - inversion PRS; reflexivity.
    - destruct (NS rt ETT). }
  destruct (negb (n =? 0)%nat && is_empty (utf8 ch)) eqn:TRAIL.
  { rewrite EMP in TRAIL. assert (ch = []) by (destruct ch; [reflexivity|cbn in TRAIL; lia]). destruct (CE H) as (-> & -> & ->).
    exists (negb (existsb (fun c => c =? 47) cs)). rewrite existsb_slash by assumption. split; [reflexivity|].
    rewrite ETS, ETT. destruct n as [|n]; [cbn in TRAIL; lia|]. cbn [app]. rewrite stars_spec, star_spec. split.
    - intros N. exists cs, []. rewrite app_nil_r. repeat split; [|constructor]. apply Forall_forall. intros c I ->.
      assert (existsb (fun c => c =? 47) cs = true) by (apply existsb_exists; exists 47; auto). rewrite H0 in N; discriminate.
    - intros (u & v & -> & N & M). inversion M; subst. rewrite app_nil_r. destruct (existsb (fun c => c =? 47) u) eqn:EX; [|reflexivity].
      apply existsb_exists in EX as (c & I & E). unfold noslash in N. rewrite Forall_forall in N. specialize (N c I). lia. }
  assert (CN : ch <> []).
  { intros HC. rewrite EMP, HC in TRAIL. cbn in TRAIL. destruct n; [|cbn in TRAIL; lia]. destruct (CE HC) as (_ & _ & ->). rewrite HC in ER.
    rewrite ER in EP. cbn in EP. congruence. }
  rewrite ETT in ETS. rewrite ETS in SL, A. apply Forall_app in SL as [_ SL]. apply Forall_app in SL as [SLC SLR].
  assert (AR : forall t, (exists w, cs = w ++ t) -> ascii t \/ stars_anchored rt).
  { intros t (w & ->). destruct A as [A|A]; [left; now apply ascii_suffix in A|right]. now apply anchored_app, anchored_app in A. }
  assert (TT : forall t, (exists w, cs = w ++ t) -> text t) by (intros t (w & ->); now apply Forall_app in TC).
  assert (LR : (length (utf8 rs) <= f)%nat).
  { rewrite EP, ER in EU. apply (f_equal (@length Z)) in EU. rewrite !utf8_app, !app_length in EU.
    destruct ch as [|c0 ch]; [congruence|]. pose proof (length_utf8 (c0 :: ch)). cbn [length] in *. lia. }
  assert (KS : forall t, (exists w, cs = w ++ t) -> exists b, match_loop f (utf8 rs) (utf8 t) = Ok (Some b) /\ (b = true <-> matches rt t)).
  { intros t W. apply IH; auto. }
  assert (RN : is_empty (utf8 rs) = true -> rt = []).
  { rewrite is_empty_utf8. destruct rs; [|discriminate]. intros _. inversion PRS; reflexivity. }
  assert (RN' : is_empty (utf8 rs) = false -> exists rt', rt = Star :: rt').
  { rewrite is_empty_utf8. destruct rs; [discriminate|]. intros _. destruct rt as [|[| | |] rt]; cbn in SS; try contradiction; [inversion PRS|eauto]. }
  pose proof (match_chunk_spec ch ck PC SF TCH (length (utf8 ch)) cs TC (Nat.le_refl _)) as MS.
  (* a good position decides *)
  assert (GOOD : forall v t, chunk_match ck v = Some t -> is_empty (utf8 t) || negb (is_empty (utf8 rs)) = true -> reach ck rt v <-> matches rt t).
  { intros v t C G. split.
    - intros (u & v' & t' & E & N & C' & M). destruct (is_empty (utf8 rs)) eqn:ERS.
      + rewrite orb_false_r, is_empty_utf8 in G. destruct t; [|discriminate]. rewrite (RN eq_refl). constructor.
      + destruct (RN' eq_refl) as (rt' & ->). exact (greedy ck rt' v t u v' t' SLC C E N C' M).
    - intros M. exists [], v, t. repeat split; auto. constructor. }
  (* a bad one does not count *)
  assert (BADP : forall v t, chunk_match ck v = Some t -> is_empty (utf8 t) || negb (is_empty (utf8 rs)) = false -> ~ matches rt t).
  { intros v t C G M. apply orb_false_iff in G as [G1 G2]. apply negb_false_iff in G2. rewrite (RN G2) in M. inversion M; subst. discriminate. }
  assert (SKIP : forall v, (exists w, cs = w ++ v) -> exists b, cskip ck (match_loop f (utf8 rs)) (is_empty (utf8 rs)) v = Ok (Some b) /\
            (b = true <-> exists c v', v = c :: v' /\ c <> 47 /\ reach ck rt v')).
  { induction v as [|c v IHv]; intros W; cbn [cskip].
    - exists false. split; [reflexivity|]. split; [discriminate|]. intros (? & ? & ? & _); discriminate.
    - destruct (Z.eqb_spec c 47) as [->|NC].
      + exists false. split; [reflexivity|]. split; [discriminate|]. intros (? & ? & E & N & _). congruence.
      + assert (W' : exists w, cs = w ++ v) by (destruct W as (w & ->); exists (w ++ [c]); now rewrite <- app_assoc).
        assert (CONT : (~ exists t, chunk_match ck v = Some t /\ matches rt t) -> exists b,
                  cskip ck (match_loop f (utf8 rs)) (is_empty (utf8 rs)) v = Ok (Some b) /\
                  (b = true <-> exists c' v', c :: v = c' :: v' /\ c' <> 47 /\ reach ck rt v')).
        { intros NO. destruct (IHv W') as (b & E & B). exists b. split; [assumption|]. rewrite B. split.
          - intros R. exists c, v. repeat split; auto. apply reach_step. now right.
          - intros (c' & v' & E' & N & R). injection E' as <- <-. apply reach_step in R as [R|R]; [contradiction|assumption]. }
        destruct (chunk_match ck v) as [t|] eqn:C.
        * destruct (is_empty (utf8 t) || negb (is_empty (utf8 rs))) eqn:G.
          -- replace (is_empty (utf8 rs) && negb (is_empty (utf8 t))) with false by (destruct (is_empty (utf8 rs)), (is_empty (utf8 t)); cbn in *; congruence).
             destruct (KS t) as (b & E & B). { destruct W' as (w & ->). destruct (chunk_suffix _ _ _ C) as (w2 & ->). exists (w ++ w2). now rewrite app_assoc. }
             exists b. split; [assumption|]. rewrite B, <- (GOOD v t C G). split.
             ++ intros R. exists c, v. auto.
             ++ intros (c' & v' & E' & N & R). now injection E' as <- <-.
          -- replace (is_empty (utf8 rs) && negb (is_empty (utf8 t))) with true by (destruct (is_empty (utf8 rs)), (is_empty (utf8 t)); cbn in *; congruence).
             apply CONT. intros (t' & E & M). injection E as <-. exact (BADP v t C G M).
        * apply CONT. intros (t' & E & _). discriminate. }
  assert (SKIPU : forall n', n = S n' -> skip_loop (match_chunk (length (utf8 ch)) (utf8 ch)) (match_loop f (utf8 rs)) (is_empty (utf8 rs)) (utf8 cs)
            = cskip ck (match_loop f (utf8 rs)) (is_empty (utf8 rs)) cs).
  { intros n' EN. apply skip_utf8; auto. destruct A as [A|A]; [now left|right]. subst n.
    destruct ck as [|[| |d|] ck]; [|inversion SF; congruence|..]; cbn; auto.
    - inversion PC; subst; congruence.
    - exfalso. clear -A. induction n'; cbn in A; [tauto|]. apply IHn'. cbn. cbn in A. tauto.
    - exfalso. clear -A. induction n'; cbn in A; [tauto|]. apply IHn'. cbn. cbn in A. tauto. }
  assert (W0 : exists w, cs = w ++ cs) by (exists []; reflexivity).
  rewrite ETS.
  assert (NO : (~ exists t, chunk_match ck cs = Some t /\ matches rt t) -> exists b,
     (if negb (n =? 0)%nat then skip_loop (match_chunk (length (utf8 ch)) (utf8 ch)) (match_loop f (utf8 rs)) (is_empty (utf8 rs)) (utf8 cs)
      else Ok (Some false)) = Ok (Some b) /\ (b = true <-> matches (repeat Star n ++ ck ++ rt) cs)).
  { intros NO. destruct n as [|n]; cbn [Nat.eqb negb].
    - exists false. split; [reflexivity|]. cbn [repeat app]. rewrite chunk_spec by assumption. split; [discriminate|contradiction].
    - rewrite (SKIPU n eq_refl). destruct (SKIP cs W0) as (b & E & B). exists b. split; [assumption|].
      rewrite B, stars_spec, reach_spec, reach_step by assumption. tauto. }
  destruct (chunk_match ck cs) as [t|] eqn:C; cbn in MS; rewrite MS.
  - destruct (is_empty (utf8 t) || negb (is_empty (utf8 rs))) eqn:G.
    + destruct (KS t) as (b & E & B). { destruct (chunk_suffix _ _ _ C) as (w & ->). exists w; reflexivity. }
      exists b. split; [assumption|]. rewrite B. destruct n as [|n].
      * cbn [repeat app]. rewrite chunk_spec by assumption. rewrite C. split; [intros M; exists t; auto|intros (t' & E' & M); now injection E' as <-].
      * rewrite stars_spec, reach_spec by assumption. symmetry. apply GOOD; assumption.
    + apply NO. intros (t' & E' & M). injection E' as <-. exact (BADP cs t C G M).
  - apply NO. intros (t' & E' & _); discriminate.
Qed.
