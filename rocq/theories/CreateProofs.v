From Coq Require Import ZArith List Bool Arith Lia.
From Verif Require Import GoBase CreateModel CreateSpec.
Import ListNotations.
Local Open Scope nat_scope.

Lemma os_open_spec : forall limit readable gc st,
  os_open limit readable gc st =
  if can_open limit readable gc st
  then (CSt (cs_entry st) (S (cs_used (collect gc st))) (S (cs_leaked (collect gc st))) (S (cs_time st)), true)
  else (collect gc st, false).
Proof.
  intros. unfold os_open, can_open. cbn [collect cs_used cs_entry cs_time cs_leaked].
  destruct (cs_entry st) as [e|]; destruct (Nat.ltb_spec (cs_used st - Nat.min (gc (cs_time st)) (cs_leaked st)) limit); destruct readable; reflexivity.
Qed.

Lemma not_open : forall fuel limit readable writable gc st, can_open limit readable gc st = false ->
  fs_create (S fuel) limit readable writable gc st = Ok (collect gc st, None).
Proof. intros. cbn [fs_create]. rewrite os_open_spec, H. reflexivity. Qed.

Lemma collect_entry : forall gc st, cs_entry (collect gc st) = cs_entry st.
Proof. reflexivity. Qed.
Lemma collect_sound : forall limit gc st, sound limit st -> sound limit (collect gc st).
Proof. intros limit gc st [A B]. unfold sound. cbn [collect cs_leaked cs_used]. lia. Qed.

Lemma never_collect : forall st, collect never st = CSt (cs_entry st) (cs_used st) (cs_leaked st) (S (cs_time st)).
Proof. intros. unfold collect, never. cbn. rewrite !Nat.sub_0_r. reflexivity. Qed.

(** Without collection. *)
Lemma exhaust : forall n fuel limit writable st, limit - cs_used st = S n -> sound limit st -> exists_ st -> S n < fuel ->
  exists time, fs_create fuel limit true writable never st =
    Ok (CSt (cs_entry st) limit (cs_leaked st + S n) time, Some EMfile).
Proof.
  induction n as [|n IH]; intros fuel limit writable st L [A B] EX F; (destruct fuel as [|fuel]; [lia|]).
  - cbn [fs_create]. rewrite os_open_spec. unfold can_open. destruct (cs_entry st) as [e|] eqn:E; [|elim EX; exact E].
    cbn [never]. rewrite Nat.min_0_l, Nat.sub_0_r. destruct (Nat.ltb_spec (cs_used st) limit); [|lia]. cbn [andb].
    rewrite never_collect. cbn [cs_used cs_leaked].
    destruct fuel as [|fuel]; [lia|]. rewrite not_open.
    2:{ unfold can_open. cbn [cs_entry cs_used cs_time cs_leaked never]. rewrite Nat.min_0_l, Nat.sub_0_r.
        destruct (Nat.ltb_spec (S (cs_used st)) limit); [lia|reflexivity]. }
    rewrite never_collect. cbn [bind cs_used cs_leaked cs_entry cs_time]. unfold os_create. rewrite never_collect. cbn [cs_used cs_entry cs_leaked cs_time].
    destruct (Nat.ltb_spec (S (cs_used st)) limit); [lia|]. eexists.
    replace (S (cs_used st)) with limit by lia. replace (cs_leaked st + 1) with (S (cs_leaked st)) by lia. reflexivity.
  - cbn [fs_create]. rewrite os_open_spec. unfold can_open. destruct (cs_entry st) as [e|] eqn:E; [|elim EX; exact E].
    cbn [never]. rewrite Nat.min_0_l, Nat.sub_0_r. destruct (Nat.ltb_spec (cs_used st) limit); [|lia]. cbn [andb].
    rewrite never_collect. cbn [cs_used cs_leaked].
    destruct (IH fuel limit writable (CSt (Some e) (S (cs_used st)) (S (cs_leaked st)) (S (cs_time st)))) as [time R].
    + cbn. lia.
    + unfold sound. cbn. lia.
    + discriminate.
    + lia.
    + rewrite R. cbn [bind]. eexists. cbn [cs_entry cs_leaked]. replace (cs_leaked st + S (S n)) with (S (cs_leaked st) + S n) by lia. reflexivity.
Qed.

(** With any collection. *)
Lemma create_any : forall fuel limit readable writable gc st st' r,
  fs_create fuel limit readable writable gc st = Ok (st', r) -> sound limit st ->
  sound limit st' /\
  (can_open limit readable gc st = false -> r = None /\ cs_entry st' = cs_entry st) /\
  (can_open limit readable gc st = true ->
     (r = None /\ (exists c, cs_entry st = Some (EFile c)) /\ cs_entry st' = Some (EFile []) /\ writable = true) \/
     (r <> None /\ (cs_entry st' = cs_entry st \/ (exists c, cs_entry st = Some (EFile c)) /\ cs_entry st' = Some (EFile []) /\ writable = true))).
Proof.
  induction fuel as [|fuel IH]; intros limit readable writable gc st st' r E S; [discriminate|].
  destruct (can_open limit readable gc st) eqn:CO.
  - cbn [fs_create] in E. rewrite os_open_spec, CO in E.
    set (s1 := CSt (cs_entry st) (Datatypes.S (cs_used (collect gc st))) (Datatypes.S (cs_leaked (collect gc st))) (Datatypes.S (cs_time st))) in E.
    assert (S1: sound limit s1).
    { unfold can_open in CO. destruct (cs_entry st); [|discriminate]. apply andb_prop in CO as [_ CO]. apply Nat.ltb_lt in CO.
      destruct S as [A B]. unfold sound, s1. cbn [cs_leaked cs_used collect]. lia. }
    destruct (fs_create fuel limit readable writable gc s1) as [[s2 r2]| |] eqn:E2; cbn [bind] in E; try discriminate.
    destruct (IH _ _ _ _ _ _ _ E2 S1) as (S2 & NO & YES).
    change (cs_entry s1) with (cs_entry st) in NO, YES.
    assert (EN: cs_entry s2 = cs_entry st \/ (exists c, cs_entry st = Some (EFile c)) /\ cs_entry s2 = Some (EFile []) /\ writable = true).
    { destruct (can_open limit readable gc s1); [destruct (YES eq_refl) as [(_ & A & B)|(_ & A)]; auto|left; apply NO; reflexivity]. }
    assert (SO: exists e, cs_entry st = Some e).
    { unfold can_open in CO. destruct (cs_entry st); [eauto|discriminate]. }
    destruct r2 as [e|].
    + injection E as <- <-. split; [exact S2|]. split; [discriminate|]. intros _. right. split; [discriminate|exact EN].
    + injection E as E. unfold os_create in E.
      pose proof (collect_sound limit gc s2 S2) as S3. rewrite collect_entry in E.
      destruct (Nat.ltb_spec (cs_used (collect gc s2)) limit) as [LT|GE].
      * destruct (cs_entry s2) as [[c|]|] eqn:E3.
        -- destruct writable.
           ++ injection E as <- <-. split; [destruct S3 as [P Q]; split; cbn [cs_leaked cs_used]; [apply le_n_S; exact P|exact LT]|]. split; [discriminate|]. intros _. left.
              split; [reflexivity|]. split; [|split; reflexivity].
              destruct EN as [EN|[EN _]]; [exists c; congruence|exact EN].
           ++ injection E as <- <-. split; [exact S3|]. split; [discriminate|]. intros _. right. split; [discriminate|]. rewrite collect_entry, E3.
              destruct EN as [EN|(_ & _ & EN)]; [left; congruence|discriminate EN].
        -- injection E as <- <-. split; [exact S3|]. split; [discriminate|]. intros _. right. split; [discriminate|]. rewrite collect_entry, E3.
           destruct EN as [EN|(_ & EN & _)]; [left; congruence|discriminate EN].
        -- exfalso. destruct EN as [EN|(_ & EN & _)]; [destruct SO; congruence|discriminate EN].
      * injection E as <- <-. split; [exact S3|]. split; [discriminate|]. intros _. right. split; [discriminate|]. rewrite collect_entry. exact EN.
  - rewrite not_open in E by exact CO. injection E as <- <-. split; [apply collect_sound; exact S|].
    split; [intros _; split; reflexivity|discriminate].
Qed.

(** With immediate collection. *)
Lemma forever : forall fuel limit writable st, exists_ st -> cs_used st - Nat.min 1 (cs_leaked st) < limit -> sound limit st ->
  fs_create fuel limit true writable always st = Diverge.
Proof.
  induction fuel as [|fuel IH]; intros limit writable st EX L [A B]; [reflexivity|].
  cbn [fs_create]. rewrite os_open_spec. unfold can_open. destruct (cs_entry st) as [e|] eqn:E; [|elim EX; exact E].
  change (always (cs_time st)) with 1. destruct (Nat.ltb_spec (cs_used st - Nat.min 1 (cs_leaked st)) limit); [|lia]. cbn [andb].
  rewrite IH; [reflexivity|discriminate| |].
  - cbn [cs_used cs_leaked collect]. change (always (cs_time st)) with 1. lia.
  - unfold sound. cbn [cs_used cs_leaked collect]. change (always (cs_time st)) with 1. lia.
Qed.

(** If the collector stops, the recursion ends. *)
Lemma level_ends : forall limit readable writable gc st,
  (can_open limit readable gc st = true -> exists fuel r, fs_create fuel limit readable writable gc
     (CSt (cs_entry st) (S (cs_used (collect gc st))) (S (cs_leaked (collect gc st))) (S (cs_time st))) = Ok r) ->
  exists fuel r, fs_create fuel limit readable writable gc st = Ok r.
Proof.
  intros limit readable writable gc st H. destruct (can_open limit readable gc st) eqn:C.
  - destruct (H eq_refl) as (fuel & [s2 r2] & R). exists (S fuel). cbn [fs_create]. rewrite os_open_spec, C, R. cbn [bind].
    destruct r2; eauto.
  - exists 1. rewrite not_open by exact C. eauto.
Qed.
Lemma ends_quiet : forall n limit readable writable gc st, (forall t, cs_time st <= t -> gc t = 0) -> limit - cs_used st <= n ->
  exists fuel r, fs_create fuel limit readable writable gc st = Ok r.
Proof.
  induction n as [|n IH]; intros limit readable writable gc st Q L; apply level_ends; intro C.
  - exfalso. unfold can_open in C. destruct (cs_entry st); [|discriminate]. rewrite Q in C by lia. apply andb_prop in C as [_ C]. apply Nat.ltb_lt in C. lia.
  - apply IH.
    + intros t T. apply Q. cbn [cs_time] in T. lia.
    + cbn [cs_used collect]. rewrite Q by lia. lia.
Qed.
Lemma ends : forall quiet n limit readable writable gc st, (forall t, quiet <= t -> gc t = 0) -> quiet - cs_time st <= n ->
  exists fuel r, fs_create fuel limit readable writable gc st = Ok r.
Proof.
  intros quiet. induction n as [|n IH]; intros limit readable writable gc st Q L.
  - apply (ends_quiet (limit - cs_used st)); [intros t T; apply Q; lia|lia].
  - apply level_ends. intros _. apply IH; [exact Q|cbn [cs_time]; lia].
Qed.

(** The depth does not matter once it suffices. *)
Lemma fuel_more : forall fuel more limit readable writable gc st r, fs_create fuel limit readable writable gc st = Ok r -> fuel <= more ->
  fs_create more limit readable writable gc st = Ok r.
Proof.
  induction fuel as [|fuel IH]; intros more limit readable writable gc st r E L; [discriminate|].
  destruct more as [|more]; [lia|]. cbn [fs_create] in E |- *. rewrite os_open_spec in *.
  destruct (can_open limit readable gc st); [|exact E].
  destruct (fs_create fuel limit readable writable gc _) as [x| |] eqn:R in E; try discriminate.
  rewrite (IH more _ _ _ _ _ _ R) by lia. exact E.
Qed.

(** Packaged for the property file. *)
Lemma returns_nil_partial : forall fuel limit readable writable gc st st',
  sound limit st -> can_open limit readable gc st = true ->
  fs_create fuel limit readable writable gc st = Ok (st', None) ->
  cs_entry st' = Some (EFile []) /\ exists old, cs_entry st = Some (EFile old).
Proof.
  intros fuel limit readable writable gc st st' S C E. destruct (create_any _ _ _ _ _ _ _ _ E S) as (_ & _ & Y).
  destruct (Y C) as [(_ & A & B & _)|(N & _)]; [auto|elim N; reflexivity].
Qed.
Lemma unopened : forall fuel limit readable writable gc st, can_open limit readable gc st = false ->
  exists st', fs_create (S fuel) limit readable writable gc st = Ok (st', None) /\ cs_entry st' = cs_entry st /\
    cs_used st' <= cs_used st.
Proof.
  intros. rewrite not_open by assumption. eexists. split; [reflexivity|]. split; [reflexivity|]. cbn [cs_used collect]. lia.
Qed.
Lemma missing : forall fuel limit readable writable gc st, cs_entry st = None ->
  exists st', fs_create (S fuel) limit readable writable gc st = Ok (st', None) /\ cs_entry st' = None.
Proof.
  intros. destruct (unopened fuel limit readable writable gc st) as (s & A & B & _); [unfold can_open; rewrite H; reflexivity|].
  exists s. split; [exact A|congruence].
Qed.
Lemma nil_false : exists fuel limit gc st st',
  sound limit st /\ cs_used st < limit /\ fs_create fuel limit true true gc st = Ok (st', None) /\ ~ exists_ st'.
Proof.
  exists 1, 5, never, (CSt None 3 0 0). eexists. split; [unfold sound; cbn; lia|]. split; [cbn; lia|]. split; [reflexivity|].
  intro H. apply H. reflexivity.
Qed.
Lemma keeps_partial : forall fuel limit readable writable gc st st' r,
  sound limit st -> fs_create fuel limit readable writable gc st = Ok (st', r) ->
  (writable = false \/ cs_entry st = Some EDir \/ cs_entry st = None \/ (forall t, gc t = 0)) -> cs_entry st' = cs_entry st.
Proof.
  intros fuel limit readable writable gc st st' r S E H.
  destruct (create_any _ _ _ _ _ _ _ _ E S) as (_ & N & Y).
  destruct (can_open limit readable gc st) eqn:C; [|apply N; reflexivity].
  destruct H as [H|[H|[H|H]]].
  - destruct (Y eq_refl) as [(_ & _ & _ & W)|(_ & [A|(_ & _ & W)])]; congruence.
  - destruct (Y eq_refl) as [(_ & [c A] & _)|(_ & [A|([c A] & _)])]; congruence.
  - unfold can_open in C. rewrite H in C. discriminate.
  - assert (EQ: forall fuel st, fs_create fuel limit readable writable gc st = fs_create fuel limit readable writable never st).
    { assert (CO: forall s, collect gc s = collect never s) by (intro s; unfold collect; rewrite H; reflexivity).
      induction fuel0 as [|f IH]; intros s; [reflexivity|]. cbn [fs_create].
      assert (OO: os_open limit readable gc s = os_open limit readable never s) by (unfold os_open; rewrite CO; reflexivity).
      rewrite OO. destruct (os_open limit readable never s) as [s1 []]; [|reflexivity]. rewrite IH.
      destruct (fs_create f limit readable writable never s1) as [[s2 [e2|]]| |]; cbn [bind]; try reflexivity.
      unfold os_create. rewrite CO. reflexivity. }
    rewrite EQ in E. unfold can_open in C. destruct (cs_entry st) as [e|] eqn:EN; [|discriminate].
    apply andb_prop in C as [-> C]. rewrite H in C. rewrite Nat.min_0_l, Nat.sub_0_r in C. apply Nat.ltb_lt in C.
    destruct (exhaust (limit - Datatypes.S (cs_used st)) (fuel + limit + 2) limit writable st) as [time R]; [lia|exact S|unfold exists_; congruence|lia|].
    rewrite (fuel_more _ (fuel + limit + 2) _ _ _ _ _ _ E) in R by lia. injection R as -> _. cbn [cs_entry]. exact EN.
Qed.
(** One collection, after the last failed open. *)
Definition late (t : nat) : nat := if t =? 3 then 1 else 0.
Lemma keeps_false : exists fuel limit gc old st st' r,
  sound limit st /\ cs_entry st = Some (EFile old) /\ old <> [] /\
  fs_create fuel limit true true gc st = Ok (st', r) /\ r <> None /\ cs_entry st' = Some (EFile []).
Proof.
  exists 5, 5, late, [7%Z], (CSt (Some (EFile [7%Z])) 3 0 0). eexists _, _. split; [unfold sound; cbn; lia|]. split; [reflexivity|]. split; [discriminate|].
  split; [vm_compute; reflexivity|]. split; [discriminate|reflexivity].
Qed.
Lemma dir_never_nil : forall fuel limit gc readable writable st st' r, sound limit st -> cs_entry st = Some EDir ->
  can_open limit readable gc st = true -> fs_create fuel limit readable writable gc st = Ok (st', r) -> r <> None.
Proof.
  intros fuel limit gc readable writable st st' r S D C E -> . destruct (returns_nil_partial _ _ _ _ _ _ _ S C E) as [_ [c A]]. congruence.
Qed.
Lemma descriptors : forall limit writable st, sound limit st -> exists_ st -> cs_used st < limit ->
  exists depth, forall fuel, depth <= fuel -> exists st', fs_create fuel limit true writable never st = Ok (st', Some EMfile) /\
    cs_used st' = limit /\ cs_entry st' = cs_entry st.
Proof.
  intros limit writable st S EX L. exists (limit + 2). intros fuel F.
  destruct (exhaust (limit - Datatypes.S (cs_used st)) fuel limit writable st) as [time R]; [lia|exact S|exact EX|lia|].
  eexists. split; [exact R|]. split; reflexivity.
Qed.
Lemma stops : forall limit readable writable gc st, (exists quiet, forall t, quiet <= t -> gc t = 0) ->
  exists depth r, forall fuel, depth <= fuel -> fs_create fuel limit readable writable gc st = Ok r.
Proof.
  intros limit readable writable gc st [quiet Q]. destruct (ends quiet (quiet - cs_time st) limit readable writable gc st Q (le_n _)) as (d & r & R).
  exists d, r. intros fuel F. apply (fuel_more d); assumption.
Qed.
Lemma overflow : exists limit st, sound limit st /\ exists_ st /\ forall fuel, fs_create fuel limit true true always st = Diverge.
Proof.
  exists 5, (CSt (Some (EFile [7%Z])) 3 0 0). split; [unfold sound; cbn; lia|]. split; [discriminate|].
  intro fuel. apply forever; [discriminate|cbn; lia|unfold sound; cbn; lia].
Qed.
Lemma leak_false : exists limit st st' fuel r, sound limit st /\ exists_ st /\
  fs_create fuel limit true true never st = Ok (st', r) /\ cs_used st < cs_used st'.
Proof.
  exists 5, (CSt (Some (EFile [7%Z])) 3 0 0). eexists _, 5, _. split; [unfold sound; cbn; lia|]. split; [discriminate|]. split; [vm_compute; reflexivity|].
  cbn. lia.
Qed.

Lemma leaves_open : forall fuel limit readable writable gc st st',
  fs_create fuel limit readable writable gc st = Ok (st', None) -> can_open limit readable gc st = true -> 1 <= cs_leaked st'.
Proof.
  intros fuel limit readable writable gc st st' E C. destruct fuel as [|fuel]; [discriminate|].
  cbn [fs_create] in E. rewrite os_open_spec, C in E.
  destruct (fs_create fuel limit readable writable gc _) as [[s2 [e|]]| |] in E; cbn [bind] in E; try discriminate.
  injection E as E. unfold os_create in E. rewrite collect_entry in E.
  destruct (cs_used (collect gc s2) <? limit); [|discriminate].
  destruct (cs_entry s2) as [[c|]|]; try discriminate; destruct writable; try discriminate; injection E as <-; cbn [cs_leaked]; lia.
Qed.
