From Coq Require Import ZArith List Bool Lia Relations.
From Verif Require Import GoBase GoStrings PathModel PathSpec PathProofs FsModel LinkSpec LinkModel LinkProofs LinkMore LoopSpec LoopModel.
Import ListNotations.
Open Scope Z_scope.

(** ** What is left of the limit *)
Lemma walk_rest fs : forall r p d c, walk r true fs p d = Found c -> exists r', (r' <= r)%nat /\ forall q, walk r true fs (p ++ q) d = walk r' true fs q c.
Proof.
  induction r as [|r IH]; intros p; induction p as [|x p IHp]; intros d c E.
  - rewrite walk_nil in E. injection E as <-. exists 0%nat. split; [lia|reflexivity].
  - setoid_rewrite (walk_cons 0 true fs x). cbn [app]. rewrite walk_cons in E. destruct (fs d) as [[|up es|]|]; try discriminate.
    destruct (idle x); [now apply IHp|]. destruct (upward x); [now apply IHp|].
    destruct (find x es) as [k|]; [|discriminate]. destruct (fs k) as [[|u ee|t]|]; try discriminate; try (now apply IHp).
    unfold hop in E. destruct p, t; discriminate.
  - rewrite walk_nil in E. injection E as <-. exists (S r). split; [lia|reflexivity].
  - cbn [app]. setoid_rewrite (walk_cons (S r) true fs x). rewrite walk_cons in E. destruct (fs d) as [[|up es|]|]; try discriminate.
    destruct (idle x); [now apply IHp|]. destruct (upward x); [now apply IHp|].
    destruct (find x es) as [k|]; [|discriminate]. destruct (fs k) as [[|u ee|t]|]; try discriminate; try (now apply IHp).
    unfold hop in *. destruct t as [|b t]; [destruct p; discriminate|].
    assert (E' : walk r true fs (cut [] (b :: t) ++ p) (begins d (b :: t)) = Found c) by (destruct p; exact E).
    destruct (IH _ _ _ E') as (r' & L & K). exists r'. split; [lia|]. intros q. rewrite <- K, <- app_assoc. destruct (p ++ q); reflexivity.
Qed.
Lemma walk_one fs r x i j : name x -> walk r true fs [x] i = Found j -> exists up es c, fs i = Some (NDir up es) /\ find x es = Some c /\
  exists r', (forall q, walk r true fs (x :: q) i = walk r' true fs q j) /\ ((r' = r /\ c = j) \/ (r' < r)%nat).
Proof.
  intros Hx E. destruct (name_kind _ Hx) as [I U]. pose proof E as E0. rewrite walk_cons, I, U in E. destruct (fs i) as [[|up es|]|] eqn:Ei; try discriminate.
  destruct (find x es) as [c|] eqn:F; [|discriminate]. exists up, es, c. split; [reflexivity|]. split; [exact F|].
  destruct (fs c) as [[b|u e|t]|] eqn:Ec; try discriminate.
  - rewrite walk_nil in E. injection E as <-. exists r. split; [|now left]. intros q. now rewrite walk_cons, Ei, I, U, F, Ec.
  - rewrite walk_nil in E. injection E as <-. exists r. split; [|now left]. intros q. now rewrite walk_cons, Ei, I, U, F, Ec.
  - unfold hop in E. destruct t as [|b t]; [discriminate|]. destruct r as [|r]; [discriminate|]. rewrite app_nil_r in E.
    destruct (walk_rest _ _ _ _ _ E) as (r' & L & K). exists r'. split; [|right; lia]. intros q. rewrite walk_cons, Ei, I, U, F, Ec.
    unfold hop. rewrite K. destruct q; reflexivity.
Qed.
Lemma walk_kind fs : sound fs -> forall r l d j, l <> [] -> walk r true fs l d = Found j -> (exists b, fs j = Some (NFile b)) \/ (exists up es, fs j = Some (NDir up es)).
Proof.
  intros (_ & U & _) r. induction r as [|r IH]; intros l; induction l as [|x l IHl]; intros d j N E; [congruence| |congruence|];
    rewrite walk_cons in E; destruct (fs d) as [[|up es|]|] eqn:Ed; try discriminate;
    (destruct (idle x); [destruct l; [rewrite walk_nil in E; injection E as <-; eauto|eapply IHl; eauto; discriminate]|]);
    (destruct (upward x); [destruct l; [rewrite walk_nil in E; injection E as <-; right; destruct (U _ _ _ Ed) as (? & ? & ?); eauto|eapply IHl; eauto; discriminate]|]);
    (destruct (find x es) as [c|]; [|discriminate]); destruct (fs c) as [[b|u e|t]|] eqn:Ec; try discriminate;
    try (destruct l; [rewrite walk_nil in E; injection E as <-; eauto|eapply IHl; eauto; discriminate]);
    unfold hop in E; destruct t as [|b t]; try (destruct l; discriminate).
  assert (E' : walk r true fs (cut [] (b :: t) ++ l) (begins d (b :: t)) = Found j) by (destruct l; exact E). eapply IH; [|exact E'].
  rewrite cut_eq. pose proof (segments_ne (b :: t)). destruct (segments (b :: t)); [congruence|discriminate].
Qed.
Lemma walk_same fs l d a b i j : walk a true fs l d = Found i -> walk b true fs l d = Found j -> i = j.
Proof.
  intros A B. pose proof (walk_more _ _ _ _ _ _ A ltac:(discriminate) b) as A'. pose proof (walk_more _ _ _ _ _ _ B ltac:(discriminate) a) as B'.
  rewrite Nat.add_comm in B'. congruence.
Qed.

(** ** Paths of entries *)
Lemma clean_names r cs : Forall name cs -> forall st, fold_left (clean_step r) cs st = rev cs ++ st.
Proof.
  induction 1 as [|x cs Hx _ IH]; intros st; [reflexivity|]. cbn [fold_left]. unfold clean_step at 2. rewrite <- idle_eq, <- upward_eq.
  destruct (name_kind _ Hx) as [-> ->]. rewrite IH. cbn. now rewrite <- app_assoc.
Qed.
Lemma clean_ups k : forall st, (forall x r, st = x :: r -> x = dd) -> fold_left (clean_step false) (repeat dd k) st = repeat dd k ++ st.
Proof.
  induction k as [|k IH]; intros st H; [reflexivity|]. cbn [repeat fold_left].
  replace (clean_step false st dd) with (dd :: st).
  - rewrite IH by (intros x r [= <- _]; reflexivity). clear. induction k as [|k IH]; [reflexivity|]. cbn. now rewrite IH.
  - unfold clean_step. cbn [dd]. destruct st as [|x st]; [reflexivity|]. rewrite (H _ _ eq_refl). reflexivity.
Qed.
(** The path of an entry leads where the name leads from the directory. *)
Lemma walk_child_f f lim fs cwd p x q : sound fs -> canonical p -> name x ->
  canonical (path_joins p [x]) /\ walk lim f fs (cut [] (path_joins p [x]) ++ q) (begins cwd (path_joins p [x])) = walk lim f fs (cut [] p ++ x :: q) (begins cwd p).
Proof.
  intros ([er Er] & _) C Hx. assert (Np : p <> []) by (intros ->; destruct C as [(cs & _ & E)|(k & cs & H & E)];
    [rewrite abs_path_join in E; discriminate|destruct k; [destruct cs as [|y [|]]; [discriminate| |destruct y; discriminate]; apply Forall_cons_iff in H as [[Ny _] _]; cbn in E; congruence|destruct k, cs; discriminate]]).
  split; [apply clean_canonical|]. unfold path_joins. rewrite joins_first by auto. cbn [join_slash].
  rewrite !cut_eq, !begins_eq. unfold file_path, clean.
  assert (Rr : is_rooted (p ++ 47 :: x) = is_rooted p) by (destruct p; [congruence|reflexivity]). rewrite Rr, segments_app, (segments_one x) by (now apply name_flat).
  destruct C as [(cs & H & ->)|(k & cs & H & ->)].
  - rewrite is_rooted_abs, segs_abs by auto.
    replace (fold_left (clean_step true) (([] :: match cs with [] => [[]] | _ => cs end) ++ [x]) []) with (x :: rev cs).
    + cbn [rev]. rewrite rev_involutive. cbn [is_rooted segments]. change (47 =? 47) with true. cbn iota.
      rewrite segments_join_flat; [|destruct cs; discriminate|apply Forall_app; split; [eapply Forall_impl; [|exact H]; apply name_flat|constructor; [now apply name_flat|constructor]]].
      destruct cs as [|c cs]; cbn [app].
      * rewrite !(walk_cons lim f fs []), !Er. reflexivity.
      * now rewrite <- app_assoc.
    + rewrite fold_left_app. cbn [fold_left app]. change (clean_step true [] []) with (@nil (list Z)).
      replace (fold_left (clean_step true) match cs with [] => [[]] | _ => cs end []) with (rev cs).
      * unfold clean_step. rewrite <- idle_eq, <- upward_eq. now destruct (name_kind _ Hx) as [-> ->].
      * destruct cs as [|c cs]; [reflexivity|]. now rewrite clean_names, app_nil_r.
  - change (repeat [46; 46] k) with (repeat dd k) in *. rewrite rel_not_rooted by auto. pose proof (ups_names_flat k cs H) as Fl0.
    assert (Ne : Forall (fun y => y <> []) (repeat dd k ++ cs)).
    { apply Forall_app. split; [apply Forall_forall; intros y Hy; apply repeat_spec in Hy; subst y; discriminate|eapply Forall_impl; [|exact H]; intros y Hy; apply Hy]. }
    assert (Fo : fold_left (clean_step false) (repeat dd k ++ cs) [] = rev (repeat dd k ++ cs)).
    { rewrite fold_left_app, clean_ups, app_nil_r by (intros ? ? [=]). rewrite clean_names by auto. now rewrite rev_app_distr, rev_repeat. }
    remember (repeat dd k ++ cs) as l eqn:Dl. clear Dl H.
    assert (Fold : fold_left (clean_step false) (segments (rel_path l) ++ [x]) [] = x :: rev l).
    { rewrite fold_left_app. cbn [fold_left]. replace (fold_left (clean_step false) (segments (rel_path l)) []) with (rev l).
      - unfold clean_step. rewrite <- idle_eq, <- upward_eq. now destruct (name_kind _ Hx) as [-> ->].
      - destruct l as [|y l']; [reflexivity|]. now rewrite rel_path_join, segments_join_flat by (auto; discriminate). }
    rewrite Fold. cbn [rev]. rewrite rev_involutive.
    assert (Fl : Forall flat (l ++ [x])) by (apply Forall_app; split; [exact Fl0|constructor; [now apply name_flat|constructor]]).
    assert (J : join_slash (l ++ [x]) <> []).
    { intros J. apply join_nil in J; [destruct l; discriminate|]. apply Forall_app. split; [exact Ne|constructor; [apply Hx|constructor]]. }
    destruct (join_slash (l ++ [x])) as [|b body] eqn:B; [congruence|]. rewrite <- B, segments_join_flat by (auto; destruct l; discriminate).
    replace (is_rooted (join_slash (l ++ [x]))) with false.
    + destruct l as [|y l'].
      * cbn [app rel_path segments]. change (46 =? 47) with false. cbn iota. cbn [segments app]. rewrite (walk_cons lim f fs [46]), (walk_cons lim f fs x).
        cbn [idle]. destruct (fs cwd) as [[|up es|]|] eqn:Ec; auto.
        all: try (destruct (Z.eq_dec 46 46); [|congruence]; now rewrite (walk_cons lim f fs x), Ec).
      * rewrite rel_path_join, segments_join_flat by (auto; discriminate). now rewrite <- app_assoc.
    + symmetry. destruct l as [|y l'].
      * cbn. destruct x as [|c x]; [reflexivity|]. cbn. apply Z.eqb_neq. intros ->. apply Hx. now left.
      * apply Forall_cons_iff in Ne as [Ny _]. apply Forall_cons_iff in Fl0 as [Fy _]. cbn [app]. rewrite rooted_first by exact Ny.
        destruct y as [|c y]; [reflexivity|]. cbn. apply Z.eqb_neq. intros ->. apply Fy. now left.
Qed.
Definition walk_child := walk_child_f true.

(** ** Where the hashing is *)
Definition at_ (lim : nat) (fs : fsys) (cwd : nat) (p : list Z) (i r : nat) : Prop :=
  canonical p /\ forall q, walk lim true fs (cut [] p ++ q) (begins cwd p) = walk r true fs q i.
Lemma canonical_ne p : canonical p -> p <> [].
Proof.
  intros [(cs & _ & ->)|(k & cs & H & ->)]; [rewrite abs_path_join; discriminate|]. intros E.
  destruct k; [destruct cs as [|y [|]]; [discriminate| |destruct y; discriminate]; apply Forall_cons_iff in H as [[Ny _] _]; cbn in E; congruence|destruct k, cs; discriminate].
Qed.
Lemma stat_canonical lim fs cwd p : canonical p -> stat lim fs cwd p = walk lim true fs (cut [] p) (begins cwd p).
Proof. intros C. apply canonical_ne in C. destruct p; [congruence|reflexivity]. Qed.
Lemma at_start lim fs cwd p i : canonical p -> stat lim fs cwd p = Found i -> exists r, (r <= lim)%nat /\ at_ lim fs cwd p i r.
Proof. intros C E. rewrite stat_canonical in E by auto. destruct (walk_rest _ _ _ _ _ E) as (r & L & K). exists r. split; [lia|]. split; auto. Qed.
Lemma at_stat lim fs cwd p i r : at_ lim fs cwd p i r -> stat lim fs cwd p = Found i.
Proof. intros [C K]. rewrite stat_canonical by auto. specialize (K []). rewrite app_nil_r, walk_nil in K. exact K. Qed.
Lemma at_child_stat lim fs cwd p i r x : sound fs -> name x -> at_ lim fs cwd p i r -> stat lim fs cwd (path_joins p [x]) = walk r true fs [x] i.
Proof.
  intros S Hx [C K]. destruct (walk_child lim fs cwd p x [] S C Hx) as [Cc E]. rewrite stat_canonical by auto. rewrite app_nil_r in E. rewrite E. apply K.
Qed.
Lemma at_child lim fs cwd p i r x j : sound fs -> name x -> at_ lim fs cwd p i r -> walk r true fs [x] i = Found j ->
  exists r', at_ lim fs cwd (path_joins p [x]) j r' /\ exists up es c, fs i = Some (NDir up es) /\ find x es = Some c /\ ((r' = r /\ c = j) \/ (r' < r)%nat).
Proof.
  intros S Hx [C K] E. destruct (walk_one _ _ _ _ _ Hx E) as (up & es & c & Ei & F & r' & Q & D). exists r'. split; [|eauto 8].
  split; [apply (proj1 (walk_child lim fs cwd p x [] S C Hx))|]. intros q. rewrite (proj2 (walk_child lim fs cwd p x q S C Hx)), K. apply Q.
Qed.
Lemma stat_below lim fs cwd p xs : canonical p -> Forall name xs -> stat lim fs cwd (below p xs) = walk lim true fs (cut [] p ++ xs) (begins cwd p).
Proof.
  intros C H. apply canonical_ne in C. unfold below. destruct p as [|b p]; [congruence|]. set (s := b :: p).
  assert (E : cut [] (s ++ concat (map (fun x => 47 :: x) xs)) = cut [] s ++ xs).
  { rewrite !cut_eq. clear -H. generalize s. clear s. induction H as [|x xs Hx _ IH]; intros s; [now rewrite !app_nil_r|].
    cbn [map concat]. rewrite app_assoc, IH. cbn [app]. rewrite segments_app, (segments_one x) by (now apply name_flat). now rewrite <- app_assoc. }
  unfold stat. unfold s at 1. cbn [app]. fold s. change (b :: p ++ concat (map (fun x => 47 :: x) xs)) with (s ++ concat (map (fun x => 47 :: x) xs)). rewrite E. reflexivity.
Qed.
Lemma stat_below_child lim fs cwd p x xs : sound fs -> canonical p -> name x -> Forall name xs ->
  stat lim fs cwd (below (path_joins p [x]) xs) = stat lim fs cwd (below p (x :: xs)).
Proof.
  intros S C Hx H. destruct (walk_child lim fs cwd p x xs S C Hx) as [Cc E]. rewrite !stat_below by (auto; constructor; auto). exact E.
Qed.

(** ** Hashing returns *)
Definition fails (lim : nat) (fs : fsys) (cwd : nat) (p : list Z) : Prop :=
  exists xs x d up es c, Forall name xs /\ name x /\ stat lim fs cwd (below p xs) = Found d /\ fs d = Some (NDir up es) /\ find x es = Some c /\
    forall j, stat lim fs cwd (below p (xs ++ [x])) <> Found j.
Lemma fails_child lim fs cwd p x : sound fs -> canonical p -> name x -> fails lim fs cwd (path_joins p [x]) -> fails lim fs cwd p.
Proof.
  intros S C Hx (xs & y & d & up & es & c & Hxs & Hy & E & Ed & F & N). exists (x :: xs), y, d, up, es, c.
  rewrite stat_below_child in E by auto. split; [now constructor|]. do 4 (split; [assumption|]). intros j. cbn [app].
  rewrite <- stat_below_child by (auto; apply Forall_app; auto). apply N.
Qed.
Lemma in_find x c es : In (x, c) es -> exists c', find x es = Some c'.
Proof. induction es as [|[y i] es IH]; cbn; [tauto|]. intros [[= -> ->]|H]; destruct (list_eq_dec _ _ _); eauto; congruence. Qed.
Section Main.
  Variables (text : Z -> list Z -> list Z) (srt : list hnode -> list hnode) (lim : nat) (fs : fsys) (cwd : nat) (depth : nat -> nat) (H : nat).
  Hypothesis S : sound fs.
  Hypothesis D : forall d up es, fs d = Some (NDir up es) -> (depth d <= H)%nat /\
    forall x c up' es', find x es = Some c -> fs c = Some (NDir up' es') -> (depth d < depth c)%nat.
  Definition weight (r i : nat) : nat := match fs i with Some (NDir _ _) => r * (H + 2) + (H - depth i) + 2 | _ => 1 end.
  Definition good (fuel : nat) (p : list Z) (i : nat) : Prop :=
    exists R, hash_links text srt fuel lim fs cwd p = Ok R /\
    match R with Some h => forall nm, exists n, node_name n = nm /\ shows fs i n /\ hash_tree text srt p n = Some h | None => fails lim fs cwd p end.
  Lemma kids_good fuel p i r up es : at_ lim fs cwd p i r -> fs i = Some (NDir up es) -> (1 <= fuel)%nat ->
    (forall x c j r', name x -> find x es = Some c -> at_ lim fs cwd (path_joins p [x]) j r' -> ((r' = r /\ c = j) \/ (r' < r)%nat) -> good fuel (path_joins p [x]) j) ->
    forall es0, incl es0 es -> exists R, hash_kids (hash_links text srt fuel lim fs cwd) p (map fst es0) = Ok R /\
    match R with
    | Some hs => exists kids, Forall2 (fun e k => node_name k = fst e /\ exists l j, walk l true fs [fst e] i = Found j /\ shows fs j k) es0 kids /\
                   all_some (map (fun k => hash_tree text srt (path_joins p [node_name k]) k) kids) = Some hs
    | None => fails lim fs cwd p
    end.
  Proof.
    intros A Ei Fu G. induction es0 as [|[x c0] es0 IH]; intros I; [exists (Some []); split; [reflexivity|exists []; split; [constructor|reflexivity]]|].
    destruct (in_find x c0 es (I _ (or_introl eq_refl))) as (c & F). destruct S as (_ & _ & S3). destruct (S3 _ _ _ _ _ Ei F) as (Hx & _).
    cbn [map fst hash_kids]. pose proof (at_child_stat _ _ _ _ _ _ x S Hx A) as St. pose proof (proj1 A) as C.
    destruct (walk r true fs [x] i) as [j| | |] eqn:W.
    1: { destruct (at_child _ _ _ _ _ _ _ _ S Hx A W) as (r' & A' & up' & es' & c' & Ei' & F' & Dj). rewrite Ei in Ei'. injection Ei' as <- <-.
      rewrite F in F'. injection F' as <-. destruct (G x c j r' Hx F A' Dj) as (R & E & K). rewrite E. cbn [bind]. destruct R as [h|].
      - destruct (IH (fun e He => I e (or_intror He))) as (R & E2 & K2). rewrite E2. cbn [bind]. destruct R as [hs|].
        + exists (Some (h :: hs)). split; [reflexivity|]. destruct K2 as (kids & F2 & A2). destruct (K x) as (n & Nn & Sh & Ht).
          exists (n :: kids). split.
          * constructor; [|exact F2]. cbn [fst]. split; [exact Nn|]. exists r, j. auto.
          * cbn [map all_some]. rewrite Nn, Ht, A2. reflexivity.
        + exists None. auto.
      - exists None. split; [reflexivity|]. eapply fails_child; eauto. }
    all: destruct fuel as [|fuel]; [lia|]; cbn [hash_links]; rewrite St; cbn [bind]; exists None; (split; [reflexivity|]);
      exists [], x, i, up, es, c; (split; [constructor|]); (split; [exact Hx|]); split; [unfold below; cbn; rewrite app_nil_r; eapply at_stat; eauto|]; (split; [exact Ei|]); (split; [exact F|]); intros j; cbn [app];
      rewrite <- stat_below_child by auto; unfold below; cbn; rewrite app_nil_r, St; discriminate.
  Qed.
  Lemma hash_main : forall fuel p i r, at_ lim fs cwd p i r -> (weight r i <= fuel)%nat -> good fuel p i.
  Proof.
    induction fuel as [|fuel IH]; intros p i r A Wt; [unfold weight in Wt; destruct (fs i) as [[]|]; lia|].
    unfold good. cbn [hash_links]. rewrite (at_stat _ _ _ _ _ _ A).
    destruct (walk_kind fs S lim (cut [] p) (begins cwd p) i) as [[b Ei]|(up & es & Ei)].
    - rewrite cut_eq. apply segments_ne.
    - pose proof (at_stat _ _ _ _ _ _ A) as St. rewrite stat_canonical in St by apply A. exact St.
    - rewrite Ei. eexists. split; [reflexivity|]. intros nm. exists (File nm b). split; [reflexivity|]. split; [now constructor|reflexivity].
    - rewrite Ei. unfold weight in Wt. rewrite Ei in Wt. destruct (D _ _ _ Ei) as [Dh Dc].
      destruct (kids_good fuel p i r up es A Ei) with (es0 := es) as (R & E & K).
      + lia.
      + intros x c j r' Hx F A' Dj. apply IH with (r := r'); [exact A'|]. unfold weight. destruct (fs j) as [[|u e|]|] eqn:Ej; try lia.
        destruct Dj as [[-> ->]|Lt].
        * specialize (Dc _ _ _ _ F Ej). destruct (D _ _ _ Ej) as [Dj _]. nia.
        * nia.
      + apply incl_refl.
      + rewrite E. cbn [bind]. destruct R as [subs|].
        * eexists. split; [reflexivity|]. intros nm. destruct K as (kids & F2 & As). exists (Dir nm (Some kids)). split; [reflexivity|].
          split; [econstructor; eauto|]. cbn [hash_tree]. rewrite As. reflexivity.
        * exists None. auto.
  Qed.
End Main.

(** ** What success means *)
Lemma kids_all hash p xs hs : hash_kids hash p xs = Ok (Some hs) -> forall x, In x xs -> exists h, hash (path_joins p [x]) = Ok (Some h).
Proof.
  revert hs. induction xs as [|y xs IH]; intros hs E x I; [destruct I|]. cbn [hash_kids] in E.
  destruct (hash (path_joins p [y])) as [[h|]| |] eqn:Eh; try discriminate. cbn [bind] in E.
  destruct (hash_kids hash p xs) as [[t|]| |] eqn:Et; try discriminate. destruct I as [<-|I]; eauto.
Qed.
Lemma some_not_fails text srt lim fs cwd : sound fs -> forall xs fuel p h x d up es c, canonical p -> Forall name xs -> name x ->
  hash_links text srt fuel lim fs cwd p = Ok (Some h) -> stat lim fs cwd (below p xs) = Found d -> fs d = Some (NDir up es) -> find x es = Some c ->
  exists j, stat lim fs cwd (below p (xs ++ [x])) = Found j.
Proof.
  intros S. induction xs as [|y xs IH]; intros fuel p h x d up es c C Hxs Hx E St Ed F.
  - destruct fuel as [|fuel]; [discriminate|]. cbn [hash_links] in E. unfold below in St. cbn in St. rewrite app_nil_r in St. rewrite St, Ed in E.
    destruct (hash_kids _ p (map fst es)) as [[subs|]| |] eqn:K; try discriminate.
    destruct (kids_all _ _ _ _ K x) as (h' & Eh); [apply in_map_iff; exists (x, c); split; auto; now apply find_in|].
    destruct fuel as [|fuel]; [discriminate|]. cbn [hash_links] in Eh. cbn [app]. rewrite <- stat_below_child by auto. unfold below. cbn. rewrite app_nil_r.
    destruct (stat lim fs cwd (path_joins p [x])); try discriminate. eauto.
  - apply Forall_cons_iff in Hxs as [Hy Hxs]. pose proof St as St0. rewrite stat_below in St0 by (auto; constructor; auto).
    change (cut [] p ++ y :: xs) with (cut [] p ++ ([y] ++ xs)) in St0. rewrite app_assoc in St0.
    assert (Hchild : exists i up' es' c', stat lim fs cwd p = Found i /\ fs i = Some (NDir up' es') /\ find y es' = Some c').
    { rewrite <- app_assoc in St0. destruct (walk_prefix fs true ([y] ++ xs) d ltac:(discriminate) _ _ _ St0) as (i & m & A & B).
      cbn [app] in B. rewrite walk_cons in B. destruct (name_kind _ Hy) as [I U]. rewrite I, U in B. destruct (fs i) as [[|up' es'|]|] eqn:Ei; try discriminate.
      destruct (find y es') as [c'|] eqn:Fy; [|discriminate]. exists i, up', es', c'. split; [rewrite stat_canonical by auto; exact A|auto]. }
    destruct Hchild as (i & up' & es' & c' & Si & Ei & Fy). destruct fuel as [|fuel]; [discriminate|]. cbn [hash_links] in E. rewrite Si, Ei in E.
    destruct (hash_kids _ p (map fst es')) as [[subs|]| |] eqn:K; try discriminate.
    destruct (kids_all _ _ _ _ K y) as (h' & Eh); [apply in_map_iff; exists (y, c'); split; auto; now apply find_in|].
    pose proof (proj1 (walk_child lim fs cwd p y [] S C Hy)) as Cc.
    destruct (IH fuel (path_joins p [y]) h' x d up es c Cc Hxs Hx Eh) as (j & Ej); auto; [now rewrite stat_below_child by auto|].
    exists j. cbn [app]. rewrite <- stat_below_child; auto. apply Forall_app. auto.
Qed.

(** ** No tree shows through a cycle *)
Fixpoint fsize (n : fnode) : nat :=
  match n with
  | Dir _ (Some kids) => S (fold_right Nat.add 0%nat (map fsize kids))
  | _ => 1
  end.
Lemma shows_entry fs i n j : shows fs i n -> entry_leads fs i j -> exists m, shows fs j m /\ (fsize m < fsize n)%nat.
Proof.
  intros Sh (up & es & x & c & lim & Ei & F & W). inversion Sh as [i' nm b Ei'|i' nm up' es' kids Ei' F2]; subst; [congruence|].
  rewrite Ei in Ei'. injection Ei' as <- <-. cbn [fsize].
  apply find_in in F. clear Sh Ei. induction F2 as [|e k es kids (Nk & l & j' & W' & Shk) F2 IH]; [destruct F|].
  cbn [map fold_right]. destruct F as [->|F].
  - cbn [fst] in *. rewrite (walk_same _ _ _ _ _ _ _ W W'). exists k. split; [exact Shk|lia].
  - destruct (IH F) as (m & Sm & L). exists m. split; [exact Sm|lia].
Qed.
Lemma shows_chain fs i j : clos_trans _ (entry_leads fs) i j -> forall n, shows fs i n -> exists m, shows fs j m /\ (fsize m < fsize n)%nat.
Proof.
  induction 1 as [i j E|i k j _ IH1 _ IH2]; intros n Sn; [now apply shows_entry with (i := i)|].
  destruct (IH1 _ Sn) as (m & Sm & L). destruct (IH2 _ Sm) as (m' & Sm' & L'). exists m'. split; [exact Sm'|lia].
Qed.
Lemma cycle_shows_nothing fs i : clos_trans _ (entry_leads fs) i i -> forall n, ~ shows fs i n.
Proof.
  intros Cy n. induction n as [n IH] using (well_founded_induction (Wf_nat.well_founded_ltof _ fsize)). intros Sn.
  destruct (shows_chain _ _ _ Cy _ Sn) as (m & Sm & L). exact (IH m L Sm).
Qed.

(** ** More fuel *)
Lemma hash_more text srt lim fs cwd : forall fuel p R, hash_links text srt fuel lim fs cwd p = Ok R -> forall m, hash_links text srt (m + fuel) lim fs cwd p = Ok R.
Proof.
  assert (Kids : forall f g : list Z -> outcome (option hnode), (forall p R, f p = Ok R -> g p = Ok R) -> forall p xs R, hash_kids f p xs = Ok R -> hash_kids g p xs = Ok R).
  { intros f g Fg p xs. induction xs as [|x xs IH]; intros R E; [exact E|]. cbn [hash_kids] in *. destruct (f (path_joins p [x])) as [[h|]| |] eqn:Ef; try discriminate;
      rewrite (Fg _ _ Ef); cbn [bind] in *; [|exact E]. destruct (hash_kids f p xs) as [t| |]; try discriminate. now rewrite (IH _ eq_refl). }
  induction fuel as [|fuel IH]; intros p R E m; [discriminate|]. rewrite Nat.add_succ_r. cbn [hash_links] in *.
  destruct (stat lim fs cwd p) as [i| | |]; try exact E. destruct (fs i) as [[|up es|]|]; try exact E.
  destruct (hash_kids (hash_links text srt fuel lim fs cwd) p (map fst es)) as [t| |] eqn:K; try discriminate.
  rewrite (Kids _ (hash_links text srt (m + fuel) lim fs cwd) (fun p R E => IH p R E m) _ _ _ K). exact E.
Qed.

(** ** Together *)
Lemma hash_all text srt lim fs cwd s H : sound fs -> bounded fs H -> exists fuel0, forall fuel, (fuel0 <= fuel)%nat ->
  exists R, hash_links text srt fuel lim fs cwd (file_path s) = Ok R /\
  (forall h, R = Some h -> exists i n, stat lim fs cwd (file_path s) = Found i /\ shows fs i n /\ hash_tree text srt (file_path s) n = Some h) /\
  (R = None <-> (forall i, stat lim fs cwd (file_path s) <> Found i) \/
     exists xs x d up es c, Forall name xs /\ name x /\ stat lim fs cwd (below (file_path s) xs) = Found d /\ fs d = Some (NDir up es) /\ find x es = Some c /\
       forall j, stat lim fs cwd (below (file_path s) (xs ++ [x])) <> Found j).
Proof.
  intros S (depth & D). pose proof (clean_canonical s) as C. set (p := file_path s) in *.
  destruct (stat lim fs cwd p) as [i| | |] eqn:St.
  1: { destruct (at_start _ _ _ _ _ C St) as (r & _ & A). exists (weight fs depth H r i). intros fuel L.
    destruct (hash_main text srt lim fs cwd depth H S D fuel p i r A L) as (R & E & K). exists R. split; [exact E|]. split.
    - intros h ->. destruct (K []) as (n & _ & Sh & Ht). eauto.
    - split.
      + intros ->. right. exact K.
      + intros [N|(xs & x & d & up & es & c & Hxs & Hx & Sd & Ed & F & N)]; [exfalso; eapply N; eauto|].
        destruct R as [h|]; [|reflexivity]. exfalso.
        destruct (some_not_fails text srt lim fs cwd S xs fuel p h x d up es c C Hxs Hx E Sd Ed F) as (j & Ej). exact (N j Ej). }
  all: exists 1%nat; intros fuel L; destruct fuel as [|fuel]; [lia|]; exists None; cbn [hash_links]; rewrite St; (split; [reflexivity|]);
    (split; [discriminate|]); split; auto; intros _; left; discriminate.
Qed.
Lemma hash_cycle text srt lim fs cwd s H fuel R i j : sound fs -> bounded fs H -> stat lim fs cwd (file_path s) = Found i ->
  clos_refl_trans _ (entry_leads fs) i j -> clos_trans _ (entry_leads fs) j j -> hash_links text srt fuel lim fs cwd (file_path s) = Ok R -> R = None.
Proof.
  intros S B St Rt Cy E. destruct R as [h|]; [|reflexivity]. exfalso.
  destruct (hash_all text srt lim fs cwd s H S B) as (f0 & K). destruct (K (f0 + fuel)%nat ltac:(lia)) as (R & E' & K1 & _).
  assert (R = Some h) by (rewrite (hash_more _ _ _ _ _ _ _ _ E) in E'; congruence). subst R.
  destruct (K1 h eq_refl) as (i' & n & St' & Sh & _). rewrite St in St'. injection St' as <-.
  apply clos_rt_rtn1 in Rt. assert (Cj : exists m, shows fs j m).
  { clear -Rt Sh. induction Rt as [|k l E _ IH]; [eauto|]. destruct IH as [m Sm]. destruct (shows_entry _ _ _ _ Sm E) as (m' & Sm' & _). eauto. }
  destruct Cj as [m Sm]. exact (cycle_shows_nothing _ _ Cy _ Sm).
Qed.

(** ** The examples *)
Lemma ex_loop_sound : sound ex_loop /\ bounded ex_loop 1 /\ entry_leads ex_loop 1 0 /\ entry_leads ex_loop 0 1.
Proof.
  split; [|split; [|split]].
  - split; [eexists; reflexivity|]. split.
    + intros d up es H. destruct d as [|[|[|[|d]]]]; cbn in H; try discriminate; injection H as <- <-; cbn; eauto.
    + assert (Na : forall c, c = 97 \/ c = 102 \/ c = 108 -> name [c]) by (intros c Hc; repeat split; try discriminate; try (intros [=]; lia); intros [E|[]]; lia).
      intros d up es x c H F. destruct d as [|[|[|[|d]]]]; cbn in H; try discriminate; injection H as <- <-; cbn [find] in F;
        repeat (destruct (list_eq_dec Z.eq_dec _ _) as [->|] in F); try discriminate; injection F as <-; (split; [apply Na; lia|]); (split; [discriminate|]);
        eexists; (split; [reflexivity|]); try discriminate; intros u' e' [= <- <-]; (split; [reflexivity|]); intros y; cbn [find];
        repeat (destruct (list_eq_dec Z.eq_dec _ _) as [->|]); try discriminate; reflexivity.
  - exists (fun i => i). intros d up es E. destruct d as [|[|[|[|d]]]]; cbn in E; try discriminate; injection E as <- <-; (split; [lia|]);
      intros x c u e F; cbn [find] in F; repeat (destruct (list_eq_dec Z.eq_dec _ _) in F); try discriminate; injection F as <-; cbn; try discriminate; lia.
  - exists 0%nat, [([102], 2%nat); ([108], 3%nat)], [108], 3%nat, 1%nat. repeat split; vm_compute; reflexivity.
  - exists 0%nat, [([97], 1%nat)], [97], 1%nat, 1%nat. repeat split; vm_compute; reflexivity.
Qed.
