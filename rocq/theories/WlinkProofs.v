From Coq Require Import ZArith List Bool Lia Sorted.
From Verif Require Import GoBase GoStrings FsModel PathModel PathSpec PathProofs PathPartModel LinkSpec LinkProofs LinkMore LoopSpec LoopProofs SubsSpec SubsProofs WalkSpec WalkModel WalkProofs WlinkSpec WlinkModel.
Import ListNotations.
Open Scope Z_scope.

Lemma walk_follow fs j : (forall t, fs j <> Some (NLink t)) -> forall lim l d, LinkSpec.walk lim false fs l d = Found j -> LinkSpec.walk lim true fs l d = Found j.
Proof.
  intros N. induction lim as [|lim IH]; intros l; induction l as [|x l IHl]; intros d E; try (rewrite walk_nil in *; exact E);
    rewrite walk_cons in E |- *; destruct (fs d) as [[|up es|]|]; try discriminate; (destruct (idle x); [now apply IHl|]); (destruct (upward x); [now apply IHl|]);
    (destruct (find x es) as [c|]; [|discriminate]); destruct (fs c) as [[|u e|t]|] eqn:Ec; try discriminate; try (now apply IHl);
    unfold hop in *; destruct l as [|y l]; try (injection E as <-; exfalso; eapply N; eauto); destruct t as [|b t]; try discriminate; now apply IH.
Qed.
Lemma walk_unfollow fs j : forall lim l d, LinkSpec.walk lim true fs l d = Found j -> exists i, LinkSpec.walk lim false fs l d = Found i.
Proof.
  induction lim as [|lim IH]; intros l; induction l as [|x l IHl]; intros d E; try (rewrite walk_nil in *; eauto; fail);
    rewrite walk_cons in E |- *; destruct (fs d) as [[|up es|]|]; try discriminate; (destruct (idle x); [now apply IHl|]); (destruct (upward x); [now apply IHl|]);
    (destruct (find x es) as [c|]; [|discriminate]); destruct (fs c) as [[|u e|t]|] eqn:Ec; try discriminate; try (now apply IHl);
    unfold hop in *; destruct l as [|y l]; eauto; destruct t as [|b t]; try discriminate; now apply IH.
Qed.
Lemma stat_lstat lim fs cwd s i : stat lim fs cwd s = Found i -> exists j, lstat lim fs cwd s = Found j.
Proof. unfold lstat, stat. destruct s; [discriminate|]. apply walk_unfollow. Qed.
Lemma lstat_stat lim fs cwd s i : (forall t, fs i <> Some (NLink t)) -> lstat lim fs cwd s = Found i -> stat lim fs cwd s = Found i.
Proof. intros N. unfold lstat, stat. destruct s; [discriminate|]. now apply walk_follow. Qed.

(** Sorting goes by the names alone. *)
Section Sort.
  Variables (A B : Type) (Q : list Z * A -> list Z * B -> Prop).
  Hypothesis Qk : forall a b, Q a b -> fst a = fst b.
  Lemma insert_two a b l m : Q a b -> Forall2 Q l m -> Forall2 Q (insert_name a l) (insert_name b m).
  Proof.
    intros H. induction 1 as [|x y l m Hx F IH]; cbn [insert_name]; [repeat constructor; auto|].
    rewrite (Qk _ _ Hx), (Qk _ _ H). destruct (str_less (fst y) (fst b)); repeat constructor; auto.
  Qed.
  Lemma sort_two l m : Forall2 Q l m -> Forall2 Q (sort_names l) (sort_names m).
  Proof. induction 1; cbn [sort_names]; [constructor|]. now apply insert_two. Qed.
End Sort.
Lemma Forall2_in_l {A B} (R : A -> B -> Prop) l m : Forall2 R l m -> Forall2 (fun a b => In a l /\ R a b) l m.
Proof.
  intros F. assert (K : forall l0, incl l l0 -> Forall2 (fun a b => In a l0 /\ R a b) l m); [|apply K, incl_refl].
  intros l0. induction F as [|a b l m Hr F IH]; intros I; constructor; [split; [apply I; now left|exact Hr]|]. apply IH. intros x Hx. apply I. now right.
Qed.
Lemma Forall2_imp {A B} (R R' : A -> B -> Prop) l m : (forall a b, R a b -> R' a b) -> Forall2 R l m -> Forall2 R' l m.
Proof. intros I. induction 1; constructor; auto. Qed.
Lemma Forall2_map_r {A B C} (R : A -> C -> Prop) (g : B -> C) l m : Forall2 (fun a b => R a (g b)) l m -> Forall2 R l (map g m).
Proof. induction 1; constructor; auto. Qed.

Section Main.
  Variables (S E : Type) (fn : S -> list Z -> option finfo -> option (list Z) -> S * answer E) (err : list Z -> res -> list Z).
  Variables (lim : nat) (fs : fsys) (cwd : nat) (depth : nat -> nat) (H : nat).
  Hypothesis Sn : sound fs.
  Hypothesis U : distinct fs.
  Hypothesis D : forall d up es, fs d = Some (NDir up es) -> (depth d <= H)%nat /\
    forall x c up' es', find x es = Some c -> fs c = Some (NDir up' es') -> (depth d < depth c)%nat.
  Lemma seen_all : forall k i nm x, fs i = Some x -> (forall up es, x = NDir up es -> (H - depth i < k)%nat) -> exists n, wname_of n = nm /\ seen fs i n /\ proper n.
  Proof.
    induction k as [|k IH]; intros i nm x E0 L; (destruct x as [b|up es|t];
      [exists (WFile nm (Z.of_nat (length b))); split; [reflexivity|split; now constructor]| |exists (WFile nm (Z.of_nat (length t))); split; [reflexivity|split; now constructor]]);
      specialize (L _ _ eq_refl); [lia|].
    assert (K : forall es0, incl es0 es -> exists kids, Forall2 (fun e k => wname_of k = fst e /\ seen fs (snd e) k) es0 kids /\ Forall (fun k => name (wname_of k)) kids /\ Forall proper kids).
    { induction es0 as [|[y c] es0 IHe]; intros I; [exists []; repeat constructor|]. destruct (IHe (fun e He => I e (or_intror He))) as (kids & F2 & Fn & Fp).
      pose proof (distinct_find _ _ _ (U _ _ _ E0) (I _ (or_introl eq_refl))) as F. destruct Sn as (_ & _ & S3). destruct (S3 _ _ _ _ _ E0 F) as (Ny & _ & n & En & _).
      destruct (IH c y n En) as (m & Nm & Bm & Pm).
      - intros up' es' ->. pose proof (proj2 (D _ _ _ E0) _ _ _ _ F En). pose proof (proj1 (D _ _ _ En)). lia.
      - exists (m :: kids). split; [constructor; [split; assumption|exact F2]|]. split; constructor; auto. now rewrite Nm. }
    destruct (K es (incl_refl _)) as (kids & F2 & Fn & Fp). exists (WDir nm kids). split; [reflexivity|]. split; [econstructor; eauto|]. constructor; auto.
    replace (map wname_of kids) with (map fst es) by (clear -F2; induction F2 as [|e k es kids [N _] F2 IH]; cbn; congruence). eapply U; eauto.
  Qed.
  Lemma fp_join_joins p x : p <> [] -> fp_join [p; x] = joins [p; x].
  Proof. intros N. unfold joins. destruct p as [|c p]; [congruence|]. cbn [fp_join]. symmetry. apply clean_idem. Qed.
  Lemma wlink_main : forall fuel n p i s, seen fs i n -> (0 < fuel)%nat -> ((exists up es, fs i = Some (NDir up es)) -> (exists r, at_ lim fs cwd p i r) /\ (H - depth i + 1 < fuel)%nat) ->
    wlink fn err lim fs cwd fuel p (wname_of n) i s = Ok (WalkModel.walk fn n p s).
  Proof.
    induction fuel as [|fuel IH]; intros n p i s Sn0 L Hd; [lia|]. cbn [wlink]. unfold link_info.
    inversion Sn0 as [? nm b Ei|? nm t Ei|? nm up es kids Ei F2]; subst; rewrite Ei; cbn [fi_dir wname_of WalkModel.walk]; [reflexivity|reflexivity|].
    destruct (Hd (ex_intro _ up (ex_intro _ es Ei))) as [(r & A) Ld]. clear Hd. destruct (fn s p _ None) as [s' [| |x]]; [|reflexivity|reflexivity].
    rewrite (at_stat _ _ _ _ _ _ A), Ei. destruct (D _ _ _ Ei) as [Dh Dc]. pose proof Sn as (_ & _ & S3).
    assert (Np : p <> []) by (destruct A as [C _]; now apply canonical_ne).
    set (Q := fun (e : list Z * nat) (g : list Z * (bool * (list Z -> S -> S * answer E))) => In e es /\ exists k, g = (wname_of k, (wisdir k, WalkModel.walk fn k)) /\ wname_of k = fst e /\ seen fs (snd e) k).
    assert (SQ : Forall2 Q (sort_names es) (sort_names (map (fun k => (wname_of k, (wisdir k, WalkModel.walk fn k))) kids))).
    { apply sort_two.
      - intros a b (_ & k & -> & Nk & _). cbn. congruence.
      - apply Forall2_map_r. apply Forall2_in_l in F2. eapply Forall2_imp; [|exact F2]. intros e k (I & Nk & Sk). split; [exact I|]. exists k. auto. }
    clear F2 Sn0. revert s'. induction SQ as [|[x c] g es1 gs (Ix & k & -> & Nk & Sk) F IHl]; intros s'; [reflexivity|]. cbn [map fst snd wlink_loop walk_loop] in *.
    subst x. pose proof (distinct_find _ _ _ (U _ _ _ Ei) Ix) as Fx. destruct (S3 _ _ _ _ _ Ei Fx) as (Hx & _ & nd & En & _).
    assert (Lc : lstat lim fs cwd (fp_join [p; wname_of k]) = Found c).
    { rewrite fp_join_joins by auto. apply (inside_leads lim fs cwd Sn [wname_of k] p i r c A); [econstructor; eauto; constructor|discriminate]. }
    rewrite Lc. rewrite (IH k _ c s' Sk).
    - cbn [bind]. destruct (WalkModel.walk fn k (fp_join [p; wname_of k]) s') as [s2 [| |x]]; [apply IHl| |reflexivity].
      unfold link_info. inversion Sk as [? nm' b Ec|? nm' t Ec|? nm' u' e' kids' Ec F2']; subst; rewrite Ec; cbn [fi_dir wisdir]; [reflexivity|reflexivity|apply IHl].
    - lia.
    - intros (u' & e' & Ec). pose proof (Dc _ _ _ _ Fx Ec). destruct (D _ _ _ Ec) as [Dch _].
      assert (W : LinkSpec.walk r true fs [wname_of k] i = Found c).
      { destruct (name_kind _ Hx) as [Ix' Ux]. rewrite walk_cons, Ei, Ix', Ux, Fx, Ec. apply walk_nil. }
      destruct (at_child _ _ _ _ _ _ _ _ Sn Hx A W) as (r' & A' & _). split; [|lia]. exists r'. rewrite fp_join_joins by auto. exact A'.
  Qed.
End Main.
Lemma last_ne {A} (l : list A) d e : l <> [] -> last l d = last l e.
Proof. induction l as [|x [|y l] IH]; [congruence|reflexivity|]. intros _. apply IH. discriminate. Qed.
Lemma cut_ne s : forall cur, cut cur s <> [].
Proof. induction s as [|c s IH]; intros cur; cbn [cut]; [discriminate|]. destruct (Z.eq_dec c 47); [discriminate|apply IH]. Qed.
Lemma walk_node f fs : sound fs -> forall lim l d j, l <> [] -> LinkSpec.walk lim f fs l d = Found j -> exists x, fs j = Some x.
Proof.
  intros (_ & S2 & S3).
  assert (Q : forall lim l d j, (l <> [] \/ exists x, fs d = Some x) -> LinkSpec.walk lim f fs l d = Found j -> exists x, fs j = Some x); [|intros lim l d j N E; exact (Q lim l d j (or_introl N) E)].
  induction lim as [|lim IH]; intros l; induction l as [|x l IHl]; intros d j K E; try (rewrite walk_nil in E; injection E as <-; destruct K; [congruence|assumption]);
    rewrite walk_cons in E; destruct (fs d) as [[|up es|]|] eqn:Ed; try discriminate; (destruct (idle x); [eapply IHl; eauto|]);
    (destruct (upward x); [destruct (S2 _ _ _ Ed) as (? & ? & ?); eapply IHl; eauto|]);
    (destruct (find x es) as [c|]; [|discriminate]); destruct (fs c) as [[|u e|t]|] eqn:Ec; try discriminate; try (eapply IHl; eauto; fail);
    unfold hop in E; destruct l as [|y l]; destruct f; try (injection E as <-; eauto; fail); destruct t as [|b t]; try discriminate;
    (eapply IH; [|exact E]); left; destruct (cut [] (b :: t)) eqn:Q; try discriminate; now apply cut_ne in Q.
Qed.
Lemma seen_down fs : distinct fs -> forall cs n m i, down n cs m -> seen fs i n -> exists j, SubsSpec.inside fs i cs j /\ seen fs j m /\ wname_of m = last cs (wname_of n).
Proof.
  intros U. induction cs as [|x cs IH]; intros n m i Dn Sn.
  - inversion Dn; subst. exists i. split; [constructor|]. split; [exact Sn|reflexivity].
  - inversion Dn as [|nm kids k ? ? Ik Dk]; subst. inversion Sn as [| |? ? up es ? Ei F2]; subst.
    assert (exists c, In (wname_of k, c) es /\ seen fs c k) as (c & Ic & Sc).
    { clear -F2 Ik. induction F2 as [|[x c] k' es kids [N B] F2 IH]; [destruct Ik|]. cbn [fst snd] in *. destruct Ik as [->|Ik]; [exists c; split; [left; congruence|exact B]|].
      destruct (IH Ik) as (c' & I & B'). exists c'. split; [now right|exact B']. }
    destruct (IH _ _ _ Dk Sc) as (j & I & Sj & N). exists j. split; [econstructor; [exact Ei|apply distinct_find; eauto|exact I]|]. split; [exact Sj|].
    rewrite N. change (last (wname_of k :: cs) (wname_of (WDir nm kids))) with (match cs with [] => wname_of k | _ => last cs (wname_of (WDir nm kids)) end).
    destruct cs as [|y cs]; [reflexivity|]. apply last_ne. discriminate.
Qed.
Lemma find_in x es c : find x es = Some c -> In (x, c) es.
Proof. induction es as [|[y i] es IH]; cbn; [discriminate|]. destruct (list_eq_dec _ _ _) as [->|]; [intros [= ->]; now left|]. auto. Qed.
Lemma down_seen fs : forall cs n i j, SubsSpec.inside fs i cs j -> seen fs i n -> exists m, down n cs m /\ seen fs j m.
Proof.
  induction cs as [|x cs IH]; intros n i j I Sn.
  - inversion I; subst. exists n. split; [constructor|exact Sn].
  - inversion I as [|? up es ? c ? ? Ei F I']; subst. inversion Sn as [? ? ? E1|? ? ? E1|? nm up' es' kids Ei' F2]; subst; try congruence.
    rewrite Ei in Ei'. injection Ei' as <- <-. apply find_in in F.
    assert (exists k, In k kids /\ wname_of k = x /\ seen fs c k) as (k & Ik & <- & Sk).
    { clear -F2 F. induction F2 as [|[y d] k' es kids [N B] F2 IH]; [destruct F|]. cbn [fst snd] in *. destruct F as [[= -> ->]|F]; [exists k'; split; [now left|auto]|].
      destruct (IH F) as (k & Ik & Q). exists k. split; [now right|exact Q]. }
    destruct (IH _ _ _ I' Sk) as (m & Dm & Sm). exists m. split; [now econstructor|exact Sm].
Qed.
Lemma visits_seen fs j m nm v : seen fs j m -> wname_of m = nm -> (visits_of m v <-> v = seen_as fs j nm).
Proof. intros Sm <-. unfold seen_as. inversion Sm as [? ? ? E|? ? ? E|? ? ? ? ? E]; subst; rewrite E; reflexivity. Qed.
Lemma pt_path root cs : root <> [] -> pt root cs = FsSpec.path_of root cs.
Proof.
  unfold pt, FsSpec.path_of. revert root. induction cs as [|x cs IH]; intros root N; [reflexivity|]. cbn [fold_left]. rewrite fp_join_joins by auto. apply IH.
  apply canonical_ne, clean_canonical.
Qed.
Lemma inside_names fs : sound fs -> forall cs i j, SubsSpec.inside fs i cs j -> Forall name cs.
Proof. intros (_ & _ & S3). induction cs as [|x cs IH]; intros i j I; [constructor|]. inversion I; subst. constructor; [eapply S3; eauto|eauto]. Qed.
Lemma walk_links_all lim fs cwd s H i : sound fs -> distinct fs -> bounded fs H -> lstat lim fs cwd (file_path s) = Found i ->
  exists l path fuel0, StronglySorted earlier l /\
  (forall cs v, In (cs, v) l <-> exists j, SubsSpec.inside fs i cs j /\ v = seen_as fs j (last cs (base_of (file_path s)))) /\
  (forall cs j, SubsSpec.inside fs i cs j -> text_of (file_path s) cs (path cs) /\ lstat lim fs cwd (path cs) = Found j) /\
  forall fuel S E (fn : S -> list Z -> option finfo -> option (list Z) -> S * answer E) err st, (fuel0 <= fuel)%nat ->
    walk_links fn err lim fs cwd fuel (file_path s) st = Ok (run S E (fun s cs v => fn s (path cs) (fst (told v)) (snd (told v))) st [] l).
Proof.
  intros Sn U [depth D] L. set (root := file_path s) in *. assert (Cr : canonical root) by apply clean_canonical. assert (Nr : root <> []) by (now apply canonical_ne).
  assert (exists x, fs i = Some x) as [x Ei].
  { unfold lstat in L. destruct root as [|b t]; [congruence|]. eapply walk_node; [exact Sn| |exact L]. apply cut_ne. }
  destruct (seen_all fs depth H Sn U D (Datatypes.S H) i (base_of root) x Ei) as (n & Nn & Sg & Pn); [intros; lia|].
  exists (events n), (pt root), (H + 2)%nat. split; [now apply events_sorted|]. split; [|split].
  - intros cs v. rewrite events_iff. unfold belongs. cbn [fst snd]. split.
    + intros (m & Dm & V). destruct (seen_down fs U _ _ _ _ Dm Sg) as (j & I & Sj & N). exists j. split; [exact I|]. rewrite Nn in N. now apply (visits_seen _ _ _ _ _ Sj N).
    + intros (j & I & V). destruct (down_seen fs _ _ _ _ I Sg) as (m & Dm & Sm). exists m. split; [exact Dm|].
      destruct (seen_down fs U _ _ _ _ Dm Sg) as (j' & I' & Sj & N). assert (j' = j).
      { clear -I I'. revert i j j' I I'. induction cs as [|y cs IH]; intros i j j' I I'; inversion I; inversion I'; subst; [reflexivity|].
        match goal with A : fs i = _, B : fs i = _ |- _ => rewrite A in B; injection B as <- <- end. eapply IH; eauto. congruence. }
      subst j'. rewrite Nn in N. now apply (visits_seen _ _ _ _ _ Sj N).
  - intros cs j I. split; [apply pt_text; [assumption|]; eapply inside_names; eauto|]. rewrite pt_path by auto. destruct cs as [|y cs]; [inversion I; subst; exact L|].
    assert (exists up es, fs i = Some (NDir up es)) as (up & es & Ed) by (inversion I; eauto).
    assert (St : stat lim fs cwd root = Found i) by (apply lstat_stat; [intros t; congruence|exact L]).
    destruct (at_start _ _ _ _ _ Cr St) as (r & _ & A). eapply inside_leads; eauto. discriminate.
  - intros fuel S E fn err st Lf. unfold walk_links. rewrite L, <- Nn. rewrite (wlink_main S E fn err lim fs cwd depth H Sn U D fuel n root i st Sg).
    + cbn [bind]. pose proof (walk_run S E fn root n st Pn) as W. unfold fn' in W. rewrite <- W. unfold walk_path. destruct (WalkModel.walk fn n root st) as [s' [| |e]]; reflexivity.
    + lia.
    + intros (up & es & Ed). split; [|lia]. assert (St : stat lim fs cwd root = Found i) by (apply lstat_stat; [intros t; congruence|exact L]).
      destruct (at_start _ _ _ _ _ Cr St) as (r & _ & A). eauto.
Qed.
Lemma walk_links_missing {S E} (fn : S -> list Z -> option finfo -> option (list Z) -> S * answer E) err lim fs cwd fuel path st e : lstat lim fs cwd path = e -> (forall i, e <> Found i) ->
  walk_links fn err lim fs cwd fuel path st = Ok (run S E (fun s cs v => fn s path (fst (told v)) (snd (told v))) st [] [([], VLost (err path e))]).
Proof.
  intros L N. unfold walk_links. rewrite L. destruct e; try (exfalso; eapply N; reflexivity); cbn;
    match goal with |- context [fn ?a ?b ?c ?d] => destruct (fn a b c d) as [s' [| |x]] end; reflexivity.
Qed.
Lemma statistic_links_all err lim fs cwd s H i : sound fs -> distinct fs -> bounded fs H -> lstat lim fs cwd (file_path s) = Found i ->
  exists l fuel0, StronglySorted earlier l /\
  (forall cs v, In (cs, v) l <-> exists j, SubsSpec.inside fs i cs j /\ v = seen_as fs j (last cs (base_of (file_path s)))) /\
  forall fuel, (fuel0 <= fuel)%nat -> statistic_links err lim fs cwd fuel (file_path s) = Ok (dirs_in l, files_in l, bytes_in l mod 2 ^ 64, []).
Proof.
  intros Sn U B L. destruct (walk_links_all lim fs cwd s H i Sn U B L) as (l & path & fuel0 & H1 & H2 & _ & H4). exists l, fuel0. split; [exact H1|]. split; [exact H2|].
  intros fuel Lf. unfold statistic_links. rewrite H4 by exact Lf. cbn [bind]. rewrite stat_run. cbn [fst]. rewrite size_fold by lia. rewrite !Z.add_0_l. cbn [app].
  replace (errors_in l) with (@nil Z); [reflexivity|]. clear -H2. symmetry.
  assert (F : Forall (fun e : list (list Z) * visit => exists x, snd e = VEntry x) l).
  { apply Forall_forall. intros [cs v] I. apply H2 in I as (j & _ & ->). unfold seen_as. cbn. destruct (fs j) as [[| |]|]; eauto. }
  clear H2. induction F as [|[cs v] l [x Hx] F IH]; [reflexivity|]. cbn [snd] in Hx. subst v. unfold errors_in in *. cbn [map concat snd app]. exact IH.
Qed.
Lemma statistic_stat err lim fs cwd s H i : sound fs -> distinct fs -> bounded fs H -> stat lim fs cwd (file_path s) = Found i -> (forall j t, lstat lim fs cwd (file_path s) = Found j -> fs j <> Some (NLink t)) ->
  exists l fuel0, StronglySorted earlier l /\
  (forall cs v, In (cs, v) l <-> exists j, SubsSpec.inside fs i cs j /\ v = seen_as fs j (last cs (base_of (file_path s)))) /\
  forall fuel, (fuel0 <= fuel)%nat -> statistic_links err lim fs cwd fuel (file_path s) = Ok (dirs_in l, files_in l, bytes_in l mod 2 ^ 64, []).
Proof.
  intros Sn U B St N. apply (statistic_links_all err lim fs cwd s H i Sn U B).
  assert (exists j, lstat lim fs cwd (file_path s) = Found j) as [j L] by (eapply stat_lstat; eauto).
  rewrite L. f_equal. pose proof (lstat_stat lim fs cwd (file_path s) j (fun t => N j t L) L). congruence.
Qed.
Lemma statistic_not : exists fs s H i, sound fs /\ distinct fs /\ bounded fs H /\ stat 40 fs 0 (file_path s) = Found i /\
  forall err l fuel, NoDup l -> (forall cs v, In (cs, v) l <-> exists j, SubsSpec.inside fs i cs j /\ v = seen_as fs j (last cs (base_of (file_path s)))) ->
  statistic_links err 40 fs 0 fuel (file_path s) <> Ok (dirs_in l, files_in l, bytes_in l mod 2 ^ 64, []).
Proof.
  destruct ex_subs_sound as (A & B & C). exists ex_subs, [108], 2%nat, 2%nat. split; [exact A|]. split; [exact B|]. split; [exact C|]. split; [reflexivity|].
  intros err l fuel _ Hl E. assert (I : In ([], seen_as ex_subs 2 [108]) l) by (apply Hl; exists 2%nat; split; [constructor|reflexivity]).
  destruct fuel as [|fuel]; [discriminate E|]. change (Ok (0, 1, 3, @nil Z) = Ok (dirs_in l, files_in l, bytes_in l mod 2 ^ 64, [])) in E.
  assert (P : 0 < dirs_in l).
  { unfold dirs_in. assert (J : In ([], seen_as ex_subs 2 [108]) (filter (fun e => match snd e with VEntry i => fi_dir i | _ => false end) l)) by (apply filter_In; split; [exact I|reflexivity]).
    destruct (filter _ l); [destruct J|cbn [length]; lia]. }
  injection E as E _ _. lia.
Qed.
