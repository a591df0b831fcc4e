From Coq Require Import ZArith List Bool Lia.
From Verif Require Import GoBase GoStrings PathModel PathSpec PathProofs FsModel FsSpec FsProofs LinkSpec LinkModel LinkProofs LinkMore LoopSpec LoopProofs SubsSpec SubsModel.
Import ListNotations.
Open Scope Z_scope.

(** The loop of the model of FsModel, as a function of its own. *)
Fixpoint tree_loop (dir : list Z) (opt : Z) (l : list fnode) (has_sub_dir : bool) : list (list Z) * bool :=
  match l with
  | [] => (if negb has_sub_dir && has opt (Z.lor FsLeaf FsDir) then [choose_name opt dir (file_name dir)] else [], false)
  | v :: l =>
      let full := joins [dir; node_name v] in
      match v with
      | Dir nm _ | Locked nm true =>
          let own := if has opt FsDir && negb (has opt FsLeaf) then [choose_name opt full nm] else [] in
          let '(r, err) := if has_any opt (Z.lor FsDeep FsLeaf) then collect_subs full opt v else ([], false) in
          if err then ([], true)
          else let '(rest, err) := tree_loop dir opt l true in (own ++ r ++ rest, err)
      | File nm _ | Locked nm false =>
          let own := if has opt FsFile then [choose_name opt full nm] else [] in
          let '(rest, err) := tree_loop dir opt l has_sub_dir in (own ++ rest, err)
      end
  end.
Lemma collect_dir dir opt nm kids : collect_subs dir opt (Dir nm (Some kids)) = tree_loop dir opt kids false.
Proof.
  cbn [collect_subs]. match goal with |- ?f kids false = _ => assert (K : forall l b, f l b = tree_loop dir opt l b) end; [|apply K].
  induction l as [|v l IH]; intros b; [reflexivity|]. destruct v as [nm' c|nm' k|nm' [|]]; cbn [tree_loop]; rewrite <- IH; reflexivity.
Qed.
Lemma distinct_find x c es : NoDup (map fst es) -> In (x, c) es -> find x es = Some c.
Proof.
  induction es as [|[y i] es IH]; cbn; [tauto|]. intros N [[= -> ->]|I]; inversion N; subst; destruct (list_eq_dec _ _ _); auto; try congruence.
  subst. exfalso. apply H1. apply (in_map fst) in I. exact I.
Qed.
Section Main.
  Variables (lim : nat) (fs : fsys) (cwd : nat) (depth : nat -> nat) (H : nat) (opt : Z).
  Hypothesis S : sound fs.
  Hypothesis U : distinct fs.
  Hypothesis D : forall d up es, fs d = Some (NDir up es) -> (depth d <= H)%nat /\
    forall x c up' es', find x es = Some c -> fs c = Some (NDir up' es') -> (depth d < depth c)%nat.
  Lemma bare_all : forall k i nm x, fs i = Some x -> (forall up es, x = NDir up es -> (H - depth i < k)%nat) -> exists n, node_name n = nm /\ bare fs i n.
  Proof.
    induction k as [|k IH]; intros i nm x E L; (destruct x as [b|up es|t]; [exists (File nm b); split; [reflexivity|now constructor]| |exists (File nm t); split; [reflexivity|now constructor]]);
      specialize (L _ _ eq_refl); [lia|].
    assert (K : forall es0, incl es0 es -> exists kids, Forall2 (fun e k => node_name k = fst e /\ bare fs (snd e) k) es0 kids).
    { induction es0 as [|[y c] es0 IHe]; intros I; [exists []; constructor|]. destruct (IHe (fun e He => I e (or_intror He))) as (kids & F2).
      pose proof (distinct_find _ _ _ (U _ _ _ E) (I _ (or_introl eq_refl))) as F. destruct S as (_ & _ & S3). destruct (S3 _ _ _ _ _ E F) as (_ & _ & n & En & _).
      destruct (IH c y n En) as (m & Nm & Bm).
      - intros up' es' ->. pose proof (proj2 (D _ _ _ E) _ _ _ _ F En). pose proof (proj1 (D _ _ _ En)). lia.
      - exists (m :: kids). constructor; [split; assumption|exact F2]. }
    destruct (K es (incl_refl _)) as (kids & F2). exists (Dir nm (Some kids)). split; [reflexivity|]. econstructor; eauto.
  Qed.
  Lemma collect_main : forall fuel p i r n, at_ lim fs cwd p i r -> (H - depth i < fuel)%nat -> bare fs i n -> collect_links fuel lim fs cwd p opt = Ok (collect_subs p opt n).
  Proof.
    induction fuel as [|fuel IH]; intros p i r n A L B; [lia|].
    cbn [collect_links]. rewrite (at_stat _ _ _ _ _ _ A). inversion B as [? nm b Ei|? nm t Ei|? nm up es kids Ei F2]; subst; rewrite Ei; [reflexivity|reflexivity|].
    destruct (D _ _ _ Ei) as [Dh Dc]. pose proof S as (_ & _ & S3). rewrite collect_dir.
    assert (K : forall es0 kids, Forall2 (fun e k => node_name k = fst e /\ bare fs (snd e) k) es0 kids -> incl es0 es ->
              forall b, subs_loop (fun full => collect_links fuel lim fs cwd full opt) fs p opt es0 b = Ok (tree_loop p opt kids b)); [|apply K; [exact F2|apply incl_refl]].
    clear F2 kids B. induction 1 as [|[x c] k es0 kids [Nk Bk] F2 IHe]; intros I b; [reflexivity|]. cbn [fst snd] in *.
    pose proof (IHe (fun e He => I e (or_intror He))) as E2. clear IHe.
    pose proof (distinct_find _ _ _ (U _ _ _ Ei) (I _ (or_introl eq_refl))) as F.
    destruct (S3 _ _ _ _ _ Ei F) as (Hx & _). subst x.
    inversion Bk as [? nm' b' En|? nm' t En|? nm' up' es' kids' En F2']; subst; cbn [subs_loop tree_loop node_name] in *; unfold entry_is_dir; rewrite En.
    - rewrite E2. cbn [bind]. destruct (tree_loop p opt kids b). reflexivity.
    - rewrite E2. cbn [bind]. destruct (tree_loop p opt kids b). reflexivity.
    - assert (Dx := Dc _ _ _ _ F En). destruct (D _ _ _ En) as [Dch _].
      assert (W : walk r true fs [nm'] i = Found c).
      { destruct (name_kind _ Hx) as [Ix Ux]. rewrite walk_cons, Ei, Ix, Ux, F, En. apply walk_nil. }
      destruct (at_child _ _ _ _ _ _ _ _ S Hx A W) as (r' & A' & _).
      assert (Lf : (H - depth c < fuel)%nat) by lia. pose proof (IH _ _ _ _ A' Lf Bk) as Cn. change (path_joins p [nm']) with (joins [p; nm']) in Cn.
      rewrite Cn, E2. destruct (has_any opt (Z.lor FsDeep FsLeaf)); cbn [bind].
      + destruct (collect_subs (joins [p; nm']) opt (Dir nm' (Some kids'))) as [sub [|]]; [reflexivity|]. cbn [bind]. destruct (tree_loop p opt kids true). reflexivity.
      + destruct (tree_loop p opt kids true). reflexivity.
  Qed.
  Lemma collect_canon fuel p : canonical p -> (H < fuel)%nat -> exists l, collect_links fuel lim fs cwd p opt = Ok (l, false).
  Proof.
    intros C L. destruct (stat lim fs cwd p) as [i| | |] eqn:E; [|destruct fuel; [lia|]; cbn [collect_links]; rewrite E; eauto ..].
    destruct (at_start _ _ _ _ _ C E) as (r & _ & A). destruct (fs i) as [x|] eqn:Ei.
    - destruct (bare_all (Datatypes.S H) i [] x Ei) as (n & _ & B); [intros; lia|].
      assert (Lf : (H - depth i < fuel)%nat) by lia. rewrite (collect_main _ _ _ _ _ A Lf B), collect_spec. eauto.
    - destruct fuel; [lia|]. cbn [collect_links]. rewrite E, Ei. eauto.
  Qed.
  Lemma collect_any fuel p : (Datatypes.S H < fuel)%nat -> exists l, collect_links fuel lim fs cwd p opt = Ok (l, false).
  Proof.
    intros L. destruct fuel as [|fuel]; [lia|]. cbn [collect_links]. destruct (stat lim fs cwd p) as [i| | |]; eauto. destruct (fs i) as [[|up es|]|]; eauto.
    generalize false at 1. induction es as [|[x c] es IH]; intros b; cbn [subs_loop]; [eauto|]. destruct (entry_is_dir fs c).
    - destruct (IH true) as (l & E). assert (exists l', (if has_any opt (Z.lor FsDeep FsLeaf) then collect_links fuel lim fs cwd (joins [p; x]) opt else Ok ([], false)) = Ok (l', false)) as (l' & ->).
      + destruct (has_any _ _); [|eauto]. apply collect_canon; [|lia]. apply clean_canonical.
      + cbn [bind]. rewrite E. cbn [bind]. eauto.
    - destruct (IH b) as (l & E). rewrite E. cbn [bind]. eauto.
  Qed.
End Main.
Lemma collect_returns lim fs cwd dir opt H : sound fs -> distinct fs -> bounded fs H ->
  exists fuel0, forall fuel, (fuel0 <= fuel)%nat -> exists l, collect_links fuel lim fs cwd dir opt = Ok (l, false).
Proof. intros S U [depth D]. exists (H + 2)%nat. intros fuel L. apply (collect_any lim fs cwd depth H opt S U D). lia. Qed.
Lemma collect_bare lim fs cwd s opt H i : sound fs -> distinct fs -> bounded fs H -> stat lim fs cwd (file_path s) = Found i ->
  exists fuel0, forall fuel n, (fuel0 <= fuel)%nat -> bare fs i n ->
    collect_links fuel lim fs cwd (file_path s) opt = Ok (listed opt (entries (is_deep opt) (file_path s) n), false).
Proof.
  intros S U [depth D] E. destruct (at_start _ _ _ _ _ (clean_canonical s) E) as (r & _ & A). exists (H + 1)%nat. intros fuel n L B.
  assert (Lf : (H - depth i < fuel)%nat) by lia. rewrite (collect_main lim fs cwd depth H opt S U D fuel _ _ _ _ A Lf B). now rewrite collect_spec.
Qed.
Lemma bare_exists fs H i x : sound fs -> distinct fs -> bounded fs H -> fs i = Some x -> exists n, bare fs i n.
Proof. intros S U [depth D] E. destruct (bare_all fs depth H S U D (Datatypes.S H) i [] x E) as (n & _ & B); [intros; lia|]. eauto. Qed.

(** ** The paths lead to the entries *)
Lemma bare_reach fs : sound fs -> distinct fs -> forall xs n m i, reach n xs m -> bare fs i n -> Forall name xs /\ exists j, inside fs i xs j /\ bare fs j m.
Proof.
  intros S U. induction xs as [|x xs IH]; intros n m i R B.
  - apply reach_nil_inv in R. subst. split; [constructor|]. exists i. split; [constructor|exact B].
  - apply reach_inv in R as (nm & kids & k & -> & Ik & -> & R). inversion B as [| |? ? up es ? Ei F2]; subst.
    assert (exists c, In (node_name k, c) es /\ bare fs c k) as (c & Ic & Bc).
    { clear -F2 Ik. induction F2 as [|[x c] k' es kids [N B] F2 IH]; [destruct Ik|]. cbn [fst snd] in *. destruct Ik as [->|Ik]; [exists c; split; [left; congruence|exact B]|].
      destruct (IH Ik) as (c' & I & B'). exists c'. split; [now right|exact B']. }
    pose proof (distinct_find _ _ _ (U _ _ _ Ei) Ic) as F. pose proof S as (_ & _ & S3). destruct (S3 _ _ _ _ _ Ei F) as (Hx & _).
    destruct (IH _ _ _ R Bc) as (Hn & j & I & Bj). split; [now constructor|]. exists j. split; [econstructor; eauto|exact Bj].
Qed.
Lemma inside_leads lim fs cwd : sound fs -> forall xs p i r j, at_ lim fs cwd p i r -> inside fs i xs j -> xs <> [] -> lstat lim fs cwd (path_of p xs) = Found j.
Proof.
  intros S. induction xs as [|x xs IH]; intros p i r j A I N; [congruence|]. inversion I as [|? up es ? c ? ? Ei F I']; subst.
  pose proof S as (_ & _ & S3). destruct (S3 _ _ _ _ _ Ei F) as (Hx & _ & n & En & _). destruct (name_kind _ Hx) as [Ix Ux].
  cbn [path_of fold_left]. change (joins [p; x]) with (path_joins p [x]). destruct xs as [|y xs].
  - inversion I'; subst. cbn [fold_left]. destruct A as [C K].
    destruct (walk_child_f false lim fs cwd p x [] S C Hx) as [Cc E]. unfold lstat. rewrite app_nil_r in E.
    destruct (path_joins p [x]) as [|b t] eqn:Q; [now apply canonical_ne in Cc|]. rewrite <- Q in *. rewrite E. eapply walk_last.
    + specialize (K []). rewrite app_nil_r, walk_nil in K. exact K.
    + rewrite walk_cons, Ei, Ix, Ux, F, En. destruct n; reflexivity.
    + discriminate.
  - assert (Hd : exists up' es', fs c = Some (NDir up' es')) by (inversion I'; subst; eauto). destruct Hd as (up' & es' & Ec).
    assert (W : walk r true fs [x] i = Found c) by (rewrite walk_cons, Ei, Ix, Ux, F, Ec; apply walk_nil).
    destruct (at_child _ _ _ _ _ _ _ _ S Hx A W) as (r' & A' & _). apply (IH _ _ _ _ A' I'). discriminate.
Qed.
Definition e_path (e : entry) : list Z := match e with EDir f _ | EFile f _ | ELeaf f => f end.
Lemma entry_path deep : forall n full e, In e (entries deep full n) -> exists xs m, reach n xs m /\ e_path e = path_of full xs /\
  match e with EDir _ nm => xs <> [] /\ is_dir m = true /\ nm = node_name m | EFile _ nm => xs <> [] /\ is_dir m = false /\ nm = node_name m | ELeaf _ => leaf_dir m end.
Proof.
  induction n as [nm c|nm b|nm|nm kids IH] using fnode_ind2; intros full e I; try (destruct I; fail).
  cbn [entries] in I. apply in_app_iff in I as [I|I].
  - apply in_flat_map in I as (k & Ik & I). rewrite Forall_forall in IH. destruct (is_dir k) eqn:Ek.
    + destruct I as [<-|I].
      * exists [node_name k], k. split; [econstructor; [exact Ik|constructor]|]. split; [reflexivity|]. repeat split; auto; discriminate.
      * destruct deep; [|destruct I]. destruct (IH k Ik _ _ I) as (xs & m & R & P & Q). exists (node_name k :: xs), m. split; [econstructor; eauto|]. split; [exact P|].
        destruct e; auto; destruct Q as (_ & Q); split; auto; discriminate.
    + destruct I as [<-|[]]. exists [node_name k], k. split; [econstructor; [exact Ik|constructor]|]. split; [reflexivity|]. repeat split; auto; discriminate.
  - destruct (existsb is_dir kids) eqn:X; [destruct I|]. destruct I as [<-|[]]. exists [], (Dir nm (Some kids)). split; [constructor|]. split; [reflexivity|].
    exists nm, kids. split; [reflexivity|]. now apply existsb_leaf.
Qed.
Lemma collect_leads lim fs cwd s opt H i : sound fs -> distinct fs -> bounded fs H -> Z.testbit opt 2 = true -> stat lim fs cwd (file_path s) = Found i ->
  exists fuel0, forall fuel, (fuel0 <= fuel)%nat -> exists l, collect_links fuel lim fs cwd (file_path s) opt = Ok (l, false) /\
  forall q, In q l -> exists xs j, inside fs i xs j /\ q = path_of (file_path s) xs /\ (xs <> [] -> lstat lim fs cwd q = Found j).
Proof.
  intros S U Bd T E. destruct (collect_bare lim fs cwd s opt H i S U Bd E) as (fuel0 & K). exists (fuel0 + 1)%nat. intros fuel L.
  destruct (fs i) as [x|] eqn:Ei.
  - destruct (bare_exists fs H i x S U Bd Ei) as (n & B). assert (Lf : (fuel0 <= fuel)%nat) by lia. rewrite (K fuel n Lf B). eexists. split; [reflexivity|].
    intros q I. unfold listed in I. apply in_map_iff in I as (e & <- & I). apply filter_In in I as [I _].
    destruct (entry_path _ _ _ _ I) as (xs & m & R & P & _). destruct (bare_reach fs S U _ _ _ _ R B) as (_ & j & In & Bj). exists xs, j. split; [exact In|].
    assert (Q : shown opt e = path_of (file_path s) xs) by (rewrite <- P; destruct e; cbn [shown e_path]; now rewrite T).
    split; [exact Q|]. rewrite Q. intros N. destruct (at_start _ _ _ _ _ (clean_canonical s) E) as (r & _ & A). eapply inside_leads; eauto.
  - destruct fuel as [|fuel]; [lia|]. cbn [collect_links]. rewrite E, Ei. exists []. split; [reflexivity|]. intros q [].
Qed.
Lemma ex_subs_sound : sound ex_subs /\ distinct ex_subs /\ bounded ex_subs 2.
Proof.
  split; [|split].
  - split; [eexists; reflexivity|]. split.
    + intros d up es H. destruct d as [|[|[|[|[|[|d]]]]]]; cbn in H; try discriminate; injection H as <- <-; cbn; eauto.
    + assert (Na : forall c, 97 <= c <= 108 -> name [c]) by (intros c Hc; repeat split; try discriminate; try (intros [=]; lia); intros [E|[]]; lia).
      intros d up es x c H F. destruct d as [|[|[|[|[|[|d]]]]]]; cbn in H; try discriminate; injection H as <- <-; cbn [find] in F;
        repeat (destruct (list_eq_dec Z.eq_dec _ _) as [->|] in F); try discriminate; injection F as <-; (split; [apply Na; lia|]); (split; [discriminate|]);
        eexists; (split; [reflexivity|]); try discriminate; intros u' e' [= <- <-]; (split; [reflexivity|]); intros y; cbn [find];
        repeat (destruct (list_eq_dec Z.eq_dec _ _) as [->|]); try discriminate; reflexivity.
  - intros d up es E. destruct d as [|[|[|[|[|[|d]]]]]]; cbn in E; try discriminate; injection E as <- <-; repeat constructor; cbn; intuition discriminate.
  - exists (fun i => i). intros d up es E. destruct d as [|[|[|[|[|[|d]]]]]]; cbn in E; try discriminate; injection E as <- <-; (split; [lia|]);
      intros x c u e F; cbn [find] in F; repeat (destruct (list_eq_dec Z.eq_dec _ _) in F); try discriminate; injection F as <-; cbn; try discriminate; lia.
Qed.
Lemma collect_false : exists lim fs cwd dir opt fuel l q, sound fs /\ distinct fs /\ bounded fs 2 /\ Z.testbit opt 2 = true /\
  collect_links fuel lim fs cwd dir opt = Ok (l, false) /\ In q l /\ lstat lim fs cwd q = Missing.
Proof.
  destruct ex_subs_sound as (A & B & C). exists 40%nat, ex_subs, 0%nat, [47; 108; 47; 46; 46], 7, 10%nat, [[47; 98]; [47; 99]], [47; 98].
  split; [exact A|]. split; [exact B|]. split; [exact C|]. split; [reflexivity|]. split; [vm_compute; reflexivity|]. split; [now left|vm_compute; reflexivity].
Qed.
