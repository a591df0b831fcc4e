(** Proofs about EvalSymlinks. *)
From Coq Require Import ZArith List Bool Arith Lia.
From Verif Require Import GoBase GoStrings PathSpec PathModel PathProofs LinkSpec LinkProofs LinkMore LoopProofs MkallProofs EvalSpec EvalModel.
Import ListNotations.
Open Scope Z_scope.

(** ** It returns *)
Lemma split_ends path : exists f, flat f /\ snd (split_path path) = f /\
  ((fst (split_path path) = [] /\ path = f) \/ (exists P, fst (split_path path) = P ++ [47] /\ path = P ++ 47 :: f)).
Proof.
  induction path as [|c t (f & Ff & Ef & K)]; [exists []; repeat split; auto; intros []|]. cbn [split_path]. destruct (split_path t) as [d f'] eqn:Q. cbn [fst snd] in *. subst f'.
  destruct K as [(-> & ->)|(P & -> & ->)].
  - destruct (Z.eqb_spec c 47) as [->|N]; cbn [fst snd].
    + exists f. split; [exact Ff|]. split; [reflexivity|]. right. exists []. auto.
    + exists (c :: f). split; [intros [K|K]; [congruence|now apply Ff]|]. auto.
  - destruct (P ++ [47]) eqn:E; [destruct P; discriminate|]. rewrite <- E. cbn [fst snd]. exists f. split; [exact Ff|]. split; [reflexivity|]. right. exists (c :: P). cbn. auto.
Qed.
Lemma walk_link_inv lim fs cwd path n p l m : walk_link lim fs cwd path n = Some (p, l, m) -> (n <= 255)%nat /\ exists i k, lstat lim fs cwd path = Found i /\ fs i = Some k /\
  ((l = true /\ k = NLink p /\ m = S n) \/ (l = false /\ p = path /\ m = n /\ forall t, k <> NLink t)).
Proof.
  unfold walk_link. destruct (Nat.ltb_spec 255 n) as [|L]; [discriminate|]. destruct (lstat lim fs cwd path) as [i| | |]; try discriminate. destruct (fs i) as [[b|u e|t]|] eqn:E; try discriminate; intros [= <- <- <-];
    (split; [lia|]); exists i; eexists; (split; [reflexivity|]); (split; [exact E|]); [right|right|left]; repeat split; auto; discriminate.
Qed.
Lemma links_return lim fs cwd : worded fs -> forall fuel path n, (length path < fuel)%nat -> (n <= 256)%nat ->
  walk_links fuel lim fs cwd path n = Ok None \/ exists q m, walk_links fuel lim fs cwd path n = Ok (Some (q, m)) /\ (n <= m <= 256)%nat.
Proof.
  intros Wd. induction fuel as [|fuel IH]; intros path n L Ln; [lia|]. cbn [walk_links]. destruct (split_ends path) as (f & _ & Ef & K). destruct (split_path path) as [dir file]. cbn [fst snd] in *. subst file.
  destruct K as [(-> & ->)|(P & -> & ->)].
  - destruct (walk_link lim fs cwd f n) as [[[p l] m]|] eqn:W; [|auto]. right. exists p, m. split; [reflexivity|]. destruct (walk_link_inv _ _ _ _ _ _ _ _ W) as (A & i & k & _ & _ & [(_ & _ & ->)|(_ & _ & -> & _)]); lia.
  - assert (Lz : length (P ++ [47]) = S (length P)) by (rewrite app_length; cbn; lia). assert (Rl : removelast (P ++ [47]) = P) by apply removelast_last.
    destruct (P ++ [47]) as [|z zs] eqn:Ez; [destruct P; discriminate|]. rewrite app_length in L. cbn [length] in L. destruct f as [|c f].
    + destruct (str_eqb (z :: zs) [47]); [right; do 2 eexists; split; [reflexivity|lia]|]. rewrite Rl. apply IH; [|exact Ln]. cbn [length] in L. lia.
    + destruct (IH (z :: zs) n ltac:(cbn [length] in *; lia) Ln) as [->|(q & m & -> & Hm)]; [left; reflexivity|]. cbn [bind].
      destruct (walk_link lim fs cwd (fp_join [q; c :: f]) m) as [[[p l] m']|] eqn:W; [|auto]. destruct (walk_link_inv _ _ _ _ _ _ _ _ W) as (A & i & k & _ & Ei & [(-> & -> & ->)|(-> & _ & -> & _)]).
      * destruct p as [|c' t]; [exfalso; exact (Wd i Ei)|]. right. do 2 eexists. split; [reflexivity|lia].
      * right. do 2 eexists. split; [reflexivity|lia].
Qed.
Lemma symlinks_return lim fs cwd : worded fs -> forall fuel path n, (n <= 256)%nat -> (256 < fuel + n)%nat -> exists R, walk_symlinks fuel lim fs cwd path n = Ok R.
Proof.
  intros Wd. induction fuel as [|fuel IH]; intros path n Ln L; [lia|]. cbn [walk_symlinks]. destruct (links_return lim fs cwd Wd (S (length path)) path n ltac:(lia) Ln) as [->|(q & m & -> & Hm)]; [cbn; eauto|].
  cbn [bind]. destruct (Nat.eqb_spec n m); [eauto|]. apply IH; lia.
Qed.
Lemma eval_returns fuel lim fs cwd me : worded fs -> (257 <= fuel)%nat -> exists R, eval_symlinks fuel lim fs cwd me = Ok R.
Proof. intros Wd L. unfold eval_symlinks. destruct me; [eauto|]. apply symlinks_return; auto; lia. Qed.

(** ** What it returns has no links *)
Lemma goes_cons fs d x c l e : move fs d x = Some c -> (forall t, fs c <> Some (NLink t)) -> (exists n, fs c = Some n) -> goes fs c l e -> goes fs d (x :: l) e.
Proof.
  intros M N E G. induction G as [c|c l e y c' G IH M' N' E'].
  - apply (goes_snoc fs d [] d x c); auto. constructor.
  - apply (goes_snoc fs d (x :: l) e y c'); auto.
Qed.
Lemma walk0_goes fs : sound fs -> forall l d e, walk 0 true fs l d = Found e -> goes fs d l e.
Proof.
  intros (R & S2 & S3). induction l as [|x l IH]; intros d e W; [rewrite walk_nil in W; injection W as <-; constructor|]. rewrite walk_cons in W. destruct (fs d) as [[|up es|]|] eqn:Ed; try discriminate.
  destruct (idle x) eqn:Ix; [|destruct (upward x) eqn:Ux].
  - apply (goes_cons fs d x d); [unfold move; now rewrite Ed, Ix|congruence|eauto|auto].
  - destruct (S2 _ _ _ Ed) as (u & ee & Eu). apply (goes_cons fs d x up); [unfold move; now rewrite Ed, Ix, Ux|congruence|eauto|auto].
  - destruct (find x es) as [c|] eqn:F; [|discriminate]. destruct (fs c) as [[b|u ee|t]|] eqn:Ec; try discriminate.
    + apply (goes_cons fs d x c); [unfold move; now rewrite Ed, Ix, Ux|congruence|eauto|auto].
    + apply (goes_cons fs d x c); [unfold move; now rewrite Ed, Ix, Ux|congruence|eauto|auto].
    + unfold hop in W. destruct l, t; discriminate.
Qed.
Lemma goes_straight fs d l e : goes fs d l e -> forall r, straight fs e r -> straight fs d (l ++ r).
Proof. induction 1 as [d|d l e x c G IH M N E]; intros r Sr; [exact Sr|]. rewrite <- app_assoc. apply IH. cbn. eapply straight_step; eauto. Qed.
Lemma goes_straight' fs d l e : goes fs d l e -> straight fs d l.
Proof. intros G. rewrite <- (app_nil_r l). eapply goes_straight; eauto. apply straight_down. auto. Qed.
Lemma stat0_clean fs cwd s j : sound fs -> stat 0 fs cwd s = Found j -> stat 0 fs cwd (file_path s) = Found j.
Proof.
  intros S E. apply same_file; auto. destruct s as [|c s]; [discriminate|]. cbn [stat] in E. apply (goes_straight' _ _ _ j). now apply walk0_goes.
Qed.
Lemma join_two p x : p <> [] -> fp_join [p; x] = file_path (p ++ 47 :: x).
Proof. intros N. destruct p; [congruence|]. reflexivity. Qed.
Lemma join_clean p x : p <> [] -> file_path (p ++ 47 :: x) = file_path (file_path p ++ 47 :: x).
Proof.
  intros N. apply clean_unique. intros q. assert (Np : file_path p <> []) by apply clean_ne.
  assert (G : forall p, p <> [] -> leads q (p ++ 47 :: x) = fold_left go (segments x) (leads q p)).
  { intros r Nr. rewrite !leads_fold, segments_app, fold_left_app. replace (is_rooted (r ++ 47 :: x)) with (is_rooted r) by (destruct r; [congruence|reflexivity]). reflexivity. }
  rewrite !G by auto. now rewrite clean_leads.
Qed.
Lemma join_name p x : p <> [] -> name x -> fp_join [p; x] = path_joins (file_path p) [x].
Proof.
  intros N Hx. rewrite join_two, join_clean by auto. unfold path_joins. rewrite joins_first by apply clean_ne. reflexivity.
Qed.
Lemma one_nonlink fs lim f lim' f' x d c : walk lim f fs [x] d = Found c -> (exists k, fs c = Some k /\ forall t, k <> NLink t) -> sound fs -> f = false -> walk lim' f' fs [x] d = Found c.
Proof.
  intros W (k & Ec & Nk) (_ & S2 & _) ->. rewrite walk_cons in W |- *. destruct (fs d) as [[|up es|]|] eqn:Ed; try discriminate. destruct (idle x); [now rewrite walk_nil in *|]. destruct (upward x); [now rewrite walk_nil in *|].
  destruct (find x es) as [e|]; [|discriminate]. destruct (fs e) as [[b|u ee|t]|] eqn:Ee; try discriminate; [now rewrite walk_nil in *|now rewrite walk_nil in *|].
  unfold hop in W. injection W as ->. rewrite Ee in Ec. injection Ec as <-. now destruct (Nk t).
Qed.
Lemma walk0_prefix fs p q d e : q <> [] -> walk 0 true fs (p ++ q) d = Found e -> exists c, walk 0 true fs p d = Found c.
Proof. intros Q W. destruct (walk_prefix fs true q e Q _ _ _ W) as (c & _ & A & _). eauto. Qed.
Lemma begins_app cwd p q : p <> [] -> begins cwd (p ++ q) = begins cwd p.
Proof. destruct p; [congruence|reflexivity]. Qed.
Lemma stat_ne' lim fs cwd s : s <> [] -> stat lim fs cwd s = walk lim true fs (cut [] s) (begins cwd s).
Proof. destruct s; [congruence|reflexivity]. Qed.
Lemma lstat_ne' lim fs cwd s : s <> [] -> lstat lim fs cwd s = walk lim false fs (cut [] s) (begins cwd s).
Proof. destruct s; [congruence|reflexivity]. Qed.
Lemma cut_slash a b : cut [] (a ++ 47 :: b) = cut [] a ++ cut [] b.
Proof. rewrite !cut_eq. apply segments_app. Qed.
Lemma cut_one f : flat f -> cut [] f = [f].
Proof. intros H. rewrite cut_eq. now apply segments_one. Qed.
Lemma ups_dir fs lim f : sound fs -> forall k d j, walk lim f fs (repeat [46; 46] (Datatypes.S k)) d = Found j -> exists u e, fs j = Some (NDir u e).
Proof.
  intros (_ & S2 & _). induction k as [|k IH]; intros d j W; cbn [repeat] in W; rewrite walk_cons in W; destruct (fs d) as [[|up es|]|] eqn:Ed; try discriminate; cbn [idle upward] in W.
  - destruct (upward [46; 46]) eqn:U; [|discriminate U]. rewrite walk_nil in W. injection W as <-. eauto.
  - destruct (upward [46; 46]) eqn:U; [|discriminate U]. apply (IH up). exact W.
Qed.
Lemma above_file fs cwd q j : sound fs -> tidy q -> stat 0 fs cwd q = Found j -> (forall u e, fs j <> Some (NDir u e)) -> exists c, stat 0 fs cwd (file_path (q ++ [47; 46; 46])) = Found c.
Proof.
  intros S T E Nd. pose proof S as ([er Er] & _). destruct T as [|k|x Hx|x Hx|r x T Nr1 Nr2 Hx].
  - exfalso. cbn in E. rewrite Er in E. injection E as <-. exact (Nd _ _ Er).
  - exfalso. destruct k as [|k].
    + cbn in E. destruct (fs cwd) as [[|up es|]|] eqn:Ec; try discriminate. injection E as <-. exact (Nd _ _ Ec).
    + rewrite stat_ne' in E by (destruct k; discriminate). rewrite cut_eq in E. pose proof (segments_join_flat (repeat [46; 46] (Datatypes.S k)) ltac:(discriminate)) as Sg.
      rewrite <- rel_path_join in Sg by discriminate. rewrite Sg in E by (apply Forall_forall; intros y Hy; apply repeat_spec in Hy; subst y; apply dd_flat).
      destruct (ups_dir _ _ _ S _ _ _ E) as (u & e & Ej). exact (Nd _ _ Ej).
  - exists 0%nat. replace (file_path ((47 :: x) ++ [47; 46; 46])) with (file_path [47]); [cbn; rewrite Er; reflexivity|]. apply clean_unique. intros p. rewrite !leads_fold. cbn [app is_rooted]. change (47 =? 47) with true. cbn iota.
    change (47 :: x ++ [47; 46; 46]) with ([] ++ 47 :: (x ++ 47 :: [46; 46])). rewrite !segments_app, (segments_one x) by (now apply name_flat). cbn. now rewrite go_name.
  - exists cwd. replace (file_path (x ++ [47; 46; 46])) with (file_path [46]).
    + rewrite stat_ne' in E by apply Hx. rewrite cut_one in E by (now apply name_flat). rewrite walk_cons in E. assert (B : begins cwd x = cwd).
      { destruct x as [|c x]; [reflexivity|]. cbn. destruct (Z.eq_dec c 47) as [->|]; [|reflexivity]. exfalso. apply Hx. now left. }
      rewrite B in E. cbn. destruct (fs cwd) as [[|up es|]|] eqn:Ec; try discriminate. reflexivity.
    + apply clean_unique. intros p. rewrite !leads_fold. assert (Rx : is_rooted (x ++ [47; 46; 46]) = false).
      { destruct x as [|c x]; [now destruct Hx|]. cbn. apply Z.eqb_neq. intros ->. apply Hx. now left. }
      rewrite Rx. cbn [is_rooted]. change (x ++ [47; 46; 46]) with (x ++ 47 :: [46; 46]). rewrite segments_app, (segments_one x) by (now apply name_flat). cbn. now rewrite go_name.
  - assert (Nr : r <> []) by (now apply tidy_ne). rewrite stat_ne' in E by (destruct r; discriminate). rewrite cut_slash, begins_app in E by auto. rewrite (cut_one x) in E by (now apply name_flat).
    assert (Nx1 : [x] <> []) by discriminate. destruct (walk0_prefix _ _ _ _ _ Nx1 E) as (c & W). exists c. replace (file_path ((r ++ 47 :: x) ++ [47; 46; 46])) with (file_path r).
    + apply stat0_clean; auto. now rewrite stat_ne'.
    + apply clean_unique. intros p. rewrite !leads_fold. assert (Rx : is_rooted ((r ++ 47 :: x) ++ [47; 46; 46]) = is_rooted r) by (destruct r; [congruence|reflexivity]). rewrite Rx.
      change ((r ++ 47 :: x) ++ [47; 46; 46]) with ((r ++ 47 :: x) ++ 47 :: [46; 46]). rewrite !segments_app, (segments_one x), !fold_left_app by (now apply name_flat). cbn. now rewrite go_name.
Qed.
(** The directory above what is found without links is found without links. *)
Lemma above_found fs cwd p j : sound fs -> stat 0 fs cwd p = Found j -> exists c, stat 0 fs cwd (file_path (p ++ [47; 46; 46])) = Found c.
Proof.
  intros S E. assert (Np : p <> []) by (intros ->; discriminate). pose proof (stat0_clean _ _ _ _ S E) as E'. rewrite join_clean by auto. pose proof (canonical_tidy _ (clean_canonical p)) as T. set (q := file_path p) in *.
  assert (Nq : q <> []) by (apply clean_ne). clearbody q. clear E Np p. pose proof S as (_ & S2 & _).
  assert (Dir : forall u e, fs j = Some (NDir u e) -> exists c, stat 0 fs cwd (file_path (q ++ [47; 46; 46])) = Found c).
  { intros u e Ej. exists u. apply stat0_clean; auto. rewrite stat_ne' by (destruct q; discriminate). rewrite cut_slash, begins_app by auto. rewrite stat_ne' in E' by auto. change 0%nat with (0 + 0)%nat. eapply walk_app; [destruct q; discriminate|exact E'| |discriminate].
    cbn. rewrite Ej. reflexivity. }
  destruct (fs j) as [[b|u e|t]|] eqn:Ej; try (eapply Dir; reflexivity). all: clear Dir.
  all: assert (Nd : forall u e, fs j <> Some (NDir u e)) by congruence; clear Ej; apply (above_file fs cwd q j); auto.
Qed.
Lemma links_mono lim fs cwd : forall fuel path n q m, walk_links fuel lim fs cwd path n = Ok (Some (q, m)) -> (n <= m)%nat.
Proof.
  induction fuel as [|fuel IH]; intros path n q m W; [discriminate|]. cbn [walk_links] in W. destruct (split_path path) as [dir file]. destruct dir as [|z zs].
  - destruct (walk_link lim fs cwd file n) as [[[p l] m']|] eqn:K; [|discriminate]. injection W as <- <-. destruct (walk_link_inv _ _ _ _ _ _ _ _ K) as (_ & i & k & _ & _ & [(_ & _ & ->)|(_ & _ & -> & _)]); lia.
  - destruct file as [|c file].
    + destruct (str_eqb (z :: zs) [47]); [injection W as <- <-; lia|eauto].
    + destruct (walk_links fuel lim fs cwd (z :: zs) n) as [[[nd m1]|]| |] eqn:E; cbn [bind] in W; try discriminate. apply IH in E.
      destruct (walk_link lim fs cwd (fp_join [nd; c :: file]) m1) as [[[p l] m']|] eqn:K; [|discriminate].
      destruct (walk_link_inv _ _ _ _ _ _ _ _ K) as (_ & i & k & _ & _ & [(-> & _ & ->)|(-> & _ & -> & _)]); [destruct p; [discriminate|]|]; injection W as _ <-; lia.
Qed.
(** A pass that meets no link finds its result without links. *)
Lemma links_none lim fs cwd : sound fs -> forall fuel path n q, walk_links fuel lim fs cwd path n = Ok (Some (q, n)) -> exists j, stat 0 fs cwd q = Found j.
Proof.
  intros S. induction fuel as [|fuel IH]; intros path n q W; [discriminate|]. cbn [walk_links] in W. destruct (split_ends path) as (f & Ff & Ef & K). destruct (split_path path) as [dir file]. cbn [fst snd] in *. subst file. destruct dir as [|z zs].
  - destruct (walk_link lim fs cwd f n) as [[[p l] m']|] eqn:Q; [|discriminate]. injection W as -> ->. destruct (walk_link_inv _ _ _ _ _ _ _ _ Q) as (_ & i & k & L & Ei & [(_ & _ & ?)|(-> & -> & _ & Nk)]); [lia|].
    exists i. assert (Nf : f <> []) by (intros ->; discriminate). rewrite lstat_ne', cut_one in L by auto. rewrite stat_ne', cut_one by auto. eapply one_nonlink; eauto.
  - destruct f as [|c f].
    + destruct (str_eqb (z :: zs) [47]) eqn:R; [|eauto]. injection W as <-. apply str_eqb_eq in R. rewrite R. exists 0%nat. destruct S as ([er Er] & _). cbn. rewrite Er. reflexivity.
    + destruct (walk_links fuel lim fs cwd (z :: zs) n) as [[[nd m1]|]| |] eqn:E; cbn [bind] in W; try discriminate. pose proof (links_mono _ _ _ _ _ _ _ _ E) as L1.
      destruct (walk_link lim fs cwd (fp_join [nd; c :: f]) m1) as [[[p l] m']|] eqn:Q; [|discriminate].
      destruct (walk_link_inv _ _ _ _ _ _ _ _ Q) as (_ & i & k & L & Ei & [(-> & _ & ->)|(-> & -> & -> & Nk)]); [destruct p; [discriminate|]; injection W as _ W; lia|].
      assert (Eq : q = fp_join [nd; c :: f] /\ m1 = n) by (split; congruence). destruct Eq as [-> ->]. clear W. destruct (IH _ _ _ E) as (d & Sd). assert (Nnd : nd <> []) by (intros ->; discriminate). destruct (idle (c :: f)) eqn:Ix; [|destruct (upward (c :: f)) eqn:Ux].
      * exists d. rewrite join_two by auto. replace (file_path (nd ++ 47 :: c :: f)) with (file_path nd); [now apply stat0_clean|]. apply clean_unique. intros p. rewrite !leads_fold, segments_app, fold_left_app.
        replace (is_rooted (nd ++ 47 :: c :: f)) with (is_rooted nd) by (destruct nd; [congruence|reflexivity]). rewrite (segments_one (c :: f)) by auto. cbn [fold_left]. rewrite go_eq, <- idle_eq, Ix. reflexivity.
      * rewrite join_two by auto. unfold upward in Ux. destruct (list_eq_dec _ _ _) as [->|]; [|discriminate]. eapply above_found; eauto.
      * pose proof (kind_name _ Ff Ix Ux) as Nx. rewrite join_name in L |- * by auto. set (p := file_path nd) in *. assert (C : canonical p) by apply clean_canonical. pose proof (stat0_clean _ _ _ _ S Sd) as Sp. fold p in Sp.
        assert (Np : p <> []) by apply clean_ne. assert (Nj : path_joins p [c :: f] <> []) by (unfold path_joins, joins; apply clean_ne).
        exists i. rewrite stat_ne' in Sp |- * by auto. rewrite lstat_ne' in L by auto.
        destruct (walk_child_f false lim fs cwd p (c :: f) [] S C Nx) as [_ Wf]. destruct (walk_child_f true 0 fs cwd p (c :: f) [] S C Nx) as [_ Wt]. rewrite app_nil_r in Wf, Wt. rewrite Wf in L. rewrite Wt.
        apply walk0_goes in Sp; auto. rewrite (walk_goes _ _ _ _ _ _ Sp) in L. rewrite (walk_goes _ _ _ _ _ _ Sp). eapply one_nonlink; eauto.
Qed.
Lemma symlinks_clean lim fs cwd : sound fs -> forall fuel path n q, walk_symlinks fuel lim fs cwd path n = Ok (Some q) -> file_path q = q /\ exists j, stat 0 fs cwd q = Found j.
Proof.
  intros S. induction fuel as [|fuel IH]; intros path n q W; [discriminate|]. cbn [walk_symlinks] in W. destruct (walk_links (Datatypes.S (length path)) lim fs cwd path n) as [[[p m]|]| |] eqn:E; cbn [bind] in W; try discriminate.
  destruct (Nat.eqb_spec n m) as [->|]; [|eauto]. injection W as <-. split; [apply clean_idem|]. destruct (links_none _ _ _ S _ _ _ _ E) as (j & Sj). exists j. now apply stat0_clean.
Qed.
Lemma eval_clean fuel lim fs cwd me q : sound fs -> me <> [] -> eval_symlinks fuel lim fs cwd me = Ok (Some q) -> file_path q = q /\ exists j, stat 0 fs cwd q = Found j.
Proof. intros S N. unfold eval_symlinks. destruct me as [|c t]; [congruence|]. now apply symlinks_clean. Qed.

(** ** The same file *)
Lemma walk_split fs q j : q <> [] -> forall lim p e, walk lim true fs (p ++ q) e = Found j ->
  exists a b d, (a + b = lim)%nat /\ walk a true fs p e = Found d /\ walk b true fs q d = Found j.
Proof.
  intros Q. induction lim as [|lim IH]; intros p; induction p as [|x p IHp]; intros e E.
  - exists 0%nat, 0%nat, e. split; [reflexivity|]. split; [apply walk_nil|exact E].
  - cbn [app] in E. rewrite walk_cons in E. assert (Next : forall c, walk 0 true fs (p ++ q) c = Found j -> exists a b d, (a + b = 0)%nat /\ walk a true fs p c = Found d /\ walk b true fs q d = Found j) by (intros; now apply IHp).
    setoid_rewrite walk_cons. destruct (fs e) as [[|up es|]|]; try discriminate.
    destruct (idle x); [auto|]. destruct (upward x); [auto|]. destruct (find x es) as [c|]; [|discriminate]. destruct (fs c) as [[|u ee|t]|]; try discriminate; auto.
    unfold hop in E. assert (Q' : p ++ q <> []) by (destruct p; [exact Q|discriminate]). destruct (p ++ q); [congruence|]. destruct t; discriminate.
  - exists 0%nat, (Datatypes.S lim), e. split; [reflexivity|]. split; [apply walk_nil|exact E].
  - cbn [app] in E. rewrite walk_cons in E. assert (Next : forall c, walk (Datatypes.S lim) true fs (p ++ q) c = Found j -> exists a b d, (a + b = Datatypes.S lim)%nat /\ walk a true fs p c = Found d /\ walk b true fs q d = Found j) by (intros; now apply IHp).
    setoid_rewrite walk_cons. destruct (fs e) as [[|up es|]|]; try discriminate.
    destruct (idle x); [auto|]. destruct (upward x); [auto|]. destruct (find x es) as [c|]; [|discriminate]. destruct (fs c) as [[|u ee|t]|]; try discriminate; auto.
    unfold hop in E. assert (Q' : p ++ q <> []) by (destruct p; [exact Q|discriminate]). assert (E' : t <> [] /\ walk lim true fs (cut [] t ++ p ++ q) (begins e t) = Found j) by (destruct (p ++ q); [congruence|]; destruct t; [discriminate|split; [discriminate|exact E]]).
    destruct E' as [Nt E']. rewrite app_assoc in E'. destruct (IH _ _ E') as (a & b & d & L & A & B). exists (Datatypes.S a), b, d. split; [lia|]. split; [|exact B]. unfold hop. destruct t; [congruence|]. destruct p; exact A.
Qed.
Lemma walk_le lim m f fs l d j : walk lim f fs l d = Found j -> (lim <= m)%nat -> walk m f fs l d = Found j.
Proof. intros W L. replace m with (lim + (m - lim))%nat by lia. apply (walk_more f fs lim l d (Found j) W). discriminate. Qed.

Definition calm (l : list (list Z)) : Prop := ~ In [46] l /\ ~ In [46; 46] l.
Definition tame (t : list Z) : Prop := t <> [] /\ (t = [46] \/ exists k r, cut [] t = repeat [46; 46] k ++ r /\ calm r).
Lemma calm_app a b : calm a -> calm b -> calm (a ++ b).
Proof. intros [A1 A2] [B1 B2]. split; intros H; apply in_app_or in H as [|]; auto. Qed.
Lemma calm_left a b : calm (a ++ b) -> calm a.
Proof. intros [A1 A2]. split; intros H; [apply A1|apply A2]; apply in_or_app; auto. Qed.
Lemma calm_name x : name x -> calm [x].
Proof. intros (_ & N1 & N2 & _). split; intros [H|[]]; congruence. Qed.
Lemma calm_empty : calm [[]].
Proof. split; intros [H|[]]; discriminate. Qed.
Lemma calm_nil : calm [].
Proof. split; intros []. Qed.
Lemma tidy_tame p : tidy p -> tame p.
Proof.
  induction 1 as [|k|x Hx|x Hx|q x T (Nq & IH) N1 N2 Hx].
  - split; [discriminate|]. right. exists 0%nat, (cut [] [47]). split; [reflexivity|]. cbn. apply (calm_app [[]] [[]]); apply calm_empty.
  - split; [apply (tidy_ne _ (tidy_dots k))|]. destruct k as [|k]; [now left|]. right. exists (Datatypes.S k), []. split; [|apply calm_nil]. rewrite app_nil_r, cut_eq, rel_path_join by discriminate. apply segments_join_flat; [discriminate|].
    apply Forall_forall. intros y Hy. apply repeat_spec in Hy. subst y. apply dd_flat.
  - split; [discriminate|]. right. exists 0%nat, [[]; x]. split; [|apply (calm_app [[]] [x]); [apply calm_empty|now apply calm_name]]. change (47 :: x) with ([] ++ 47 :: x). rewrite cut_slash, (cut_one x) by (now apply name_flat). reflexivity.
  - split; [apply Hx|]. right. exists 0%nat, [x]. split; [|now apply calm_name]. now rewrite cut_one by (now apply name_flat).
  - split; [destruct q; discriminate|]. destruct IH as [->|(k & r & E & C)]; [congruence|]. right. exists k, (r ++ [x]). split; [|apply calm_app; [exact C|now apply calm_name]].
    rewrite cut_slash, (cut_one x), E, app_assoc by (now apply name_flat). reflexivity.
Qed.
Lemma clean_tame s : tame (file_path s).
Proof. apply tidy_tame, canonical_tidy, clean_canonical. Qed.
Lemma straight_ups fs lim r : ~ In [46; 46] r -> sound fs -> forall k d j, walk lim true fs (repeat [46; 46] k ++ r) d = Found j -> straight fs d (repeat [46; 46] k ++ r).
Proof.
  intros Nr S. pose proof S as (_ & S2 & _). induction k as [|k IH]; intros d j W; [now apply straight_down|]. cbn [repeat app] in *. rewrite walk_cons in W. destruct (fs d) as [[|up es|]|] eqn:Ed; try discriminate.
  assert (U : upward [46; 46] = true) by reflexivity. assert (I : idle [46; 46] = false) by reflexivity. rewrite I, U in W. destruct (S2 _ _ _ Ed) as (u & ee & Eu).
  apply (straight_step fs d [46; 46] _ up); [unfold move; now rewrite Ed, I, U|congruence|eauto].
Qed.
(** Cleaning a tame path followed by calm elements does not change what it leads to. *)
Lemma tame_clean lim fs cwd p t j : sound fs -> tame p -> calm (cut [] t) -> stat lim fs cwd (p ++ 47 :: t) = Found j -> stat lim fs cwd (file_path (p ++ 47 :: t)) = Found j.
Proof.
  intros S (Np & T) C E. apply same_file; auto. rewrite stat_ne' in E by (destruct p; discriminate). rewrite cut_slash in E |- *. destruct T as [->|(k & r & Ec & Cr)].
  - apply straight_down. intros H. apply in_app_or in H as [[H|[]]|H]; [discriminate|now apply C].
  - rewrite Ec, <- app_assoc in E |- *. eapply straight_ups; eauto. intros H. apply in_app_or in H as [H|H]; [now apply Cr|now apply C].
Qed.
Lemma walk_follow fs b x d j : name x -> walk b true fs [x] d = Found j -> exists c k, (forall lim, walk lim false fs [x] d = Found c) /\ fs c = Some k /\ (exists up es, fs d = Some (NDir up es)) /\
  ((c = j /\ forall t, k <> NLink t) \/ (exists t b', k = NLink t /\ t <> [] /\ b = Datatypes.S b' /\ walk b' true fs (cut [] t) (begins d t) = Found j)).
Proof.
  intros Nx W. destruct (name_kind _ Nx) as [Ix Ux]. rewrite walk_cons, Ix, Ux in W. destruct (fs d) as [[|up es|]|] eqn:Ed; try discriminate. destruct (find x es) as [c|] eqn:F; [|discriminate].
  assert (L : forall k, fs c = Some k -> forall lim, walk lim false fs [x] d = Found c) by (intros k Ek lim; rewrite walk_cons, Ed, Ix, Ux, F, Ek; destruct k; [apply walk_nil|apply walk_nil|reflexivity]).
  destruct (fs c) as [k|] eqn:Ec; [|discriminate]. exists c, k. split; [eauto|]. split; [exact Ec|]. split; [eauto|]. destruct k as [y|u e|t].
  - rewrite walk_nil in W. left. split; [congruence|discriminate].
  - rewrite walk_nil in W. left. split; [congruence|discriminate].
  - right. unfold hop in W. destruct t as [|y t]; [discriminate|]. destruct b as [|b]; [discriminate|]. rewrite app_nil_r in W. exists (y :: t), b. repeat split; auto. discriminate.
Qed.
Lemma tame_stat lim fs cwd p j : sound fs -> tame p -> stat lim fs cwd p = Found j -> stat lim fs cwd (file_path p) = Found j.
Proof.
  intros S (Np & T) E. apply same_file; auto. rewrite stat_ne' in E by auto. destruct T as [->|(k & r & Ec & Cr)].
  - apply straight_down. intros [H|[]]; discriminate.
  - rewrite Ec in E |- *. eapply straight_ups; eauto. apply Cr.
Qed.
Lemma split_flat f : flat f -> split_path f = ([], f).
Proof.
  induction f as [|c f IH]; intros F; [reflexivity|]. cbn [split_path]. rewrite IH by (intros H; apply F; now right). destruct (Z.eqb_spec c 47) as [->|]; [|reflexivity]. exfalso. apply F. now left.
Qed.
Lemma split_at P f : flat f -> split_path (P ++ 47 :: f) = (P ++ [47], f).
Proof.
  intros F. induction P as [|c P IH]; cbn [app split_path].
  - rewrite split_flat by auto. reflexivity.
  - rewrite IH. destruct (P ++ [47]) eqn:E; [destruct P; discriminate|reflexivity].
Qed.
Lemma path_cases path : exists f, flat f /\ (path = f \/ exists P, path = P ++ 47 :: f).
Proof. destruct (split_ends path) as (f & F & _ & [(_ & E)|(P & _ & E)]); exists f; eauto. Qed.
Lemma links_flat fuel lim fs cwd f n : flat f -> walk_links (Datatypes.S fuel) lim fs cwd f n = Ok (match walk_link lim fs cwd f n with Some (p, _, m) => Some (p, m) | None => None end).
Proof. intros F. cbn [walk_links]. now rewrite split_flat. Qed.
Lemma links_slash fuel lim fs cwd P n : P <> [] -> walk_links (Datatypes.S fuel) lim fs cwd (P ++ [47]) n = walk_links fuel lim fs cwd P n.
Proof.
  intros N. cbn [walk_links]. rewrite split_at by (intros []). assert (Rl : removelast (P ++ [47]) = P) by apply removelast_last. destruct P as [|c P]; [congruence|]. cbn [app] in *.
  replace (str_eqb (c :: P ++ [47]) [47]) with false; [now rewrite Rl|]. symmetry. destruct (str_eqb _ _) eqn:E; [|reflexivity]. apply str_eqb_eq in E. destruct P; discriminate.
Qed.
Lemma links_down fuel lim fs cwd P f n : flat f -> f <> [] -> walk_links (Datatypes.S fuel) lim fs cwd (P ++ 47 :: f) n =
  bind (walk_links fuel lim fs cwd (P ++ [47]) n) (fun r =>
    match r with
    | None => Ok None
    | Some (newdir, m) =>
        match walk_link lim fs cwd (fp_join [newdir; f]) m with
        | None => Ok None
        | Some (p, islink, m) => if islink then match p with [] => Panic | c :: _ => Ok (Some (if c =? 47 then p else fp_join [newdir; p], m)) end else Ok (Some (p, m))
        end
    end).
Proof. intros F N. cbn [walk_links]. rewrite split_at by auto. destruct f as [|y f]; [congruence|]. destruct (P ++ [47]) eqn:E; [destruct P; discriminate|reflexivity]. Qed.
Lemma link_not lim fs cwd p n i k : (n <= 255)%nat -> lstat lim fs cwd p = Found i -> fs i = Some k -> (forall t, k <> NLink t) -> walk_link lim fs cwd p n = Some (p, false, n).
Proof. intros L E Ei N. unfold walk_link. destruct (Nat.ltb_spec 255 n); [lia|]. rewrite E, Ei. destruct k as [| |t]; auto. now destruct (N t). Qed.
Lemma link_yes lim fs cwd p n i t : (n <= 255)%nat -> lstat lim fs cwd p = Found i -> fs i = Some (NLink t) -> walk_link lim fs cwd p n = Some (t, true, Datatypes.S n).
Proof. intros L E Ei. unfold walk_link. destruct (Nat.ltb_spec 255 n); [lia|]. now rewrite E, Ei. Qed.
Lemma snoc_repeat (x y : list Z) a k : a ++ [y] = repeat x (Datatypes.S k) -> y = x /\ a = repeat x k.
Proof.
  intros E. assert (R : repeat x (Datatypes.S k) = repeat x k ++ [x]) by (replace (Datatypes.S k) with (k + 1)%nat by lia; now rewrite repeat_app). rewrite R in E. apply app_inj_tail in E as [E1 E2]. auto.
Qed.
Lemma begins_flat cwd f : flat f -> begins cwd f = cwd.
Proof. intros F. destruct f as [|c f]; [reflexivity|]. cbn. destruct (Z.eq_dec c 47) as [->|]; [|reflexivity]. exfalso. apply F. now left. Qed.
Lemma begins_slash cwd P f : begins cwd (P ++ 47 :: f) = begins cwd (P ++ [47]).
Proof. destruct P; reflexivity. Qed.
Lemma cut_ne s : cut [] s <> [].
Proof. rewrite cut_eq. apply segments_ne. Qed.
Lemma ups_walk lim fs d k j : walk lim true fs (repeat [46; 46] k) d = Found j -> walk lim false fs (repeat [46; 46] k) d = Found j.
Proof.
  revert d. induction k as [|k IH]; intros d; cbn [repeat]; [now rewrite !walk_nil|]. rewrite !walk_cons. destruct (fs d) as [[|up es|]|]; try discriminate.
  assert (U : upward [46; 46] = true) by reflexivity. assert (I : idle [46; 46] = false) by reflexivity. rewrite U, I. apply IH.
Qed.
Lemma ups_fix k : file_path (rel_path (repeat [46; 46] k)) = rel_path (repeat [46; 46] k).
Proof. pose proof (rel_fix k [] (Forall_nil _)) as H. now rewrite app_nil_r in H. Qed.
Lemma ups_text s k : cut [] s = repeat [46; 46] (Datatypes.S k) -> s = rel_path (repeat [46; 46] (Datatypes.S k)).
Proof.
  revert k. assert (G : forall m s, (length s <= m)%nat -> forall k, cut [] s = repeat [46; 46] (Datatypes.S k) -> s = rel_path (repeat [46; 46] (Datatypes.S k))); [|intros; eapply G; eauto].
  induction m as [|m IH]; intros t L k E; (destruct (path_cases t) as (f & F & [->|(P & ->)]);
    [rewrite cut_one in E by auto; destruct k; cbn in E; [injection E as ->; reflexivity|discriminate]|]).
  - rewrite app_length in L. cbn in L. lia.
  - rewrite cut_slash, (cut_one f) in E by auto. apply snoc_repeat in E as [-> E]. destruct k as [|k]; [now destruct (cut_ne P)|]. rewrite app_length in L. cbn [length] in L.
    assert (EP : P = rel_path (repeat [46; 46] (Datatypes.S k))) by (apply IH; [lia|exact E]). rewrite EP at 1. rewrite <- rel_path_snoc by discriminate. f_equal. clear. replace (Datatypes.S (Datatypes.S k)) with (Datatypes.S k + 1)%nat by lia. now rewrite repeat_app.
Qed.
(** A path of ".." only is left as it is. *)
Lemma links_ups lim fs cwd : sound fs -> forall k path, cut [] path = repeat [46; 46] (Datatypes.S k) -> forall fuel n j, (length path < fuel)%nat -> (n <= 255)%nat -> stat lim fs cwd path = Found j ->
  walk_links fuel lim fs cwd path n = Ok (Some (path, n)).
Proof.
  intros S. pose proof S as (_ & S2 & _).
  assert (Here : forall k path n j, cut [] path = repeat [46; 46] (Datatypes.S k) -> (n <= 255)%nat -> stat lim fs cwd path = Found j -> walk_link lim fs cwd path n = Some (path, false, n)).
  { intros k path n j E L H. assert (Np : path <> []) by (intros ->; discriminate). rewrite stat_ne' in H by auto. rewrite E in H. destruct (ups_dir _ _ _ S _ _ _ H) as (u & e & Ej).
    eapply link_not; [exact L| |exact Ej|discriminate]. rewrite lstat_ne' by auto. rewrite E. now apply ups_walk. }
  induction k as [|k IH]; intros path E fuel n j L Ln H; (destruct fuel as [|fuel]; [lia|]); pose proof (Here _ _ _ _ E Ln H) as HH.
  - destruct (path_cases path) as (f & F & [->|(P & ->)]); [|rewrite cut_slash, (cut_one f) in E by auto; apply snoc_repeat in E as [_ E]; now destruct (cut_ne P)].
    rewrite links_flat by auto. now rewrite HH.
  - destruct (path_cases path) as (f & F & [->|(P & ->)]); [rewrite (cut_one f) in E by auto; discriminate|].
    pose proof (ups_text _ _ E) as Tx. rewrite cut_slash, (cut_one f) in E by auto. apply snoc_repeat in E as [-> E]. rewrite links_down by (auto; discriminate). rewrite app_length in L. cbn [length] in L.
    assert (NP : P <> []) by (intros ->; discriminate). destruct fuel as [|fuel]; [lia|]. rewrite links_slash by auto.
    assert (HP : exists j', stat lim fs cwd P = Found j').
    { rewrite stat_ne' in H by (destruct P; discriminate). rewrite cut_slash, begins_app in H by auto. destruct (walk_prefix fs true _ _ (cut_ne [46; 46]) _ _ _ H) as (d & _ & W & _). exists d. now rewrite stat_ne'. }
    destruct HP as (j' & HP). rewrite (IH P E fuel n j'); [|lia|exact Ln|exact HP]. cbn [bind]. rewrite join_two by auto. rewrite Tx in HH |- *. rewrite ups_fix. now rewrite HH.
Qed.
Lemma links_ok lim fs cwd : sound fs -> worded fs -> forward fs -> forall fuel path n k i, (length path < fuel)%nat -> tame path -> stat k fs cwd path = Found i -> (k <= lim)%nat -> (n + k <= 255)%nat ->
  exists q m, walk_links fuel lim fs cwd path n = Ok (Some (q, m)) /\ (n <= m <= n + k)%nat /\ tame q /\ stat (k - (m - n)) fs cwd q = Found i.
Proof.
  intros S Wd Fw. pose proof S as (_ & S2 & _).
  assert (Tt : forall c t, fs c = Some (NLink t) -> t <> [] /\ calm (cut [] t) /\ tame t).
  { intros c t E. assert (Nt : t <> []) by (intros ->; exact (Wd c E)). assert (C : calm (cut [] t)) by exact (Fw c t E). split; [exact Nt|]. split; [exact C|]. split; [exact Nt|]. right. exists 0%nat, (cut [] t). auto. }
  induction fuel as [|fuel IH]; intros path n k i L T E Lk Ln; [lia|]. destruct (path_cases path) as (f & F & [->|(P & ->)]).
  - rewrite links_flat by auto. pose proof T as (Nf & _). rewrite stat_ne', cut_one, begins_flat in E by auto. destruct (idle f) eqn:If; [|destruct (upward f) eqn:Uf].
    + exists f, n. rewrite walk_cons, If in E. destruct (fs cwd) as [[|up es|]|] eqn:Ec; try discriminate. rewrite walk_nil in E. injection E as <-. rewrite (link_not lim fs cwd f n cwd (NDir up es)); [| lia | |exact Ec|discriminate].
      * split; [reflexivity|]. split; [lia|]. split; [exact T|]. rewrite stat_ne', cut_one, begins_flat, walk_cons, Ec, If by auto. apply walk_nil.
      * rewrite lstat_ne', cut_one, begins_flat, walk_cons, Ec, If by auto. apply walk_nil.
    + exists f, n. rewrite walk_cons, If, Uf in E. destruct (fs cwd) as [[|up es|]|] eqn:Ec; try discriminate. rewrite walk_nil in E. injection E as <-. destruct (S2 _ _ _ Ec) as (u & e & Eu). rewrite (link_not lim fs cwd f n up (NDir u e)); [| lia | |exact Eu|discriminate].
      * split; [reflexivity|]. split; [lia|]. split; [exact T|]. rewrite stat_ne', cut_one, begins_flat, walk_cons, Ec, If, Uf by auto. apply walk_nil.
      * rewrite lstat_ne', cut_one, begins_flat, walk_cons, Ec, If, Uf by auto. apply walk_nil.
    + pose proof (kind_name _ F If Uf) as Nx. destruct (walk_follow _ _ _ _ _ Nx E) as (c & kk & Wf & Ec & _ & [(-> & Nk)|(t & b' & -> & Nt & -> & W)]).
      * exists f, n. rewrite (link_not lim fs cwd f n i kk); [|lia| |exact Ec|exact Nk].
        -- split; [reflexivity|]. split; [lia|]. split; [exact T|]. rewrite stat_ne', cut_one, begins_flat by auto. eapply walk_le; [exact E|lia].
        -- rewrite lstat_ne', cut_one, begins_flat by auto. apply Wf.
      * exists t, (Datatypes.S n). rewrite (link_yes lim fs cwd f n c t); [|lia| |exact Ec].
        -- split; [reflexivity|]. split; [lia|]. split; [apply (Tt c t Ec)|]. rewrite stat_ne' by auto. eapply walk_le; [exact W|lia].
        -- rewrite lstat_ne', cut_one, begins_flat by auto. apply Wf.
  - destruct T as (Npath & T). assert (T' : exists u r, cut [] (P ++ 47 :: f) = repeat [46; 46] u ++ r /\ calm r) by (destruct T as [K|K]; [destruct P as [|y [|z P]]; discriminate|exact K]). destruct T' as (u & r & Ec & Cr). rewrite app_length in L. cbn [length] in L.
    assert (Hf : f = [] \/ f <> []) by (destruct f; [now left|right; discriminate]). destruct Hf as [->|Nf].
    + assert (HP : P = [] \/ P <> []) by (destruct P; [now left|right; discriminate]). destruct HP as [->|NP].
      * exists [47], n. split; [reflexivity|]. split; [lia|]. split; [exact (conj Npath T)|]. eapply walk_le; [exact E|lia].
      * rewrite links_slash by auto. rewrite cut_slash, (cut_one []) in Ec by auto. apply IH; auto; [lia| |].
        -- split; [exact NP|]. right. exists u, (removelast r). destruct r as [|z r] using rev_ind.
           ++ rewrite app_nil_r in Ec. destruct u as [|u]; [destruct (cut [] P); discriminate|]. apply snoc_repeat in Ec as [Ec _]. discriminate.
           ++ rewrite removelast_last. rewrite app_assoc in Ec. apply app_inj_tail in Ec as [Ec _]. split; [exact Ec|]. now apply calm_left in Cr.
        -- rewrite stat_ne' in E |- * by (auto; destruct P; discriminate). rewrite cut_slash, begins_app, (cut_one []) in E by auto. assert (N1 : [[]] <> @nil (list Z)) by discriminate.
           destruct (walk_split _ _ _ N1 _ _ _ E) as (a & b & d & La & Wa & Wb). rewrite walk_cons in Wb. destruct (fs d) as [[|up es|]|]; try discriminate. cbn [idle] in Wb. rewrite walk_nil in Wb. injection Wb as <-. eapply walk_le; [exact Wa|lia].
    + destruct r as [|z r _] using rev_ind.
      * rewrite app_nil_r in Ec. destruct u as [|u]; [now destruct (cut_ne (P ++ 47 :: f))|]. exists (P ++ 47 :: f), n. split.
        -- eapply (links_ups lim fs cwd S u); [exact Ec|rewrite app_length; cbn [length]; lia|lia|]. rewrite stat_ne' in E |- * by auto. eapply walk_le; [exact E|lia].
        -- split; [lia|]. split; [exact (conj Npath T)|]. rewrite stat_ne' in E |- * by auto. eapply walk_le; [exact E|lia].
      * rewrite cut_slash, (cut_one f) in Ec by auto. rewrite app_assoc in Ec. apply app_inj_tail in Ec as [Ec <-]. assert (Nx : name f).
        { destruct Cr as [C1 C2]. split; [exact Nf|]. split; [intros ->; apply C1; apply in_or_app; right; now left|]. split; [intros ->; apply C2; apply in_or_app; right; now left|exact F]. }
        apply calm_left in Cr. rewrite stat_ne' in E by auto. rewrite cut_slash, (cut_one f), begins_slash in E by auto. assert (N1 : [f] <> @nil (list Z)) by discriminate.
        destruct (walk_split _ _ _ N1 _ _ _ E) as (a & b & d & La & Wa & Wb). destruct (walk_follow _ _ _ _ _ Nx Wb) as (c & kk & Wf & Ek & (up & es & Ed) & Cases).
        assert (NP : P ++ [47] <> []) by (destruct P; discriminate).
        assert (HD : stat a fs cwd (P ++ [47]) = Found d).
        { rewrite stat_ne' by auto. rewrite cut_slash. replace a with (a + 0)%nat by lia. eapply walk_app; [apply cut_ne|exact Wa| |discriminate]. cbn. rewrite Ed. reflexivity. }
        assert (TD : tame (P ++ [47])). { split; [exact NP|]. right. exists u, (r ++ [[]]). rewrite cut_slash, Ec, app_assoc. split; [reflexivity|]. apply calm_app; [exact Cr|apply calm_empty]. }
        destruct f as [|y f]; [congruence|]. cbn [length] in L.
        destruct (IH (P ++ [47]) n a d) as (nd & m1 & Wl & Lm & Tn & Sn); [rewrite app_length; cbn [length]; lia|exact TD|exact HD|lia|lia|]. rewrite links_down, Wl by auto. cbn [bind].
        pose proof Tn as (Nn & _). set (a' := (a - (m1 - n))%nat) in *. pose proof (tame_stat _ _ _ _ _ S Tn Sn) as Sc. rewrite stat_ne' in Sc by apply clean_ne.
        rewrite join_name by auto. set (p := file_path nd) in *. assert (Cp : canonical p) by apply clean_canonical.
        assert (Nj : path_joins p [y :: f] <> []) by (unfold path_joins, joins; apply clean_ne).
        assert (Wj : forall lm g, walk lm g fs (cut [] (path_joins p [y :: f])) (begins cwd (path_joins p [y :: f])) = walk lm g fs (cut [] p ++ [y :: f]) (begins cwd p)).
        { intros lm g. destruct (walk_child_f g lm fs cwd p (y :: f) [] S Cp Nx) as [_ W]. now rewrite app_nil_r in W. }
        assert (Lc : lstat lim fs cwd (path_joins p [y :: f]) = Found c).
        { rewrite lstat_ne' by auto. rewrite Wj. apply (walk_le (a' + 0)); [|lia]. eapply walk_app; [discriminate|exact Sc|apply Wf|discriminate]. }
        destruct Cases as [(-> & Nk)|(t & b' & -> & Nt & -> & W)].
        -- rewrite (link_not _ _ _ _ m1 i kk) by (auto; lia). exists (path_joins p [y :: f]), m1. split; [reflexivity|]. split; [lia|]. split; [apply clean_tame|]. rewrite stat_ne' by auto. rewrite Wj.
           replace (k - (m1 - n))%nat with (a' + b)%nat by lia. eapply walk_app; [discriminate|exact Sc|exact Wb|discriminate].
        -- rewrite (link_yes _ _ _ _ m1 c t) by (auto; lia). destruct (Tt c t Ek) as (_ & Ct & Tm). destruct t as [|z t]; [congruence|]. destruct (Z.eqb_spec z 47) as [->|Nz].
           ++ exists (47 :: t), (Datatypes.S m1). split; [reflexivity|]. split; [lia|]. split; [exact Tm|]. rewrite stat_ne' by discriminate. apply (walk_le b'); [exact W|lia].
           ++ exists (fp_join [nd; z :: t]), (Datatypes.S m1). split; [reflexivity|]. split; [lia|]. rewrite join_two by auto. split; [apply clean_tame|]. apply tame_clean; auto. rewrite stat_ne' in Sn |- * by (auto; destruct nd; discriminate).
              rewrite cut_slash, begins_app by auto. apply (walk_le (a' + b')); [|lia]. assert (B : begins d (z :: t) = d) by (cbn; destruct (Z.eq_dec z 47); congruence). rewrite B in W. eapply walk_app; [apply cut_ne|exact Sn|exact W|discriminate].
Qed.
Lemma symlinks_ok lim fs cwd : sound fs -> worded fs -> forward fs -> forall fuel path n k i, (k < fuel)%nat -> tame path -> stat k fs cwd path = Found i -> (k <= lim)%nat -> (n + k <= 255)%nat ->
  exists q, walk_symlinks fuel lim fs cwd path n = Ok (Some q) /\ stat 0 fs cwd q = Found i.
Proof.
  intros S Wd Fw. induction fuel as [|fuel IH]; intros path n k i L T E Lk Ln; [lia|]. cbn [walk_symlinks].
  destruct (links_ok lim fs cwd S Wd Fw (Datatypes.S (length path)) path n k i) as (q & m & W & Lm & Tq & Sq); auto. rewrite W. cbn [bind]. destruct (Nat.eqb_spec n m) as [<-|Nm].
  - exists (clean q). split; [reflexivity|]. destruct (links_none _ _ _ S _ _ _ _ W) as (j & Sj). apply stat0_clean in Sj; auto. apply tame_stat in Sq; auto.
    assert (Nq : file_path q <> []) by apply clean_ne. change (clean q) with (file_path q). rewrite stat_ne' in Sj, Sq |- * by auto. pose proof (walk_le _ (k - (n - n)) _ _ _ _ _ Sj ltac:(lia)) as Sj'. congruence.
  - apply (IH q m (k - (m - n))%nat); auto; lia.
Qed.
Lemma eval_same fuel lim fs cwd s i : sound fs -> worded fs -> forward fs -> (lim <= 255)%nat -> (lim < fuel)%nat -> stat lim fs cwd (file_path s) = Found i ->
  exists q, eval_symlinks fuel lim fs cwd (file_path s) = Ok (Some q) /\ stat 0 fs cwd q = Found i.
Proof.
  intros S Wd Fw L Lf E. destruct (symlinks_ok lim fs cwd S Wd Fw fuel (file_path s) 0 lim i) as (q & A & B); auto; try lia; [apply clean_tame|]. exists q. split; [|exact B]. unfold eval_symlinks. pose proof (clean_ne s) as N. change (file_path s) with (clean s) in *. destruct (clean s); [congruence|exact A].
Qed.

(** ** Links that do not lead to links *)
Lemma goes_node fs d l e : l <> [] -> goes fs d l e -> exists k, fs e = Some k /\ forall t, k <> NLink t.
Proof. intros N G. destruct G as [d|d l e x c G M Nl (k & Ek)]; [congruence|]. exists k. split; [exact Ek|]. intros t ->. exact (Nl t Ek). Qed.
Lemma goes_walk fs lim f d l e : goes fs d l e -> walk lim f fs l d = Found e.
Proof. intros G. pose proof (walk_goes lim f fs d l e G []) as W. now rewrite app_nil_r, walk_nil in W. Qed.
Lemma stat0_link lim fs cwd s j n : sound fs -> (n <= 255)%nat -> stat 0 fs cwd s = Found j -> walk_link lim fs cwd s n = Some (s, false, n).
Proof.
  intros S L E. assert (Ns : s <> []) by (intros ->; discriminate). rewrite stat_ne' in E by auto. apply walk0_goes in E; auto. destruct (goes_node _ _ _ _ (cut_ne s) E) as (k & Ek & Nk).
  apply (link_not lim fs cwd s n j k); auto. rewrite lstat_ne' by auto. now apply goes_walk.
Qed.
Lemma stat0_app fs cwd p t d j : p <> [] -> stat 0 fs cwd p = Found d -> walk 0 true fs (cut [] t) d = Found j -> stat 0 fs cwd (p ++ 47 :: t) = Found j.
Proof.
  intros Np E W. rewrite stat_ne' in E |- * by (auto; destruct p; discriminate). rewrite cut_slash, begins_app by auto. change 0%nat with (0 + 0)%nat. eapply walk_app; [apply cut_ne|exact E|exact W|discriminate].
Qed.
(** One round replaces all the links. *)
Lemma links_round lim fs cwd : sound fs -> worded fs -> shallow fs -> forall fuel path n k i, (length path < fuel)%nat -> path <> [] -> stat k fs cwd path = Found i -> (k <= lim)%nat -> (n + k <= 255)%nat ->
  exists q m, walk_links fuel lim fs cwd path n = Ok (Some (q, m)) /\ (n <= m <= n + k)%nat /\ stat 0 fs cwd q = Found i.
Proof.
  intros S Wd Sh. pose proof S as (_ & S2 & _).
  assert (Last : forall b f d i, flat f -> walk b true fs [f] d = Found i -> walk 0 true fs [f] d = Found i \/
    (exists c t b', name f /\ (forall lm, walk lm false fs [f] d = Found c) /\ fs c = Some (NLink t) /\ t <> [] /\ b = Datatypes.S b' /\ walk 0 true fs (cut [] t) (begins d t) = Found i)).
  { intros b f d i F W. destruct (idle f) eqn:If; [|destruct (upward f) eqn:Uf].
    - left. rewrite walk_cons, If in W |- *. destruct (fs d) as [[|up es|]|]; try discriminate. rewrite walk_nil in W |- *. exact W.
    - left. rewrite walk_cons, If, Uf in W |- *. destruct (fs d) as [[|up es|]|]; try discriminate. rewrite walk_nil in W |- *. exact W.
    - pose proof (kind_name _ F If Uf) as Nx. destruct (walk_follow _ _ _ _ _ Nx W) as (c & kk & Wf & Ek & (up & es & Ed) & [(-> & Nk)|(t & b' & -> & Nt & -> & Wt)]).
      + left. specialize (Wf 0%nat). eapply one_nonlink; eauto.
      + right. exists c, t, b'. do 5 (split; [auto; fail|]). pose proof (Wf 0%nat) as Wc. rewrite walk_cons, Ed, If, Uf in Wc. destruct (find f es) as [c'|] eqn:Ff; [|discriminate].
        assert (c' = c). { destruct (fs c') as [[| |]|]; try discriminate; unfold hop in Wc; rewrite ?walk_nil in Wc; congruence. } subst c'.
        pose proof (Sh d up es f c t Ed Ff Ek b' i) as H. rewrite !stat_ne' in H by auto. now apply H. }
  induction fuel as [|fuel IH]; intros path n k i L Np E Lk Ln; [lia|]. destruct (path_cases path) as (f & F & [->|(P & ->)]).
  - rewrite links_flat by auto. rewrite stat_ne', cut_one, begins_flat in E by auto. destruct (Last _ _ _ _ F E) as [W|(c & t & b' & Nx & Wf & Ek & Nt & -> & W)].
    + assert (E0 : stat 0 fs cwd f = Found i) by (rewrite stat_ne', cut_one, begins_flat by auto; exact W). exists f, n. rewrite (stat0_link _ _ _ _ i) by (auto; lia). split; [reflexivity|]. split; [lia|exact E0].
    + exists t, (Datatypes.S n). rewrite (link_yes lim fs cwd f n c t); [|lia|rewrite lstat_ne', cut_one, begins_flat by auto; apply Wf|exact Ek]. split; [reflexivity|]. split; [lia|]. now rewrite stat_ne'.
  - rewrite app_length in L. cbn [length] in L. assert (Hf : f = [] \/ f <> []) by (destruct f; [now left|right; discriminate]). destruct Hf as [->|Nf].
    + assert (HP : P = [] \/ P <> []) by (destruct P; [now left|right; discriminate]). destruct HP as [->|NP].
      * exists [47], n. split; [reflexivity|]. split; [lia|]. change (walk k true fs [[]; []] 0 = Found i) in E. change (walk 0 true fs [[]; []] 0 = Found i). rewrite walk_cons in E |- *. destruct (fs 0%nat) as [[|u e|]|] eqn:E0; try discriminate. cbn [idle] in E |- *. rewrite walk_cons, E0 in E |- *. cbn [idle] in E |- *. rewrite walk_nil in E |- *. exact E.
      * rewrite links_slash by auto. apply IH; auto; [cbn [length] in L; lia|]. rewrite stat_ne' in E |- * by (auto; destruct P; discriminate). rewrite cut_slash, begins_app, (cut_one []) in E by auto. assert (N1 : [[]] <> @nil (list Z)) by discriminate.
        destruct (walk_split _ _ _ N1 _ _ _ E) as (a & b & d & La & Wa & Wb). rewrite walk_cons in Wb. destruct (fs d) as [[|up es|]|]; try discriminate. cbn [idle] in Wb. rewrite walk_nil in Wb. injection Wb as <-. eapply walk_le; [exact Wa|lia].
    + rewrite stat_ne' in E by auto. rewrite cut_slash, (cut_one f), begins_slash in E by auto. assert (N1 : [f] <> @nil (list Z)) by discriminate.
      destruct (walk_split _ _ _ N1 _ _ _ E) as (a & b & d & La & Wa & Wb). assert (NP : P ++ [47] <> []) by (destruct P; discriminate).
      assert (Ed : exists up es, fs d = Some (NDir up es)) by (rewrite walk_cons in Wb; destruct (fs d) as [[|up es|]|]; try discriminate; eauto). destruct Ed as (up & es & Ed).
      assert (HD : stat a fs cwd (P ++ [47]) = Found d).
      { rewrite stat_ne' by auto. rewrite cut_slash. replace a with (a + 0)%nat by lia. eapply walk_app; [apply cut_ne|exact Wa| |discriminate]. cbn. rewrite Ed. reflexivity. }
      assert (Lf : (0 < length f)%nat) by (destruct f; [congruence|cbn; lia]).
      destruct (IH (P ++ [47]) n a d) as (nd & m1 & Wl & Lm & Sn); [rewrite app_length; cbn [length]; lia|exact NP|exact HD|lia|lia|]. rewrite links_down, Wl by auto. cbn [bind].
      assert (Nn : nd <> []) by (intros ->; discriminate). destruct (Last _ _ _ _ F Wb) as [W|(c & t & b' & Nx & Wf & Ek & Nt & -> & W)].
      * assert (E0 : stat 0 fs cwd (fp_join [nd; f]) = Found i) by (rewrite join_two by auto; apply stat0_clean; auto; eapply stat0_app; eauto; rewrite cut_one by auto; exact W).
        rewrite (stat0_link _ _ _ _ i) by (auto; lia). exists (fp_join [nd; f]), m1. split; [reflexivity|]. split; [lia|exact E0].
      * assert (Lc : lstat lim fs cwd (fp_join [nd; f]) = Found c).
        { rewrite join_name by auto. set (p := file_path nd) in *. assert (Cp : canonical p) by apply clean_canonical. assert (Nj : path_joins p [f] <> []) by (unfold path_joins, joins; apply clean_ne).
          rewrite lstat_ne' by auto. destruct (walk_child_f false lim fs cwd p f [] S Cp Nx) as [_ Wj]. rewrite app_nil_r in Wj. rewrite Wj. pose proof (stat0_clean _ _ _ _ S Sn) as Sp. fold p in Sp. rewrite stat_ne' in Sp by apply clean_ne.
          apply (walk_le (0 + 0)); [|lia]. eapply walk_app; [discriminate|exact Sp|apply Wf|discriminate]. }
        rewrite (link_yes _ _ _ _ m1 c t) by (auto; lia). destruct t as [|z t]; [congruence|]. destruct (Z.eqb_spec z 47) as [->|Nz].
        -- exists (47 :: t), (Datatypes.S m1). split; [reflexivity|]. split; [lia|exact W].
        -- exists (fp_join [nd; z :: t]), (Datatypes.S m1). split; [reflexivity|]. split; [lia|]. rewrite join_two by auto. apply stat0_clean; auto. assert (B : begins d (z :: t) = d) by (cbn; destruct (Z.eq_dec z 47); congruence). rewrite B in W. eapply stat0_app; eauto.
Qed.
Lemma eval_same_shallow fuel lim fs cwd s i : sound fs -> worded fs -> shallow fs -> (lim <= 255)%nat -> (2 <= fuel)%nat -> stat lim fs cwd s = Found i ->
  exists q, eval_symlinks fuel lim fs cwd s = Ok (Some q) /\ stat 0 fs cwd q = Found i.
Proof.
  intros S Wd Sh L Lf E. assert (Ns : s <> []) by (intros ->; discriminate). destruct fuel as [|[|fuel]]; try lia.
  destruct (links_round lim fs cwd S Wd Sh (Datatypes.S (length s)) s 0 lim i) as (q & m & W & Lm & Sq); auto; try lia.
  assert (R : exists q', walk_symlinks (Datatypes.S (Datatypes.S fuel)) lim fs cwd s 0 = Ok (Some q') /\ stat 0 fs cwd q' = Found i).
  { remember (Datatypes.S fuel) as f1. cbn [walk_symlinks]. rewrite W. cbn [bind]. destruct (Nat.eqb_spec 0 m) as [<-|Nm].
    - exists (clean q). split; [reflexivity|]. now apply stat0_clean.
    - subst f1. assert (Nq : q <> []) by (intros ->; discriminate). destruct (links_round lim fs cwd S Wd Sh (Datatypes.S (length q)) q m 0 i) as (q2 & m2 & W2 & Lm2 & Sq2); auto; try lia.
      cbn [walk_symlinks]. rewrite W2. cbn [bind]. replace m2 with m by lia. rewrite Nat.eqb_refl. exists (clean q2). split; [reflexivity|]. now apply stat0_clean. }
  destruct R as (q' & R & Sq'). exists q'. split; [|exact Sq']. destruct s as [|c s]; [congruence|exact R].
Qed.

(** ** Cases *)
Lemma sound_eval : sound ex_eval /\ worded ex_eval.
Proof.
  split; [|intros i; do 9 (destruct i as [|i]; [discriminate|]); discriminate]. split; [cbn; eauto|]. split.
  - intros d up es E. do 9 (destruct d as [|d]; [cbn in E; try discriminate; injection E as <- <-; cbn; eauto|]). discriminate.
  - intros d up es x c E F. destruct d as [|[|[|[|[|[|[|[|[|d]]]]]]]]]; cbn in E; try discriminate; injection E as <- <-; cbn in F;
      repeat (match type of F with context [list_eq_dec Z.eq_dec ?a ?b] => destruct (list_eq_dec Z.eq_dec a b) as [->|?] end); try discriminate; injection F as <-;
      (split; [repeat split; try discriminate; intros [K|K]; try discriminate; try destruct K; fail || (cbn; intuition congruence)|]); (split; [discriminate|]); eexists; (split; [reflexivity|]);
      intros up' es' [= <- <-]; (split; [reflexivity|]); intros y; cbn; repeat (destruct (list_eq_dec _ _ _)); congruence.
Qed.
Lemma eval_wrong : exists fs s i q j, sound fs /\ worded fs /\ stat 40 fs 0 (file_path s) = Found i /\
  (forall fuel, (4 <= fuel)%nat -> eval_symlinks fuel 40 fs 0 (file_path s) = Ok (Some q)) /\ stat 40 fs 0 q = Found j /\ fs i <> fs j.
Proof.
  exists ex_eval, [47; 108; 47; 102], 6%nat, [47; 120], 7%nat. split; [apply sound_eval|]. split; [apply sound_eval|]. split; [reflexivity|]. split; [|split; [reflexivity|discriminate]].
  intros fuel L. replace fuel with (4 + (fuel - 4))%nat by lia. generalize (fuel - 4)%nat. intros m. vm_compute. reflexivity.
Qed.
Lemma eval_ex : sound ex_eval /\ worded ex_eval /\ stat 40 ex_eval 0 (file_path [47; 97; 47; 98; 47; 101]) = Found 4 /\
  eval_symlinks 257 40 ex_eval 0 (file_path [47; 97; 47; 98; 47; 101]) = Ok (Some [47; 97; 47; 98]) /\ stat 0 ex_eval 0 [47; 97; 47; 98] = Found 4 /\
  forward ex_eval_forward /\ eval_symlinks 257 40 ex_eval_forward 0 (file_path [108; 47; 97]) = Ok (Some [47; 120; 47; 97]) /\
  eval_symlinks 257 40 ex_eval_forward 0 [111] = Ok None /\
  shallow ex_eval_shallow /\ eval_symlinks 257 40 ex_eval_shallow 0 [100; 47; 108; 47; 107] = Ok (Some [100; 47; 102]).
Proof.
  split; [apply sound_eval|]. split; [apply sound_eval|]. split; [reflexivity|]. split; [vm_compute; reflexivity|]. split; [reflexivity|]. split.
  - intros i t E. do 6 (destruct i as [|i]; [cbn in E; try discriminate; injection E as <-; cbn; intuition discriminate|]). discriminate.
  - split; [vm_compute; reflexivity|]. split; [vm_compute; reflexivity|]. split; [|vm_compute; reflexivity]. intros d up es x c t Ed F Ec lim j E.
    assert (Sh : stat 0 ex_eval_shallow d t = stat lim ex_eval_shallow d t); [|congruence]. clear E.
    destruct d as [|[|[|[|[|[|d]]]]]]; cbn in Ed; try discriminate; injection Ed as <- <-; cbn in F;
      repeat (match type of F with context [list_eq_dec Z.eq_dec ?a ?b] => destruct (list_eq_dec Z.eq_dec a b) as [->|?] end); try discriminate; injection F as <-; cbn in Ec; try discriminate; injection Ec as <-; destruct lim; reflexivity.
Qed.
