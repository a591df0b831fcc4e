From Coq Require Import ZArith List Bool Lia.
From Verif Require Import GoBase GoStrings PathModel PathSpec PathProofs LinkSpec LinkModel.
Import ListNotations.
Open Scope Z_scope.

Lemma cut_segments s : forall cur, cut cur s = match segments s with h :: r => (cur ++ h) :: r | [] => [cur] end.
Proof.
  induction s as [|c s IH]; intros cur; cbn [cut segments]; [now rewrite app_nil_r|].
  destruct (Z.eq_dec c 47) as [->|N].
  - change (47 =? 47) with true. cbn iota. rewrite app_nil_r, IH. pose proof (segments_ne s). destruct (segments s); [congruence|reflexivity].
  - replace (c =? 47) with false by (symmetry; now apply Z.eqb_neq). cbn iota. rewrite IH. pose proof (segments_ne s). destruct (segments s); [congruence|].
    now rewrite <- app_assoc.
Qed.
Lemma cut_eq s : cut [] s = segments s.
Proof. rewrite cut_segments. pose proof (segments_ne s). destruct (segments s); [congruence|reflexivity]. Qed.
Lemma idle_eq x : idle x = str_eqb x [] || str_eqb x [46].
Proof.
  destruct x as [|c [|c2 x]]; [reflexivity| |].
  - cbn. destruct (Z.eq_dec c 46) as [->|N]; [reflexivity|]. replace (c =? 46) with false by (symmetry; now apply Z.eqb_neq). reflexivity.
  - cbn. now rewrite andb_false_r.
Qed.
Lemma upward_eq x : upward x = str_eqb x [46; 46].
Proof. unfold upward. destruct (list_eq_dec _ _ _) as [->|N]; [reflexivity|]. symmetry. destruct (str_eqb x [46;46]) eqn:E; [|reflexivity]. apply str_eqb_eq in E. congruence. Qed.
Lemma begins_eq d s : begins d s = if is_rooted s then 0%nat else d.
Proof.
  destruct s as [|c s]; [reflexivity|]. cbn. destruct (Z.eq_dec c 47) as [->|N]; [reflexivity|]. replace (c =? 47) with false by (symmetry; now apply Z.eqb_neq). reflexivity.
Qed.
Lemma name_kind x : name x -> idle x = false /\ upward x = false.
Proof.
  intros (A & B & C & _). split.
  - destruct x as [|c [|]]; [congruence| |reflexivity]. cbn. destruct (Z.eq_dec c 46) as [->|]; [congruence|reflexivity].
  - unfold upward. destruct (list_eq_dec _ _ _); congruence.
Qed.
Lemma kind_name x : flat x -> idle x = false -> upward x = false -> name x.
Proof.
  intros F I U. split; [intros ->; discriminate|]. split; [intros ->; discriminate|]. split; [intros ->; discriminate|exact F].
Qed.

(** ** Unfolding *)
Lemma walk_nil lim f fs d : walk lim f fs [] d = Found d.
Proof. destruct lim; reflexivity. Qed.
Definition hop (lim : nat) (f : bool) (fs : fsys) (t : list Z) (r : list (list Z)) (d c : nat) : res :=
  match r, f with
  | [], false => Found c
  | _, _ => match t with
            | [] => Missing
            | _ => match lim with O => Loop | S k => walk k f fs (cut [] t ++ r) (begins d t) end
            end
  end.
Lemma walk_cons lim f fs x r d : walk lim f fs (x :: r) d =
  match fs d with
  | Some (NDir up es) =>
      if idle x then walk lim f fs r d
      else if upward x then walk lim f fs r up
      else match find x es with
           | None => Missing
           | Some c => match fs c with
                       | None => Missing
                       | Some (NLink t) => hop lim f fs t r d c
                       | Some _ => walk lim f fs r c
                       end
           end
  | Some _ => NotDir
  | None => Missing
  end.
Proof. destruct lim; reflexivity. Qed.

(** ** More links allowed *)
Lemma walk_more f fs : forall lim l d r, walk lim f fs l d = r -> r <> Loop -> forall m, walk (lim + m) f fs l d = r.
Proof.
  induction lim as [|lim IH]; intros l; induction l as [|x l IHl]; intros d r E N m; try (rewrite walk_nil in *; exact E);
    rewrite walk_cons in E |- *; destruct (fs d) as [[|up es|]|]; try exact E;
    (destruct (idle x); [now apply IHl|]); (destruct (upward x); [now apply IHl|]);
    (destruct (find x es) as [c|]; [|exact E]); (destruct (fs c) as [[|u e|t]|]; try exact E; try (now apply IHl));
    unfold hop in *; destruct l as [|y l], f; try exact E; destruct t as [|b t]; try exact E; try congruence.
  all: cbn [Nat.add]; now apply IH.
Qed.
Lemma walk_fewer f fs lim m l d j : walk (lim + m) f fs l d = Found j -> walk lim f fs l d = Found j \/ walk lim f fs l d = Loop.
Proof.
  intros E. destruct (walk lim f fs l d) as [k| | |] eqn:G; auto.
  - left. rewrite (walk_more f fs lim l d _ G) in E by discriminate. exact E.
  - rewrite (walk_more f fs lim l d _ G) in E by discriminate. discriminate.
  - rewrite (walk_more f fs lim l d _ G) in E by discriminate. discriminate.
Qed.

(** ** One walk behind another *)
Lemma walk_app f fs q : q <> [] -> forall a p e d, walk a true fs p e = Found d ->
  forall b r, walk b f fs q d = r -> r <> Loop -> walk (a + b) f fs (p ++ q) e = r.
Proof.
  intros Q. induction a as [|a IH]; intros p; induction p as [|x p IHp]; intros e d E b r G N.
  - rewrite walk_nil in E. injection E as ->. exact G.
  - rewrite walk_cons in E. cbn [app]. rewrite walk_cons. destruct (fs e) as [[|up es|]|]; try discriminate.
    destruct (idle x); [now apply (IHp _ _ E)|]. destruct (upward x); [now apply (IHp _ _ E)|].
    destruct (find x es) as [c|]; [|discriminate]. destruct (fs c) as [[|u ee|t]|]; try discriminate; try (now apply (IHp _ _ E)).
    unfold hop in E. destruct p, t; discriminate.
  - rewrite walk_nil in E. injection E as ->. cbn [app]. rewrite Nat.add_comm. now apply walk_more.
  - rewrite walk_cons in E. cbn [app]. rewrite walk_cons. destruct (fs e) as [[|up es|]|]; try discriminate.
    destruct (idle x); [now apply (IHp _ _ E)|]. destruct (upward x); [now apply (IHp _ _ E)|].
    destruct (find x es) as [c|]; [|discriminate]. destruct (fs c) as [[|u ee|t]|]; try discriminate; try (now apply (IHp _ _ E)).
    unfold hop in E |- *. assert (Q' : p ++ q <> []) by (destruct p; [exact Q|discriminate]). destruct (p ++ q) as [|y w] eqn:W; [congruence|].
    assert (E' : match t with [] => Missing | _ => walk a true fs (cut [] t ++ p) (begins e t) end = Found d) by (destruct p; exact E).
    destruct t as [|b0 t]; [discriminate|]. cbn [Nat.add]. rewrite <- W, app_assoc. apply (IH _ _ _ E'); auto.
Qed.
(** Nothing of the limit is used by a last element that is not looked through. *)
Lemma walk_last fs x d : forall a p e, walk a true fs p e = Found d ->
  forall r, walk 0 false fs [x] d = r -> r <> Loop -> walk a false fs (p ++ [x]) e = r.
Proof. intros a p e E r G N. rewrite <- (Nat.add_0_r a). eapply walk_app; eauto. discriminate. Qed.

(** ** Idle elements left out *)
Inductive thin : list (list Z) -> list (list Z) -> Prop :=
| thin_nil : thin [] []
| thin_keep x l l' : thin l l' -> thin (x :: l) (x :: l')
| thin_drop x l l' : idle x = true -> thin l l' -> thin (x :: l) l'.
Lemma thin_refl l : thin l l.
Proof. induction l; constructor; auto. Qed.
Lemma thin_app p l l' : thin l l' -> thin (p ++ l) (p ++ l').
Proof. intros H. induction p; cbn; auto. now constructor. Qed.
Lemma walk_thin fs j : forall lim l l', thin l l' -> forall d, walk lim true fs l d = Found j -> walk lim true fs l' d = Found j.
Proof.
  induction lim as [|lim IH]; intros l l' T; induction T as [|x l l' T IHT|x l l' Ix T IHT]; intros d E; auto.
  - rewrite walk_cons in E |- *. destruct (fs d) as [[|up es|]|]; try discriminate.
    destruct (idle x); [now apply IHT|]. destruct (upward x); [now apply IHT|].
    destruct (find x es) as [c|]; [|discriminate]. destruct (fs c) as [[|u ee|t]|]; try discriminate; try (now apply IHT).
    unfold hop in E. destruct l, t; discriminate.
  - rewrite walk_cons, Ix in E. destruct (fs d) as [[|up es|]|]; try discriminate. now apply IHT.
  - rewrite walk_cons in E |- *. destruct (fs d) as [[|up es|]|]; try discriminate.
    destruct (idle x); [now apply IHT|]. destruct (upward x); [now apply IHT|].
    destruct (find x es) as [c|]; [|discriminate]. destruct (fs c) as [[|u ee|t]|]; try discriminate; try (now apply IHT).
    unfold hop in E |- *. destruct t as [|b t]; [destruct l; discriminate|].
    assert (E' : walk lim true fs (cut [] (b :: t) ++ l) (begins d (b :: t)) = Found j) by (destruct l; exact E).
    assert (G : walk lim true fs (cut [] (b :: t) ++ l') (begins d (b :: t)) = Found j) by (eapply IH; [apply thin_app; exact T|exact E']).
    destruct l'; exact G.
  - rewrite walk_cons, Ix in E. destruct (fs d) as [[|up es|]|]; try discriminate. now apply IHT.
Qed.

(** ** Walks without links *)
Inductive goes (fs : fsys) : nat -> list (list Z) -> nat -> Prop :=
| goes_nil d : goes fs d [] d
| goes_snoc d l e x c : goes fs d l e -> move fs e x = Some c -> (forall t, fs c <> Some (NLink t)) -> (exists n, fs c = Some n) ->
    goes fs d (l ++ [x]) c.
Lemma walk_goes lim f fs d l e : goes fs d l e -> forall r, walk lim f fs (l ++ r) d = walk lim f fs r e.
Proof.
  induction 1 as [d|d l e x c G IH M NL EX]; intros r; [reflexivity|]. rewrite <- app_assoc. cbn [app]. rewrite IH, walk_cons.
  unfold move in M. destruct (fs e) as [[|up es|]|]; try discriminate. destruct (idle x); [now injection M as ->|].
  destruct (upward x); [now injection M as ->|]. rewrite M. destruct EX as [n En]. rewrite En. destruct n; try reflexivity. exfalso. eapply NL, En.
Qed.
Lemma find_in x es c : find x es = Some c -> In (x, c) es.
Proof. induction es as [|[y i] r IH]; cbn; [discriminate|]. destruct (list_eq_dec _ _ _) as [->|]; [intros [= ->]; auto|auto]. Qed.
Lemma move_exists fs d x c : sound fs -> move fs d x = Some c -> exists n, fs c = Some n.
Proof.
  intros (_ & U & S3) M. unfold move in M. destruct (fs d) as [[|up es|]|] eqn:E; try discriminate.
  destruct (idle x); [injection M as <-; eauto|]. destruct (upward x).
  - injection M as <-. destruct (U _ _ _ E) as (u & e & H). eauto.
  - destruct (S3 _ _ _ _ _ E M) as (_ & _ & n & H & _). eauto.
Qed.
Lemma goes_inv fs d l x c : goes fs d (l ++ [x]) c -> exists e, goes fs d l e /\ move fs e x = Some c /\ (forall t, fs c <> Some (NLink t)).
Proof.
  intros G. inversion G as [d' E|d' l' e x' c' G' M NL EX]; subst; [destruct l; discriminate|].
  match goal with H : _ ++ [_] = _ ++ [_] |- _ => apply app_inj_tail in H as [-> ->] end. eauto.
Qed.
(** The stack of Clean: steps upwards at the bottom, and ordinary names. *)
Definition stack (rooted : bool) (st : list (list Z)) : Prop := exists cs k, Forall name cs /\ st = cs ++ repeat dd k /\ (rooted = true -> k = 0%nat).
Lemma stack_step rooted st x : flat x -> stack rooted st -> stack rooted (clean_step rooted st x).
Proof.
  intros F (cs & k & Hc & -> & Hk). unfold clean_step. rewrite <- idle_eq. destruct (idle x) eqn:I; [exists cs, k; auto|].
  rewrite <- upward_eq. destruct (upward x) eqn:U.
  - assert (x = dd) by (unfold upward in U; destruct (list_eq_dec _ _ _); [assumption|discriminate]). subst x.
    destruct cs as [|c cs]; cbn [app].
    + destruct k as [|k]; cbn [repeat].
      * destruct rooted; [exists [], 0%nat; auto|exists [], 1%nat; repeat split; auto; discriminate].
      * change (str_eqb dd [46;46]) with true. cbn iota. exists [], (S (S k)). repeat split; auto. intros R. specialize (Hk R). discriminate.
    + apply Forall_cons_iff in Hc as [Hx Hc]. rewrite <- upward_eq. destruct (name_kind _ Hx) as [_ ->]. exists cs, k. auto.
  - exists (x :: cs), k. repeat split; auto. constructor; auto. now apply kind_name.
Qed.
Lemma clean_down rooted l : ~ In [46; 46] l -> forall st, exists l', fold_left (clean_step rooted) l st = rev l' ++ st /\ thin l l'.
Proof.
  induction l as [|x l IH]; intros N st; [exists []; split; [reflexivity|constructor]|]. cbn [fold_left].
  assert (N' : ~ In [46; 46] l) by (intros H; apply N; now right).
  unfold clean_step at 2. rewrite <- idle_eq. destruct (idle x) eqn:I.
  - destruct (IH N' st) as (l' & E & T). exists l'. split; [exact E|now constructor].
  - rewrite <- upward_eq. replace (upward x) with false.
    + destruct (IH N' (x :: st)) as (l' & E & T). exists (x :: l'). split; [rewrite E; cbn; now rewrite <- app_assoc|now constructor].
    + symmetry. unfold upward. destruct (list_eq_dec _ _ _) as [->|]; [exfalso; apply N; now left|reflexivity].
Qed.
Lemma walk_clean fs rooted lim d0 j : sound fs -> (rooted = true -> d0 = 0%nat) -> forall d l, straight fs d l -> Forall flat l ->
  forall st, stack rooted st -> goes fs d0 (rev st) d -> walk lim true fs l d = Found j ->
  walk lim true fs (rev (fold_left (clean_step rooted) l st)) d0 = Found j.
Proof.
  intros S R d l H. induction H as [d l N|d x l c M NL H IH]; intros F st Hst G W.
  - destruct (clean_down rooted l N st) as (l' & -> & T). rewrite rev_app_distr, rev_involutive, (walk_goes _ _ _ _ _ _ G). eapply walk_thin; eauto.
  - apply Forall_cons_iff in F as [Fx F]. cbn [fold_left].
    assert (W' : walk lim true fs l c = Found j).
    { rewrite <- W. symmetry. assert (K := walk_goes lim true fs d [x] c). cbn [app] in K. rewrite K; [reflexivity|].
      apply (goes_snoc fs d [] d x c); auto; [constructor|]. eapply move_exists; eauto. }
    apply IH; auto; [now apply stack_step|].
    unfold clean_step. rewrite <- idle_eq. destruct (idle x) eqn:I.
    { unfold move in M. rewrite I in M. destruct (fs d) as [[|up es|]|]; try discriminate. injection M as <-. exact G. }
    rewrite <- upward_eq. destruct (upward x) eqn:U.
    + assert (x = dd) by (unfold upward in U; destruct (list_eq_dec _ _ _); [assumption|discriminate]). subst x.
      assert (Push : goes fs d0 (rev (dd :: st)) c) by (cbn [rev]; eapply goes_snoc; eauto; eapply move_exists; eauto).
      destruct st as [|top rest].
      * destruct rooted; [|exact Push]. cbn [rev] in G. inversion G as [|? l0]; subst; [|destruct l0; discriminate].
        rewrite (R eq_refl) in *. destruct S as ([es E] & _). unfold move in M. rewrite E, I, U in M. injection M as <-. constructor.
      * rewrite <- upward_eq. destruct (upward top) eqn:Ut; [exact Push|]. cbn [rev] in G. apply goes_inv in G as (e & G & Me & NLe).
        destruct Hst as (cs & k & Hc & Est & _). destruct cs as [|y cs]; cbn [app] in Est; [destruct k; [discriminate|]; injection Est as -> _; discriminate|].
        injection Est as -> Er. apply Forall_cons_iff in Hc as [Hy _]. destruct (name_kind _ Hy) as [Iy Uy].
        unfold move in Me. rewrite Iy, Uy in Me. destruct (fs e) as [[|up es|]|] eqn:Ee; try discriminate.
        unfold move in M. rewrite I, U in M. destruct (fs d) as [[|up' es'|]|] eqn:Ed; try discriminate. injection M as <-.
        destruct S as (_ & _ & S3). destruct (S3 _ _ _ _ _ Ee Me) as (_ & _ & n & En & Hn). rewrite Ed in En. injection En as <-.
        destruct (Hn _ _ eq_refl) as [-> _]. exact G.
    + cbn [rev]. eapply goes_snoc; eauto. eapply move_exists; eauto.
Qed.
Lemma fold_flat rooted l : Forall flat l -> forall st, Forall flat st -> Forall flat (fold_left (clean_step rooted) l st).
Proof.
  induction 1 as [|x l Hx _ IH]; intros st Hs; [exact Hs|]. cbn [fold_left]. apply IH. unfold clean_step.
  destruct (str_eqb x [] || str_eqb x [46]); [exact Hs|]. destruct (str_eqb x [46; 46]); [|now constructor].
  destruct st as [|y st]; [destruct rooted; [constructor|now constructor]|]. destruct (str_eqb y [46; 46]); [now constructor|]. now apply Forall_cons_iff in Hs.
Qed.
Lemma stack_fold rooted l : Forall flat l -> forall st, stack rooted st -> stack rooted (fold_left (clean_step rooted) l st).
Proof. induction 1 as [|x l Hx _ IH]; intros st Hs; [exact Hs|]. cbn [fold_left]. apply IH. now apply stack_step. Qed.
Lemma walk_dir lim f fs d j r : walk lim f fs ([] :: r) d = Found j -> exists up es, fs d = Some (NDir up es).
Proof. rewrite walk_cons. destruct (fs d) as [[|up es|]|]; try discriminate. eauto. Qed.
Lemma same_file lim fs cwd s j : sound fs -> stat lim fs cwd s = Found j -> straight fs (begins cwd s) (cut [] s) ->
  stat lim fs cwd (file_path s) = Found j.
Proof.
  intros S E H. assert (Ns : s <> []) by (intros ->; discriminate).
  assert (E' : walk lim true fs (segments s) (begins cwd s) = Found j) by (rewrite <- cut_eq; destruct s; [congruence|exact E]).
  rewrite cut_eq in H.
  assert (R : is_rooted s = true -> begins cwd s = 0%nat) by (intros Q; now rewrite begins_eq, Q).
  pose proof (walk_clean fs (is_rooted s) lim (begins cwd s) j S R _ _ H (segments_flat s) [] ltac:(exists [], 0%nat; auto) (goes_nil fs _) E') as K.
  pose proof (fold_flat (is_rooted s) _ (segments_flat s) [] (Forall_nil _)) as Fl. apply Forall_rev in Fl.
  unfold file_path, clean.
  set (l := rev (fold_left (clean_step (is_rooted s)) (segments s) [])) in *.
  rewrite begins_eq in K. destruct (is_rooted s) eqn:Q.
  - unfold stat. rewrite cut_eq. change (begins cwd (47 :: join_slash l)) with 0%nat. cbn [segments]. change (47 =? 47) with true. cbn iota.
    destruct S as ([es Er] & _). rewrite walk_cons, Er. cbn [idle]. destruct l as [|x l'] eqn:El.
    + rewrite walk_nil in K. injection K as <-. cbn. rewrite walk_cons, Er. cbn. apply walk_nil.
    + rewrite segments_join_flat by (auto; discriminate). exact K.
  - assert (Ne : Forall (fun x => x <> []) l).
    { apply Forall_rev. destruct (stack_fold false (segments s) (segments_flat s) [] ltac:(exists [], 0%nat; auto)) as (cs & k & Hc & -> & _).
      apply Forall_app. split; [eapply Forall_impl; [|exact Hc]; intros y Hy; apply Hy|]. apply Forall_forall. intros y Hy. apply repeat_spec in Hy. subst y. discriminate. }
    destruct (join_slash l) as [|b body] eqn:B.
    + apply join_nil in B; [|exact Ne]. rewrite B, walk_nil in K. injection K as <-. cbn [stat cut begins]. destruct (Z.eq_dec 46 47); [discriminate|].
      cbn [cut app]. rewrite begins_eq, Q in E'. destruct (segments s) as [|x r] eqn:Sg; [now apply segments_ne in Sg|]. rewrite walk_cons in E' |- *.
      destruct (fs cwd) as [[|up es|]|]; try discriminate. cbn. apply walk_nil.
    + rewrite <- B. assert (L : l <> []) by (intros L; rewrite L in B; discriminate).
      unfold stat. replace (match join_slash l with [] => Missing | _ :: _ => walk lim true fs (cut [] (join_slash l)) (begins cwd (join_slash l)) end)
        with (walk lim true fs (cut [] (join_slash l)) (begins cwd (join_slash l))) by (rewrite B; reflexivity).
      rewrite cut_eq, segments_join_flat by auto. rewrite begins_eq. replace (is_rooted (join_slash l)) with false; [exact K|].
      symmetry. destruct l as [|x l']; [congruence|]. apply Forall_cons_iff in Ne as [Nx _]. apply Forall_cons_iff in Fl as [Fx _].
      rewrite rooted_first by auto. destruct x as [|c x]; [congruence|]. cbn. apply Z.eqb_neq. intros ->. apply Fx. now left.
Qed.
