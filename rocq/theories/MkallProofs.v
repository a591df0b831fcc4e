From Coq Require Import ZArith List Bool Lia.
From Verif Require Import GoBase GoStrings PathModel PathSpec PathProofs LinkSpec LinkModel LinkProofs LinkMore LoopSpec LoopProofs SubsSpec RenProofs MvdirSpec MvdirProofs WlinkProofs MkallSpec MkallModel.
Import ListNotations.
Open Scope Z_scope.

(** ** The text *)
Lemma skip_elem_name x : forall r, ~ In 47 x -> skip_elem (x ++ r) = skip_elem r.
Proof. induction x as [|c x IH]; intros r N; [reflexivity|]. cbn. destruct (Z.eqb_spec c 47) as [->|]; [destruct N; now left|]. apply IH. intros H. apply N. now right. Qed.
Lemma skip_seps_name x : forall r, x <> [] -> ~ In 47 x -> skip_seps (x ++ r) = x ++ r.
Proof. destruct x as [|c x]; intros r Nx N; [congruence|]. cbn. destruct (Z.eqb_spec c 47) as [->|]; [destruct N; now left|reflexivity]. Qed.
Lemma parent_name q x : name x -> parent_part (q ++ 47 :: x) = match q with [] => None | _ => Some q end.
Proof.
  intros (N & _ & _ & N47). unfold parent_part. rewrite rev_app_distr. cbn [rev]. rewrite <- app_assoc. cbn [app].
  assert (R : rev x <> []) by (intros E; apply N; rewrite <- (rev_involutive x), E; reflexivity). assert (R47 : ~ In 47 (rev x)) by now rewrite <- in_rev.
  rewrite skip_seps_name, skip_elem_name by auto. destruct q as [|c q _] using rev_ind; [reflexivity|]. rewrite rev_app_distr. cbn [rev app skip_elem Z.eqb Pos.eqb].
  rewrite rev_involutive. destruct q; reflexivity.
Qed.
Lemma parent_bare x : name x -> parent_part x = None.
Proof.
  intros (N & _ & _ & N47). unfold parent_part.
  assert (R : rev x <> []) by (intros E; apply N; rewrite <- (rev_involutive x), E; reflexivity). assert (R47 : ~ In 47 (rev x)) by now rewrite <- in_rev.
  pose proof (skip_seps_name (rev x) [] R R47) as A. pose proof (skip_elem_name (rev x) [] R47) as B. rewrite app_nil_r in A, B. now rewrite A, B.
Qed.
Inductive tidy : list Z -> Prop :=
| tidy_root : tidy [47]
| tidy_dots k : tidy (rel_path (repeat [46; 46] k))
| tidy_abs x : name x -> tidy (47 :: x)
| tidy_rel x : name x -> tidy x
| tidy_more q x : tidy q -> q <> [47] -> q <> [46] -> name x -> tidy (q ++ 47 :: x).
Lemma rel_path_snoc cs x : cs <> [] -> rel_path (cs ++ [x]) = rel_path cs ++ 47 :: x.
Proof.
  induction cs as [|y cs IH]; intros N; [congruence|]. destruct cs as [|z cs]; [reflexivity|].
  cbn [app rel_path] in *. rewrite IH by discriminate. now rewrite <- app_assoc.
Qed.
Lemma abs_path_snoc cs x : cs <> [] -> abs_path (cs ++ [x]) = abs_path cs ++ 47 :: x.
Proof.
  intros N. unfold abs_path. destruct cs as [|y cs]; [congruence|]. cbn [app]. change (y :: cs ++ [x]) with ((y :: cs) ++ [x]). rewrite map_app, concat_app. cbn. now rewrite app_nil_r.
Qed.
Lemma rel_not_root cs : cs <> [] -> (forall y, In y cs -> ~ In 47 y /\ y <> [] /\ y <> [46]) -> rel_path cs <> [47] /\ rel_path cs <> [46].
Proof.
  destruct cs as [|y cs]; intros N H; [congruence|]. destruct (H y (or_introl eq_refl)) as (A & B & C). destruct cs as [|z cs]; cbn [rel_path].
  - split; [intros ->; apply A; now left|exact C].
  - destruct y as [|c y]; [congruence|]. split; intros [= -> E]; [apply A; now left|]. destruct y; discriminate.
Qed.
Lemma canonical_tidy p : canonical p -> tidy p.
Proof.
  intros [(cs & N & ->)|(k & cs & N & ->)]; revert N; induction cs as [|x cs IH] using rev_ind; intros N.
  - apply tidy_root.
  - apply Forall_app in N as [N Nx]. apply Forall_cons_iff in Nx as [Nx _]. destruct cs as [|y cs]; [cbn; rewrite app_nil_r; now apply tidy_abs|].
    rewrite abs_path_snoc by discriminate. apply tidy_more; auto; cbn; apply Forall_cons_iff in N as [(Ny & _) _]; destruct y; try congruence; discriminate.
  - rewrite app_nil_r. apply tidy_dots.
  - apply Forall_app in N as [N Nx]. apply Forall_cons_iff in Nx as [Nx _]. rewrite app_assoc. remember (repeat [46; 46] k ++ cs) as l eqn:El.
    destruct l as [|y l]; [now apply tidy_rel|]. rewrite rel_path_snoc by discriminate.
    destruct (rel_not_root (y :: l)) as [A B]; [discriminate| |apply tidy_more; auto].
    intros z Hz. rewrite El in Hz. apply in_app_or in Hz as [Hz|Hz]; [apply repeat_spec in Hz as ->; repeat split; try discriminate; cbn; intuition discriminate|].
    rewrite Forall_forall in N. destruct (N z Hz) as (N1 & N2 & _ & N3). auto.
Qed.
Lemma tidy_ne p : tidy p -> p <> [].
Proof. intros T. destruct T as [|k| |x (N & _)|q x]; try discriminate; auto; [|destruct q; discriminate]. destruct k as [|[|k]]; discriminate. Qed.

(** ** Paths that always lead to a directory *)
Lemma walk_ups fs lim : sound fs -> forall k d, is_dir fs d -> exists e, walk lim true fs (repeat [46; 46] k) d = Found e /\ is_dir fs e.
Proof.
  intros (_ & U & _). induction k as [|k IH]; intros d D; [exists d; split; [apply walk_nil|exact D]|]. destruct D as (up & es & E). cbn [repeat]. rewrite walk_cons, E. cbn [idle upward list_eq_dec].
  apply IH. destruct (U _ _ _ E) as (u & e & H). exists u, e. exact H.
Qed.
Lemma cut_ups k : cut [] (rel_path (repeat [46; 46] (S k))) = repeat [46; 46] (S k).
Proof. induction k as [|k IH]; [reflexivity|]. cbn [repeat rel_path] in *. cbn [app cut]. cbn. f_equal. exact IH. Qed.
Lemma stat_top lim fs cwd p : sound fs -> is_dir fs cwd -> p = [47] \/ (exists k, p = rel_path (repeat [46; 46] k)) -> exists d, stat lim fs cwd p = Found d /\ is_dir fs d.
Proof.
  intros Sn C [->|[k ->]].
  - exists 0%nat. destruct Sn as ([es E] & _). split; [|exists 0%nat, es; exact E]. cbn. destruct lim; cbn; now rewrite !E.
  - destruct k as [|k].
    + exists cwd. split; [|exact C]. destruct C as (up & es & E). cbn. destruct lim; cbn; now rewrite E.
    + destruct (walk_ups fs lim Sn (S k) cwd C) as (e & W & D). exists e. split; [|exact D]. unfold stat. rewrite cut_ups.
      destruct k; exact W.
Qed.
Lemma walk_missing_app fs r f : r <> [] -> forall lim l d, walk lim true fs l d = Missing -> walk lim f fs (l ++ r) d = Missing.
Proof.
  intros Nr. induction lim as [|lim IH]; intros l; induction l as [|x l IHl]; intros d E; try (rewrite walk_nil in E; discriminate); cbn [app];
    rewrite walk_cons in E |- *; (destruct (fs d) as [[|up es|]|]; try discriminate; try reflexivity); (destruct (idle x); [now apply IHl|]); (destruct (upward x); [now apply IHl|]);
    (destruct (find x es) as [c|]; [|reflexivity]); (destruct (fs c) as [[|u e|t]|]; try (now apply IHl); try reflexivity); unfold hop in *;
    (destruct (l ++ r) as [|y z] eqn:Er; [destruct l; [cbn in Er; congruence|discriminate]|]); (destruct t as [|b t]; [reflexivity|]).
  - destruct l; discriminate.
  - assert (E' : walk lim true fs (cut [] (b :: t) ++ l) (begins d (b :: t)) = Missing) by (destruct l; exact E).
    apply IH in E'. rewrite <- app_assoc, Er in E'. destruct f; exact E'.
Qed.
Lemma walk_missing_follow fs : forall lim l d, walk lim false fs l d = Missing -> walk lim true fs l d = Missing.
Proof.
  induction lim as [|lim IH]; intros l; induction l as [|x l IHl]; intros d E; try (rewrite walk_nil in E; discriminate);
    rewrite walk_cons in E |- *; (destruct (fs d) as [[|up es|]|]; try discriminate; try reflexivity); (destruct (idle x); [now apply IHl|]); (destruct (upward x); [now apply IHl|]);
    (destruct (find x es) as [c|]; [|reflexivity]); (destruct (fs c) as [[|u e|t]|]; try (now apply IHl); try reflexivity); unfold hop in *;
    (destruct l as [|y l]; [discriminate|]); destruct t; try exact E. now apply IH.
Qed.
Lemma grows_refl fs : grows fs fs.
Proof. intros d. destruct (fs d) as [[|up es|]|]; auto. exists es. auto. Qed.
Lemma grows_dir fs fs' d : grows fs fs' -> is_dir fs d -> is_dir fs' d.
Proof. intros G (up & es & E). pose proof (G d) as H. rewrite E in H. destruct H as (es' & H & _). exists up, es'. exact H. Qed.
Lemma sound_newdir fs d up es x i : sound fs -> fs d = Some (NDir up es) -> find x es = None -> name x -> fs i = None -> sound (put (put fs i (NDir d [])) d (NDir up ((x, i) :: es))).
Proof.
  intros (R & U & S3) Ed Fx Nx Ei. assert (Ni : i <> d) by congruence. set (g := put (put fs i (NDir d [])) d (NDir up ((x, i) :: es))).
  assert (Gd : g d = Some (NDir up ((x, i) :: es))) by apply put_same.
  assert (Gi : g i = Some (NDir d [])) by (unfold g; rewrite put_other by auto; apply put_same).
  assert (Go : forall e, e <> i -> e <> d -> g e = fs e) by (intros e A B; unfold g; now rewrite !put_other by auto).
  assert (Dir : forall e u ee, fs e = Some (NDir u ee) -> exists ee', g e = Some (NDir u ee')).
  { intros e u ee E. destruct (Nat.eq_dec e d) as [->|N]; [rewrite Ed in E; injection E as <- <-; eauto|]. rewrite Go; eauto. congruence. }
  split; [destruct R as [er Er]; exact (Dir _ _ _ Er)|]. split.
  - intros e u ee E. destruct (Nat.eq_dec e i) as [->|N1]; [rewrite Gi in E; injection E as <- <-; eauto|].
    destruct (Nat.eq_dec e d) as [->|N2]; [rewrite Gd in E; injection E as <- <-; destruct (U _ _ _ Ed) as (u' & e' & H); destruct (Dir _ _ _ H); eauto|].
    rewrite Go in E by auto. destruct (U _ _ _ E) as (u' & e' & H). destruct (Dir _ _ _ H); eauto.
  - assert (Old : forall e u ee0 ee y c, fs e = Some (NDir u ee0) -> find y ee0 = Some c -> (forall z, find z ee = Some c -> find z ee0 = Some c \/ c = i) ->
              name y /\ c <> 0%nat /\ exists n, g c = Some n /\ forall up' es', n = NDir up' es' -> up' = e /\ forall z, find z ee = Some c -> z = y).
    { intros e u ee0 ee y c E0 F0 Fz. destruct (S3 _ _ _ _ _ E0 F0) as (A & B & n & En & Hn). split; [exact A|]. split; [exact B|].
      assert (Nc : c <> i) by congruence. destruct (Nat.eq_dec c d) as [->|Nd].
      - exists (NDir up ((x, i) :: es)). split; [exact Gd|]. intros u2 e2 [= <- <-]. rewrite Ed in En. injection En as <-. destruct (Hn _ _ eq_refl) as [-> Hy].
        split; [reflexivity|]. intros z Hz. destruct (Fz z Hz); [auto|congruence].
      - exists n. rewrite Go by auto. split; [exact En|]. intros u2 e2 ->. destruct (Hn _ _ eq_refl) as [-> Hy]. split; [reflexivity|]. intros z Hz. destruct (Fz z Hz); [auto|congruence]. }
    intros e u ee y c E F. destruct (Nat.eq_dec e i) as [->|N1]; [rewrite Gi in E; injection E as <- <-; discriminate|].
    destruct (Nat.eq_dec e d) as [->|N2].
    + rewrite Gd in E. injection E as <- <-. cbn [find] in F. destruct (list_eq_dec Z.eq_dec y x) as [->|Ny].
      * injection F as <-. split; [exact Nx|]. split; [intros ->; destruct R; congruence|]. exists (NDir d []). split; [exact Gi|]. intros u2 e2 [= <- <-]. split; [reflexivity|].
        intros z Hz. cbn [find] in Hz. destruct (list_eq_dec Z.eq_dec z x) as [->|Nz]; [reflexivity|]. destruct (S3 _ _ _ _ _ Ed Hz) as (_ & _ & kk & Ek & _). congruence.
      * apply (Old d up es _ y c Ed F). intros z Hz. cbn [find] in Hz. destruct (list_eq_dec Z.eq_dec z x) as [->|]; [right; congruence|now left].
    + rewrite Go in E by auto. apply (Old e u ee _ y c E F). intros z Hz. now left.
Qed.
Lemma leading_self p : p <> [] -> leading p p.
Proof. intros N. split; [exact N|]. exists []. rewrite app_nil_r. auto. Qed.
Lemma no_slash x q t : ~ In 47 x -> x <> q ++ 47 :: t.
Proof. intros N ->. apply N. apply in_or_app. right. now left. Qed.
Lemma leading_more q x q' : ~ In 47 x -> q <> [] -> (leading q' (q ++ 47 :: x) /\ q' <> q ++ 47 :: x <-> leading q' q).
Proof.
  intros N Nq. split.
  - intros ((Nq' & r & E & [->|[t ->]]) & D); [rewrite app_nil_r in E; congruence|]. split; [exact Nq'|]. apply app_eq_app in E as (l & [[-> E]|[-> E]]).
    + destruct l as [|c l]; [exists []; rewrite !app_nil_r; auto|]. injection E as <- E. exists (47 :: l). split; [reflexivity|]. right. eauto.
    + destruct l as [|c l]; [exists []; rewrite !app_nil_r; auto|]. injection E as <- E. now apply no_slash in E.
  - intros (Nq' & r & -> & H). split.
    + split; [exact Nq'|]. exists (r ++ 47 :: x). rewrite <- app_assoc. split; [reflexivity|]. right. destruct H as [->|[t ->]]; cbn; eauto.
    + intros E. rewrite <- app_assoc in E. rewrite <- (app_nil_r q') in E at 1. apply app_inv_head in E. destruct r; discriminate.
Qed.
Lemma leading_less q p : leading q p -> q <> p -> exists t, p = q ++ 47 :: t.
Proof. intros (_ & r & -> & [->|[t ->]]) D; [rewrite app_nil_r in D; congruence|eauto]. Qed.
Lemma cut_more s t : forall cur, cut cur (s ++ 47 :: t) = cut cur s ++ cut [] t.
Proof. induction s as [|c s IH]; intros cur; [reflexivity|]. cbn. destruct (Z.eq_dec c 47); [rewrite IH; reflexivity|apply IH]. Qed.
Lemma cut_flat x : forall cur, ~ In 47 x -> cut cur x = [cur ++ x].
Proof. induction x as [|c x IH]; intros cur N; [cbn; now rewrite app_nil_r|]. cbn. destruct (Z.eq_dec c 47) as [->|]; [destruct N; now left|]. rewrite IH by (intros H; apply N; now right). now rewrite <- app_assoc. Qed.
Lemma cut_name q x : name x -> cut [] (q ++ 47 :: x) = cut [] q ++ [x].
Proof. intros (_ & _ & _ & N). now rewrite cut_more, (cut_flat x [] N). Qed.
Lemma res_cases r : (exists d, r = Found d) \/ forall j, r <> Found j.
Proof. destruct r; [left; eauto|right; intros; discriminate..]. Qed.
Lemma begins_more cwd q r : q <> [] -> begins cwd (q ++ r) = begins cwd q.
Proof. destruct q; [congruence|reflexivity]. Qed.
Lemma stat_ne lim fs cwd p : p <> [] -> stat lim fs cwd p = walk lim true fs (cut [] p) (begins cwd p).
Proof. destruct p; [congruence|reflexivity]. Qed.
Lemma lstat_ne lim fs cwd p : p <> [] -> lstat lim fs cwd p = walk lim false fs (cut [] p) (begins cwd p).
Proof. destruct p; [congruence|reflexivity]. Qed.
Lemma found_dir_iff fs d : found_dir fs (Found d) = true <-> is_dir fs d.
Proof. unfold found_dir, is_dir. destruct (fs d) as [[|up es|]|]; split; intros H; try discriminate; try (destruct H as (? & ? & ?); congruence); eauto. Qed.

Section Make.
Variables (lim cwd : nat) (new : nat -> nat) (fs : fsys).
Hypotheses (Sn : sound fs) (Cd : is_dir fs cwd) (Inj : forall a b, new a = new b -> a = b) (Fr : forall k, fs (new k) = None).
Definition fine (q : list Z) : Prop := (exists d, stat lim fs cwd q = Found d /\ is_dir fs d) \/ lstat lim fs cwd q = Missing.
Definition added (fs' : fsys) : Prop := forall d up es, fs d = Some (NDir up es) -> exists es', fs' d = Some (NDir up es') /\ forall x c, find x es' = Some c -> find x es = Some c \/ fs c = None.
Definition only (p : list Z) (fs' : fsys) : Prop := forall a k, fs a = None -> fs' a = Some k -> exists q, leading q p /\ stat lim fs' cwd q = Found a /\ is_dir fs' a.
(** [r] and [r']: what is found of the path before and after. *)
Definition made (p : list Z) (r r' : res) (n' : nat) (fs' : fsys) : Prop :=
  sound fs' /\ grows fs fs' /\ (forall k, (n' <= k)%nat -> fs' (new k) = None) /\
  (exists d up es, r' = Found d /\ fs' d = Some (NDir up es) /\ ((forall j, r <> Found j) -> es = [])) /\
  ((exists j, r = Found j) -> fs' = fs) /\ only p fs' /\ added fs'.
Lemma made_same p r n d : r = Found d -> is_dir fs d -> made p r r n fs.
Proof.
  intros -> (up & es & E). split; [exact Sn|]. split; [apply grows_refl|]. split; [auto|]. split; [exists d, up, es; split; [reflexivity|]; split; [exact E|]; intros H; now destruct (H d)|].
  split; [auto|]. split; [intros a k A B; congruence|]. intros e u ee Ee. exists ee. auto.
Qed.
Lemma fine_up p d q : stat lim fs cwd p = Found d -> is_dir fs d -> leading q p -> fine q.
Proof.
  intros St D L. destruct (list_eq_dec Z.eq_dec q p) as [->|N]; [left; eauto|]. destruct (leading_less _ _ L N) as [t ->]. destruct L as (Nq & _).
  assert (Np : q ++ 47 :: t <> []) by (destruct q; discriminate). rewrite stat_ne, cut_more, begins_more in St by auto.
  destruct (walk_prefix fs true _ d (cut_ne t []) _ _ _ St) as (e & m & W & W2). left. exists e. rewrite stat_ne by auto. split; [exact W|].
  destruct (cut [] t) as [|y l] eqn:Ct; [now apply cut_ne in Ct|]. rewrite walk_cons in W2. destruct (fs e) as [[|up es|]|] eqn:Ee; try discriminate. exists up, es. exact Ee.
Qed.
Lemma not_fine p : (forall d, stat lim fs cwd p = Found d -> ~ is_dir fs d) -> (exists j, lstat lim fs cwd p = Found j) -> ~ fine p.
Proof. intros A [j B] [(d & H & K)|H]; [now apply (A d)|congruence]. Qed.
(** The step: from the parent to the path. *)
Lemma make_step p pre x n okp np fsp (again : outcome (bool * nat * fsys)) : p <> [] -> cut [] p = pre ++ [x] -> name x -> (forall j, stat lim fs cwd p <> Found j) ->
  again = Ok (okp, np, fsp) -> (n <= np)%nat -> (okp = false -> fsp = fs) ->
  (okp = true -> made p (walk lim true fs pre (begins cwd p)) (walk lim true fsp pre (begins cwd p)) np fsp /\ ((exists j, walk lim true fs pre (begins cwd p) = Found j) \/ walk lim true fs pre (begins cwd p) = Missing)) ->
  (okp = true <-> forall q, leading q p /\ q <> p -> fine q) ->
  exists ok n' fs', bind again (fun '(ok, n', fs') => if (ok : bool) then match mkdir_path lim fs' cwd (new n') p with
                       | Some fs2 => Ok (true, S n', fs2)
                       | None => Ok (found_dir fs' (lstat lim fs' cwd p), n', fs')
                       end
            else Ok (false, n', fs')) = Ok (ok, n', fs') /\ (n <= n')%nat /\ (ok = false -> fs' = fs) /\
   (ok = true -> made p (stat lim fs cwd p) (stat lim fs' cwd p) n' fs') /\ (ok = true <-> forall q, leading q p -> fine q).
Proof.
  intros Np C Nx Ns -> Ln Hf Ht Iff. cbn [bind]. destruct okp.
  - destruct (Ht eq_refl) as ((Sp & G & Frp & (d & up & es & W & Ed & Es) & Same & On & Ad) & Wm). destruct (name_kind _ Nx) as [I1 U1].
    assert (P : place_of lim fsp cwd p = Some (d, up, es, x)) by (unfold place_of; rewrite C, last_last, removelast_last, I1, U1, W, Ed; reflexivity).
    unfold mkdir_path, sys_mkdir. rewrite P. destruct (find x es) as [c|] eqn:Fx.
    + assert (fsp = fs) as Efs. { apply Same. destruct Wm as [H|H]; [exact H|]. rewrite Es in Fx by (intros j; congruence). discriminate. }
      rewrite Efs in *. clear Efs. destruct Sn as (_ & _ & S3). destruct (S3 _ _ _ _ _ Ed Fx) as (_ & _ & k & Ec & _). pose proof (lstat_entry _ _ _ _ _ _ _ _ P _ _ Fx Ec) as L. rewrite L.
      assert (B : found_dir fs (Found c) = false).
      { destruct (found_dir fs (Found c)) eqn:B; [|reflexivity]. apply found_dir_iff in B as (u & e & B). exfalso. apply (Ns c). apply lstat_stat; [intros t; congruence|exact L]. }
      rewrite B. exists false, np, fs. split; [reflexivity|]. split; [exact Ln|]. split; [reflexivity|]. split; [discriminate|]. split; [discriminate|]. intros H. exfalso.
      apply (not_fine p); [intros e He; now destruct (Ns e)|eauto|]. apply H. now apply leading_self.
    + set (i := new np). assert (Ei : fsp i = None) by (apply Frp; lia). assert (Ni : i <> d) by congruence. set (fs2 := put (put fsp i (NDir d [])) d (NDir up ((x, i) :: es))).
      assert (G2 : grows fsp fs2). { eapply grows_trans; [apply (grows_inode fsp i (NDir d []) Ei)|]. apply grows_entry; [rewrite put_other by auto; exact Ed|exact Fx]. }
      assert (Ei2 : fs2 i = Some (NDir d [])) by (unfold fs2; rewrite put_other by auto; apply put_same).
      assert (Ed2 : fs2 d = Some (NDir up ((x, i) :: es))) by apply put_same.
      assert (St2 : stat lim fs2 cwd p = Found i). { rewrite <- (Nat.add_0_r lim). eapply stat_place; [exact P|exact G2| |discriminate]. rewrite walk_cons, Ed2, I1, U1. cbn [find]. destruct (list_eq_dec _ _ _); [|congruence]. now rewrite Ei2. }
      exists true, (S np), fs2. split; [reflexivity|]. split; [lia|]. split; [discriminate|]. split; [|split; [|reflexivity]].
      * intros _. split; [now apply sound_newdir|]. split; [eapply grows_trans; eauto|].
        split; [intros k Hk; unfold fs2; rewrite !put_other; [apply Frp; lia|intros E; apply Inj in E; lia|intros E; rewrite <- E, Frp in Ed by lia; discriminate]|].
        split; [exists i, d, []; auto|]. split; [intros [j Hj]; now destruct (Ns j)|]. split.
        { intros a k Ea Ea2. destruct (Nat.eq_dec a i) as [->|Na]; [exists p; split; [now apply leading_self|]; split; [exact St2|]; exists d, []; exact Ei2|].
          assert (exists k', fsp a = Some k') as [k' Ek'].
          { destruct (Nat.eq_dec a d) as [->|Nd]; [eauto|]. unfold fs2 in Ea2. rewrite !put_other in Ea2 by auto. eauto. }
          destruct (On _ _ Ea Ek') as (q & L & St & D). exists q. split; [exact L|]. split; [eapply stat_grows; eauto|eapply grows_dir; eauto]. }
        { intros e u ee Ee. destruct (Ad _ _ _ Ee) as (ee' & Ee' & H). destruct (Nat.eq_dec e d) as [->|Nd].
          - rewrite Ed in Ee'. injection Ee' as <- <-. exists ((x, i) :: es). split; [exact Ed2|]. intros y c F. cbn [find] in F. destruct (list_eq_dec _ _ _); [injection F as <-; right; apply Fr|auto].
          - assert (e <> i) by (intros ->; unfold i in Ee; rewrite Fr in Ee; discriminate). exists ee'. split; [unfold fs2; now rewrite !put_other by auto|exact H]. }
      * intros _ q L. destruct (list_eq_dec Z.eq_dec q p) as [->|N]; [|apply Iff; auto]. right. destruct Wm as [Wm|Wm].
        -- rewrite (Same Wm) in *. eapply lstat_place; [exact P|apply grows_refl| |discriminate]. rewrite walk_cons, Ed, I1, U1, Fx. reflexivity.
        -- rewrite lstat_ne, C by auto. apply walk_missing_app; [discriminate|exact Wm].
  - exists false, np, fsp. split; [reflexivity|]. split; [exact Ln|]. split; [exact Hf|]. split; [discriminate|]. split; [discriminate|]. intros H.
    rewrite Iff. intros q [L _]. auto.
Qed.
Lemma make_quick p fuel n d : p <> [] -> stat lim fs cwd p = Found d -> exists ok n' fs', mkdir_all (S fuel) new lim cwd n fs p = Ok (ok, n', fs') /\ (n <= n')%nat /\ (ok = false -> fs' = fs) /\
     (ok = true -> made p (stat lim fs cwd p) (stat lim fs' cwd p) n' fs') /\ (ok = true <-> forall q, leading q p -> fine q).
Proof.
  intros Np St. cbn [mkdir_all]. rewrite St. exists (found_dir fs (Found d)), n, fs. split; [reflexivity|]. split; [lia|]. split; [reflexivity|]. rewrite St, found_dir_iff. split.
  - intros D. now apply (made_same _ _ _ d).
  - split; [intros D q L; eapply fine_up; eauto|]. intros H. destruct (fs d) as [[|up es|]|] eqn:Ed; try (exists up, es; exact Ed); exfalso.
    all: destruct (stat_lstat _ _ _ _ _ St) as [j Lj]; apply (not_fine p); [intros e He (u & ee & K); congruence|eauto|apply H; now apply leading_self].
Qed.
Lemma make_slow p fuel n : (forall j, stat lim fs cwd p <> Found j) -> mkdir_all (S fuel) new lim cwd n fs p = bind (match parent_part p with
                | Some q => mkdir_all fuel new lim cwd n fs q
                | None => Ok (true, n, fs)
                end) (fun '(ok, n', fs') => if (ok : bool) then match mkdir_path lim fs' cwd (new n') p with
                       | Some fs2 => Ok (true, S n', fs2)
                       | None => Ok (found_dir fs' (lstat lim fs' cwd p), n', fs')
                       end
            else Ok (false, n', fs')).
Proof. intros Ns. cbn [mkdir_all]. destruct (stat lim fs cwd p) as [d| | |]; try reflexivity. now destruct (Ns d). Qed.
Lemma make_main p : tidy p -> forall fuel n, (length p < fuel)%nat -> exists ok n' fs', mkdir_all fuel new lim cwd n fs p = Ok (ok, n', fs') /\ (n <= n')%nat /\ (ok = false -> fs' = fs) /\
   (ok = true -> made p (stat lim fs cwd p) (stat lim fs' cwd p) n' fs') /\ (ok = true <-> forall q, leading q p -> fine q).
Proof.
  intros T. induction T as [|k|x Nx|x Nx|q x T IH Q1 Q2 Nx]; intros fuel n Lf; (destruct fuel as [|fuel]; [lia|]).
  - destruct (stat_top lim fs cwd [47] Sn Cd) as (d & St & _); [auto|]. eapply make_quick; eauto; discriminate.
  - destruct (stat_top lim fs cwd (rel_path (repeat [46; 46] k)) Sn Cd) as (d & St & _); [eauto|]. eapply make_quick; eauto. destruct k as [|[|k]]; discriminate.
  - destruct (res_cases (stat lim fs cwd (47 :: x))) as [[d St]|St]; [eapply make_quick; eauto; discriminate|].
    rewrite make_slow by exact St. change (parent_part (47 :: x)) with (parent_part ([] ++ 47 :: x)). rewrite parent_name by exact Nx.
    assert (R : is_dir fs 0) by (destruct Sn as ([er Er] & _); exists 0%nat, er; exact Er).
    assert (W : walk lim true fs [[]] 0 = Found 0%nat) by (destruct R as (u & e & Er); rewrite walk_cons, Er; apply walk_nil).
    apply (make_step (47 :: x) [[]] x n true n fs); auto; [discriminate|exact (cut_name [] x Nx)|intros _; change (begins cwd (47 :: x)) with 0%nat; split; [now apply (made_same _ _ _ 0%nat)|eauto]|].
    split; [intros _ q' [L D]|reflexivity]. exfalso. destruct (leading_less _ _ L D) as [t E]. destruct L as (Nq & _). destruct Nx as (_ & _ & _ & N47). destruct q' as [|c q']; [congruence|]. injection E as <- E. now apply no_slash in E.
  - destruct (res_cases (stat lim fs cwd x)) as [[d St]|St]; [eapply make_quick; eauto; apply Nx|].
    rewrite make_slow by exact St. rewrite parent_bare by exact Nx. destruct Nx as (N0 & N1 & N2 & N47).
    assert (B : begins cwd x = cwd) by (destruct x as [|c x]; [congruence|]; cbn; destruct (Z.eq_dec c 47) as [->|]; [|reflexivity]; destruct N47; now left).
    apply (make_step x [] x n true n fs); auto; [now apply cut_flat|repeat split; auto|intros _; rewrite B, walk_nil; split; [now apply (made_same _ _ _ cwd)|eauto]|].
    split; [intros _ q' [L D]|reflexivity]. exfalso. destruct (leading_less _ _ L D) as [t E]. now apply no_slash in E.
  - pose proof (tidy_ne _ T) as Nq. assert (B : begins cwd (q ++ 47 :: x) = begins cwd q) by now apply begins_more.
    destruct (res_cases (stat lim fs cwd (q ++ 47 :: x))) as [[d St]|St]; [eapply make_quick; eauto; destruct q; discriminate|].
    rewrite make_slow by exact St. rewrite parent_name by exact Nx. destruct q as [|c0 q0]; [congruence|]. remember (c0 :: q0) as q eqn:Eq. 
    destruct (IH fuel n) as (okp & np & fsp & R & Ln & Hf & Ht & Iff); [rewrite app_length in Lf; cbn in Lf; lia|].
    apply (make_step _ (cut [] q) x n okp np fsp); auto; [destruct q; discriminate|now apply cut_name| |].
    + intros E. destruct (Ht E) as (A1 & A2 & A3 & A4 & A5 & A6 & A7). rewrite B, <- !stat_ne by exact Nq. split.
      * split; [exact A1|]. split; [exact A2|]. split; [exact A3|]. split; [exact A4|]. split; [exact A5|]. split; [|exact A7].
        intros a k E1 E2. destruct (A6 a k E1 E2) as (q' & L & H). exists q'. split; [|exact H]. destruct Nx as (_ & _ & _ & N47). now apply (leading_more q x q' N47 Nq).
      * destruct (proj1 Iff E q (leading_self q Nq)) as [(d & H & _)|H]; [eauto|]. right. rewrite stat_ne by exact Nq. apply walk_missing_follow. rewrite <- lstat_ne by exact Nq. exact H.
    + rewrite Iff. destruct Nx as (_ & _ & _ & N47). split; intros H q' L; apply H; now apply (leading_more q x q' N47 Nq).
Qed.
End Make.
Lemma mkdir_all_works new lim cwd fs s n fuel : sound fs -> is_dir fs cwd -> (forall a b, new a = new b -> a = b) -> (forall k, fs (new k) = None) -> (length (file_path s) < fuel)%nat ->
  exists ok n' fs', mkdir_all fuel new lim cwd n fs (file_path s) = Ok (ok, n', fs') /\
  (ok = true <-> forall q, leading q (file_path s) -> (exists d, stat lim fs cwd q = Found d /\ is_dir fs d) \/ lstat lim fs cwd q = Missing) /\
  (ok = false -> fs' = fs) /\
  (ok = true -> sound fs' /\ (exists d, stat lim fs' cwd (file_path s) = Found d /\ is_dir fs' d) /\
     (forall k t j, stat k fs cwd t = Found j -> stat k fs' cwd t = Found j) /\ (forall k t j, lstat k fs cwd t = Found j -> lstat k fs' cwd t = Found j) /\
     (forall a k, fs a = Some k -> (forall u e, k <> NDir u e) -> fs' a = Some k) /\
     (forall d up es, fs d = Some (NDir up es) -> exists es', fs' d = Some (NDir up es') /\ forall x c, find x es' = Some c -> find x es = Some c \/ fs c = None) /\
     (forall a k, fs a = None -> fs' a = Some k -> exists q, leading q (file_path s) /\ stat lim fs' cwd q = Found a /\ is_dir fs' a)).
Proof.
  intros Sn Cd Inj Fr Lf. destruct (make_main lim cwd new fs Sn Cd Inj Fr _ (canonical_tidy _ (clean_canonical s)) fuel n Lf) as (ok & n' & fs' & R & _ & Hf & Ht & Iff).
  exists ok, n', fs'. split; [exact R|]. split; [exact Iff|]. split; [exact Hf|]. intros E. destruct (Ht E) as (A1 & A2 & _ & (d & up & es & W & D & _) & _ & On & Ad).
  split; [exact A1|]. split; [exists d; split; [exact W|]; exists up, es; exact D|]. split; [intros; eapply stat_grows; eauto|]. split; [intros; eapply lstat_grows; eauto|].
  split; [intros a k Ea Nk; pose proof (A2 a) as G; rewrite Ea in G; destruct k; auto; now destruct (Nk up0 names)|]. split; [exact Ad|exact On].
Qed.
Lemma mkdir_one lim fs cwd i p : sound fs -> fs i = None -> place_of lim fs cwd p <> None ->
  (mkdir_path lim fs cwd i p = None <-> lstat lim fs cwd p <> Missing) /\
  forall fs', mkdir_path lim fs cwd i p = Some fs' -> sound fs' /\ stat lim fs' cwd p = Found i /\ lstat lim fs' cwd p = Found i /\ (exists up, fs' i = Some (NDir up [])) /\
    (forall k t j, stat k fs cwd t = Found j -> stat k fs' cwd t = Found j) /\ (forall k t j, lstat k fs cwd t = Found j -> lstat k fs' cwd t = Found j) /\
    (forall a, a <> i -> (forall u e, fs a <> Some (NDir u e)) -> fs' a = fs a).
Proof.
  intros Sn Ei P. destruct (place_of lim fs cwd p) as [[[[d up] es] x]|] eqn:Q; [|congruence]. unfold mkdir_path, sys_mkdir. rewrite Q.
  pose proof (place_name _ _ _ _ _ _ _ _ Q) as Nx. destruct (place_inv _ _ _ _ _ _ _ _ Q) as (pre & _ & I1 & U1 & _ & Ed & _).
  destruct (find x es) as [c|] eqn:Fx.
  - split; [|discriminate]. split; [intros _|reflexivity]. destruct Sn as (_ & _ & S3). destruct (S3 _ _ _ _ _ Ed Fx) as (_ & _ & k & Ec & _). rewrite (lstat_entry _ _ _ _ _ _ _ _ Q _ _ Fx Ec). discriminate.
  - split. { split; [discriminate|]. intros H. exfalso. apply H. eapply lstat_place; [exact Q|apply grows_refl| |discriminate]. now rewrite walk_cons, Ed, I1, U1, Fx. }
    intros fs' [= <-]. assert (Ni : i <> d) by congruence. set (fs2 := put (put fs i (NDir d [])) d (NDir up ((x, i) :: es))).
    assert (G2 : grows fs fs2). { eapply grows_trans; [apply (grows_inode fs i (NDir d []) Ei)|]. apply grows_entry; [rewrite put_other by auto; exact Ed|exact Fx]. }
    assert (Ei2 : fs2 i = Some (NDir d [])) by (unfold fs2; rewrite put_other by auto; apply put_same).
    assert (Ed2 : fs2 d = Some (NDir up ((x, i) :: es))) by apply put_same.
    assert (W : forall f, walk 0 f fs2 [x] d = Found i). { intros f. rewrite walk_cons, Ed2, I1, U1. cbn [find]. destruct (list_eq_dec _ _ _); [|congruence]. now rewrite Ei2. }
    split; [now apply sound_newdir|]. split; [rewrite <- (Nat.add_0_r lim); eapply stat_place; eauto; discriminate|]. split; [eapply lstat_place; eauto; discriminate|]. split; [eauto|].
    split; [intros; eapply stat_grows; eauto|]. split; [intros; eapply lstat_grows; eauto|]. intros a Na Nd. unfold fs2. rewrite !put_other; auto. intros ->. eapply Nd. exact Ed.
Qed.
