From Coq Require Import ZArith List Bool Lia.
From Verif Require Import GoBase GoStrings PathModel PathSpec PathProofs LinkSpec LinkModel LinkProofs.
Import ListNotations.
Open Scope Z_scope.

(** ** File systems that agree but for a new entry *)
Definition grows (fs fs' : fsys) : Prop :=
  forall d, match fs d with
            | None => True
            | Some (NDir up es) => exists es', fs' d = Some (NDir up es') /\ forall x c, find x es = Some c -> find x es' = Some c
            | Some n => fs' d = Some n
            end.
Lemma walk_grows fs fs' j : grows fs fs' -> forall lim f l d, walk lim f fs l d = Found j -> walk lim f fs' l d = Found j.
Proof.
  intros G lim f. induction lim as [|lim IH]; intros l; induction l as [|x l IHl]; intros d E; try (rewrite walk_nil in *; exact E);
    rewrite walk_cons in E |- *; pose proof (G d) as Gd; destruct (fs d) as [[|up es|]|]; try discriminate;
    destruct Gd as (es' & -> & Ge); (destruct (idle x); [now apply IHl|]); (destruct (upward x); [now apply IHl|]);
    (destruct (find x es) as [c|] eqn:Ex; [|discriminate]); rewrite (Ge _ _ Ex); pose proof (G c) as Gc;
    (destruct (fs c) as [[|u e|t]|]; try discriminate; [rewrite Gc|destruct Gc as (e' & -> & _)|rewrite Gc]); try (now apply IHl);
    unfold hop in *; destruct l as [|y l], f; try exact E; destruct t as [|b t]; try exact E; try discriminate.
  all: now apply IH.
Qed.
Lemma find_fresh x i es : find x es = None -> forall y c, find y es = Some c -> find y ((x, i) :: es) = Some c.
Proof. intros N y c E. cbn. destruct (list_eq_dec _ _ _) as [->|]; congruence. Qed.
Lemma put_same fs d n : put fs d n d = Some n.
Proof. unfold put. now rewrite Nat.eqb_refl. Qed.
Lemma put_other fs d n j : j <> d -> put fs d n j = fs j.
Proof. intros H. unfold put. now rewrite (proj2 (Nat.eqb_neq _ _) H). Qed.
Lemma grows_entry fs d up es x i : fs d = Some (NDir up es) -> find x es = None -> grows fs (put fs d (NDir up ((x, i) :: es))).
Proof.
  intros E N e. destruct (Nat.eq_dec e d) as [->|H].
  - rewrite E. eexists. split; [apply put_same|]. now apply find_fresh.
  - destruct (fs e) as [[|u ee|]|] eqn:Ee; auto; [|exists ee; split; auto|]; rewrite put_other by auto; exact Ee.
Qed.
Lemma grows_inode fs i n : fs i = None -> grows fs (put fs i n).
Proof.
  intros E e. destruct (Nat.eq_dec e i) as [->|H]; [now rewrite E|].
  destruct (fs e) as [[|u ee|]|] eqn:Ee; auto; [|exists ee; split; auto|]; rewrite put_other by auto; exact Ee.
Qed.
Lemma grows_trans a b c : grows a b -> grows b c -> grows a c.
Proof.
  intros H K d. specialize (H d). specialize (K d). destruct (a d) as [[|up es|]|]; auto; [rewrite H in K; exact K| |rewrite H in K; exact K].
  destruct H as (es' & E & H). rewrite E in K. destruct K as (es2 & E2 & K). exists es2. split; auto.
Qed.
Lemma stat_grows fs fs' lim cwd s j : grows fs fs' -> stat lim fs cwd s = Found j -> stat lim fs' cwd s = Found j.
Proof. intros G. unfold stat. destruct s; [discriminate|]. now apply walk_grows. Qed.
Lemma lstat_grows fs fs' lim cwd s j : grows fs fs' -> lstat lim fs cwd s = Found j -> lstat lim fs' cwd s = Found j.
Proof. intros G. unfold lstat. destruct s; [discriminate|]. now apply walk_grows. Qed.

(** ** The place of a new entry *)
Lemma place_inv lim fs cwd s d up es x : place_of lim fs cwd s = Some (d, up, es, x) ->
  exists pre, cut [] s = pre ++ [x] /\ idle x = false /\ upward x = false /\ walk lim true fs pre (begins cwd s) = Found d /\ fs d = Some (NDir up es) /\ s <> [].
Proof.
  unfold place_of. destruct (idle (last (cut [] s) []) || upward (last (cut [] s) [])) eqn:K; [discriminate|]. apply orb_false_elim in K as [K1 K2].
  destruct (walk lim true fs (removelast (cut [] s)) (begins cwd s)) as [d'| | |] eqn:W; try discriminate.
  destruct (fs d') as [[|up' es'|]|] eqn:Ed; try discriminate. intros [= -> -> -> <-].
  exists (removelast (cut [] s)). repeat split; auto.
  - apply app_removelast_last. rewrite cut_eq. apply segments_ne.
  - intros ->. discriminate.
Qed.
Lemma stat_place lim fs cwd s d up es x : place_of lim fs cwd s = Some (d, up, es, x) -> forall fs', grows fs fs' ->
  forall m r, walk m true fs' [x] d = r -> r <> Loop -> stat (lim + m) fs' cwd s = r.
Proof.
  intros P fs' G m r W N. destruct (place_inv _ _ _ _ _ _ _ _ P) as (pre & C & _ & _ & Wp & _ & Ns). unfold stat. destruct s as [|b s]; [congruence|].
  rewrite C. eapply walk_app; eauto; [discriminate|]. eapply walk_grows; eauto.
Qed.
Lemma lstat_place lim fs cwd s d up es x : place_of lim fs cwd s = Some (d, up, es, x) -> forall fs', grows fs fs' ->
  forall r, walk 0 false fs' [x] d = r -> r <> Loop -> lstat lim fs' cwd s = r.
Proof.
  intros P fs' G r W N. destruct (place_inv _ _ _ _ _ _ _ _ P) as (pre & C & _ & _ & Wp & _ & Ns). unfold lstat. destruct s as [|b s]; [congruence|].
  rewrite C. eapply walk_last; eauto. eapply walk_grows; eauto.
Qed.

(** ** Symlink *)
Lemma symlink_inv lim fs cwd i me newname n fs' : symlink_path lim fs cwd i me newname = (n, Some fs') -> fs i = None ->
  n = relate_this me newname /\ me <> [] /\ exists d up es x, place_of lim fs cwd n = Some (d, up, es, x) /\ find x es = None /\
  fs' = put (put fs i (NLink me)) d (NDir up ((x, i) :: es)) /\ grows fs fs' /\ i <> d.
Proof.
  unfold symlink_path. intros [= <- E] Hi. split; [reflexivity|]. unfold sys_symlink in E. destruct me as [|b me]; [discriminate|]. split; [discriminate|].
  destruct (place_of lim fs cwd _) as [[[[d up] es] x]|] eqn:P; [|discriminate]. destruct (find x es) eqn:Fx; [discriminate|]. injection E as <-.
  exists d, up, es, x. destruct (place_inv _ _ _ _ _ _ _ _ P) as (_ & _ & _ & _ & _ & Ed & _).
  assert (i <> d) by (intros ->; congruence). repeat split; auto.
  eapply grows_trans; [apply grows_inode; exact Hi|]. apply grows_entry; auto. rewrite put_other; auto.
Qed.
Lemma symlink_leads lim fs cwd i me newname n fs' : symlink_path lim fs cwd i me newname = (n, Some fs') -> fs i = None ->
  exists d up es x, place_of lim fs cwd n = Some (d, up, es, x) /\
  forall j, stat lim fs d me = Found j -> stat (lim + S lim) fs' cwd n = Found j /\ (stat lim fs' cwd n = Found j \/ stat lim fs' cwd n = Loop).
Proof.
  intros E Hi. destruct (symlink_inv _ _ _ _ _ _ _ _ E Hi) as (_ & Nm & d & up & es & x & P & Fx & -> & G & Nd). exists d, up, es, x. split; [exact P|].
  intros j St. assert (K : stat (lim + S lim) (put (put fs i (NLink me)) d (NDir up ((x, i) :: es))) cwd n = Found j).
  { eapply stat_place; eauto; [|discriminate]. destruct (place_inv _ _ _ _ _ _ _ _ P) as (_ & _ & Ix & Ux & _).
    rewrite walk_cons, put_same, Ix, Ux. cbn [find]. destruct (list_eq_dec _ _ _); [|congruence]. rewrite put_other, put_same by auto.
    unfold hop. rewrite app_nil_r. unfold stat in St. destruct me as [|b me]; [congruence|]. eapply walk_grows; eauto. }
  split; [exact K|]. unfold stat in *. destruct n; [discriminate|]. eapply walk_fewer; eauto.
Qed.
Lemma stat_absolute lim fs a b s : is_rooted s = true -> stat lim fs a s = stat lim fs b s.
Proof. intros R. unfold stat. rewrite !begins_eq, R. reflexivity. Qed.
Lemma relate_this_here x y : name x -> name y -> relate_this x y = y.
Proof.
  intros Hx Hy. rewrite <- relate_this_fix. transitivity (file_path y).
  - apply clean_unique. intros p. rewrite relate_this_rel.
    + replace (dir_of x) with [46]; [reflexivity|]. unfold dir_of. rewrite split_flat by (now apply name_flat). reflexivity.
    + destruct y as [|c y]; [reflexivity|]. cbn. apply Z.eqb_neq. intros ->. apply Hy. now left.
  - unfold file_path, clean. replace (is_rooted y) with false.
    + rewrite segments_one by (now apply name_flat). cbn [fold_left]. unfold clean_step. rewrite <- idle_eq, <- upward_eq.
      destruct (name_kind _ Hy) as [-> ->]. cbn. destruct y; [|reflexivity]. destruct Hy. congruence.
    + symmetry. destruct y as [|c y]; [reflexivity|]. cbn. apply Z.eqb_neq. intros ->. apply Hy. now left.
Qed.
Lemma symlink_here lim fs cwd i x y n fs' j : name x -> name y -> symlink_path lim fs cwd i x y = (n, Some fs') -> fs i = None ->
  stat lim fs cwd x = Found j -> stat (lim + S lim) fs' cwd n = Found j /\ (stat lim fs' cwd n = Found j \/ stat lim fs' cwd n = Loop).
Proof.
  intros Hx Hy E Hi St. destruct (symlink_leads _ _ _ _ _ _ _ _ E Hi) as (d & up & es & z & P & K). apply K.
  destruct (symlink_inv _ _ _ _ _ _ _ _ E Hi) as (-> & _). rewrite relate_this_here in P by auto.
  destruct (place_inv _ _ _ _ _ _ _ _ P) as (pre & C & _ & _ & W & _). rewrite cut_eq, segments_one in C by (now apply name_flat).
  change [y] with ([] ++ [y]) in C. apply app_inj_tail in C as [<- _]. rewrite walk_nil in W. injection W as <-.
  rewrite begins_eq. replace (is_rooted y) with false; [exact St|]. symmetry. destruct y as [|c y]; [reflexivity|]. cbn. apply Z.eqb_neq. intros ->. apply Hy. now left.
Qed.

(** ** Link *)
Lemma link_inv lim fs cwd me linkname n fs' : link_path lim fs cwd me linkname = (n, Some fs') ->
  n = relate_this me linkname /\ exists i d up es x, lstat lim fs cwd me = Found i /\ (exists k, fs i = Some k) /\ (forall u e, fs i <> Some (NDir u e)) /\
  place_of lim fs cwd n = Some (d, up, es, x) /\ find x es = None /\ fs' = put fs d (NDir up ((x, i) :: es)) /\ grows fs fs' /\ i <> d.
Proof.
  unfold link_path. intros [= <- E]. split; [reflexivity|]. unfold sys_link in E. destruct (lstat lim fs cwd me) as [i| | |] eqn:L; try discriminate.
  destruct (place_of lim fs cwd _) as [[[[d up] es] x]|] eqn:P; [|discriminate]. exists i, d, up, es, x.
  destruct (place_inv _ _ _ _ _ _ _ _ P) as (_ & _ & _ & _ & _ & Ed & _).
  assert (K : (exists k, fs i = Some k) /\ (forall u e, fs i <> Some (NDir u e)) /\ find x es = None /\ fs' = put fs d (NDir up ((x, i) :: es))).
  { destruct (fs i) as [[|u e|]|]; try discriminate; destruct (find x es); try discriminate; injection E as <-; repeat split; eauto; discriminate. }
  destruct K as (K1 & K2 & K3 & ->). repeat split; auto; [now apply grows_entry|]. intros ->. now apply K2 in Ed.
Qed.
Lemma link_names lim fs cwd me linkname n fs' : link_path lim fs cwd me linkname = (n, Some fs') ->
  exists i, lstat lim fs cwd me = Found i /\ lstat lim fs' cwd me = Found i /\ lstat lim fs' cwd n = Found i /\ fs' i = fs i.
Proof.
  intros E. destruct (link_inv _ _ _ _ _ _ _ E) as (_ & i & d & up & es & x & L & [k Ek] & ND & P & Fx & -> & G & Nd). exists i.
  split; [exact L|]. split; [eapply lstat_grows; eauto|]. split; [|now apply put_other].
  eapply lstat_place; eauto; [|discriminate]. destruct (place_inv _ _ _ _ _ _ _ _ P) as (_ & _ & Ix & Ux & _).
  rewrite walk_cons, put_same, Ix, Ux. cbn [find]. destruct (list_eq_dec _ _ _); [|congruence]. rewrite put_other by auto. rewrite Ek.
  destruct k as [|u0 e0|]; [apply walk_nil| |reflexivity]. now apply ND in Ek.
Qed.

(** ** Remove of a file *)
Lemma find_without x y es : find y (without x es) = if list_eq_dec Z.eq_dec x y then None else find y es.
Proof.
  unfold without. induction es as [|[z i] es IH]; cbn [filter fst find]; [now destruct (list_eq_dec _ _ _)|].
  destruct (list_eq_dec Z.eq_dec x z) as [<-|N].
  - rewrite IH. destruct (list_eq_dec Z.eq_dec x y) as [<-|]; [reflexivity|]. destruct (list_eq_dec Z.eq_dec y x); congruence.
  - cbn [find]. rewrite IH. destruct (list_eq_dec Z.eq_dec y z) as [->|]; [|reflexivity]. destruct (list_eq_dec Z.eq_dec x z); congruence.
Qed.
Lemma walk_unlink fs d up es x i b j : fs d = Some (NDir up es) -> find x es = Some i -> fs i = Some (NFile b) -> j <> i ->
  forall lim f l e, walk lim f fs l e = Found j -> walk lim f (put fs d (NDir up (without x es))) l e = Found j.
Proof.
  intros Ed Fx Ei Nj. set (fs' := put fs d (NDir up (without x es))).
  assert (A : forall e, e <> d -> fs' e = fs e) by (intros e N; now apply put_other).
  assert (B : fs' d = Some (NDir up (without x es))) by apply put_same.
  assert (St : forall e up' es' y c, fs e = Some (NDir up' es') -> find y es' = Some c -> c <> i ->
            exists es2, fs' e = Some (NDir up' es2) /\ find y es2 = Some c).
  { intros e up' es' y c E Fy Nc. destruct (Nat.eq_dec e d) as [->|N].
    - rewrite Ed in E. injection E as <- <-. exists (without x es). split; [exact B|]. rewrite find_without. destruct (list_eq_dec _ _ _) as [->|]; [congruence|exact Fy].
    - exists es'. rewrite A; auto. }
  assert (Dir : forall e up' es', fs e = Some (NDir up' es') -> exists es2, fs' e = Some (NDir up' es2)).
  { intros e up' es' E. destruct (Nat.eq_dec e d) as [->|N]; [rewrite Ed in E; injection E as <- <-; eauto|rewrite A; eauto]. }
  assert (Nd : i <> d) by (intros ->; congruence).
  intros lim f. induction lim as [|lim IH]; intros l; induction l as [|y l IHl]; intros e E; try (rewrite walk_nil in *; exact E);
    rewrite walk_cons in E; destruct (fs e) as [[|up' es'|]|] eqn:Ee; try discriminate; destruct (Dir _ _ _ Ee) as (es2 & E2);
    rewrite walk_cons, E2; (destruct (idle y); [now apply IHl|]); (destruct (upward y); [now apply IHl|]);
    (destruct (find y es') as [c|] eqn:Fy; [|discriminate]);
    (assert (Nc : c <> i) by (intros ->; rewrite Ei in E; destruct l as [|z l]; [rewrite walk_nil in E; congruence|rewrite walk_cons, Ei in E; discriminate]));
    destruct (St _ _ _ _ _ Ee Fy Nc) as (es3 & E3 & F3); rewrite E2 in E3; injection E3 as <-; rewrite F3;
    destruct (fs c) as [[|u ee|t]|] eqn:Ec; try discriminate.
  1, 4: rewrite A, Ec by (intros ->; congruence); now apply IHl.
  1, 3: destruct (Dir _ _ _ Ec) as (e3 & ->); now apply IHl.
  all: rewrite A, Ec by (intros ->; congruence); unfold hop in *; destruct l as [|z l], f; try exact E; destruct t as [|b0 t]; try exact E; try discriminate; now apply IH.
Qed.
Lemma unlink_inv lim fs cwd me fs' : remove_path lim fs cwd me = Some fs' -> exists d up es x i,
  place_of lim fs cwd me = Some (d, up, es, x) /\ find x es = Some i /\ fs' = put fs d (NDir up (without x es)).
Proof.
  unfold remove_path, sys_unlink. destruct (place_of lim fs cwd me) as [[[[d up] es] x]|]; [|discriminate]. destruct (find x es) as [i|] eqn:F; [|discriminate].
  intros E. exists d, up, es, x, i. repeat split; auto. destruct (fs i) as [[]|]; try discriminate; now injection E.
Qed.
(** What a path with an ordinary last element names is what its directory has under the name. *)
Lemma lstat_entry lim fs cwd s d up es x : place_of lim fs cwd s = Some (d, up, es, x) -> forall i k, find x es = Some i -> fs i = Some k -> lstat lim fs cwd s = Found i.
Proof.
  intros P i k Fx Ek. destruct (place_inv _ _ _ _ _ _ _ _ P) as (pre & C & Ix & Ux & W & Ed & Ns). unfold lstat. destruct s as [|b s]; [congruence|]. rewrite C.
  eapply walk_last; eauto; [|discriminate]. rewrite walk_cons, Ed, Ix, Ux, Fx, Ek. destruct k; try reflexivity; apply walk_nil.
Qed.
Lemma walk_prefix fs f q j : q <> [] -> forall lim p e, walk lim f fs (p ++ q) e = Found j ->
  exists d m, walk lim true fs p e = Found d /\ walk m f fs q d = Found j.
Proof.
  intros Q. induction lim as [|lim IH]; intros p; induction p as [|x p IHp]; intros e E.
  - exists e, 0%nat. split; [apply walk_nil|exact E].
  - cbn [app] in E. rewrite walk_cons in E |- *. destruct (fs e) as [[|up es|]|]; try discriminate.
    destruct (idle x); [now apply IHp|]. destruct (upward x); [now apply IHp|].
    destruct (find x es) as [c|]; [|discriminate]. destruct (fs c) as [[|u ee|t]|]; try discriminate; try (now apply IHp).
    unfold hop in E. assert (Q' : p ++ q <> []) by (destruct p; [exact Q|discriminate]). destruct (p ++ q); [congruence|]. destruct t; discriminate.
  - exists e, (S lim). split; [apply walk_nil|exact E].
  - cbn [app] in E. rewrite walk_cons in E |- *. destruct (fs e) as [[|up es|]|]; try discriminate.
    destruct (idle x); [now apply IHp|]. destruct (upward x); [now apply IHp|].
    destruct (find x es) as [c|]; [|discriminate]. destruct (fs c) as [[|u ee|t]|]; try discriminate; try (now apply IHp).
    unfold hop in E |- *. assert (Q' : p ++ q <> []) by (destruct p; [exact Q|discriminate]). destruct (p ++ q) as [|z w] eqn:W; [congruence|].
    destruct t as [|b t]; [discriminate|]. rewrite <- W, app_assoc in E. destruct (IH _ _ E) as (d & m & A & B). exists d, m. split; [|exact B].
    destruct p; exact A.
Qed.
Lemma link_remove lim fs cwd me linkname n fs' i b fs'' : link_path lim fs cwd me linkname = (n, Some fs') ->
  lstat lim fs cwd me = Found i -> fs i = Some (NFile b) -> remove_path lim fs' cwd me = Some fs'' ->
  lstat lim fs'' cwd n = Found i /\ fs'' i = Some (NFile b) /\ lstat lim fs'' cwd me = Missing.
Proof.
  intros E L Ei Rm. destruct (link_inv _ _ _ _ _ _ _ E) as (_ & i' & d & up & es & x & L' & _ & _ & P & Fx & E' & G & Nd).
  rewrite L in L'. injection L' as <-.
  destruct (unlink_inv _ _ _ _ _ Rm) as (d2 & up2 & es2 & x2 & i2 & P2 & F2 & ->).
  assert (Ei' : fs' i = Some (NFile b)) by (rewrite E', put_other; auto).
  destruct (place_inv _ _ _ _ _ _ _ _ P2) as (pre2 & C2 & I2 & U2 & W2 & D2 & Ns2).
  assert (i2 = i).
  { assert (L2 : lstat lim fs' cwd me = Found i) by (eapply lstat_grows; eauto). unfold remove_path, sys_unlink in Rm. rewrite P2, F2 in Rm.
    destruct (fs' i2) as [k|] eqn:K; [|discriminate]. rewrite (lstat_entry _ _ _ _ _ _ _ _ P2 _ _ F2 K) in L2. now injection L2. }
  subst i2. destruct (place_inv _ _ _ _ _ _ _ _ P) as (pre & C & Ix & Ux & W & Ed & Ns).
  assert (Nd2 : i <> d2) by (intros ->; congruence).
  assert (W' : walk lim true fs' pre (begins cwd n) = Found d) by (eapply walk_grows; eauto).
  assert (Ed' : fs' d = Some (NDir up ((x, i) :: es))) by (rewrite E'; apply put_same).
  assert (Hd : d <> i) by (intros ->; congruence).
  pose proof (walk_unlink _ _ _ _ _ _ _ d D2 F2 Ei' Hd _ _ _ _ W') as W3.
  assert (Hd2 : d2 <> i) by congruence.
  pose proof (walk_unlink _ _ _ _ _ _ _ d2 D2 F2 Ei' Hd2 _ _ _ _ W2) as W4.
  split; [|split; [now rewrite put_other by auto|]].
  - unfold lstat. destruct n as [|c n]; [congruence|]. rewrite C. eapply walk_last; [exact W3| |discriminate]. rewrite walk_cons.
    destruct (Nat.eq_dec d d2) as [<-|Ne].
    + rewrite Ed' in D2. injection D2 as <- <-. rewrite put_same, Ix, Ux, find_without.
      destruct (list_eq_dec _ _ _) as [->|Nx].
      * exfalso. unfold lstat in L. destruct me as [|c2 me]; [congruence|]. rewrite C2 in L.
        destruct (walk_prefix fs false [x] i ltac:(discriminate) _ _ _ L) as (d' & m & A1 & A2).
        pose proof (walk_grows _ _ _ G _ _ _ _ A1) as A3. rewrite W2 in A3. injection A3 as <-.
        rewrite walk_cons, Ed, Ix, Ux, Fx in A2. discriminate.
      * cbn [find]. destruct (list_eq_dec _ _ _); [|congruence]. rewrite put_other, Ei' by auto. apply walk_nil.
    + rewrite put_other, Ed', Ix, Ux by auto. cbn [find]. destruct (list_eq_dec _ _ _); [|congruence]. rewrite put_other, Ei' by auto. apply walk_nil.
  - unfold lstat. destruct me as [|c me]; [congruence|]. rewrite C2. eapply walk_last; [exact W4| |discriminate].
    rewrite walk_cons, put_same, I2, U2, find_without. destruct (list_eq_dec _ _ _); [reflexivity|congruence].
Qed.

(** ** The file system stays sound *)
Lemma place_name lim fs cwd s d up es x : place_of lim fs cwd s = Some (d, up, es, x) -> name x.
Proof.
  intros P. destruct (place_inv _ _ _ _ _ _ _ _ P) as (pre & C & I & U & _). apply kind_name; auto.
  pose proof (segments_flat s) as F. rewrite <- cut_eq, C in F. apply Forall_app in F as [_ F]. now apply Forall_cons_iff in F.
Qed.
Lemma sound_entry fs d up es x i k : sound fs -> fs d = Some (NDir up es) -> find x es = None -> name x -> fs i = Some k ->
  (forall u e, k <> NDir u e) -> sound (put fs d (NDir up ((x, i) :: es))).
Proof.
  intros (R & U & S3) Ed Fx Nx Ei Nk.
  assert (Dir : forall e u ee, fs e = Some (NDir u ee) -> exists ee', put fs d (NDir up ((x, i) :: es)) e = Some (NDir u ee')).
  { intros e u ee E. destruct (Nat.eq_dec e d) as [->|N]; [rewrite put_same; rewrite Ed in E; injection E as <- <-; eauto|rewrite put_other; eauto]. }
  assert (Inv : forall e u ee, put fs d (NDir up ((x, i) :: es)) e = Some (NDir u ee) -> exists ee0, fs e = Some (NDir u ee0)).
  { intros e u ee E. destruct (Nat.eq_dec e d) as [->|N]; [rewrite put_same in E; injection E as <- <-; eauto|rewrite put_other in E; eauto]. }
  assert (Ni : i <> d) by (intros ->; rewrite Ed in Ei; injection Ei as <-; eapply Nk; reflexivity).
  split; [destruct R as [er Er]; exact (Dir _ _ _ Er)|]. split.
  - intros e u ee E. destruct (Inv _ _ _ E) as (ee0 & E0). destruct (U _ _ _ E0) as (u' & e' & H). destruct (Dir _ _ _ H). eauto.
  - intros e u ee y c E F.
    assert (Old : forall ee0, fs e = Some (NDir u ee0) -> find y ee0 = Some c -> (forall z, find z ee = Some c -> find z ee0 = Some c \/ (z = x /\ c = i)) ->
              name y /\ c <> 0%nat /\ exists n, put fs d (NDir up ((x, i) :: es)) c = Some n /\ forall up' es', n = NDir up' es' -> up' = e /\ forall z, find z ee = Some c -> z = y).
    { intros ee0 E0 F0 Fz. destruct (S3 _ _ _ _ _ E0 F0) as (A & B & n & En & Hn). split; [exact A|]. split; [exact B|].
      destruct (Nat.eq_dec c d) as [->|Nc].
      - exists (NDir up ((x, i) :: es)). rewrite put_same. split; [reflexivity|]. intros u2 e2 [= <- <-]. rewrite Ed in En. injection En as <-.
        destruct (Hn _ _ eq_refl) as [-> Hy]. split; [reflexivity|]. intros z Hz. destruct (Fz z Hz) as [K|[-> ->]]; [auto|congruence].
      - exists n. rewrite put_other by auto. split; [exact En|]. intros u2 e2 ->. destruct (Hn _ _ eq_refl) as [-> Hy]. split; [reflexivity|].
        intros z Hz. destruct (Fz z Hz) as [K|[-> ->]]; [auto|]. rewrite Ei in En. injection En as ->. exfalso. eapply Nk. reflexivity. }
    destruct (Nat.eq_dec e d) as [->|N].
    + rewrite put_same in E. injection E as <- <-. cbn [find] in F. destruct (list_eq_dec Z.eq_dec y x) as [->|Ny].
      * injection F as <-. split; [exact Nx|]. split.
        { intros ->. destruct R as [er Er]. rewrite Er in Ei. injection Ei as <-. eapply Nk. reflexivity. }
        exists k. rewrite put_other by auto. split; [exact Ei|]. intros u2 e2 ->. exfalso. eapply Nk. reflexivity.
      * apply (Old es Ed F). intros z Hz. cbn [find] in Hz. destruct (list_eq_dec Z.eq_dec z x) as [->|]; [injection Hz as <-; now right|now left].
    + rewrite put_other in E by auto. apply (Old ee E F). intros z Hz. now left.
Qed.
Lemma sound_inode fs i k : sound fs -> fs i = None -> (forall u e, k <> NDir u e) -> sound (put fs i k).
Proof.
  intros (R & U & S3) Hi Nk.
  assert (A : forall e n, fs e = Some n -> put fs i k e = Some n) by (intros e n E; rewrite put_other; [exact E|intros ->; congruence]).
  assert (B : forall e u ee, put fs i k e = Some (NDir u ee) -> fs e = Some (NDir u ee)).
  { intros e u ee E. destruct (Nat.eq_dec e i) as [->|N]; [rewrite put_same in E; injection E as ->; exfalso; eapply Nk; reflexivity|now rewrite put_other in E by auto]. }
  split; [destruct R; eauto|]. split.
  - intros e u ee E. apply B in E. destruct (U _ _ _ E) as (u' & e' & H). eauto.
  - intros e u ee y c E F. apply B in E. destruct (S3 _ _ _ _ _ E F) as (H1 & H2 & n & En & Hn). split; [exact H1|]. split; [exact H2|]. exists n. split; [auto|exact Hn].
Qed.
Lemma symlink_sound lim fs cwd i me newname n fs' : sound fs -> symlink_path lim fs cwd i me newname = (n, Some fs') -> fs i = None -> sound fs'.
Proof.
  intros S E Hi. destruct (symlink_inv _ _ _ _ _ _ _ _ E Hi) as (_ & _ & d & up & es & x & P & Fx & -> & _ & Nd).
  destruct (place_inv _ _ _ _ _ _ _ _ P) as (_ & _ & _ & _ & _ & Ed & _).
  eapply sound_entry with (k := NLink me); eauto; [now apply sound_inode|now rewrite put_other by auto|eapply place_name; eauto|apply put_same|discriminate].
Qed.
Lemma link_sound lim fs cwd me linkname n fs' : sound fs -> link_path lim fs cwd me linkname = (n, Some fs') -> sound fs'.
Proof.
  intros S E. destruct (link_inv _ _ _ _ _ _ _ E) as (_ & i & d & up & es & x & L & [k Ek] & ND & P & Fx & -> & G & Nd).
  destruct (place_inv _ _ _ _ _ _ _ _ P) as (_ & _ & _ & _ & _ & Ed & _).
  eapply sound_entry with (k := k); eauto; [eapply place_name; eauto|]. intros u e ->. eapply ND; eauto.
Qed.
Lemma remove_works lim fs cwd me i b : sound fs -> lstat lim fs cwd me = Found i -> fs i = Some (NFile b) -> exists fs', remove_path lim fs cwd me = Some fs'.
Proof.
  intros (_ & U & _) L Ei. unfold lstat in L. destruct me as [|c me]; [discriminate|]. set (s := c :: me) in *.
  assert (C : cut [] s = removelast (cut [] s) ++ [last (cut [] s) []]) by (apply app_removelast_last; rewrite cut_eq; apply segments_ne).
  rewrite C in L. destruct (walk_prefix fs false [last (cut [] s) []] i ltac:(discriminate) _ _ _ L) as (d & m & A & B).
  rewrite walk_cons in B. unfold remove_path, sys_unlink, place_of. destruct (fs d) as [[|up es|]|] eqn:Ed; try discriminate.
  destruct (idle (last (cut [] s) [])) eqn:I; [rewrite walk_nil in B; injection B as ->; congruence|].
  destruct (upward (last (cut [] s) [])) eqn:Up; [rewrite walk_nil in B; injection B as ->; destruct (U _ _ _ Ed) as (? & ? & ?); congruence|].
  cbn [orb]. rewrite A, Ed. destruct (find _ es) as [k|] eqn:F; [|discriminate]. destruct (fs k) as [[|u e|t]|] eqn:Ek; try discriminate; eauto.
  rewrite walk_nil in B. injection B as ->. congruence.
Qed.

(** ** The example *)
Lemma ex_sound : sound ex_fs.
Proof.
  split; [eexists; reflexivity|]. split.
  - intros d up es H. destruct d as [|[|[|[|[|d]]]]]; cbn in H; try discriminate; injection H as <- <-; cbn; eauto.
  - assert (Na : forall c, c = 97 \/ c = 98 \/ c = 102 \/ c = 108 -> name [c]) by (intros c Hc; repeat split; try discriminate; try (intros [=]; lia); intros [E|[]]; lia).
    intros d up es x c H F. destruct d as [|[|[|[|[|d]]]]]; cbn in H; try discriminate; injection H as <- <-; cbn [find] in F;
      repeat (destruct (list_eq_dec Z.eq_dec _ _) as [->|] in F); try discriminate; injection F as <-; (split; [apply Na; lia|]); (split; [discriminate|]);
      eexists; (split; [reflexivity|]); try discriminate; intros u' e' [= <- <-]; (split; [reflexivity|]); intros y; cbn [find];
      repeat (destruct (list_eq_dec Z.eq_dec _ _) as [->|]); try discriminate; reflexivity.
Qed.
Lemma same_file_false : sound ex_fs /\ stat 40 ex_fs 0 [47; 108; 47; 46; 46] = Found 1 /\ stat 40 ex_fs 0 (file_path [47; 108; 47; 46; 46]) = Found 0 /\
  stat 40 ex_fs 0 [120; 47; 46; 46; 47; 97] = Missing /\ stat 40 ex_fs 0 (file_path [120; 47; 46; 46; 47; 97]) = Found 1.
Proof. split; [apply ex_sound|]. repeat split; vm_compute; reflexivity. Qed.
Lemma symlink_false : exists fs cwd i me newname n fs', sound fs /\ fs i = None /\ me = file_path me /\
  symlink_path 40 fs cwd i me newname = (n, Some fs') /\ stat 40 fs cwd me = Found 2 /\ stat 40 fs' cwd n = Missing.
Proof.
  exists ex_fs, 0%nat, 5%nat, [97; 47; 98], [109]. do 2 eexists. split; [apply ex_sound|]. split; [reflexivity|]. split; [reflexivity|].
  split; [reflexivity|]. split; vm_compute; reflexivity.
Qed.

(** ** Together *)
Lemma symlink_all lim fs cwd i me newname n fs' : sound fs -> fs i = None -> symlink_path lim fs cwd i me newname = (n, Some fs') ->
  sound fs' /\ lstat lim fs' cwd n = Found i /\ fs' i = Some (NLink me) /\
  (forall k s j, stat k fs cwd s = Found j -> stat k fs' cwd s = Found j) /\
  (exists d up es x, place_of lim fs cwd n = Some (d, up, es, x) /\
     forall j, stat lim fs d me = Found j ->
       stat (lim + S lim) fs' cwd n = Found j /\ (stat lim fs' cwd n = Found j \/ stat lim fs' cwd n = Loop)).
Proof.
  intros S Hi E. split; [eapply symlink_sound; eauto|]. pose proof (symlink_leads _ _ _ _ _ _ _ _ E Hi) as K.
  destruct (symlink_inv _ _ _ _ _ _ _ _ E Hi) as (_ & _ & d & up & es & x & P & Fx & E' & G & Nd).
  assert (Ei : fs' i = Some (NLink me)) by (rewrite E', put_other, put_same; auto).
  split; [|split; [exact Ei|split; [intros k s j; now apply stat_grows|exact K]]].
  eapply lstat_place; eauto; [|discriminate]. destruct (place_inv _ _ _ _ _ _ _ _ P) as (_ & _ & Ix & Ux & _).
  assert (Ed : fs' d = Some (NDir up ((x, i) :: es))) by (rewrite E'; apply put_same). rewrite walk_cons, Ed, Ix, Ux. cbn [find]. destruct (list_eq_dec _ _ _); [|congruence]. rewrite Ei. reflexivity.
Qed.
Lemma symlink_good lim fs cwd i me newname n fs' j : sound fs -> fs i = None ->
  symlink_path lim fs cwd i me newname = (n, Some fs') -> stat lim fs cwd me = Found j ->
  (exists t, me = 47 :: t) \/ (name me /\ name newname) ->
  stat (lim + S lim) fs' cwd n = Found j /\ (stat lim fs' cwd n = Found j \/ stat lim fs' cwd n = Loop).
Proof.
  intros S Hi E St [[t ->]|[Hm Hn]].
  - destruct (symlink_leads _ _ _ _ _ _ _ _ E Hi) as (d & up & es & x & P & K). apply K. rewrite <- St. now apply stat_absolute.
  - eapply symlink_here with (x := me); eauto.
Qed.
Lemma link_all lim fs cwd me linkname n fs' : sound fs -> link_path lim fs cwd me linkname = (n, Some fs') ->
  sound fs' /\ (forall k s j, stat k fs cwd s = Found j -> stat k fs' cwd s = Found j) /\
  exists i, lstat lim fs cwd me = Found i /\ lstat lim fs' cwd me = Found i /\ lstat lim fs' cwd n = Found i /\ fs' i = fs i /\
    forall b, fs i = Some (NFile b) -> exists fs'', remove_path lim fs' cwd me = Some fs'' /\
      lstat lim fs'' cwd n = Found i /\ fs'' i = Some (NFile b) /\ lstat lim fs'' cwd me = Missing.
Proof.
  intros S E. pose proof (link_sound _ _ _ _ _ _ _ S E) as S'. split; [exact S'|].
  split; [destruct (link_inv _ _ _ _ _ _ _ E) as (_ & ? & ? & ? & ? & ? & _ & _ & _ & _ & _ & _ & G & _); intros k s j; now apply stat_grows|].
  destruct (link_names _ _ _ _ _ _ _ E) as (i & L & L1 & L2 & Ei). exists i. do 4 (split; [assumption|]).
  intros b Eb. destruct (remove_works lim fs' cwd me i b S' L1 ltac:(congruence)) as (fs'' & R). exists fs''. split; [exact R|].
  eapply link_remove; eauto.
Qed.
