From Coq Require Import ZArith List Bool Lia.
From Verif Require Import GoBase GoStrings PathModel PathSpec PathProofs LinkSpec LinkModel LinkProofs LinkMore RenSpec RenModel.
Import ListNotations.
Open Scope Z_scope.

Lemma sound_without fs d up es x : sound fs -> fs d = Some (NDir up es) -> sound (put fs d (NDir up (without x es))).
Proof.
  intros (R & U & S3) Ed. set (fs' := put fs d (NDir up (without x es))).
  assert (Dir : forall e u ee, fs e = Some (NDir u ee) -> exists ee', fs' e = Some (NDir u ee')).
  { intros e u ee E. unfold fs'. destruct (Nat.eq_dec e d) as [->|N]; [rewrite put_same; rewrite Ed in E; injection E as <- <-; eauto|rewrite put_other; eauto]. }
  assert (Inv : forall e u ee, fs' e = Some (NDir u ee) -> exists ee0, fs e = Some (NDir u ee0) /\ forall y c, find y ee = Some c -> find y ee0 = Some c).
  { intros e u ee E. unfold fs' in E. destruct (Nat.eq_dec e d) as [->|N]; [rewrite put_same in E; injection E as <- <-|rewrite put_other in E; eauto].
    exists es. split; [exact Ed|]. intros y c. rewrite find_without. destruct (list_eq_dec _ _ _); [discriminate|auto]. }
  split; [destruct R as [er Er]; exact (Dir _ _ _ Er)|]. split.
  - intros e u ee E. destruct (Inv _ _ _ E) as (ee0 & E0 & _). destruct (U _ _ _ E0) as (u' & e' & H). destruct (Dir _ _ _ H). eauto.
  - intros e u ee y c E F. destruct (Inv _ _ _ E) as (ee0 & E0 & K). destruct (S3 _ _ _ _ _ E0 (K _ _ F)) as (A & B & n & En & Hn).
    split; [exact A|]. split; [exact B|]. destruct n as [b|u2 e2|t].
    + exists (NFile b). split; [|discriminate]. unfold fs'. rewrite put_other; [exact En|]. intros ->. congruence.
    + destruct (Dir _ _ _ En) as (e3 & E3). exists (NDir u2 e3). split; [exact E3|]. intros u4 e4 [= <- <-]. destruct (Hn _ _ eq_refl) as [-> Q]. split; [reflexivity|]. auto.
    + exists (NLink t). split; [|discriminate]. unfold fs'. rewrite put_other; [exact En|]. intros ->. congruence.
Qed.
Lemma put_put fs d n n' e : put (put fs d n) d n' e = put fs d n' e.
Proof. unfold put. now destruct (Nat.eqb e d). Qed.
(** Adding a name over nothing or over a file breaks no way to anything else. *)
Definition over (fs : fsys) (d up : nat) (es : list (list Z * nat)) (x : list Z) (i : nat) : fsys :=
  put (put fs d (NDir up (without x es))) d (NDir up ((x, i) :: without x es)).
Lemma find_over x i y es : find y ((x, i) :: without x es) = if list_eq_dec Z.eq_dec y x then Some i else find y es.
Proof. cbn [find]. destruct (list_eq_dec Z.eq_dec y x); [reflexivity|]. rewrite find_without. destruct (list_eq_dec Z.eq_dec x y); congruence. Qed.
Lemma walk_over fs d up es x i k : fs d = Some (NDir up es) -> (find x es = None \/ exists j b, find x es = Some j /\ fs j = Some (NFile b) /\ j <> k) ->
  forall lim f l e, walk lim f fs l e = Found k -> walk lim f (over fs d up es x i) l e = Found k.
Proof.
  intros Ed [N|(j & b & F & Ej & Nk)] lim f l e W.
  - apply walk_grows with (2 := W). intros a. unfold over. rewrite put_put. destruct (Nat.eq_dec a d) as [->|Na].
    + rewrite Ed. eexists. split; [apply put_same|]. intros y c Fy. rewrite find_over. destruct (list_eq_dec _ _ _); [congruence|exact Fy].
    + rewrite put_other by auto. destruct (fs a) as [[|u ee|]|]; eauto.
  - assert (Nk' : k <> j) by congruence. pose proof (walk_unlink _ _ _ _ _ _ _ k Ed F Ej Nk' _ _ _ _ W) as W'.
    apply walk_grows with (2 := W'). intros a. unfold over. destruct (Nat.eq_dec a d) as [->|Na].
    + rewrite put_same. eexists. split; [apply put_same|]. intros y c Fy. rewrite find_over. destruct (list_eq_dec _ _ _) as [->|]; [rewrite find_without in Fy; destruct (list_eq_dec _ _ _); congruence|].
      rewrite find_without in Fy. destruct (list_eq_dec _ _ _); [discriminate|exact Fy].
    + rewrite !put_other by auto. destruct (fs a) as [[|u ee|]|]; eauto.
Qed.

Lemma rename_inv lim fs cwd me newname n fs' : rename_path lim fs cwd me newname = (n, Some fs') ->
  n = relate_this me newname /\ exists d1 up1 es1 x1 i d2 up2 es2 x2, place_of lim fs cwd me = Some (d1, up1, es1, x1) /\ find x1 es1 = Some i /\
  (exists k, fs i = Some k /\ forall u e, k <> NDir u e) /\ place_of lim fs cwd n = Some (d2, up2, es2, x2) /\
  ((find x2 es2 = Some i /\ fs' = fs) \/
   ((find x2 es2 = None \/ exists j k, find x2 es2 = Some j /\ j <> i /\ fs j = Some k /\ forall u e, k <> NDir u e) /\
    exists up es, over fs d2 up2 es2 x2 i d1 = Some (NDir up es) /\ fs' = put (over fs d2 up2 es2 x2 i) d1 (NDir up (without x1 es)))).
Proof.
  unfold rename_path. intros [= <- E]. split; [reflexivity|]. unfold sys_rename in E.
  destruct (place_of lim fs cwd me) as [[[[d1 up1] es1] x1]|] eqn:P1; [|discriminate].
  destruct (place_of lim fs cwd (relate_this me newname)) as [[[[d2 up2] es2] x2]|] eqn:P2; [|discriminate].
  destruct (find x1 es1) as [i|] eqn:F1; [|discriminate]. exists d1, up1, es1, x1, i, d2, up2, es2, x2. split; [reflexivity|]. split; [exact F1|].
  fold (over fs d2 up2 es2 x2 i) in E. assert (Ki : exists k, fs i = Some k /\ forall u e, k <> NDir u e).
  { destruct (fs i) as [[| |]|]; try discriminate; eexists; (split; [reflexivity|discriminate]). }
  split; [exact Ki|]. split; [reflexivity|].
  assert (Go : match over fs d2 up2 es2 x2 i d1 with Some (NDir up es) => Some (put (over fs d2 up2 es2 x2 i) d1 (NDir up (without x1 es))) | _ => None end = Some fs' ->
    exists up es, over fs d2 up2 es2 x2 i d1 = Some (NDir up es) /\ fs' = put (over fs d2 up2 es2 x2 i) d1 (NDir up (without x1 es))).
  { intros G. destruct (over fs d2 up2 es2 x2 i d1) as [[|up es|]|]; try discriminate. injection G as <-. eauto. }
  destruct (fs i) as [[| |]|]; try discriminate; (destruct (find x2 es2) as [j|] eqn:F2; [destruct (Nat.eqb_spec j i) as [->|Nj];
    [left; split; congruence|right; destruct (fs j) as [[| |]|] eqn:Ej; try discriminate; (split; [right; exists j; eexists; (split; [reflexivity|]); (split; [exact Nj|]); (split; [exact Ej|discriminate])|exact (Go E)])]
    |right; split; [now left|exact (Go E)]]).
Qed.
Lemma rename_sound lim fs cwd me newname n fs' : sound fs -> rename_path lim fs cwd me newname = (n, Some fs') -> sound fs'.
Proof.
  intros S E. destruct (rename_inv _ _ _ _ _ _ _ E) as (_ & d1 & up1 & es1 & x1 & i & d2 & up2 & es2 & x2 & P1 & F1 & (k & Ei & Nk) & P2 & [[_ ->]|(T & up & es & E1 & ->)]); [exact S|].
  destruct (place_inv _ _ _ _ _ _ _ _ P2) as (_ & _ & _ & _ & _ & Ed2 & _).
  apply sound_without; [|exact E1]. unfold over.
  assert (Ni : i <> d2) by (intros ->; rewrite Ed2 in Ei; injection Ei as <-; eapply Nk; reflexivity).
  eapply sound_entry with (k := k); [now apply sound_without|apply put_same| |eapply place_name; eauto|now rewrite put_other by auto|exact Nk].
  rewrite find_without. destruct (list_eq_dec _ _ _); congruence.
Qed.
Lemma lstat_missing_find lim fs cwd s d up es x : place_of lim fs cwd s = Some (d, up, es, x) -> sound fs -> lstat lim fs cwd s = Missing -> find x es = None.
Proof.
  intros P (_ & _ & S3) L. destruct (find x es) as [c|] eqn:F; [|reflexivity]. destruct (place_inv _ _ _ _ _ _ _ _ P) as (_ & _ & _ & _ & _ & Ed & _).
  destruct (S3 _ _ _ _ _ Ed F) as (_ & _ & k & Ek & _). rewrite (lstat_entry _ _ _ _ _ _ _ _ P _ _ F Ek) in L. discriminate.
Qed.
Lemma lstat_found_find lim fs cwd s d up es x j : place_of lim fs cwd s = Some (d, up, es, x) -> sound fs -> lstat lim fs cwd s = Found j -> find x es = Some j.
Proof.
  intros P (_ & _ & S3) L. destruct (place_inv _ _ _ _ _ _ _ _ P) as (pre & C & Ix & Ux & W & Ed & Ns). destruct (find x es) as [c|] eqn:F.
  - destruct (S3 _ _ _ _ _ Ed F) as (_ & _ & k & Ek & _). rewrite (lstat_entry _ _ _ _ _ _ _ _ P _ _ F Ek) in L. congruence.
  - unfold lstat in L. destruct s as [|b s]; [congruence|]. rewrite C in L. assert (M : walk lim false fs (pre ++ [x]) (begins cwd (b :: s)) = Missing).
    { eapply walk_last; [exact W| |discriminate]. now rewrite walk_cons, Ed, Ix, Ux, F. }
    rewrite M in L. discriminate.
Qed.
Lemma rename_file lim fs cwd me newname n fs' i b : sound fs -> rename_path lim fs cwd me newname = (n, Some fs') ->
  lstat lim fs cwd me = Found i -> fs i = Some (NFile b) -> free_or_file lim fs cwd n ->
  lstat lim fs' cwd n = Found i /\ fs' i = Some (NFile b) /\ ((lstat lim fs cwd n = Found i /\ fs' = fs) \/ (lstat lim fs cwd n <> Found i /\ lstat lim fs' cwd me = Missing)) /\
  (forall k s j, (forall b', fs j <> Some (NFile b')) -> stat k fs cwd s = Found j -> stat k fs' cwd s = Found j) /\
  (forall k s j, lstat k fs cwd s = Found j -> j <> i -> lstat lim fs cwd n <> Found j -> lstat k fs' cwd s = Found j).
Proof.
  intros S E L Ei Fr. destruct (rename_inv _ _ _ _ _ _ _ E) as (_ & d1 & up1 & es1 & x1 & i' & d2 & up2 & es2 & x2 & P1 & F1 & (k & Ei' & Nk) & P2 & Q).
  rewrite (lstat_entry _ _ _ _ _ _ _ _ P1 _ _ F1 Ei') in L. injection L as ->. destruct Q as [[F2 ->]|(T & up & es & E1 & ->)].
  - pose proof (lstat_entry _ _ _ _ _ _ _ _ P2 _ _ F2 Ei') as L2. split; [exact L2|]. split; [exact Ei|]. split; [left; auto|]. split; auto.
  - assert (T' : find x2 es2 = None \/ exists j b, find x2 es2 = Some j /\ fs j = Some (NFile b) /\ j <> i).
    { destruct Fr as [M|(j & b' & Lj & Ej)]; [left; eapply lstat_missing_find; eauto|]. pose proof (lstat_found_find _ _ _ _ _ _ _ _ _ P2 S Lj) as F2. right. exists j, b'.
      split; [exact F2|]. split; [exact Ej|]. destruct T as [N|(j' & k' & F2' & Nj & _)]; congruence. }
    clear T. destruct (place_inv _ _ _ _ _ _ _ _ P1) as (pre1 & C1 & I1 & U1 & W1 & Ed1 & Ns1).
    destruct (place_inv _ _ _ _ _ _ _ _ P2) as (pre2 & C2 & I2 & U2 & W2 & Ed2 & Ns2).
    assert (Nd1 : i <> d1) by congruence. assert (Nd2 : i <> d2) by congruence.
    set (fsA := over fs d2 up2 es2 x2 i) in *.
    assert (EiA : fsA i = Some (NFile b)) by (unfold fsA, over; rewrite !put_other by auto; exact Ei).
    assert (Ed2A : fsA d2 = Some (NDir up2 ((x2, i) :: without x2 es2))) by (unfold fsA, over; apply put_same).
    assert (NotNew : d1 = d2 -> x1 <> x2).
    { intros -> ->. rewrite Ed1 in Ed2. injection Ed2 as <- <-. rewrite F1 in T'. destruct T' as [?|(j & b' & [= <-] & _ & ?)]; congruence. }
    assert (F1A : find x1 es = Some i).
    { destruct (Nat.eq_dec d1 d2) as [->|Nd]; [rewrite Ed2A in E1; injection E1 as <- <-; rewrite Ed1 in Ed2; injection Ed2 as <- <-; rewrite find_over;
        destruct (list_eq_dec _ _ _) as [->|]; [now destruct NotNew|exact F1]|].
      unfold fsA, over in E1. rewrite !put_other, Ed1 in E1 by auto. injection E1 as <- <-. exact F1. }
    assert (Keep : forall k lim f l e, k <> i -> (forall j b, find x2 es2 = Some j -> fs j = Some (NFile b) -> j <> k) -> walk lim f fs l e = Found k ->
      walk lim f (put fsA d1 (NDir up (without x1 es))) l e = Found k).
    { intros k0 lim0 f l e Nk0 Nj W. apply (walk_unlink _ _ _ _ _ _ _ k0 E1 F1A EiA Nk0). apply walk_over; auto.
      destruct T' as [?|(j & b' & F2 & Ej & _)]; [now left|right]. exists j, b'. eauto. }
    assert (Wd1 := Keep d1 lim true pre1 (begins cwd me) ltac:(congruence) ltac:(intros; congruence) W1).
    assert (Wd2 := Keep d2 lim true pre2 (begins cwd n) ltac:(congruence) ltac:(intros; congruence) W2).
    split; [|split; [|split; [right; split|split]]].
    + unfold lstat. destruct n as [|c n]; [congruence|]. rewrite C2. eapply walk_last; [exact Wd2| |discriminate]. rewrite walk_cons.
      destruct (Nat.eq_dec d2 d1) as [e|Nd].
      * rewrite e, put_same, I2, U2, find_without. destruct (list_eq_dec _ _ _) as [ee|Nx]; [now destruct (NotNew (eq_sym e))|].
        rewrite <- e, Ed2A in E1. injection E1 as <- <-. rewrite find_over. destruct (list_eq_dec _ _ _); [|congruence].
        rewrite <- e. rewrite put_other, EiA by congruence. apply walk_nil.
      * rewrite put_other, Ed2A, I2, U2, find_over by auto. destruct (list_eq_dec _ _ _); [|congruence]. rewrite put_other, EiA by congruence. apply walk_nil.
    + rewrite put_other by congruence. exact EiA.
    + intros Ln. pose proof (lstat_found_find _ _ _ _ _ _ _ _ _ P2 S Ln) as F2. destruct T' as [?|(j & b' & F2' & _ & ?)]; congruence.
    + unfold lstat. destruct me as [|c me]; [congruence|]. rewrite C1. eapply walk_last; [exact Wd1| |discriminate].
      rewrite walk_cons, put_same, I1, U1, find_without. destruct (list_eq_dec _ _ _); [reflexivity|congruence].
    + intros k0 s j Nf St. unfold stat in *. destruct s; [discriminate|]. apply Keep; auto; [congruence|]. intros j' b' _ Ej' ->. now apply Nf in Ej'.
    + intros k0 s j Lj Nj Nt. unfold lstat in Lj |- *. destruct s; [discriminate|]. apply Keep; auto. intros j' b' F2 Ej' ->. apply Nt. eapply lstat_entry; eauto.
Qed.
Lemma rename_works lim fs cwd me newname i b : sound fs -> lstat lim fs cwd me = Found i -> fs i = Some (NFile b) ->
  free_or_file lim fs cwd (relate_this me newname) -> place_of lim fs cwd (relate_this me newname) <> None ->
  exists fs', rename_path lim fs cwd me newname = (relate_this me newname, Some fs').
Proof.
  intros S L Ei Fr P2. destruct (remove_works _ _ _ _ _ _ S L Ei) as (fr & Rm). destruct (unlink_inv _ _ _ _ _ Rm) as (d1 & up1 & es1 & x1 & i' & P1 & F1 & _).
  pose proof (lstat_found_find _ _ _ _ _ _ _ _ _ P1 S L) as F1'. rewrite F1 in F1'. injection F1' as ->.
  destruct (place_of lim fs cwd (relate_this me newname)) as [[[[d2 up2] es2] x2]|] eqn:E2; [|congruence].
  destruct (place_inv _ _ _ _ _ _ _ _ P1) as (_ & _ & _ & _ & _ & Ed1 & _). destruct (place_inv _ _ _ _ _ _ _ _ E2) as (_ & _ & _ & _ & _ & Ed2 & _).
  assert (G : exists fs', match over fs d2 up2 es2 x2 i d1 with Some (NDir up es) => Some (put (over fs d2 up2 es2 x2 i) d1 (NDir up (without x1 es))) | _ => None end = Some fs').
  { unfold over at 1. destruct (Nat.eq_dec d1 d2) as [->|Nd]; [rewrite put_same; eauto|]. rewrite !put_other, Ed1 by auto. eauto. }
  unfold rename_path, sys_rename. rewrite P1, E2, F1, Ei. fold (over fs d2 up2 es2 x2 i).
  destruct Fr as [M|(j & b' & Lj & Ej)].
  - rewrite (lstat_missing_find _ _ _ _ _ _ _ _ E2 S M). destruct G as (fs' & ->). eauto.
  - rewrite (lstat_found_find _ _ _ _ _ _ _ _ _ E2 S Lj). destruct (Nat.eqb j i); [eauto|]. rewrite Ej. destruct G as (fs' & ->). eauto.
Qed.
Lemma rename_all lim fs cwd me newname n r i b : sound fs -> rename_path lim fs cwd me newname = (n, r) ->
  lstat lim fs cwd me = Found i -> fs i = Some (NFile b) -> free_or_file lim fs cwd n -> place_of lim fs cwd n <> None ->
  exists fs', r = Some fs' /\ sound fs' /\ lstat lim fs' cwd n = Found i /\ fs' i = Some (NFile b) /\
  ((lstat lim fs cwd n = Found i /\ fs' = fs) \/ (lstat lim fs cwd n <> Found i /\ lstat lim fs' cwd me = Missing)) /\
  (forall k s j, (forall b', fs j <> Some (NFile b')) -> stat k fs cwd s = Found j -> stat k fs' cwd s = Found j) /\
  (forall k s j, lstat k fs cwd s = Found j -> j <> i -> lstat lim fs cwd n <> Found j -> lstat k fs' cwd s = Found j).
Proof.
  intros S R L Ei Fr P2. assert (n = relate_this me newname) as -> by (unfold rename_path in R; congruence).
  destruct (rename_works _ _ _ _ newname _ _ S L Ei Fr P2) as (fs' & E). rewrite E in R. injection R as <-. exists fs'. split; [reflexivity|].
  split; [eapply rename_sound; eauto|]. eapply rename_file; eauto.
Qed.
Lemma rename_false : exists fs cwd me newname n fs' i, sound fs /\ me = file_path me /\ lstat 40 fs cwd me = Found i /\
  rename_path 40 fs cwd me newname = (n, Some fs') /\ lstat 40 fs cwd n = Missing /\ place_of 40 fs cwd n <> None /\ lstat 40 fs' cwd n = Missing /\ lstat 40 fs' cwd me = Missing.
Proof.
  exists ex_fs, 0%nat, [47; 108], [108; 47; 120]. do 2 eexists. exists 4%nat. split; [apply ex_sound|]. split; [reflexivity|]. split; [vm_compute; reflexivity|].
  split; [reflexivity|]. split; [vm_compute; reflexivity|]. split; [vm_compute; discriminate|]. split; vm_compute; reflexivity.
Qed.
Lemma new_names lim fs cwd i me dest from : (forall t, dest <> 47 :: t) ->
  leads from (fst (rename_path lim fs cwd me dest)) = leads (leads from (dir_of me)) dest /\
  leads from (fst (link_path lim fs cwd me dest)) = leads (leads from (dir_of me)) dest /\
  leads from (fst (symlink_path lim fs cwd i me dest)) = leads (leads from (dir_of me)) dest.
Proof. intros H. cbn [rename_path link_path symlink_path fst]. now rewrite relate_this_rel'. Qed.
