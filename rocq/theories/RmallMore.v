(** RemoveAll whatever the outcome. *)
From Coq Require Import ZArith List Bool Lia.
From Verif Require Import GoBase GoStrings PathSpec PathProofs LinkSpec LinkProofs LinkMore LoopSpec SubsSpec MvdirSpec RmallSpec RmallProofs.
From Verif Require Import PathModel LinkModel RmallModel.
Import ListNotations.
Open Scope Z_scope.

Lemma walk_gone fs d up es x : fs d = Some (NDir up es) -> idle x = false -> upward x = false ->
  forall lim p b, walk lim true fs p b = Found d -> walk lim false (put fs d (NDir up (without x es))) (p ++ [x]) b = Missing.
Proof.
  intros Ed Ix Ux. set (fs' := put fs d (NDir up (without x es))).
  assert (A : forall e, e <> d -> fs' e = fs e) by (intros e N; now apply put_other).
  assert (B : fs' d = Some (NDir up (without x es))) by apply put_same.
  assert (Dir : forall e up' es', fs e = Some (NDir up' es') -> exists es2, fs' e = Some (NDir up' es2) /\ forall y, find y es2 = None \/ find y es2 = find y es').
  { intros e up' es' E. destruct (Nat.eq_dec e d) as [->|N].
    - rewrite Ed in E. injection E as <- <-. exists (without x es). split; [exact B|]. intros y. rewrite find_without. destruct (list_eq_dec _ _ _); auto.
    - exists es'. rewrite A by auto. auto. }
  assert (End : forall lim, walk lim false fs' [x] d = Missing).
  { intros lim. rewrite walk_cons, B, Ix, Ux, find_without. destruct (list_eq_dec _ _ _) as [_|N]; [reflexivity|now destruct N]. }
  induction lim as [|lim IH]; intros p; induction p as [|y p IHp]; intros b W; try (rewrite walk_nil in W; injection W as ->; apply End);
    rewrite walk_cons in W; destruct (fs b) as [[|up' es'|]|] eqn:Eb; try discriminate; destruct (Dir _ _ _ Eb) as (es2 & E2 & F2);
    cbn [app]; rewrite walk_cons, E2; (destruct (idle y); [now apply IHp|]); (destruct (upward y); [now apply IHp|]);
    (destruct (F2 y) as [->|F]; [reflexivity|rewrite F]); (destruct (find y es') as [c|] eqn:Fy; [|discriminate]);
    destruct (fs c) as [[|u ee|t]|] eqn:Ec; try discriminate.
  1, 4: rewrite A, Ec by (intros ->; congruence); now apply IHp.
  1, 3: destruct (Dir _ _ _ Ec) as (e3 & E3 & _); rewrite E3; now apply IHp.
  all: rewrite A, Ec by (intros ->; congruence); unfold hop in *; destruct t as [|b0 t]; destruct p as [|z p]; cbn [app] in *; try discriminate.
  - rewrite app_nil_r in W. now apply IH.
  - change (z :: p ++ [x]) with ((z :: p) ++ [x]). rewrite app_assoc. now apply IH.
Qed.
Lemma any_gone lim fs cwd p fs' : remove_any lim fs cwd p = RmDone fs' -> lstat lim fs' cwd p = Missing.
Proof.
  assert (K : forall d up es x, place_of lim fs cwd p = Some (d, up, es, x) -> lstat lim (put fs d (NDir up (without x es))) cwd p = Missing).
  { intros d up es x P. destruct (place_inv _ _ _ _ _ _ _ _ P) as (pre & C & Ix & Ux & W & Ed & Ns). unfold lstat. destruct p as [|b p]; [reflexivity|]. rewrite C. now apply walk_gone. }
  unfold remove_any, sys_unlink, sys_rmdir. destruct (place_of lim fs cwd p) as [[[[d up] es] x]|] eqn:P; [|destruct (lstat lim fs cwd p); discriminate].
  specialize (K _ _ _ _ eq_refl). destruct (find x es) as [i|]; [|destruct (lstat lim fs cwd p); discriminate].
  destruct (fs i) as [[|u [|e0 ee]|]|]; try (intros [= <-]; exact K); destruct (lstat lim fs cwd p); discriminate.
Qed.
Lemma any_pruned lim fs cwd p fs' : sound fs -> remove_any lim fs cwd p = RmDone fs' -> pruned fs fs'.
Proof.
  intros Sn. unfold remove_any, sys_unlink, sys_rmdir. destruct (place_of lim fs cwd p) as [[[[d up] es] x]|] eqn:P; [|destruct (lstat lim fs cwd p); discriminate].
  destruct (place_inv _ _ _ _ _ _ _ _ P) as (_ & _ & _ & _ & _ & Ed & _). destruct (find x es) as [i|] eqn:F; [|destruct (lstat lim fs cwd p); discriminate].
  destruct (fs i) as [[|u [|e0 ee]|]|] eqn:Ei; try (destruct (lstat lim fs cwd p); discriminate); intros [= <-]; apply pruned_without; auto; intros c v w Fc Ec; rewrite F in Fc; injection Fc as <-; rewrite Ei in Ec; try discriminate.
  injection Ec as <- <-. split; [reflexivity|]. intros ->. rewrite Ed in Ei. injection Ei as _ ->. discriminate.
Qed.
Lemma any_missing lim fs cwd p : remove_any lim fs cwd p = RmGone -> lstat lim fs cwd p = Missing.
Proof.
  unfold remove_any. destruct (sys_unlink lim fs cwd p); [discriminate|]. destruct (sys_rmdir lim fs cwd p); [discriminate|]. destruct (lstat lim fs cwd p); try discriminate. reflexivity.
Qed.
Lemma names_pruned again : (forall fs p b fs', sound fs -> again fs p = Ok (b, fs') -> pruned fs fs') ->
  forall path l ok fs b fs', sound fs -> remove_names again path l ok fs = Ok (b, fs') -> pruned fs fs'.
Proof.
  intros A path. induction l as [|x l IH]; intros ok fs b fs' Sn E; [injection E as _ <-; apply pruned_refl|]. cbn [remove_names] in E.
  destruct (again fs (path ++ 47 :: x)) as [[b1 fs1]| |] eqn:E1; cbn [bind] in E; try discriminate. pose proof (A _ _ _ _ Sn E1) as P1.
  eapply pruned_trans; [exact P1|]. eapply IH; [|exact E]. eapply pruned_sound; eauto.
Qed.
Lemma all_pruned lim cwd : forall fuel fs p b fs', sound fs -> remove_all fuel lim cwd fs p = Ok (b, fs') -> pruned fs fs'.
Proof.
  induction fuel as [|fuel IH]; intros fs p b fs' Sn E; [discriminate|]. cbn [remove_all] in E.
  destruct (remove_any lim fs cwd p) as [fs1| |] eqn:R; [injection E as _ <-; eapply any_pruned; eauto|injection E as _ <-; apply pruned_refl|].
  destruct (lstat lim fs cwd p) as [i| | |]; try (injection E as _ <-; apply pruned_refl).
  destruct (fs i) as [[|u e|]|]; try (injection E as _ <-; apply pruned_refl).
  destruct (stat lim fs cwd p) as [d| | |]; try (injection E as _ <-; apply pruned_refl).
  destruct (fs d) as [[|u' es|]|]; try (injection E as _ <-; apply pruned_refl).
  destruct (remove_names (remove_all fuel lim cwd) p (map fst es) true fs) as [[ok fs1]| |] eqn:N; cbn [bind] in E; try discriminate.
  pose proof (names_pruned _ IH _ _ _ _ _ _ Sn N) as P1.
  destruct (remove_any lim fs1 cwd p) as [fs2| |] eqn:R2; injection E as _ <-; auto. eapply pruned_trans; [exact P1|]. eapply any_pruned; eauto. eapply pruned_sound; eauto.
Qed.
Lemma walk_lstat_dir fs i : (forall t, fs i <> Some (NLink t)) -> forall lim l b, walk lim false fs l b = Found i -> walk lim true fs l b = Found i.
Proof.
  intros N. induction lim as [|lim IH]; intros l; induction l as [|y l IHl]; intros b W; try (rewrite walk_nil in *; exact W);
    rewrite walk_cons in *; destruct (fs b) as [[|up' es'|]|] eqn:Eb; try discriminate; (destruct (idle y); [now apply IHl|]); (destruct (upward y); [now apply IHl|]);
    (destruct (find y es') as [c|] eqn:Fy; [|discriminate]); destruct (fs c) as [[|u ee|t]|] eqn:Ec; try discriminate; try (now apply IHl);
    unfold hop in *; destruct l as [|z l]; try (injection W as ->; now destruct (N t)); destruct t as [|b0 t]; try discriminate. now apply IH.
Qed.
Lemma all_gone lim cwd fuel fs p fs' : remove_all fuel lim cwd fs p = Ok (true, fs') -> lstat lim fs' cwd p = Missing \/ lstat lim fs' cwd p = NotDir.
Proof.
  destruct fuel as [|fuel]; [discriminate|]. cbn [remove_all].
  destruct (remove_any lim fs cwd p) as [fs1| |] eqn:R; [intros [= <-]; left; eapply any_gone; eauto|intros [= <-]; left; eapply any_missing; eauto|].
  destruct (lstat lim fs cwd p) as [i| | |] eqn:L; try (intros [= <-]; auto); try discriminate.
  destruct (fs i) as [[|u e|]|] eqn:Ei; try discriminate.
  assert (St : stat lim fs cwd p = Found i). { unfold stat, lstat in *. destruct p; [discriminate|]. apply walk_lstat_dir; [congruence|exact L]. }
  rewrite St, Ei. destruct (remove_names _ _ _ _ _) as [[ok fs1]| |]; cbn [bind]; try discriminate.
  destruct (remove_any lim fs1 cwd p) as [fs2| |] eqn:R2; try discriminate; intros [= <-]; left; [eapply any_gone; eauto|eapply any_missing; eauto].
Qed.
Lemma all_loop lim cwd fuel fs p : lstat lim fs cwd p = Loop -> sound fs -> (0 < fuel)%nat -> remove_all fuel lim cwd fs p = Ok (false, fs).
Proof.
  intros L Sn Lf. destruct fuel as [|fuel]; [lia|]. cbn [remove_all].
  assert (R : sys_unlink lim fs cwd p = None /\ sys_rmdir lim fs cwd p = None).
  { unfold sys_unlink, sys_rmdir. destruct (place_of lim fs cwd p) as [[[[d up] es] x]|] eqn:Q; [|auto]. destruct (find x es) as [i|] eqn:F; [|auto]. destruct (fs i) as [k|] eqn:Ei; [|auto].
    exfalso. pose proof (lstat_entry _ _ _ _ _ _ _ _ Q _ _ F Ei). congruence. }
  unfold remove_any. destruct R as [-> ->]. now rewrite L.
Qed.

(** ** RemoveAll returns *)
Lemma pruned_grows g g' : pruned g g' -> grows g' g.
Proof.
  intros P d. pose proof (P d) as Pd. destruct (g' d) as [n|] eqn:E; [|exact Logic.I]. destruct n as [b|up es|t].
  - destruct (g d) as [[|u e|]|]; try congruence. now destruct Pd as (q & Pd & _).
  - destruct (pruned_back _ _ _ _ _ P E) as (es0 & E0 & K). eauto.
  - destruct (g d) as [[|u e|]|]; try congruence. now destruct Pd as (q & Pd & _).
Qed.
Lemma in_find x (es : list (list Z * nat)) : In x (map fst es) -> exists c, find x es = Some c.
Proof.
  induction es as [|[y c] es IH]; cbn [map fst In find]; [intros []|]. intros I. destruct (list_eq_dec Z.eq_dec x y) as [E|E]; [eauto|]. destruct I as [I|I]; [congruence|auto].
Qed.
Definition deep (depth : nat -> nat) (H : nat) (fs : fsys) : Prop :=
  forall d up es, fs d = Some (NDir up es) -> (depth d <= H)%nat /\ forall x c up' es', find x es = Some c -> fs c = Some (NDir up' es') -> (depth d < depth c)%nat.
Lemma pruned_deep depth H g g' : pruned g g' -> deep depth H g -> deep depth H g'.
Proof.
  intros P D d up es E. destruct (pruned_back _ _ _ _ _ P E) as (es0 & E0 & K). destruct (D _ _ _ E0) as [A B]. split; [exact A|].
  intros x c u e F Ec. destruct (pruned_back _ _ _ _ _ P Ec) as (e0 & Ec0 & _). eauto.
Qed.
Lemma child_lstat lim cwd fs p i up es x c j : sound fs -> stat lim fs cwd p = Found i -> fs i = Some (NDir up es) -> find x es = Some c ->
  lstat lim fs cwd (p ++ 47 :: x) = Found j -> j = c.
Proof.
  intros (_ & _ & S3) St Ei F L. destruct (S3 _ _ _ _ _ Ei F) as (Nx & _ & n & En & _). destruct (name_kind _ Nx) as [Ix Ux].
  unfold stat in St. destruct p as [|b p]; [discriminate|]. unfold lstat in L. cbn [app] in L. change (b :: p ++ 47 :: x) with ((b :: p) ++ 47 :: x) in L.
  rewrite cut_eq, segments_app, (segments_one x) in L by (now apply name_flat). rewrite cut_eq in St.
  change (begins cwd ((b :: p) ++ 47 :: x)) with (begins cwd (b :: p)) in L.
  rewrite (walk_last fs x i lim _ _ St (Found c)) in L; [congruence| |discriminate].
  rewrite walk_cons, Ei, Ix, Ux, F, En. destruct n; reflexivity.
Qed.
Lemma returns lim cwd depth H : forall n fs p, sound fs -> deep depth H fs -> (1 <= n)%nat ->
  (forall i up es, lstat lim fs cwd p = Found i -> fs i = Some (NDir up es) -> (H + 2 <= n + depth i)%nat) -> exists b fs', remove_all n lim cwd fs p = Ok (b, fs').
Proof.
  induction n as [|n IH]; intros fs p Sn D Ln K; [lia|]. cbn [remove_all].
  destruct (remove_any lim fs cwd p); [eauto|eauto|]. destruct (lstat lim fs cwd p) as [i| | |] eqn:L; try (eexists; eauto; fail).
  destruct (fs i) as [[|u e|]|] eqn:Ei; try (eexists; eauto; fail). specialize (K _ _ _ eq_refl Ei). destruct (D _ _ _ Ei) as [Di Dc].
  assert (St : stat lim fs cwd p = Found i). { unfold stat, lstat in *. destruct p; [discriminate|]. apply walk_lstat_dir; [congruence|exact L]. }
  rewrite St, Ei.
  assert (N : forall l fs1 ok, incl l (map fst e) -> pruned fs fs1 -> exists b fs', remove_names (remove_all n lim cwd) p l ok fs1 = Ok (b, fs')).
  { induction l as [|x l IHl]; intros fs1 ok Il P; [cbn; eauto|]. cbn [remove_names]. pose proof (pruned_sound _ _ P Sn) as Sn1.
    destruct (in_find x e) as (c & F); [apply Il; now left|].
    destruct (IH fs1 (p ++ 47 :: x) Sn1 (pruned_deep _ _ _ _ P D)) as (b1 & fs2 & R); [lia| |].
    - intros j uj ej Lj Ej. assert (Lj' : lstat lim fs cwd (p ++ 47 :: x) = Found j) by (eapply lstat_grows; [apply pruned_grows; exact P|exact Lj]).
      rewrite (child_lstat _ _ _ _ _ _ _ _ _ _ Sn St Ei F Lj') in *. destruct (pruned_back _ _ _ _ _ P Ej) as (e0 & Ej0 & _). specialize (Dc _ _ _ _ F Ej0). lia.
    - rewrite R. cbn [bind]. apply IHl; [intros y I; apply Il; now right|]. eapply pruned_trans; [exact P|]. eapply all_pruned; eauto. }
  destruct (N (map fst e) fs true (incl_refl _) (pruned_refl fs)) as (b & fs' & ->). cbn [bind]. destruct (remove_any lim fs' cwd p); eauto.
Qed.
Lemma all_returns lim cwd H fuel fs p : sound fs -> bounded fs H -> (H + 2 <= fuel)%nat -> exists b fs', remove_all fuel lim cwd fs p = Ok (b, fs').
Proof. intros Sn [depth D] L. apply (returns lim cwd depth H); auto; [lia|]. intros. lia. Qed.
