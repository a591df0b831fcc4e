From Coq Require Import ZArith List Bool Lia.
From Verif Require Import GoBase GoStrings PathModel PathSpec PathProofs LinkSpec LinkModel LinkProofs LinkMore LoopSpec LoopProofs SubsSpec SubsProofs RenSpec RenModel RenProofs MvdirSpec MvdirModel MvdirProofs RmallSpec RmallModel.
Import ListNotations.
Open Scope Z_scope.

(** ** Ways that stay off a directory *)
Lemma not_under_root fs i : sound fs -> i <> 0%nat -> ~ under fs i 0.
Proof. intros ((er & Er) & _) Ni U. remember 0%nat as z eqn:Ez. induction U as [|e up es E U IH]; [congruence|]. subst e. rewrite Er in E. injection E as <- <-. auto. Qed.
Lemma walk_off fs g i : sound fs -> i <> 0%nat -> (forall a, ~ under fs i a -> g a = fs a) -> forall lim f l b j, ~ under fs i b -> walk lim f (gone fs i) l b = Found j -> walk lim f g l b = Found j.
Proof.
  intros Sn Ni G lim f. pose proof (not_under_root fs i Sn Ni) as R0. pose proof Sn as (_ & S2 & S3).
  induction lim as [|lim IH]; intros l; induction l as [|x l IHl]; intros d j U E; try (rewrite walk_nil in *; exact E);
    (assert (Nd : d <> i) by (intros Q; apply U; rewrite Q; apply under_self)); rewrite walk_cons in E |- *; rewrite (gone_other _ _ _ Nd) in E; rewrite (G d U); destruct (fs d) as [[|up es|]|] eqn:Ed; try discriminate;
    (destruct (idle x); [now apply IHl|]); (destruct (upward x); [exact (IHl _ _ (fun Q => U (under_up _ _ _ _ _ Ed Q)) E)|]);
    (destruct (find x es) as [c|] eqn:Ex; [|discriminate]);
    (destruct (Nat.eq_dec c i) as [->|Nc]; [rewrite gone_self in E; discriminate|]); rewrite (gone_other _ _ _ Nc) in E; destruct (S3 _ _ _ _ _ Ed Ex) as (_ & _ & n & En & Hn);
    (assert (Uc : ~ under fs i c) by (intros Q; inversion Q as [Q0|? up' es' E' U']; [congruence|]; assert (Q1 : n = NDir up' es') by congruence; destruct (Hn _ _ Q1) as [-> _]; auto)); rewrite (G c Uc), En;
    rewrite En in E; destruct n as [b|u e|t]; try (now apply IHl); unfold hop in *; destruct l as [|y l], f; try exact E; destruct t as [|b t]; try exact E; try discriminate;
    apply IH; auto; cbn; destruct (Z.eq_dec b 47); auto.
Qed.

(** ** Names taken away *)
Lemma find_filter p y (es : list (list Z * nat)) : find y (filter (fun x => p (fst x)) es) = if p y then find y es else None.
Proof.
  induction es as [|[z c] es IH]; cbn [filter find fst]; [now destruct (p y)|]. destruct (list_eq_dec Z.eq_dec y z) as [<-|N].
  - destruct (p y) eqn:P; [|exact IH]. cbn [find]. destruct (list_eq_dec Z.eq_dec y y); [reflexivity|congruence].
  - destruct (p z); [|exact IH]. cbn [find]. destruct (list_eq_dec Z.eq_dec y z); [congruence|exact IH].
Qed.
Lemma pruned_refl g : pruned g g.
Proof.
  intros e. destruct (g e) as [[|up es|]|]; try reflexivity. exists (fun _ => true). split; [|discriminate]. do 2 f_equal. induction es as [|a es IH]; [reflexivity|]. cbn. now rewrite <- IH.
Qed.
Lemma filter_filter {A} (p q : A -> bool) l : filter q (filter p l) = filter (fun x => p x && q x) l.
Proof. induction l as [|a l IH]; [reflexivity|]. cbn. destruct (p a); cbn; [|exact IH]. destruct (q a); now rewrite IH. Qed.
Lemma pruned_dir g g' e up es : pruned g g' -> g e = Some (NDir up es) -> exists es', g' e = Some (NDir up es') /\ forall y c, find y es' = Some c -> find y es = Some c.
Proof.
  intros P E. specialize (P e). rewrite E in P. destruct P as (p & P & _). eexists. split; [exact P|]. intros y c. rewrite find_filter. destruct (p y); [auto|discriminate].
Qed.
Lemma pruned_back g g' e up es : pruned g g' -> g' e = Some (NDir up es) -> exists es0, g e = Some (NDir up es0) /\ forall y c, find y es = Some c -> find y es0 = Some c.
Proof.
  intros P E. pose proof (P e) as Pe. destruct (g e) as [[b|u es0|t]|] eqn:G; try congruence. destruct (pruned_dir _ _ _ _ _ P G) as (es' & E' & K). rewrite E in E'. injection E' as <- <-. eauto.
Qed.
Lemma pruned_trans g g' g'' : pruned g g' -> pruned g' g'' -> pruned g g''.
Proof.
  intros P Q e. pose proof (P e) as Pe. pose proof (Q e) as Qe. destruct (g e) as [[b|up es|t]|]; try (rewrite Pe in Qe; exact Qe). destruct Pe as (p & Pe & Kp). rewrite Pe in Qe. destruct Qe as (q & Qe & Kq).
  exists (fun x => p x && q x). split; [rewrite Qe, filter_filter; reflexivity|]. intros y c u ee F B Ec. destruct (p y) eqn:Py.
  - destruct (pruned_dir _ _ _ _ _ P Ec) as (ee' & Ec' & _). eapply Kq; [rewrite find_filter, Py; exact F|exact B|exact Ec'].
  - specialize (Kp _ _ _ _ F Py Ec). specialize (Q c). rewrite Kp in Q. destruct Q as (r & Q & _). exact Q.
Qed.
Lemma pruned_under g g' i a : pruned g g' -> (under g i a <-> under g' i a).
Proof.
  intros P. split; (induction 1 as [|e up es E U IH]; [constructor|]).
  - destruct (pruned_dir _ _ _ _ _ P E) as (es' & E' & _). econstructor; eauto.
  - destruct (pruned_back _ _ _ _ _ P E) as (es' & E' & _). econstructor; eauto.
Qed.
Lemma pruned_sound g g' : pruned g g' -> sound g -> sound g'.
Proof.
  intros P (R & S2 & S3). split; [|split].
  - destruct R as [er Er]. destruct (pruned_dir _ _ _ _ _ P Er) as (? & ? & _). eauto.
  - intros d up es E. destruct (pruned_back _ _ _ _ _ P E) as (es0 & E0 & _). destruct (S2 _ _ _ E0) as (? & ? & K). destruct (pruned_dir _ _ _ _ _ P K) as (? & ? & _). eauto.
  - intros d up es x c E F. destruct (pruned_back _ _ _ _ _ P E) as (es0 & E0 & K). destruct (S3 _ _ _ _ _ E0 (K _ _ F)) as (A & B & n & En & Hn). split; [exact A|]. split; [exact B|].
    pose proof (P c) as Pc. rewrite En in Pc. destruct n as [b|u e|t]; [eexists; split; [exact Pc|discriminate]| |eexists; split; [exact Pc|discriminate]].
    destruct Pc as (p & Pc & _). eexists. split; [exact Pc|]. intros ? ? [= <- <-]. destruct (Hn _ _ eq_refl) as [-> Q]. split; [reflexivity|]. auto.
Qed.
Lemma pruned_distinct g g' : pruned g g' -> distinct g -> distinct g'.
Proof.
  intros P U d up es E. pose proof (P d) as Pd. destruct (g d) as [[|up0 es0|]|] eqn:G; try congruence. destruct Pd as (p & Pd & _). rewrite E in Pd. injection Pd as -> ->. specialize (U _ _ _ G).
  clear -U. induction es0 as [|[y c] es0 IH]; [constructor|]. cbn [map filter fst] in *. inversion U as [|? ? N U']; subst. destruct (p y); [|auto]. cbn [map fst]. constructor; [|auto].
  intros I. apply N. apply in_map_iff in I as ([z c'] & <- & I). apply filter_In in I as [I _]. apply in_map_iff. exists (z, c'). auto.
Qed.
(** A name of a file, a link or an empty directory is taken away. *)
Lemma pruned_without g d up es x : sound g -> g d = Some (NDir up es) -> (forall c u ee, find x es = Some c -> g c = Some (NDir u ee) -> ee = [] /\ c <> d) ->
  pruned g (put g d (NDir up (without x es))).
Proof.
  intros Sn Ed K e. destruct (Nat.eq_dec e d) as [->|N].
  - rewrite Ed. exists (fun y => if list_eq_dec Z.eq_dec x y then false else true). split; [rewrite put_same; reflexivity|].
    intros y c u ee F P Ec. destruct (list_eq_dec Z.eq_dec x y) as [<-|]; [|discriminate]. destruct (K _ _ _ F Ec) as [-> Nc]. now rewrite put_other.
  - rewrite put_other by auto. pose proof (pruned_refl g e) as R. destruct (g e) as [[|u ee|]|]; auto. destruct R as (p & R & _). exists (fun _ => true). split; [|discriminate].
    do 2 f_equal. clear. induction ee as [|a es IH]; [reflexivity|]. cbn. now rewrite <- IH.
Qed.
Lemma under_trans fs i c a u e : fs c = Some (NDir u e) -> under fs i u -> under fs c a -> under fs i a.
Proof. intros Ec Ui. induction 1 as [|b up es E U IH]; econstructor; eauto. Qed.
Lemma under_dir fs c a u e : sound fs -> fs a = Some (NDir u e) -> under fs c a -> exists u' e', fs c = Some (NDir u' e').
Proof. intros (_ & S2 & _) E U. revert u e E. induction U as [|b up es Eb U IH]; intros u e E; [eauto|]. destruct (S2 _ _ _ Eb) as (? & ? & K). eauto. Qed.

Section Remove.
  Variables (lim cwd : nat) (depth : nat -> nat) (H : nat).
  Definition bnd (g : fsys) : Prop := forall d up es, g d = Some (NDir up es) -> (depth d <= H)%nat /\
    forall x c up' es', find x es = Some c -> g c = Some (NDir up' es') -> (depth d < depth c)%nat.
  Lemma pruned_bnd g g' : pruned g g' -> bnd g -> bnd g'.
  Proof.
    intros P D d up es E. destruct (pruned_back _ _ _ _ _ P E) as (es0 & E0 & K). destruct (D _ _ _ E0) as [A B]. split; [exact A|]. intros x c u e F Ec.
    destruct (pruned_back _ _ _ _ _ P Ec) as (e0 & Ec0 & _). eauto.
  Qed.
  (** The path [p] leads, off the inode [i], to the name [x] of [i] in [d]. *)
  Definition inv (g : fsys) (p : list Z) (i d : nat) (x : list Z) : Prop :=
    exists pre up es, p <> [] /\ cut [] p = pre ++ [x] /\ walk lim true (gone g i) pre (begins cwd p) = Found d /\ g d = Some (NDir up es) /\ find x es = Some i /\ name x /\
      ~ under g i (begins cwd p) /\ i <> d /\ i <> 0%nat.
  Lemma inv_d g p i d x : sound g -> inv g p i d x -> ~ under g i d.
  Proof. intros Sn (pre & up & es & _ & _ & W & Ed & _ & _ & U & _ & N0). eapply walk_not_under; eauto. Qed.
  Lemma inv_place g p i d x : sound g -> inv g p i d x -> exists up es, g d = Some (NDir up es) /\ find x es = Some i /\ place_of lim g cwd p = Some (d, up, es, x).
  Proof.
    intros Sn (pre & up & es & Np & C & W & Ed & F & Nx & U & Nd & N0). exists up, es. split; [exact Ed|]. split; [exact F|]. destruct (name_kind _ Nx) as [I1 U1].
    unfold place_of. rewrite C, last_last, removelast_last, I1, U1. cbn [orb]. now rewrite (walk_keeps i g g d (keeps_refl i g) _ _ _ _ W), Ed.
  Qed.
  Lemma inv_node g p i d x : sound g -> inv g p i d x -> exists k, g i = Some k.
  Proof. intros Sn I. destruct (inv_place _ _ _ _ _ Sn I) as (up & es & Ed & F & _). destruct Sn as (_ & _ & S3). destruct (S3 _ _ _ _ _ Ed F) as (_ & _ & n & En & _). eauto. Qed.
  Lemma inv_lstat g p i d x : sound g -> inv g p i d x -> lstat lim g cwd p = Found i.
  Proof. intros Sn I. destruct (inv_place _ _ _ _ _ Sn I) as (up & es & Ed & F & P). destruct (inv_node _ _ _ _ _ Sn I) as (k & Ek). eapply lstat_entry; eauto. Qed.
  Lemma inv_whole g p i d x u e : sound g -> inv g p i d x -> g i = Some (NDir u e) -> forall g', (forall a, ~ under g i a -> g' a = g a) -> g' i = Some (NDir u e) -> walk lim true g' (cut [] p) (begins cwd p) = Found i.
  Proof.
    intros Sn I Ei g' G G'. pose proof (inv_d _ _ _ _ _ Sn I) as Ud. destruct I as (pre & up & es & Np & C & W & Ed & F & Nx & U & Nd & N0). rewrite C. rewrite <- (Nat.add_0_r lim).
    eapply walk_app; [discriminate|eapply walk_off; eauto| |discriminate]. destruct (name_kind _ Nx) as [I1 U1]. rewrite walk_cons, (G d Ud), Ed, I1, U1, F, G'. apply walk_nil.
  Qed.
  Lemma inv_stat g p i d x u e : sound g -> inv g p i d x -> g i = Some (NDir u e) -> stat lim g cwd p = Found i.
  Proof. intros Sn I Ei. pose proof (inv_whole _ _ _ _ _ _ _ Sn I Ei g (fun a _ => eq_refl) Ei) as W. destruct I as (_ & _ & _ & Np & _). unfold stat. destruct p; [congruence|exact W]. Qed.
  Lemma sep_begins p y : p <> [] -> begins cwd (p ++ 47 :: y) = begins cwd p.
  Proof. destruct p; [congruence|reflexivity]. Qed.
  Lemma cut_sep p y : name y -> cut [] (p ++ 47 :: y) = cut [] p ++ [y].
  Proof. intros N. pose proof (cut_below p [y]) as K. unfold below in K. cbn [map concat] in K. rewrite app_nil_r in K. apply K. now constructor. Qed.
  Lemma inv_child g p i d x u e y c u' e' : sound g -> bnd g -> inv g p i d x -> g i = Some (NDir u e) -> find y e = Some c -> g c = Some (NDir u' e') -> inv g (p ++ 47 :: y) c i y.
  Proof.
    intros Sn D I Ei F Ec. pose proof Sn as (_ & _ & S3). destruct (S3 _ _ _ _ _ Ei F) as (Ny & Nc0 & k & Ek & Hk). assert (k = NDir u' e') as -> by congruence. destruct (Hk _ _ eq_refl) as [-> _].
    assert (Nc : c <> i) by (intros ->; pose proof (proj2 (D _ _ _ Ei) _ _ _ _ F Ei); lia).
    assert (Uc : forall a, under g c a -> under g i a) by (intros a; apply (under_trans _ _ _ _ _ _ Ec); constructor).
    assert (G : forall a, ~ under g i a -> gone g c a = g a) by (intros a Ua; apply gone_other; intros ->; apply Ua, Uc; constructor).
    assert (W : walk lim true (gone g c) (cut [] p) (begins cwd p) = Found i) by (eapply inv_whole; eauto; rewrite gone_other; auto).
    destruct I as (pre & up & es & Np & C & _ & _ & _ & _ & U & _). exists (cut [] p), u, e. split; [destruct p; discriminate|]. split; [now apply cut_sep|]. rewrite sep_begins by auto. split; [exact W|]. split; [exact Ei|]. split; [exact F|]. split; [exact Ny|]. split; [intros K; apply U, Uc, K|auto].
  Qed.
  Lemma child_place g p i d x u e y c : sound g -> inv g p i d x -> g i = Some (NDir u e) -> find y e = Some c -> place_of lim g cwd (p ++ 47 :: y) = Some (i, u, e, y).
  Proof.
    intros Sn I Ei F. pose proof Sn as (_ & _ & S3). destruct (S3 _ _ _ _ _ Ei F) as (Ny & _). destruct (name_kind _ Ny) as [I1 U1]. pose proof (inv_whole _ _ _ _ _ _ _ Sn I Ei g (fun a _ => eq_refl) Ei) as W.
    destruct I as (_ & _ & _ & Np & _). unfold place_of. rewrite cut_sep, last_last, removelast_last, I1, U1, sep_begins by auto. cbn [orb]. now rewrite W, Ei.
  Qed.
  (** A file or a link loses its name. *)
  Lemma remove_leaf g p d up es x c k : place_of lim g cwd p = Some (d, up, es, x) -> find x es = Some c -> g c = Some k -> (forall u e, k <> NDir u e) ->
    remove_any lim g cwd p = RmDone (put g d (NDir up (without x es))).
  Proof. intros P F Ec Nk. unfold remove_any, sys_unlink. rewrite P, F, Ec. destruct k as [b|u e|t]; try reflexivity. now destruct (Nk u e). Qed.
  Lemma remove_empty g p d up es x c u : place_of lim g cwd p = Some (d, up, es, x) -> find x es = Some c -> g c = Some (NDir u []) ->
    remove_any lim g cwd p = RmDone (put g d (NDir up (without x es))).
  Proof. intros P F Ec. unfold remove_any, sys_unlink, sys_rmdir. now rewrite P, F, Ec. Qed.
  Lemma without_head y (c : nat) r : NoDup (map fst ((y, c) :: r)) -> without y ((y, c) :: r) = r.
  Proof.
    intros N. cbn [map fst] in N. inversion N as [|? ? Ni _]; subst. unfold without. cbn [filter fst]. destruct (list_eq_dec Z.eq_dec y y); [|congruence]. clear -Ni.
    induction r as [|[z k] r IH]; [reflexivity|]. cbn [filter fst map] in *. destruct (list_eq_dec Z.eq_dec y z) as [->|]; [exfalso; apply Ni; now left|]. rewrite IH; [reflexivity|]. intros I. apply Ni. now right.
  Qed.
  Definition off (g g' : fsys) (i d : nat) : Prop := forall a, ~ under g i a -> a <> d -> g' a = g a.
  Lemma inv_next g g' p i d x : sound g -> pruned g g' -> (forall a, ~ under g i a -> g' a = g a) -> inv g p i d x -> inv g' p i d x.
  Proof.
    intros Sn P G I. pose proof (inv_d _ _ _ _ _ Sn I) as Ud. destruct I as (pre & up & es & Np & C & W & Ed & F & Nx & U & Nd & N0). exists pre, up, es. split; [exact Np|]. split; [exact C|].
    split; [|rewrite (G d Ud); split; [exact Ed|]; split; [exact F|]; split; [exact Nx|]; split; [|auto]; rewrite <- (pruned_under _ _ _ _ P); exact U].
    eapply walk_off; [exact Sn|exact N0| |exact U|exact W]. intros a Ua. rewrite gone_other by (intros ->; apply Ua; constructor). now apply G.
  Qed.
  Lemma remove_main : forall fuel g p i d x u e, sound g -> distinct g -> bnd g -> inv g p i d x -> g i = Some (NDir u e) -> (H - depth i + 1 < fuel)%nat ->
    exists g', remove_all fuel lim cwd g p = Ok (true, g') /\ pruned g g' /\ off g g' i d /\ forall up es, g d = Some (NDir up es) -> g' d = Some (NDir up (without x es)).
  Proof.
    induction fuel as [|fuel IH]; intros g p i d x u e Sn Dg D I Ei L; [lia|].
    assert (Last : forall g, sound g -> inv g p i d x -> g i = Some (NDir u []) -> exists g', remove_any lim g cwd p = RmDone g' /\ pruned g g' /\ off g g' i d /\ forall up es, g d = Some (NDir up es) -> g' d = Some (NDir up (without x es))).
    { clear g e Sn Dg D I Ei. intros g Sn I Ei. destruct (inv_place _ _ _ _ _ Sn I) as (up & es & Ed & F & P). exists (put g d (NDir up (without x es))). split; [eapply remove_empty; eauto|]. split; [|split].
      - apply pruned_without; auto. intros c u' ee F' Ec. rewrite F in F'. injection F' as <-. rewrite Ei in Ec. split; [congruence|]. destruct I as (? & ? & ? & I). tauto.
      - intros a _ Na. now apply put_other.
      - intros up' es' Ed'. rewrite Ed in Ed'. injection Ed' as <- <-. apply put_same. }
    cbn [remove_all]. destruct (inv_place _ _ _ _ _ Sn I) as (up & es & Ed & F & P).
    destruct e as [|[y0 c0] e0]; [destruct (Last g Sn I Ei) as (g' & R & K); rewrite R; eauto|]. set (e := (y0, c0) :: e0) in *.
    assert (R : remove_any lim g cwd p = RmFail) by (unfold remove_any, sys_unlink, sys_rmdir; rewrite P, F, Ei; unfold e; now rewrite (inv_lstat _ _ _ _ _ Sn I)).
    rewrite R, (inv_lstat _ _ _ _ _ Sn I), Ei, (inv_stat _ _ _ _ _ _ _ Sn I Ei), Ei. clear R P.
    assert (Lp : forall rest g, sound g -> distinct g -> bnd g -> inv g p i d x -> g i = Some (NDir u rest) ->
      exists g', remove_names (remove_all fuel lim cwd) p (map fst rest) true g = Ok (true, g') /\ pruned g g' /\ (forall a, ~ under g i a -> g' a = g a) /\ g' i = Some (NDir u [])).
    { clear g e y0 c0 e0 Sn Dg D I Ei up es Ed F Last. induction rest as [|[y c] rest IHr]; intros g Sn Dg D I Ei.
      - exists g. split; [reflexivity|]. split; [apply pruned_refl|]. auto.
      - assert (F : find y ((y, c) :: rest) = Some c) by (cbn; destruct (list_eq_dec _ _ _); congruence). pose proof Sn as (_ & _ & S3). destruct (S3 _ _ _ _ _ Ei F) as (Ny & _ & k & Ek & Hk).
        assert (Step : exists g1, remove_all fuel lim cwd g (p ++ 47 :: y) = Ok (true, g1) /\ pruned g g1 /\ (forall a, ~ under g i a -> g1 a = g a) /\ g1 i = Some (NDir u rest)).
        { assert (Leaf : (forall u e, k <> NDir u e) -> exists g1, remove_all fuel lim cwd g (p ++ 47 :: y) = Ok (true, g1) /\ pruned g g1 /\ (forall a, ~ under g i a -> g1 a = g a) /\ g1 i = Some (NDir u rest)).
          { intros Nk. exists (put g i (NDir u (without y ((y, c) :: rest)))). pose proof (child_place _ _ _ _ _ _ _ _ _ Sn I Ei F) as Pc. split; [|split; [|split]].
            - destruct fuel as [|f]; [lia|]. cbn [remove_all]. now rewrite (remove_leaf _ _ _ _ _ _ _ _ Pc F Ek Nk).
            - apply pruned_without; auto. intros c' u' ee F' Ec. rewrite F in F'. injection F' as <-. rewrite Ek in Ec. exfalso. apply (Nk u' ee). congruence.
            - intros a Ua. apply put_other. intros ->. apply Ua. constructor.
            - rewrite put_same. now rewrite without_head by exact (Dg _ _ _ Ei). }
          destruct k as [b|u' e'|t]; [apply Leaf; discriminate| |apply Leaf; discriminate]. clear Leaf. destruct (Hk _ _ eq_refl) as [-> _].
          pose proof (proj2 (D _ _ _ Ei) _ _ _ _ F Ek) as Dc. destruct (D _ _ _ Ek) as [Dch _]. destruct (IH g (p ++ 47 :: y) c i y i e' Sn Dg D (inv_child _ _ _ _ _ _ _ _ _ _ _ Sn D I Ei F Ek) Ek ltac:(lia)) as (g1 & R1 & P1 & O1 & Q1).
          exists g1. split; [exact R1|]. split; [exact P1|]. split; [|rewrite (Q1 _ _ Ei); now rewrite without_head by exact (Dg _ _ _ Ei)].
          intros a Ua. apply O1; [|intros ->; apply Ua; constructor]. intros Uc. apply Ua. eapply under_trans; [exact Ek|constructor|exact Uc]. }
        destruct Step as (g1 & R1 & P1 & O1 & Q1). destruct (IHr g1) as (g2 & R2 & P2 & O2 & Q2); eauto using pruned_sound, pruned_distinct, pruned_bnd, inv_next.
        exists g2. split; [cbn [map fst remove_names]; rewrite R1; cbn [bind andb]; exact R2|]. split; [eapply pruned_trans; eauto|]. split; [|exact Q2].
        intros a Ua. rewrite O2; [now apply O1|]. now rewrite <- (pruned_under _ _ _ _ P1). }
    destruct (Lp e g Sn Dg D I Ei) as (g1 & R1 & P1 & O1 & Q1). rewrite R1. cbn [bind].
    destruct (Last g1 (pruned_sound _ _ P1 Sn) (inv_next _ _ _ _ _ _ Sn P1 O1 I) Q1) as (g2 & R2 & P2 & O2 & Q2). rewrite R2. exists g2. split; [reflexivity|]. split; [eapply pruned_trans; eauto|]. split.
    - intros a Ua Na. rewrite O2; auto. now rewrite <- (pruned_under _ _ _ _ P1).
    - intros up' es' Ed'. apply Q2. rewrite O1; [exact Ed'|]. eapply inv_d; eauto.
  Qed.
End Remove.
Lemma remove_dir lim fs cwd p H i up es fuel : sound fs -> distinct fs -> bounded fs H -> lstat lim fs cwd p = Found i -> fs i = Some (NDir up es) ->
  place_of lim (gone fs i) cwd p <> None -> ~ under fs i (begins cwd p) -> (H + 2 <= fuel)%nat ->
  exists fs', remove_all fuel lim cwd fs p = Ok (true, fs') /\ sound fs' /\ lstat lim fs' cwd p = Missing /\
  (forall cs a u e, SubsSpec.inside fs i cs a -> fs a = Some (NDir u e) -> fs' a = Some (NDir u [])) /\
  (forall a, (forall u e, fs a <> Some (NDir u e)) -> fs' a = fs a) /\
  (forall k s j, ~ under fs i (begins cwd s) -> stat k (gone fs i) cwd s = Found j -> stat k fs' cwd s = Found j) /\
  (forall k s j, ~ under fs i (begins cwd s) -> lstat k (gone fs i) cwd s = Found j -> lstat k fs' cwd s = Found j).
Proof.
  intros Sn Dg [depth D] L Ei P U Lf. destruct (gone_place _ _ _ _ _ P) as (d & up1 & es1 & x & pre & Q & Nd & Ns & C & W & E1 & Nx).
  pose proof (lstat_found_find _ _ _ _ _ _ _ _ _ Q Sn L) as F. destruct (parent fs Sn d up1 up i es1 es x E1 F Ei) as (Eu & N0 & _).
  assert (I : inv lim cwd fs p i d x) by (exists pre, up1, es1; auto 10).
  destruct (remove_main lim cwd depth H fuel fs p i d x up es Sn Dg D I Ei) as (fs' & R & Pr & O & K); [destruct (D _ _ _ Ei); lia|]. specialize (K _ _ E1).
  exists fs'. split; [exact R|]. split; [eapply pruned_sound; eauto|].
  assert (Keep : forall k f l b j, ~ under fs i b -> walk k f (gone fs i) l b = Found j -> walk k f fs' l b = Found j).
  { intros k f l b j Ub Wb. set (g1 := put fs' d (NDir up1 es1)).
    assert (W1 : walk k f (gone g1 i) l b = Found j).
    { eapply walk_off; [exact Sn|exact N0| |exact Ub|exact Wb]. intros a Ua. rewrite gone_other by (intros ->; apply Ua; constructor). unfold g1.
      destruct (Nat.eq_dec a d) as [->|Na]; [now rewrite put_same|]. rewrite put_other by auto. now apply O. }
    apply (walk_keeps i g1 fs' j) in W1; [exact W1|]. intros a Na. unfold g1. destruct (Nat.eq_dec a d) as [->|Nad].
    - rewrite put_same. eexists. split; [exact K|]. intros y c Fy Nc. rewrite find_without. destruct (list_eq_dec _ _ _) as [<-|]; [congruence|exact Fy].
    - rewrite put_other by auto. destruct (fs' a) as [[|? ?|]|]; eauto. }
  assert (Em : fs' i = Some (NDir up [])).
  { pose proof (Pr d) as Pd. rewrite E1 in Pd. destruct Pd as (q & Pd & Hq). apply (Hq x i up es F); [|exact Ei]. rewrite K in Pd. injection Pd as Pd.
    destruct (q x) eqn:Qx; [|reflexivity]. exfalso. assert (Z1 : find x (without x es1) = None) by (rewrite find_without; destruct (list_eq_dec _ _ _); congruence).
    rewrite Pd, find_filter, Qx in Z1. congruence. }
  split; [|split; [|split; [|split]]].
  - unfold lstat. destruct p as [|c0 p]; [congruence|]. rewrite C. eapply walk_last; [eapply Keep; eauto| |discriminate]. destruct (name_kind _ Nx) as [I1 U1].
    rewrite walk_cons, K, I1, U1, find_without. destruct (list_eq_dec _ _ _); [reflexivity|congruence].
  - intros cs. assert (G : forall cs b a u e, (exists u0 e0, fs b = Some (NDir u0 e0) /\ fs' b = Some (NDir u0 [])) -> SubsSpec.inside fs b cs a -> fs a = Some (NDir u e) -> fs' a = Some (NDir u [])).
    { clear cs. induction cs as [|y cs IH]; intros b a u e (u0 & e0 & Eb & Eb') J Ea; inversion J as [|? u1 e1 ? c ? ? Eb1 Fc J']; subst; [rewrite Ea in Eb; injection Eb as <- <-; exact Eb'|].
      rewrite Eb in Eb1. injection Eb1 as <- <-. assert (exists u2 e2, fs c = Some (NDir u2 e2)) as (u2 & e2 & Ec) by (destruct cs; inversion J'; subst; eauto).
      eapply IH; [|exact J'|exact Ea]. exists u2, e2. split; [exact Ec|]. pose proof (Pr b) as Pb. rewrite Eb in Pb. destruct Pb as (q & Pb & Hq). apply (Hq y c u2 e2 Fc); [|exact Ec].
      rewrite Eb' in Pb. injection Pb as Pb. destruct (q y) eqn:Qy; [|reflexivity]. exfalso. assert (Z1 : find y (@nil (list Z * nat)) = None) by reflexivity. rewrite Pb, find_filter, Qy in Z1. congruence. }
    intros a u e J Ea. eapply G; eauto.
  - intros a Na. pose proof (Pr a) as Pa. destruct (fs a) as [[|u e|]|]; auto. now destruct (Na u e).
  - intros k s j Us St. unfold stat in *. destruct s; [discriminate|]. eapply Keep; eauto.
  - intros k s j Us St. unfold lstat in *. destruct s; [discriminate|]. eapply Keep; eauto.
Qed.
Lemma remove_file lim fs cwd p i k fuel : sound fs -> lstat lim fs cwd p = Found i -> fs i = Some k -> (forall u e, k <> NDir u e) -> place_of lim fs cwd p <> None -> (0 < fuel)%nat ->
  exists fs', remove_path lim fs cwd p = Some fs' /\ remove_all fuel lim cwd fs p = Ok (true, fs').
Proof.
  intros Sn L Ei Nk P Lf. destruct (place_of lim fs cwd p) as [[[[d up] es] x]|] eqn:Q; [|congruence]. pose proof (lstat_found_find _ _ _ _ _ _ _ _ _ Q Sn L) as F.
  exists (put fs d (NDir up (without x es))). split.
  - unfold remove_path, sys_unlink. rewrite Q, F, Ei. destruct k as [b|u e|t]; try reflexivity. now destruct (Nk u e).
  - destruct fuel as [|fuel]; [lia|]. cbn [remove_all]. now rewrite (remove_leaf lim cwd _ _ _ _ _ _ _ _ Q F Ei Nk).
Qed.
Lemma remove_missing lim fs cwd p fuel : sound fs -> lstat lim fs cwd p = Missing \/ lstat lim fs cwd p = NotDir -> (0 < fuel)%nat -> remove_all fuel lim cwd fs p = Ok (true, fs).
Proof.
  intros Sn L Lf. destruct fuel as [|fuel]; [lia|]. cbn [remove_all].
  assert (N : forall i, lstat lim fs cwd p <> Found i) by (intros i E; destruct L; congruence).
  assert (R : sys_unlink lim fs cwd p = None /\ sys_rmdir lim fs cwd p = None).
  { unfold sys_unlink, sys_rmdir. destruct (place_of lim fs cwd p) as [[[[d up] es] x]|] eqn:Q; [|auto]. destruct (find x es) as [i|] eqn:F; [|auto]. destruct (fs i) as [k|] eqn:Ei; [|auto].
    exfalso. eapply N. eapply lstat_entry; eauto. }
  unfold remove_any. destruct R as [-> ->]. destruct L as [-> | ->]; reflexivity.
Qed.
Lemma ex_mv_distinct : distinct ex_mv.
Proof. intros d up es E. destruct d as [|[|[|[|[|[|d]]]]]]; cbn in E; try discriminate; injection E as <- <-; repeat constructor; cbn; intuition discriminate. Qed.
Lemma remove_dir_false : exists fs cwd p i up es cs j fs', sound fs /\ distinct fs /\ bounded fs 2 /\ p = file_path p /\ lstat 40 fs cwd p = Found i /\ fs i = Some (NDir up es) /\
  SubsSpec.inside fs i cs j /\ remove_all 9 40 cwd fs p = Ok (true, fs') /\ fs' i <> Some (NDir up []) /\ SubsSpec.inside fs' i cs j.
Proof.
  exists ex_mv, 0%nat, [47; 97; 47; 108; 47; 97], 1%nat. do 2 eexists. exists [[98]; [102]], 3%nat. eexists. destruct ex_mv_sound as [A B]. split; [exact A|]. split; [exact ex_mv_distinct|]. split; [exact B|].
  split; [reflexivity|]. split; [vm_compute; reflexivity|]. split; [reflexivity|].
  split; [repeat (econstructor; try reflexivity)|]. split; [reflexivity|]. split; [vm_compute; discriminate|]. repeat (econstructor; try reflexivity).
Qed.
