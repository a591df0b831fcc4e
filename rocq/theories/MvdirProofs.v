From Coq Require Import ZArith List Bool Lia.
From Verif Require Import GoBase GoStrings PathModel PathSpec PathProofs LinkSpec LinkModel LinkProofs LinkMore LoopSpec LoopProofs SubsSpec SubsProofs RenSpec RenModel RenProofs MvdirSpec MvdirModel.
Import ListNotations.
Open Scope Z_scope.

Lemma gone_self fs i : gone fs i i = None.
Proof. unfold gone. now rewrite Nat.eqb_refl. Qed.
Lemma gone_other fs i j : j <> i -> gone fs i j = fs j.
Proof. intros N. unfold gone. now rewrite (proj2 (Nat.eqb_neq _ _) N). Qed.
(** What is found on a way that does not pass through [i] is found in a file system that has all the rest. *)
Definition keeps (i : nat) (fs fs' : fsys) : Prop :=
  forall d, d <> i -> match fs d with
            | None => True
            | Some (NDir up es) => exists es', fs' d = Some (NDir up es') /\ forall x c, find x es = Some c -> c <> i -> find x es' = Some c
            | Some n => fs' d = Some n
            end.
Lemma walk_keeps i fs fs' j : keeps i fs fs' -> forall lim f l d, walk lim f (gone fs i) l d = Found j -> walk lim f fs' l d = Found j.
Proof.
  intros G. assert (Z : forall lim f l d, l <> [] -> walk lim f (gone fs i) l d = Found j -> d <> i).
  { intros lim f l d N W ->. destruct l as [|x l]; [congruence|]. rewrite walk_cons, gone_self in W. discriminate. }
  assert (K : forall lim f l d, walk lim f (gone fs i) l d = Found j -> walk lim f fs' l d = Found j); [|exact K].
  intros lim f. induction lim as [|lim IH]; intros l; induction l as [|x l IHl]; intros d E; try (rewrite walk_nil in *; exact E);
    assert (Nd : d <> i) by (apply (Z _ _ (x :: l) _ ltac:(discriminate) E)); rewrite walk_cons in E |- *; rewrite (gone_other _ _ _ Nd) in E; pose proof (G d Nd) as Gd; destruct (fs d) as [[|up es|]|]; try discriminate;
    destruct Gd as (es' & -> & Ge); (destruct (idle x); [now apply IHl|]); (destruct (upward x); [now apply IHl|]);
    (destruct (find x es) as [c|] eqn:Ex; [|discriminate]);
    (destruct (Nat.eq_dec c i) as [->|Nc]; [rewrite gone_self in E; discriminate|]); rewrite (gone_other _ _ _ Nc) in E; rewrite (Ge _ _ Ex Nc); pose proof (G c Nc) as Gc;
    (destruct (fs c) as [[|u e|t]|]; try discriminate; [rewrite Gc|destruct Gc as (e' & -> & _)|rewrite Gc]); try (now apply IHl);
    unfold hop in *; destruct l as [|y l], f; try exact E; destruct t as [|b t]; try exact E; try discriminate.
  all: now apply IH.
Qed.
Lemma keeps_refl i fs : keeps i fs fs.
Proof. intros d _. destruct (fs d) as [[|up es|]|]; eauto. Qed.
Lemma gone_place lim fs cwd i s : place_of lim (gone fs i) cwd s <> None -> exists d up es x pre, place_of lim fs cwd s = Some (d, up, es, x) /\
  d <> i /\ s <> [] /\ cut [] s = pre ++ [x] /\ walk lim true (gone fs i) pre (begins cwd s) = Found d /\ fs d = Some (NDir up es) /\ name x.
Proof.
  destruct (place_of lim (gone fs i) cwd s) as [[[[d up] es] x]|] eqn:P; [|congruence]. intros _. pose proof (place_name _ _ _ _ _ _ _ _ P) as Nx.
  destruct (place_inv _ _ _ _ _ _ _ _ P) as (pre & C & I & U & W & Ed & Ns). assert (Nd : d <> i) by (intros ->; now rewrite gone_self in Ed). rewrite gone_other in Ed by auto.
  exists d, up, es, x, pre. split; [|auto 8]. unfold place_of. rewrite C, last_last, removelast_last, I, U. cbn [orb].
  now rewrite (walk_keeps i fs fs d (keeps_refl i fs) _ _ _ _ W), Ed.
Qed.
Lemma climbs_more fs i : forall h e, climbs h fs e i = true -> forall h', (h <= h')%nat -> climbs h' fs e i = true.
Proof.
  induction h as [|h IH]; intros e C h' L.
  - cbn [climbs] in C. rewrite orb_false_r in C. destruct h'; cbn [climbs]; rewrite C; reflexivity.
  - destruct h' as [|h']; [lia|]. cbn [climbs] in C |- *. destruct (Nat.eqb e i); [reflexivity|]. cbn [orb] in *. destruct (fs e) as [[|up es|]|]; try discriminate. apply IH; [exact C|lia].
Qed.
Lemma climbs_under fs i : forall h e, climbs h fs e i = true -> under fs i e.
Proof.
  induction h as [|h IH]; intros e C; cbn [climbs] in C; (destruct (Nat.eqb_spec e i) as [Q|N]; [rewrite Q; constructor|]); cbn [orb] in C; [discriminate|].
  destruct (fs e) as [[|up es|]|] eqn:E; try discriminate. econstructor; [exact E|auto].
Qed.
(** A way that does not pass through [i] and does not begin below it does not end below it. *)
Lemma walk_not_under i fs j : sound fs -> i <> 0%nat -> forall lim f l d, ~ under fs i d -> walk lim f (gone fs i) l d = Found j -> (exists up es, fs j = Some (NDir up es)) -> ~ under fs i j.
Proof.
  intros (R & S2 & S3) Ni lim f. assert (R0 : ~ under fs i 0).
  { destruct R as [er Er]. intros U. remember 0%nat as z eqn:Ez. induction U as [|e up es E U IH]; [congruence|]. subst e. rewrite Er in E. injection E as <- <-. auto. }
  induction lim as [|lim IH]; intros l; induction l as [|x l IHl]; intros d U E Dj; try (rewrite walk_nil in E; replace j with d by congruence; exact U);
    (assert (Nd : d <> i) by (intros Q; apply U; rewrite Q; apply under_self)); rewrite walk_cons in E; rewrite (gone_other _ _ _ Nd) in E; destruct (fs d) as [[|up es|]|] eqn:Ed; try discriminate;
    (destruct (idle x); [eapply IHl; eauto|]); (destruct (upward x); [exact (IHl _ (fun Q => U (under_up _ _ _ _ _ Ed Q)) E Dj)|]);
    (destruct (find x es) as [c|] eqn:Ex; [|discriminate]);
    (destruct (Nat.eq_dec c i) as [->|Nc]; [rewrite gone_self in E; discriminate|]); rewrite (gone_other _ _ _ Nc) in E; destruct (S3 _ _ _ _ _ Ed Ex) as (_ & _ & n & En & Hn);
    (destruct (fs c) as [[b|u e|t]|] eqn:Ec; try discriminate).
  - destruct l as [|y l]; [rewrite walk_nil in E; destruct Dj as (? & ? & ?); congruence|]. rewrite walk_cons, (gone_other _ _ _ Nc), Ec in E. discriminate.
  - injection En as <-. destruct (Hn _ _ eq_refl) as [-> _]. apply (IHl c); auto. intros Q. inversion Q as [Q0|? up' es' E' U']; [congruence|]. rewrite Ec in E'. injection E' as <- <-. auto.
  - unfold hop in E. destruct l as [|y l], f; try discriminate; destruct t; try discriminate; destruct Dj as (? & ? & ?); congruence.
  - destruct l as [|y l]; [rewrite walk_nil in E; destruct Dj as (? & ? & ?); congruence|]. rewrite walk_cons, (gone_other _ _ _ Nc), Ec in E. discriminate.
  - injection En as <-. destruct (Hn _ _ eq_refl) as [-> _]. apply (IHl c); auto. intros Q. inversion Q as [Q0|? up' es' E' U']; [congruence|]. rewrite Ec in E'. injection E' as <- <-. auto.
  - assert (B : forall b t, ~ under fs i (begins d (b :: t))) by (intros b t'; cbn; destruct (Z.eq_dec b 47); auto).
    unfold hop in E. destruct l as [|y l], f; try (destruct Dj as (? & ? & ?); congruence); destruct t as [|b t]; try discriminate; exact (IH _ _ (B b t) E Dj).
Qed.
Section Move.
  Variables (fs : fsys) (depth : nat -> nat) (H : nat).
  Hypothesis Sn : sound fs.
  Hypothesis D : forall d up es, fs d = Some (NDir up es) -> (depth d <= H)%nat /\
    forall x c up' es', find x es = Some c -> fs c = Some (NDir up' es') -> (depth d < depth c)%nat.
  (** Directories inside are deeper, and climbing from them leads back. *)
  Lemma inside_deeper : forall cs i j, SubsSpec.inside fs i cs j -> forall u e, fs j = Some (NDir u e) -> (depth i + length cs <= depth j)%nat.
  Proof.
    induction cs as [|x cs IH]; intros i j I u e Ej; inversion I as [|? up es ? c ? ? Ei F I']; subst; cbn [length]; [lia|]. specialize (IH _ _ I' _ _ Ej).
    assert (exists u' e', fs c = Some (NDir u' e')) as (u' & e' & Ec) by (destruct cs; inversion I'; subst; eauto).
    pose proof (proj2 (D _ _ _ Ei) _ _ _ _ F Ec). lia.
  Qed.
  Lemma climbs_snoc : forall h i c j up es, fs c = Some (NDir i es) -> climbs h fs j c = true -> up = i -> climbs (Datatypes.S h) fs j i = true.
  Proof.
    induction h as [|h IH]; intros i c j up es Ec C ->; cbn [climbs] in C; destruct (Nat.eqb_spec j c) as [->|N]; cbn [orb] in C; try discriminate.
    - cbn [climbs]. rewrite Ec. destruct (Nat.eqb c i); [reflexivity|]. cbn [orb]. now rewrite Nat.eqb_refl.
    - cbn [climbs]. rewrite Ec. destruct (Nat.eqb c i); [reflexivity|]. cbn [orb]. now rewrite Nat.eqb_refl.
    - destruct (fs j) as [[|u e|]|] eqn:Ej; try discriminate. specialize (IH _ _ _ _ _ Ec C eq_refl). cbn [climbs] in IH |- *. rewrite Ej. destruct (Nat.eqb j i); [reflexivity|]. exact IH.
  Qed.
  Lemma inside_climbs : forall cs i j, SubsSpec.inside fs i cs j -> forall u e, fs j = Some (NDir u e) -> climbs (length cs) fs j i = true.
  Proof.
    induction cs as [|x cs IH]; intros i j I u e Ej; inversion I as [|? up es ? c ? ? Ei F I']; subst; [cbn; now rewrite Nat.eqb_refl|]. specialize (IH _ _ I' _ _ Ej).
    assert (exists u' e', fs c = Some (NDir u' e')) as (u' & e' & Ec) by (destruct cs; inversion I'; subst; eauto).
    pose proof Sn as (_ & _ & S3). destruct (S3 _ _ _ _ _ Ei F) as (_ & _ & n & En & Hn). assert (n = NDir u' e') as -> by congruence. destruct (Hn _ _ eq_refl) as [-> _].
    eapply climbs_snoc; eauto.
  Qed.
  Variables (d1 up1 d2 up2 ui i h : nat) (es1 es2 es : list (list Z * nat)) (x1 x2 : list Z).
  Hypothesis E1 : fs d1 = Some (NDir up1 es1).
  Hypothesis E2 : fs d2 = Some (NDir up2 es2).
  Hypothesis F1 : find x1 es1 = Some i.
  Hypothesis F2 : find x2 es2 = None.
  Hypothesis Ei : fs i = Some (NDir ui es).
  Hypothesis C : climbs h fs d2 i = false.
  Hypothesis Hh : (H <= h)%nat.
  Hypothesis N2 : name x2.
  Let fs1 := put (put fs d1 (NDir up1 (without x1 es1))) i (NDir d2 es).
  Let es2' := if Nat.eq_dec d2 d1 then without x1 es1 else es2.
  Let fs' := put fs1 d2 (NDir up2 ((x2, i) :: es2')).
  Lemma parent : ui = d1 /\ i <> 0%nat /\ name x1 /\ forall y, find y es1 = Some i -> y = x1.
  Proof. destruct Sn as (_ & _ & S3). destruct (S3 _ _ _ _ _ E1 F1) as (A & B & n & En & Hn). assert (n = NDir ui es) as -> by congruence. destruct (Hn _ _ eq_refl) as [-> Q]. auto. Qed.
  Lemma not_i1 : i <> d1.
  Proof. intros K. pose proof (proj2 (D _ _ _ E1) _ _ _ _ F1 Ei). rewrite K in H0. lia. Qed.
  Lemma not_i2 : i <> d2.
  Proof. intros K. rewrite K in C. destruct h; cbn in C; rewrite Nat.eqb_refl in C; discriminate. Qed.
  Lemma at_i : fs' i = Some (NDir d2 es).
  Proof. unfold fs', fs1. rewrite put_other by exact not_i2. apply put_same. Qed.
  Lemma at_2 : fs' d2 = Some (NDir up2 ((x2, i) :: es2')).
  Proof. apply put_same. Qed.
  Lemma fs1_2 : fs1 d2 = Some (NDir up2 es2').
  Proof.
    unfold fs1, es2'. rewrite put_other by (pose proof not_i2; auto). destruct (Nat.eq_dec d2 d1) as [e|N]; [|now rewrite put_other].
    rewrite e, put_same. rewrite e, E1 in E2. congruence.
  Qed.
  Lemma at_1 : d1 <> d2 -> fs' d1 = Some (NDir up1 (without x1 es1)).
  Proof. intros N. unfold fs', fs1. rewrite put_other by auto. rewrite put_other by (pose proof not_i1; auto). apply put_same. Qed.
  Lemma at_rest e : e <> i -> e <> d1 -> e <> d2 -> fs' e = fs e.
  Proof. intros A B K. unfold fs', fs1. now rewrite !put_other by auto. Qed.
  Lemma sub2 y c : find y es2' = Some c -> find y es2 = Some c /\ c <> i.
  Proof.
    destruct parent as (Eu & _ & _ & Q). unfold es2'. destruct (Nat.eq_dec d2 d1) as [e|N].
    - assert (es2 = es1) as -> by (rewrite e, E1 in E2; congruence). rewrite find_without. destruct (list_eq_dec _ _ _) as [|Ny]; [discriminate|]. intros F. split; [exact F|]. intros ->. apply Ny. symmetry. auto.
    - intros F. split; [exact F|]. intros ->. destruct Sn as (_ & _ & S3). destruct (S3 _ _ _ _ _ E2 F) as (_ & _ & n & En & Hn). assert (n = NDir ui es) as -> by congruence. destruct (Hn _ _ eq_refl). congruence.
  Qed.
  Lemma keep2 y c : find y es2 = Some c -> c <> i -> find y es2' = Some c.
  Proof.
    unfold es2'. destruct (Nat.eq_dec d2 d1) as [e|N]; [|auto]. assert (es2 = es1) as -> by (rewrite e, E1 in E2; congruence). intros F Nc. rewrite find_without. destruct (list_eq_dec _ _ _); [congruence|exact F].
  Qed.
  Lemma move_keeps : keeps i fs fs'.
  Proof.
    intros e Ne. destruct (Nat.eq_dec e d2) as [->|Ne2].
    - rewrite E2. eexists. split; [apply at_2|]. intros y c F Nc. cbn [find]. destruct (list_eq_dec _ _ _) as [->|]; [congruence|]. now apply keep2.
    - destruct (Nat.eq_dec e d1) as [->|Ne1].
      + rewrite E1. eexists. split; [now apply at_1|]. intros y c F Nc. rewrite find_without. destruct (list_eq_dec _ _ _); [congruence|exact F].
      + rewrite at_rest by auto. destruct (fs e) as [[|up ee|]|]; eauto.
  Qed.
  Lemma dirs_back e u ee : fs' e = Some (NDir u ee) -> (e = i /\ u = d2 /\ ee = es) \/ (e <> i /\ exists ee0, fs e = Some (NDir u ee0) /\
    forall y c, find y ee = Some c -> (e = d2 /\ y = x2 /\ c = i) \/ (find y ee0 = Some c /\ (e = d2 -> y <> x2) /\ (e = d1 -> c <> i))).
  Proof.
    intros E. destruct (Nat.eq_dec e i) as [->|Ne]; [left; rewrite at_i in E; injection E as <- <-; auto|right]. split; [exact Ne|]. destruct (Nat.eq_dec e d2) as [->|Ne2].
    - rewrite at_2 in E. injection E as <- <-. exists es2. split; [exact E2|]. intros y c. cbn [find]. destruct (list_eq_dec _ _ _) as [->|Ny]; [intros [= <-]; auto|]. intros F. destruct (sub2 _ _ F). right. auto.
    - destruct (Nat.eq_dec e d1) as [->|Ne1].
      + rewrite at_1 in E by auto. injection E as <- <-. exists es1. split; [exact E1|]. intros y c. rewrite find_without. destruct (list_eq_dec _ _ _) as [|Ny]; [discriminate|]. intros F. right. split; [exact F|]. split; [congruence|].
        intros _ ->. destruct parent as (_ & _ & _ & Q). apply Ny. symmetry. auto.
      + rewrite at_rest in E by auto. exists ee. split; [exact E|]. intros y c F. right. repeat split; auto; congruence.
  Qed.
  Lemma dirs_on e u ee : fs e = Some (NDir u ee) -> exists u' ee', fs' e = Some (NDir u' ee') /\ (e <> i -> u' = u).
  Proof.
    intros E. destruct (Nat.eq_dec e i) as [->|Ne]; [rewrite at_i; do 2 eexists; split; [reflexivity|congruence]|]. pose proof (move_keeps e Ne) as K. rewrite E in K. destruct K as (e' & K & _). eauto.
  Qed.
  Lemma move_sound : sound fs'.
  Proof.
    pose proof Sn as (R & S2 & S3). destruct parent as (Eu & N0 & _ & Q). split; [|split].
    - destruct R as [er Er]. destruct (dirs_on _ _ _ Er) as (u & ee & K & Hu). rewrite Hu in K by auto. eauto.
    - intros e u ee E. destruct (dirs_back _ _ _ E) as [(-> & -> & ->)|(Ne & ee0 & E0 & _)]; [rewrite at_2; eauto|]. destruct (S2 _ _ _ E0) as (u' & e' & K). destruct (dirs_on _ _ _ K) as (? & ? & K' & _). eauto.
    - assert (Old : forall e u ee0 y c, fs e = Some (NDir u ee0) -> find y ee0 = Some c -> c <> i ->
        name y /\ c <> 0%nat /\ exists n, fs' c = Some n /\ forall up' es', n = NDir up' es' -> up' = e /\ forall z, find z ee0 = Some c -> z = y).
      { intros e u ee0 y c E0 F Nc. destruct (S3 _ _ _ _ _ E0 F) as (A & B & n & En & Hn). split; [exact A|]. split; [exact B|]. pose proof (move_keeps c Nc) as K. rewrite En in K. destruct n as [b|u' e'|t].
        - eexists. split; [exact K|]. discriminate.
        - destruct K as (e'' & K & _). eexists. split; [exact K|]. intros ? ? [= <- <-]. apply (Hn _ _ eq_refl).
        - eexists. split; [exact K|]. discriminate. }
      intros e u ee y c E F. destruct (dirs_back _ _ _ E) as [(-> & -> & ->)|(Ne & ee0 & E0 & K)].
      + assert (Nc : c <> i) by (intros ->; pose proof (proj2 (D _ _ _ Ei) _ _ _ _ F Ei); lia). exact (Old _ _ _ _ _ Ei F Nc).
      + destruct (K _ _ F) as [(-> & -> & ->)|(F0 & K1 & K2)].
        * split; [exact N2|]. split; [exact N0|]. eexists. split; [apply at_i|]. intros ? ? [= <- <-]. split; [reflexivity|]. intros z Fz. rewrite at_2 in E. injection E as <- <-.
          cbn [find] in Fz. destruct (list_eq_dec _ _ _); [assumption|]. destruct (sub2 _ _ Fz). congruence.
        * assert (Nc : c <> i).
          { intros ->. destruct (S3 _ _ _ _ _ E0 F0) as (_ & _ & n & En & Hn). assert (n = NDir ui es) as -> by congruence. destruct (Hn _ _ eq_refl) as [G _]. apply K2; [congruence|reflexivity]. }
          destruct (Old _ _ _ _ _ E0 F0 Nc) as (A & B & n & En & Hn). split; [exact A|]. split; [exact B|]. exists n. split; [exact En|]. intros up' es' Q'. destruct (Hn _ _ Q') as [G1 G2]. split; [exact G1|].
          intros z Fz. destruct (K _ _ Fz) as [(_ & _ & ?)|(Fz0 & _)]; [congruence|auto].
  Qed.
  (** Below the directory nothing has changed. *)
  Lemma inside_not cs e u ee : SubsSpec.inside fs i cs e -> fs e = Some (NDir u ee) -> e <> d1 /\ e <> d2 /\ (e = i -> cs = []).
  Proof.
    intros I E. pose proof (inside_deeper _ _ _ I _ _ E) as L. pose proof (proj2 (D _ _ _ E1) _ _ _ _ F1 Ei) as L1. split; [intros ->; lia|]. split.
    - intros ->. pose proof (inside_climbs _ _ _ I _ _ E) as K. apply climbs_more with (h' := h) in K; [congruence|]. destruct (D _ _ _ E). lia.
    - intros ->. destruct cs; [reflexivity|cbn [length] in L; lia].
  Qed.
  Lemma inside_snoc g : forall cs a b up ee x c, SubsSpec.inside g a cs b -> g b = Some (NDir up ee) -> find x ee = Some c -> SubsSpec.inside g a (cs ++ [x]) c.
  Proof. induction cs as [|y cs IH]; intros a b up ee x c I E F; inversion I; subst; cbn [app]; [econstructor; eauto; constructor|]. econstructor; eauto. Qed.
  Lemma inside_same : forall cs pre e j, SubsSpec.inside fs i pre e -> (SubsSpec.inside fs e cs j <-> SubsSpec.inside fs' e cs j).
  Proof.
    induction cs as [|x cs IH]; intros pre e j I; (split; intros J; inversion J as [|? u ee ? c ? ? E F J']; subst).
    - constructor.
    - constructor.
    - destruct (inside_not _ _ _ _ I E) as (A & B & K). pose proof (inside_snoc _ _ _ _ _ _ _ _ I E F) as I'. apply (IH _ _ _ I') in J'. destruct (Nat.eq_dec e i) as [->|Ne].
      + rewrite Ei in E. injection E as <- <-. econstructor; [apply at_i|exact F|exact J'].
      + econstructor; [rewrite at_rest by auto; exact E|exact F|exact J'].
    - destruct (dirs_back _ _ _ E) as [(-> & -> & ->)|(Ne & ee0 & E0 & _)].
      + pose proof (inside_snoc _ _ _ _ _ _ _ _ I Ei F) as I'. apply (IH _ _ _ I') in J'. econstructor; [exact Ei|exact F|exact J'].
      + destruct (inside_not _ _ _ _ I E0) as (A & B & _). rewrite at_rest in E by auto. pose proof (inside_snoc _ _ _ _ _ _ _ _ I E F) as I'. apply (IH _ _ _ I') in J'. econstructor; [exact E|exact F|exact J'].
  Qed.
  Lemma others j : (forall u e, fs j <> Some (NDir u e)) -> fs' j = fs j.
  Proof. intros K. apply at_rest; intros ->; eapply K; eauto. Qed.
  (** Inside the directory the entries are the same, in the same order. *)
  Lemma inside_entries cs e u ee : SubsSpec.inside fs i cs e -> fs e = Some (NDir u ee) -> exists u', fs' e = Some (NDir u' ee).
  Proof.
    intros I E. destruct (inside_not _ _ _ _ I E) as (A & B & _). destruct (Nat.eq_dec e i) as [->|Ne].
    - exists d2. rewrite Ei in E. injection E as <- <-. apply at_i.
    - exists u. now rewrite at_rest.
  Qed.
  (** The depth stays bounded. *)
  Let holds (u a : nat) : bool := match fs u with
    | Some (NDir _ ee) => existsb (fun e => match find (fst e) ee with Some b => Nat.eqb b a | None => false end) ee
    | _ => false end.
  Fixpoint inb (k a : nat) : bool := Nat.eqb a i || match k with
    | O => false
    | Datatypes.S k => match fs a with Some (NDir u _) => holds u a && inb k u | _ => false end
    end.
  Lemma holds_find u a : holds u a = true -> exists uu ee x, fs u = Some (NDir uu ee) /\ find x ee = Some a.
  Proof.
    unfold holds. destruct (fs u) as [[|uu ee|]|] eqn:E; try discriminate. intros K. apply existsb_exists in K as (e & _ & K).
    destruct (find (fst e) ee) as [b|] eqn:F; [|discriminate]. apply Nat.eqb_eq in K as ->. eauto.
  Qed.
  Lemma find_holds u uu ee x a : fs u = Some (NDir uu ee) -> find x ee = Some a -> holds u a = true.
  Proof. intros E F. unfold holds. rewrite E. apply existsb_exists. exists (x, a). split; [now apply find_in|]. cbn. now rewrite F, Nat.eqb_refl. Qed.
  Lemma inb_self k : inb k i = true.
  Proof. destruct k; cbn; now rewrite Nat.eqb_refl. Qed.
  Lemma inb_more : forall k a, inb k a = true -> forall k', (k <= k')%nat -> inb k' a = true.
  Proof.
    induction k as [|k IH]; intros a K k' L.
    - cbn in K. rewrite orb_false_r in K. destruct k'; cbn; now rewrite K.
    - destruct k' as [|k']; [lia|]. cbn [inb] in K |- *. destruct (Nat.eqb a i); [reflexivity|]. cbn [orb] in *. destruct (fs a) as [[|u ee|]|]; try discriminate.
      apply andb_true_iff in K as [K1 K2]. rewrite K1. cbn. apply (IH _ K2). lia.
  Qed.
  Lemma inb_depth : forall k a u ee, inb k a = true -> fs a = Some (NDir u ee) -> inb (depth a) a = true /\ (depth i <= depth a)%nat.
  Proof.
    induction k as [|k IH]; intros a u ee K E; cbn [inb] in K; destruct (Nat.eqb_spec a i) as [->|N]; cbn [orb] in K; try discriminate;
      try (split; [destruct (depth i); cbn; now rewrite Nat.eqb_refl|lia]).
    rewrite E in K. apply andb_true_iff in K as [K1 K2]. destruct (holds_find _ _ K1) as (uu & eu & x & Eu & F). pose proof (proj2 (D _ _ _ Eu) _ _ _ _ F E) as L.
    destruct (IH _ _ _ K2 Eu) as [A B]. split; [|lia]. destruct (depth a) as [|m] eqn:Q; [lia|]. cbn [inb]. rewrite E, K1. cbn. rewrite (inb_more _ _ A m) by lia. apply orb_true_r.
  Qed.
  Lemma inb_climbs : forall k a, inb k a = true -> climbs k fs a i = true.
  Proof.
    induction k as [|k IH]; intros a K; cbn [inb climbs] in *; destruct (Nat.eqb a i); cbn [orb] in *; try discriminate; try reflexivity.
    destruct (fs a) as [[|u ee|]|]; try discriminate. apply andb_true_iff in K as [_ K]. auto.
  Qed.
  Lemma inb_entry a u ee x c u' e' : fs a = Some (NDir u ee) -> find x ee = Some c -> fs c = Some (NDir u' e') -> c <> i -> inb H c = inb H a.
  Proof.
    intros E F Ec N. pose proof Sn as (_ & _ & S3). destruct (S3 _ _ _ _ _ E F) as (_ & _ & n & En & Hn). assert (n = NDir u' e') as -> by congruence. destruct (Hn _ _ eq_refl) as [-> _].
    pose proof (proj2 (D _ _ _ E) _ _ _ _ F Ec) as L. destruct (D _ _ _ Ec) as [B _]. apply eq_true_iff_eq. split; intros K.
    - assert (Q : exists m, H = Datatypes.S m) by (exists (pred H); lia). destruct Q as [m Q]. rewrite Q in K |- *. cbn [inb] in K. destruct (Nat.eqb_spec c i); [congruence|]. cbn [orb] in K. rewrite Ec in K. apply andb_true_iff in K as [_ K]. apply (inb_more _ _ K). lia.
    - destruct (inb_depth _ _ _ _ K E) as [A _]. apply (inb_more (Datatypes.S (depth a))); [|lia]. cbn [inb]. rewrite Ec, (find_holds _ _ _ _ _ E F), A. apply orb_true_r.
  Qed.
  Lemma move_bounded : exists H', bounded fs' H'.
  Proof.
    pose (depth' a := if inb H a then (depth d2 + 1 + (depth a - depth i))%nat else depth a). exists (H + 1 + H)%nat. exists depth'.
    assert (Ii : inb H i = true) by apply inb_self.
    assert (I2 : inb H d2 = false).
    { destruct (inb H d2) eqn:K; [|reflexivity]. apply inb_climbs in K. rewrite (climbs_more _ _ _ _ K h Hh) in C. discriminate. }
    destruct (D _ _ _ E2) as [B2 _].
    assert (Old : forall c u' e', fs' c = Some (NDir u' e') -> exists u e, fs c = Some (NDir u e)).
    { intros c u' e' Ec. destruct (dirs_back _ _ _ Ec) as [(-> & _)|(_ & e0 & E0 & _)]; eauto. }
    assert (Step : forall a u ee x c u' e', fs a = Some (NDir u ee) -> find x ee = Some c -> fs' c = Some (NDir u' e') -> c <> i -> (depth' a < depth' c)%nat).
    { intros a u ee x c u' e' E F Ec N. destruct (Old _ _ _ Ec) as (u1 & e1 & Ec1). pose proof (proj2 (D _ _ _ E) _ _ _ _ F Ec1) as L. unfold depth'. rewrite (inb_entry _ _ _ _ _ _ _ E F Ec1 N).
      destruct (inb H a) eqn:K; [|exact L]. destruct (inb_depth _ _ _ _ K E). lia. }
    intros d u ee E. destruct (Old _ _ _ E) as (u0 & e0 & E0). destruct (D _ _ _ E0) as [B _]. split; [unfold depth'; destruct (inb H d); lia|].
    intros x c u' e' F Ec. destruct (dirs_back _ _ _ E) as [(-> & -> & ->)|(Ne & ee0 & E0' & K)].
    - apply (Step _ _ _ _ _ _ _ Ei F Ec). intros ->. pose proof (proj2 (D _ _ _ Ei) _ _ _ _ F Ei). lia.
    - destruct (K _ _ F) as [(-> & -> & ->)|(F0 & _ & K2)]; [unfold depth'; rewrite Ii, I2; lia|]. apply (Step _ _ _ _ _ _ _ E0' F0 Ec). intros ->.
      pose proof Sn as (_ & _ & S3). destruct (S3 _ _ _ _ _ E0' F0) as (_ & _ & n & En & Hn). assert (n = NDir ui es) as -> by congruence. destruct (Hn _ _ eq_refl) as [G _].
      destruct parent as (G' & _). apply K2; congruence.
  Qed.
End Move.
Lemma cut_below s xs : Forall name xs -> cut [] (below s xs) = cut [] s ++ xs.
Proof.
  intros Hx. rewrite !cut_eq. unfold below. revert s. induction Hx as [|x xs Hx _ IH]; intros s; [now rewrite !app_nil_r|].
  cbn [map concat]. rewrite app_assoc, IH. cbn [app]. rewrite segments_app, (segments_one x) by (now apply name_flat). now rewrite <- app_assoc.
Qed.
Lemma walk_inside fs : sound fs -> forall cs i j k, SubsSpec.inside fs i cs j -> fs j = Some k -> walk 0 false fs cs i = Found j.
Proof.
  intros (_ & _ & S3). induction cs as [|x cs IH]; intros i j k I Ej; inversion I as [|? up es ? c ? ? Ei F I']; subst; [apply walk_nil|].
  destruct (S3 _ _ _ _ _ Ei F) as (Nx & _). destruct (name_kind _ Nx) as [Ix Ux]. rewrite walk_cons, Ei, Ix, Ux, F. specialize (IH _ _ _ I' Ej).
  destruct (fs c) as [[b|u e|t]|] eqn:Ec; [exact IH|exact IH| |].
  - unfold hop. inversion I' as [|? ? ? ? ? ? ? Ec']; subst; [reflexivity|congruence].
  - inversion I' as [|? ? ? ? ? ? ? Ec']; subst; congruence.
Qed.
Lemma inside_name fs : sound fs -> forall cs i j, SubsSpec.inside fs i cs j -> Forall name cs.
Proof. intros (_ & _ & S3). induction cs as [|x cs IH]; intros i j I; [constructor|]. inversion I; subst. constructor; [eapply S3; eauto|eauto]. Qed.
Lemma inside_node fs : sound fs -> forall cs i j k, fs i = Some k -> SubsSpec.inside fs i cs j -> exists k', fs j = Some k'.
Proof.
  intros (_ & _ & S3). induction cs as [|x cs IH]; intros i j k Ei I; inversion I as [|? up es ? c ? ? Ei' F I']; subst; [eauto|]. destruct (S3 _ _ _ _ _ Ei' F) as (_ & _ & n & En & _). eauto.
Qed.
Lemma rename_dir_all h lim fs cwd me newname n r i up es H : sound fs -> bounded fs H -> (H <= h)%nat -> rename_any h lim fs cwd me newname = (n, r) ->
  lstat lim fs cwd me = Found i -> fs i = Some (NDir up es) -> lstat lim fs cwd n = Missing ->
  place_of lim (gone fs i) cwd me <> None -> place_of lim (gone fs i) cwd n <> None -> ~ under fs i (begins cwd n) ->
  exists fs', r = Some fs' /\ sound fs' /\ lstat lim fs' cwd me = Missing /\
  (forall cs j, SubsSpec.inside fs i cs j <-> SubsSpec.inside fs' i cs j) /\
  (forall cs j, SubsSpec.inside fs i cs j -> lstat lim fs' cwd (below n cs) = Found j) /\
  (forall j, (forall u e, fs j <> Some (NDir u e)) -> fs' j = fs j) /\
  (forall k s j, stat k (gone fs i) cwd s = Found j -> stat k fs' cwd s = Found j) /\
  (forall k s j, lstat k (gone fs i) cwd s = Found j -> lstat k fs' cwd s = Found j) /\
  (forall cs j u e, SubsSpec.inside fs i cs j -> fs j = Some (NDir u e) -> exists u', fs' j = Some (NDir u' e)) /\
  (exists H', bounded fs' H').
Proof.
  intros Sn [depth D] Hh E L Ei Ln P1 P2 Un. unfold rename_any in E. assert (R : n = relate_this me newname) by congruence. assert (E' : sys_rename_dir h lim fs cwd me n = r).
  { injection E as _ E. rewrite <- R in E. unfold sys_rename_any in E. now rewrite L, Ei in E. } clear E.
  destruct (gone_place _ _ _ _ _ P1) as (d1 & up1 & es1 & x1 & pre1 & Q1 & Nd1 & Ns1 & C1 & W1 & E1 & Nx1).
  destruct (gone_place _ _ _ _ _ P2) as (d2 & up2 & es2 & x2 & pre2 & Q2 & Nd2 & Ns2 & C2 & W2 & E2 & Nx2).
  pose proof (lstat_found_find _ _ _ _ _ _ _ _ _ Q1 Sn L) as F1. pose proof (lstat_missing_find _ _ _ _ _ _ _ _ Q2 Sn Ln) as F2.
  destruct (parent fs Sn d1 up1 up i es1 es x1 E1 F1 Ei) as (Eu & N0 & _).
  assert (C : climbs h fs d2 i = false).
  { destruct (climbs h fs d2 i) eqn:C; [|reflexivity]. apply climbs_under in C. exfalso. revert C. eapply walk_not_under; eauto. }
  set (es2' := if Nat.eq_dec d2 d1 then without x1 es1 else es2).
  set (fs' := put (put (put fs d1 (NDir up1 (without x1 es1))) i (NDir d2 es)) d2 (NDir up2 ((x2, i) :: es2'))).
  assert (r = Some fs') as ->.
  { rewrite <- E'. unfold sys_rename_dir. rewrite Q1, Q2, F1, F2, Ei, C. assert (A2 : put (put fs d1 (NDir up1 (without x1 es1))) i (NDir d2 es) d2 = Some (NDir up2 es2')) by (eapply fs1_2; eauto). rewrite A2. reflexivity. }
  assert (K : keeps i fs fs') by (eapply move_keeps; eauto). assert (S' : sound fs') by (eapply move_sound; eauto).
  assert (EI : fs' i = Some (NDir d2 es)) by (eapply at_i; eauto).
  pose proof (walk_keeps _ _ _ _ K _ _ _ _ W1) as V1. pose proof (walk_keeps _ _ _ _ K _ _ _ _ W2) as V2.
  assert (SI : forall cs j, SubsSpec.inside fs i cs j <-> SubsSpec.inside fs' i cs j).
  { intros cs j. eapply inside_same with (pre := []); eauto. constructor. }
  exists fs'. split; [reflexivity|]. split; [exact S'|]. split; [|split; [exact SI|split; [|split; [|split; [|split; [|split]]]]]].
  - unfold lstat. destruct me as [|c me]; [congruence|]. rewrite C1. eapply walk_last; [exact V1| |discriminate]. destruct (name_kind _ Nx1) as [I1 U1]. rewrite walk_cons.
    destruct (Nat.eq_dec d1 d2) as [e|Nd].
    + assert (EE : es2' = without x1 es1) by (unfold es2'; destruct (Nat.eq_dec d2 d1); congruence). rewrite e. unfold fs' at 1. rewrite put_same, I1, U1, EE. cbn [find].
      destruct (list_eq_dec _ _ _) as [->|]; [rewrite e, E2 in E1; congruence|]. rewrite find_without. destruct (list_eq_dec _ _ _); [reflexivity|congruence].
    + assert (A1 : fs' d1 = Some (NDir up1 (without x1 es1))) by (eapply at_1; eauto). rewrite A1, I1, U1, find_without. destruct (list_eq_dec _ _ _); [reflexivity|congruence].
  - intros cs j I. pose proof (inside_name _ Sn _ _ _ I) as Nc. apply SI in I. destruct (inside_node _ S' _ _ _ _ EI I) as (k & Ek). unfold lstat.
    assert (Nb : below n cs <> []) by (unfold below; destruct n; [congruence|discriminate]). assert (Bb : begins cwd (below n cs) = begins cwd n) by (unfold below; destruct n; [congruence|reflexivity]).
    destruct (below n cs) as [|c s] eqn:Eb; [congruence|]. rewrite <- Eb, Bb in *. rewrite cut_below, C2, <- app_assoc by auto. rewrite <- (Nat.add_0_r lim). eapply walk_app; [discriminate|exact V2| |discriminate].
    destruct (name_kind _ Nx2) as [I2 U2]. cbn [app]. rewrite walk_cons. unfold fs' at 1. rewrite put_same, I2, U2. cbn [find]. destruct (list_eq_dec _ _ _) as [_|]; [|congruence]. rewrite EI.
    eapply walk_inside; eauto.
  - intros j Hj. eapply others; eauto.
  - intros k s j St. unfold stat in *. destruct s; [discriminate|]. eapply walk_keeps; eauto.
  - intros k s j St. unfold lstat in *. destruct s; [discriminate|]. eapply walk_keeps; eauto.
  - intros cs j u e I Ej. eapply inside_entries; eauto.
  - eapply move_bounded with (h := h); eauto.
Qed.
(** A directory does not go below itself, nor onto what there is. *)
Lemma rename_dir_none h lim fs cwd me newname n r i up es H : sound fs -> bounded fs H -> (H <= h)%nat -> rename_any h lim fs cwd me newname = (n, r) ->
  lstat lim fs cwd me = Found i -> fs i = Some (NDir up es) ->
  (exists cs d u e x, SubsSpec.inside fs i cs d /\ place_of lim fs cwd n = Some (d, u, e, x)) \/ lstat lim fs cwd n <> Missing -> r = None.
Proof.
  intros Sn [depth D] Hh E L Ei K. unfold rename_any in E. injection E as <- <-. unfold sys_rename_any. rewrite L, Ei. unfold sys_rename_dir.
  set (n := relate_this me newname) in *. destruct (place_of lim fs cwd me) as [[[[d1 up1] es1] x1]|] eqn:P1; [|reflexivity].
  destruct (place_of lim fs cwd n) as [[[[d2 up2] es2] x2]|] eqn:P2; [|reflexivity]. pose proof (lstat_found_find _ _ _ _ _ _ _ _ _ P1 Sn L) as F1. rewrite F1, Ei.
  destruct (find x2 es2) as [j|] eqn:F2; [reflexivity|]. destruct K as [(cs & d & u & e & x & I & [= <- <- <- <-])|K].
  - destruct (place_inv _ _ _ _ _ _ _ _ P2) as (_ & _ & _ & _ & _ & E2 & _). pose proof (inside_climbs fs Sn _ _ _ I _ _ E2) as C.
    rewrite (climbs_more _ _ _ _ C h); [reflexivity|]. pose proof (inside_deeper fs depth H D _ _ _ I _ _ E2). destruct (D _ _ _ E2). lia.
  - exfalso. apply K. destruct (place_inv _ _ _ _ _ _ _ _ P2) as (pre & C & I2 & U2 & W & E2 & Ns). unfold lstat. destruct n as [|c s]; [congruence|]. rewrite C.
    eapply walk_last; [exact W| |discriminate]. now rewrite walk_cons, E2, I2, U2, F2.
Qed.
Lemma rename_any_file h lim fs cwd me newname i : lstat lim fs cwd me = Found i -> (forall u e, fs i <> Some (NDir u e)) -> rename_any h lim fs cwd me newname = rename_path lim fs cwd me newname.
Proof. intros L N. unfold rename_any, rename_path, sys_rename_any. rewrite L. destruct (fs i) as [[|u e|]|] eqn:E; try reflexivity. now destruct (N u e). Qed.
Lemma ex_mv_sound : sound ex_mv /\ bounded ex_mv 2.
Proof.
  split; [split; [eexists; reflexivity|split]|].
  - intros d up es E. destruct d as [|[|[|[|[|[|d]]]]]]; cbn in E; try discriminate; injection E as <- <-; cbn; eauto.
  - intros d up es x c E F. destruct d as [|[|[|[|[|[|d]]]]]]; cbn in E; try discriminate; injection E as <- <-; cbn in F;
      repeat (match type of F with context [list_eq_dec Z.eq_dec ?a ?b] => destruct (list_eq_dec Z.eq_dec a b) as [->|?] end); try discriminate; injection F as <-;
      (split; [repeat split; try discriminate; intros [K|K]; try discriminate; try destruct K; fail || (cbn; intuition congruence)|]); (split; [discriminate|]); eexists; (split; [reflexivity|]);
      intros up' es' [= <- <-]; (split; [reflexivity|]); intros y; cbn; repeat (destruct (list_eq_dec _ _ _)); congruence.
  - exists (fun d => match d with 0%nat => 0%nat | 1%nat => 1%nat | 2%nat => 2%nat | _ => 1%nat end). intros d up es E.
    destruct d as [|[|[|[|[|[|d]]]]]]; cbn in E; try discriminate; injection E as <- <-; (split; [lia|]); intros x c up' es' F Ec; cbn in F;
      repeat (match type of F with context [list_eq_dec Z.eq_dec ?a ?b] => destruct (list_eq_dec Z.eq_dec a b) end); try discriminate; injection F as <-; cbn in Ec; try discriminate; lia.
Qed.
Lemma rename_dir_false : exists fs cwd me newname n fs' i up es, sound fs /\ bounded fs 2 /\ me = file_path me /\ lstat 40 fs cwd me = Found i /\ fs i = Some (NDir up es) /\
  rename_any 2 40 fs cwd me newname = (n, Some fs') /\ lstat 40 fs' cwd n = Missing.
Proof.
  exists ex_mv, 0%nat, [47; 97; 47; 108; 47; 97], [122]. do 2 eexists. exists 1%nat. do 2 eexists. destruct ex_mv_sound as [A B]. split; [exact A|]. split; [exact B|].
  split; [reflexivity|]. split; [vm_compute; reflexivity|]. split; [reflexivity|]. split; [reflexivity|]. vm_compute; reflexivity.
Qed.
