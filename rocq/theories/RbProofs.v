(** The tree as a shape in the heap. *)
From Coq Require Import ZArith List Bool Lia ZifyBool Sorting.Sorted Permutation.
From Verif Require Import GoBase GoLists CmpModel RbModel RbSpec.
Import ListNotations.
Open Scope Z_scope.

Inductive shape := Lf | Nd (l : shape) (a : nat) (r : shape).
Fixpoint nodes (t : shape) : list nat := match t with Lf => [] | Nd l a r => nodes l ++ a :: nodes r end.
Definition top (t : shape) : ptr := match t with Lf => None | Nd _ a _ => Some a end.
Fixpoint rep (h : nat -> rnode) (par : nat) (t : shape) : Prop :=
  match t with
  | Lf => True
  | Nd l a r => rn_parent (h a) = Some par /\ rn_left (h a) = top l /\ rn_right (h a) = top r /\ rep h a l /\ rep h a r
  end.
(** Children are younger than their parents. *)
Fixpoint aged (t : shape) : Prop :=
  match t with
  | Lf => True
  | Nd l a r => (forall x, In x (nodes l) \/ In x (nodes r) -> (a < x)%nat) /\ aged l /\ aged r
  end.
Lemma top_in t a : top t = Some a -> In a (nodes t).
Proof. destruct t; cbn; intros E; [discriminate|]. injection E as ->. apply in_or_app. right. now left. Qed.
Lemma top_none t : top t = None -> t = Lf.
Proof. destruct t; [auto|discriminate]. Qed.

Definition same_links (n m : rnode) : Prop := rn_left n = rn_left m /\ rn_right n = rn_right m /\ rn_parent n = rn_parent m.
Lemma rep_ext h h' t : forall par, (forall a, In a (nodes t) -> same_links (h' a) (h a)) -> rep h par t -> rep h' par t.
Proof.
  induction t as [|l IHl a r IHr]; intros par H R; cbn [rep nodes] in *; [auto|].
  destruct R as (P & L & Q & Rl & Rr). destruct (H a) as (E1 & E2 & E3); [apply in_or_app; right; now left|].
  rewrite E1, E2, E3. repeat split; auto.
  - apply IHl; auto. intros b Hb. apply H. apply in_or_app. now left.
  - apply IHr; auto. intros b Hb. apply H. apply in_or_app. right. now right.
Qed.
(** The root of a tree can be moved to another parent. *)
Lemma rep_root h h' l a r par : rep h par (Nd l a r) -> rn_left (h' a) = rn_left (h a) -> rn_right (h' a) = rn_right (h a) ->
  (forall b, In b (nodes l) \/ In b (nodes r) -> same_links (h' b) (h b)) -> forall par', rn_parent (h' a) = Some par' -> rep h' par' (Nd l a r).
Proof.
  intros (P & L & Q & Rl & Rr) E1 E2 H par' E3. cbn [rep]. rewrite E1, E2, E3. repeat split; auto; eapply rep_ext; eauto.
Qed.

Definition last_error {A} (l : list A) : option A := hd_error (rev l).
Lemma hd_error_app {A} (l m : list A) : hd_error (l ++ m) = match hd_error l with Some x => Some x | None => hd_error m end.
Proof. destruct l; reflexivity. Qed.
Lemma last_error_app {A} (l m : list A) : last_error (l ++ m) = match last_error m with Some x => Some x | None => last_error l end.
Proof. unfold last_error. now rewrite rev_app_distr, hd_error_app. Qed.
Lemma last_error_cons {A} (x : A) l : last_error (x :: l) = match last_error l with Some y => Some y | None => Some x end.
Proof. change (x :: l) with ([x] ++ l). rewrite last_error_app. reflexivity. Qed.
Lemma last_error_snoc {A} (x : A) l : last_error (l ++ [x]) = Some x.
Proof. now rewrite last_error_app. Qed.
Lemma last_error_in {A} (l : list A) x : last_error l = Some x -> exists m, l = m ++ [x].
Proof.
  unfold last_error. destruct (rev l) as [|y r] eqn:E; [discriminate|]. cbn. intros Q. injection Q as ->.
  exists (rev r). rewrite <- (rev_involutive l), E. reflexivity.
Qed.
Lemma last_error_none {A} (l : list A) : last_error l = None -> l = [].
Proof. unfold last_error. destruct (rev l) eqn:E; [|discriminate]. intros _. rewrite <- (rev_involutive l), E. reflexivity. Qed.

Lemma top_left_spec h : forall t par a, rep h par t -> top t = Some a -> forall fuel, (length (nodes t) <= fuel)%nat -> exists b, top_left fuel h a = Ok b /\ hd_error (nodes t) = Some b.
Proof.
  induction t as [|l IHl a r IHr]; intros par x R E fuel F; [discriminate|]. cbn in E. injection E as <-.
  cbn [rep nodes] in *. destruct R as (P & L & Q & Rl & Rr). destruct l as [|l1 b l2].
  - destruct fuel; cbn [top_left]; rewrite L; cbn; eauto.
  - destruct fuel as [|f]; [rewrite app_length in F; cbn in F; lia|]. cbn [top_left]. rewrite L. cbn [top].
    destruct (IHl a b Rl eq_refl f) as (c & Hc & E); [rewrite app_length in F; cbn [length] in F; lia|].
    exists c. split; auto. now rewrite hd_error_app, E.
Qed.
Lemma top_right_spec h : forall t par a, rep h par t -> top t = Some a -> forall fuel, (length (nodes t) <= fuel)%nat -> exists b, top_right fuel h a = Ok b /\ last_error (nodes t) = Some b.
Proof.
  induction t as [|l IHl a r IHr]; intros par x R E fuel F; [discriminate|]. cbn in E. injection E as <-.
  cbn [rep nodes] in *. destruct R as (P & L & Q & Rl & Rr). destruct r as [|r1 b r2].
  - destruct fuel; cbn [top_right]; rewrite Q; cbn; rewrite last_error_snoc; eauto.
  - destruct fuel as [|f]; [rewrite app_length in F; cbn in F; lia|]. cbn [top_right]. rewrite Q. cbn [top].
    destruct (IHr a b Rr eq_refl f) as (c & Hc & E); [rewrite app_length in F; cbn [length] in F; lia|].
    exists c. split; auto. now rewrite last_error_app, last_error_cons, E.
Qed.

(** Climbing inside a tree: from a node without right child the loop of next ends
    at the next node, or comes out at the top. *)
Lemma peqb_eq p q : peqb p q = true <-> p = q.
Proof. destruct p, q; cbn; split; intros E; try discriminate; try congruence; [apply Nat.eqb_eq in E; congruence|injection E as ->; apply Nat.eqb_refl]. Qed.
Lemma peqb_ne p q : p <> q -> peqb p q = false.
Proof. intros N. destruct (peqb p q) eqn:E; auto. apply peqb_eq in E. contradiction. Qed.
Lemma peqb_refl p : peqb p p = true.
Proof. now apply peqb_eq. Qed.
Lemma nodup_mid {A} (l r : list A) a : NoDup (l ++ a :: r) -> NoDup l /\ NoDup r /\ ~ In a l /\ ~ In a r /\ forall x, In x l -> ~ In x r.
Proof.
  intros H. pose proof (NoDup_remove_1 _ _ _ H) as H1. pose proof (NoDup_remove_2 _ _ _ H) as H2.
  assert (N1 : ~ In a l) by (intros Q; apply H2, in_or_app; auto). assert (N2 : ~ In a r) by (intros Q; apply H2, in_or_app; auto).
  clear H H2. induction l as [|x l IH]; cbn in *; [repeat split; auto; constructor|].
  inversion H1 as [|? ? H3 H4]; subst. destruct IH as (I1 & I2 & I3 & I4 & I5); auto.
  repeat split; auto.
  - constructor; auto. intros Q. apply H3. apply in_or_app. auto.
  - intros y [->|Hy]; auto. intros Q. apply H3. apply in_or_app. auto.
Qed.

Inductive adjacent {A} : list A -> A -> A -> Prop := adj l a b r : adjacent (l ++ a :: b :: r) a b.
Lemma adjacent_l {A} (l m : list A) a b : adjacent l a b -> adjacent (l ++ m) a b.
Proof. intros [l0 a0 b0 r]. rewrite <- app_assoc. cbn. constructor. Qed.
Lemma adjacent_r {A} (l m : list A) a b : adjacent m a b -> adjacent (l ++ m) a b.
Proof. intros [l0 a0 b0 r]. rewrite app_assoc. constructor. Qed.
Lemma adjacent_cons {A} x (l : list A) a b : adjacent l a b -> adjacent (x :: l) a b.
Proof. apply (adjacent_r [x]). Qed.
Lemma adjacent_cut {A} (l r : list A) a b : last_error l = Some a -> adjacent (l ++ b :: r) a b.
Proof. intros E. apply last_error_in in E as [m ->]. rewrite <- app_assoc. cbn. constructor. Qed.
Lemma adjacent_join {A} (l r : list A) a b : hd_error r = Some b -> adjacent (l ++ a :: r) a b.
Proof. destruct r; [discriminate|]. cbn. intros E. injection E as ->. constructor. Qed.

Lemma climb_right_spec h : forall t par a, rep h par t -> NoDup (nodes t) -> ~ In par (nodes t) -> In a (nodes t) -> rn_right (h a) = None ->
  exists k : nat, (k < length (nodes t))%nat /\
  ((exists x b, adjacent (nodes t) a b /\ In x (nodes t) /\ rn_left (h b) = Some x /\ rn_parent (h x) = Some b /\ (rn_right (h x) <> Some b) /\
      forall fuel, climb_right (k + fuel) h a (rn_parent (h a)) = Ok (x, b)) \/
   (exists x, last_error (nodes t) = Some a /\ top t = Some x /\ forall fuel, climb_right (k + fuel) h a (rn_parent (h a)) = climb_right fuel h x (Some par))).
Proof.
  induction t as [|l IHl c r IHr]; intros par a R N NP I Z; [destruct I|].
  cbn [rep nodes] in *. destruct R as (P & L & Q & Rl & Rr). apply nodup_mid in N as (Nl & Nr & Cl & Cr & D).
  rewrite app_length. cbn [length]. apply in_app_or in I as [I|[->|I]].
  - destruct (IHl c a Rl Nl Cl I Z) as (k & Hk & [(x & b & A & Ix & B1 & B2 & B3 & F)|(x & E & T & F)]).
    + exists k. split; [lia|]. left. exists x, b. repeat split; auto; [now apply adjacent_l|apply in_or_app; auto].
    + exists k. split; [lia|]. left. exists x, c. pose proof (top_in _ _ T) as Tx. repeat split; auto.
      * now apply adjacent_cut.
      * apply in_or_app. auto.
      * congruence.
      * destruct l as [|l1 y l2]; [discriminate|]. cbn in T. injection T as <-. apply Rl.
      * intros B. destruct l as [|l1 y l2]; [discriminate|]. cbn in T. injection T as <-. destruct Rl as (_ & _ & Q2 & _ & _).
        rewrite Q2 in B. apply Cl. cbn. apply in_or_app. right. right. now apply top_in.
      * intros fuel. rewrite F. destruct fuel; cbn [climb_right]; rewrite peqb_ne; auto; rewrite Q; intros Q'; apply (D x); auto; apply top_in; auto.
  - exists 0%nat. split; [lia|]. right. exists a. rewrite Q in Z. apply top_none in Z as ->. cbn [nodes top]. rewrite last_error_snoc.
    repeat split; auto. intros fuel. cbn [Nat.add]. now rewrite P.
  - destruct (IHr c a Rr Nr Cr I Z) as (k & Hk & [(x & b & A & Ix & B1 & B2 & B3 & F)|(x & E & T & F)]).
    + exists k. split; [lia|]. left. exists x, b. repeat split; auto; [apply adjacent_r; now apply adjacent_cons|apply in_or_app; right; now right].
    + exists (S k). split; [lia|]. right. exists c. repeat split; auto.
      * now rewrite last_error_app, last_error_cons, E.
      * intros fuel. replace (S k + fuel)%nat with (k + S fuel)%nat by lia. rewrite F. cbn [climb_right]. rewrite Q, T, peqb_refl, P. reflexivity.
Qed.
Lemma climb_left_spec h : forall t par a, rep h par t -> NoDup (nodes t) -> ~ In par (nodes t) -> In a (nodes t) -> rn_left (h a) = None ->
  exists k : nat, (k < length (nodes t))%nat /\
  ((exists x b, adjacent (nodes t) b a /\ forall fuel, climb_left (k + fuel) h a (rn_parent (h a)) = Ok (x, b)) \/
   (exists x, hd_error (nodes t) = Some a /\ top t = Some x /\ forall fuel, climb_left (k + fuel) h a (rn_parent (h a)) = climb_left fuel h x (Some par))).
Proof.
  induction t as [|l IHl c r IHr]; intros par a R N NP I Z; [destruct I|].
  cbn [rep nodes] in *. destruct R as (P & L & Q & Rl & Rr). apply nodup_mid in N as (Nl & Nr & Cl & Cr & D).
  rewrite app_length. cbn [length]. apply in_app_or in I as [I|[->|I]].
  - destruct (IHl c a Rl Nl Cl I Z) as (k & Hk & [(x & b & A & F)|(x & E & T & F)]).
    + exists k. split; [lia|]. left. exists x, b. repeat split; auto; now apply adjacent_l.
    + exists (S k). split; [lia|]. right. exists c. repeat split; auto.
      * now rewrite hd_error_app, E.
      * intros fuel. replace (S k + fuel)%nat with (k + S fuel)%nat by lia. rewrite F. cbn [climb_left]. rewrite L, T, peqb_refl, P. reflexivity.
  - exists 0%nat. split; [lia|]. right. exists a. rewrite L in Z. apply top_none in Z as ->. cbn [nodes top app hd_error].
    repeat split; auto. intros fuel. cbn [Nat.add]. now rewrite P.
  - destruct (IHr c a Rr Nr Cr I Z) as (k & Hk & [(x & b & A & F)|(x & E & T & F)]).
    + exists k. split; [lia|]. left. exists x, b. repeat split; auto. apply adjacent_r; now apply adjacent_cons.
    + exists k. split; [lia|]. left. exists x, c. pose proof (top_in _ _ T) as Tx. repeat split; auto.
      * now apply adjacent_join.
      * intros fuel. rewrite F. destruct fuel; cbn [climb_left]; rewrite peqb_ne; auto; rewrite L; intros Q'; apply (D x); auto; apply top_in; auto.
Qed.

(** Sorted keys along the nodes. *)
Definition key_le (h : nat -> rnode) (a b : nat) : Prop := rn_key (h a) <= rn_key (h b).
Definition in_order (h : nat -> rnode) (l : list nat) : Prop := StronglySorted (key_le h) l.
Lemma sorted_mid {A} (R : A -> A -> Prop) (l r : list A) a : StronglySorted R (l ++ a :: r) ->
  StronglySorted R l /\ StronglySorted R r /\ (forall x, In x l -> R x a) /\ (forall x, In x r -> R a x).
Proof.
  induction l as [|y l IH]; cbn; intros H; inversion H as [|? ? H1 H2]; subst.
  - rewrite Forall_forall in H2. repeat split; auto; [constructor|intros x []].
  - destruct (IH H1) as (I1 & I2 & I3 & I4). rewrite Forall_app in H2. destruct H2 as [H2 H3]. apply Forall_cons_iff in H3 as [H3 H4].
    repeat split; auto; [constructor; auto|]. intros x [->|Hx]; auto.
Qed.
Lemma sorted_app {A} (R : A -> A -> Prop) (l r : list A) : StronglySorted R l -> StronglySorted R r -> (forall x y, In x l -> In y r -> R x y) -> StronglySorted R (l ++ r).
Proof.
  induction l as [|x l IH]; cbn; intros H1 H2 H3; auto. inversion H1 as [|? ? H4 H5]; subst. constructor.
  - apply IH; auto.
  - apply Forall_app. split; auto. apply Forall_forall. auto.
Qed.

(** A node hung below [b] on the side [left]. *)
Definition hung (h h' : nat -> rnode) (t : shape) (b z : nat) (left : bool) : Prop :=
  (forall a, In a (nodes t) -> a <> b -> same_links (h' a) (h a)) /\
  rn_parent (h' b) = rn_parent (h b) /\
  (if left then rn_left (h' b) = Some z /\ rn_right (h' b) = rn_right (h b) else rn_left (h' b) = rn_left (h b) /\ rn_right (h' b) = Some z) /\
  rn_parent (h' z) = Some b /\ rn_left (h' z) = None /\ rn_right (h' z) = None.

Lemma cmp0 a b : cmp_F 0 a b = (a <? b).
Proof. reflexivity. Qed.
Lemma descend_spec h k z : forall t par y c fuel, rep h par t -> NoDup (nodes t) -> in_order h (nodes t) -> ~ In z (nodes t) ->
  (length (nodes t) <= fuel)%nat ->
  (t = Lf /\ descend fuel h 0 k (top t) y c = Ok (y, c)) \/
  exists b left xs ys, descend fuel h 0 k (top t) y c = Ok (b, left) /\ left = (k <? rn_key (h b)) /\ In b (nodes t) /\ nodes t = xs ++ ys /\
    (forall x, In x xs -> rn_key (h x) <= k) /\ (forall x, In x ys -> k < rn_key (h x)) /\
    (if left : bool then rn_left (h b) = None /\ hd_error ys = Some b else rn_right (h b) = None /\ last_error xs = Some b) /\
    (aged t -> if left : bool then forall p, last_error xs = Some p -> (p < b)%nat else forall q, hd_error ys = Some q -> (q < b)%nat) /\
    (forall h', hung h h' t b z left -> exists t', t' <> Lf /\ top t' = top t /\ rep h' par t' /\ nodes t' = xs ++ z :: ys /\
       (aged t -> (forall x, In x (nodes t) -> (x < z)%nat) -> aged t')).
Proof.
  induction t as [|l IHl a r IHr]; intros par y c fuel R N S Z F; [left; split; auto; destruct fuel; reflexivity|right].
  cbn [rep nodes] in *. destruct R as (P & L & Q & Rl & Rr). pose proof (nodup_mid _ _ _ N) as (Nl & Nr & Cl & Cr & D).
  apply sorted_mid in S as (Sl & Sr & Al & Ar). rewrite app_length in F. cbn [length] in F. destruct fuel as [|f]; [lia|].
  cbn [descend top]. rewrite cmp0, L, Q.
  assert (Zl : ~ In z (nodes l)) by (intros I; apply Z, in_or_app; auto). assert (Zr : ~ In z (nodes r)) by (intros I; apply Z, in_or_app; right; now right).
  assert (Za : a <> z) by (intros ->; apply Z, in_or_app; right; now left).
  destruct (k <? rn_key (h a)) eqn:K.
  - destruct (IHl a a true f Rl Nl Sl Zl) as [(-> & E)|(b & lf & xs & ys & E & El & Ib & En & Hx & Hy & Hb & Hg & Hh)]; [lia| |].
    + exists a, true, [], (a :: nodes r). rewrite E. cbn [nodes app hd_error top] in *. repeat split; auto.
      * now left.
      * intros x [].
      * intros x [->|Ix]; [lia|]. specialize (Ar x Ix). unfold key_le in Ar. lia.
      * intros _ p Ep. discriminate.
      * intros h' (H1 & H2 & (H3 & H4) & H5 & H6 & H7). exists (Nd (Nd Lf z Lf) a r). split; [discriminate|]. cbn [top nodes app rep].
        split; [reflexivity|]. split; [repeat split; auto; try congruence|split; [reflexivity|]].
        -- eapply rep_ext; [|exact Rr]. intros b Hb. apply H1; [now right|]. intros ->. contradiction.
        -- intros (A1 & A2 & A3) Y. cbn [aged nodes app In]. split; [|repeat split; auto; intros x [[]|[]]].
           intros x [[<-|[]]|Ix]; [apply Y; now left|apply A1; now right].
    + exists b, lf, xs, (ys ++ a :: nodes r). rewrite E. repeat split; auto.
      * apply in_or_app. auto.
      * now rewrite En, <- app_assoc.
      * intros x Ix. apply in_app_or in Ix as [Ix|[->|Ix]]; auto; [lia|]. specialize (Ar x Ix). unfold key_le in Ar. lia.
      * destruct lf; destruct Hb as [B1 B2]; split; auto. now rewrite hd_error_app, B2.
      * intros (A1 & A2 & A3). specialize (Hg A2). destruct lf; auto. intros q. rewrite hd_error_app. destruct (hd_error ys); auto. intros Eq. injection Eq as <-. apply A1. now left.
      * intros h' (H1 & H2 & H3 & H4). assert (Nab : a <> b) by (intros ->; contradiction).
        destruct (H1 a ltac:(apply in_or_app; right; now left) Nab) as (E1 & E2 & E3).
        destruct (Hh h') as (t' & T0 & T1 & T2 & T3 & T4).
        { repeat split; auto; try tauto. all: apply H1; auto; apply in_or_app; auto. }
        exists (Nd t' a r). cbn [top nodes rep]. split; [discriminate|]. split; [reflexivity|].
        split; [split; [congruence|]; split; [congruence|]; split; [congruence|]; split|].
        -- exact T2.
        -- eapply rep_ext; [|exact Rr]. intros x Ix. apply H1; [apply in_or_app; right; now right|]. intros ->. exact (D b Ib Ix).
        -- split; [rewrite T3, <- app_assoc; reflexivity|]. intros (A1 & A2 & A3) Y. cbn [aged]. split; [|split; auto; apply T4; auto; intros x Ix; apply Y, in_or_app; auto].
           rewrite T3. intros x [Ix|Ix]; [|apply A1; auto]. apply in_app_or in Ix as [Ix|[<-|Ix]].
           ++ apply A1. left. rewrite En. apply in_or_app. auto.
           ++ apply Y, in_or_app. right. now left.
           ++ apply A1. left. rewrite En. apply in_or_app. auto.
  - destruct (IHr a a false f Rr Nr Sr Zr) as [(-> & E)|(b & lf & xs & ys & E & El & Ib & En & Hx & Hy & Hb & Hg & Hh)]; [lia| |].
    + exists a, false, (nodes l ++ [a]), []. rewrite E. cbn [nodes app hd_error top] in *. rewrite last_error_snoc, app_nil_r. repeat split; auto.
      * apply in_or_app. right. now left.
      * intros x Ix. apply in_app_or in Ix as [Ix|[->|[]]]; [|lia]. specialize (Al x Ix). unfold key_le in Al. lia.
      * intros x [].
      * intros _ p Ep. discriminate.
      * intros h' (H1 & H2 & (H3 & H4) & H5 & H6 & H7). exists (Nd l a (Nd Lf z Lf)). split; [discriminate|]. cbn [top nodes app rep]. rewrite <- app_assoc.
        split; [reflexivity|]. split; [repeat split; auto; try congruence|split; [reflexivity|]].
        -- eapply rep_ext; [|exact Rl]. intros b Hb. apply H1; [apply in_or_app; auto|]. intros ->. contradiction.
        -- intros (A1 & A2 & A3) Y. cbn [aged nodes app In]. split; [|repeat split; auto; intros x [[]|[]]].
           intros x [Ix|[<-|[]]]; [apply A1; now left|apply Y, in_or_app; right; now left].
    + exists b, lf, (nodes l ++ a :: xs), ys. rewrite E. repeat split; auto.
      * apply in_or_app. right. now right.
      * now rewrite En, <- app_assoc.
      * intros x Ix. apply in_app_or in Ix as [Ix|[->|Ix]]; auto; [|lia]. specialize (Al x Ix). unfold key_le in Al. lia.
      * destruct lf; destruct Hb as [B1 B2]; split; auto. now rewrite last_error_app, last_error_cons, B2.
      * intros (A1 & A2 & A3). specialize (Hg A3). destruct lf; auto. intros q. rewrite last_error_app, last_error_cons. destruct (last_error xs); auto. intros Eq. injection Eq as <-. apply A1. now right.
      * intros h' (H1 & H2 & H3 & H4). assert (Nab : a <> b) by (intros ->; contradiction).
        destruct (H1 a ltac:(apply in_or_app; right; now left) Nab) as (E1 & E2 & E3).
        destruct (Hh h') as (t' & T0 & T1 & T2 & T3 & T4).
        { repeat split; auto; try tauto. all: apply H1; auto; apply in_or_app; right; now right. }
        exists (Nd l a t'). cbn [top nodes rep]. split; [discriminate|]. split; [reflexivity|].
        split; [split; [congruence|]; split; [congruence|]; split; [congruence|]; split|].
        -- eapply rep_ext; [|exact Rl]. intros x Ix. apply H1; [apply in_or_app; auto|]. intros ->. exact (D b Ix Ib).
        -- exact T2.
        -- split; [rewrite T3, <- app_assoc; reflexivity|]. intros (A1 & A2 & A3) Y. cbn [aged]. split; [|split; auto; apply T4; auto; intros x Ix; apply Y, in_or_app; right; now right].
           rewrite T3. intros x [Ix|Ix]; [apply A1; auto|]. apply in_app_or in Ix as [Ix|[<-|Ix]].
           ++ apply A1. right. rewrite En. apply in_or_app. auto.
           ++ apply Y, in_or_app. right. now left.
           ++ apply A1. right. rewrite En. apply in_or_app. auto.
Qed.

(** The first node whose key is not below [k], among those given. *)
Definition ge_key (h : nat -> rnode) (k : Z) (a : nat) : bool := negb (rn_key (h a) <? k).
Lemma find_app' {A} (x : A -> bool) l m : find x (l ++ m) = match find x l with Some b => Some b | None => find x m end.
Proof. induction l as [|b q IH]; cbn; auto. destruct (x b); auto. Qed.
Lemma find_spec_gen h k : forall t par y c fuel, rep h par t -> in_order h (nodes t) -> (length (nodes t) <= fuel)%nat ->
  exists c', find_loop fuel h 0 k (top t) y c = Ok (match find (ge_key h k) (nodes t) with Some a => Some a | None => y end, c').
Proof.
  induction t as [|l IHl a r IHr]; intros par y c fuel R S F; [exists c; destruct fuel; reflexivity|].
  cbn [rep nodes] in *. destruct R as (P & L & Q & Rl & Rr). apply sorted_mid in S as (Sl & Sr & Al & Ar).
  rewrite app_length in F. cbn [length] in F. destruct fuel as [|f]; [lia|]. cbn [find_loop top]. rewrite cmp0, L, Q.
  rewrite find_app'. cbn [find]. unfold ge_key at 2. destruct (rn_key (h a) <? k) eqn:K; cbn [negb].
  - destruct (IHr a y (c + 1) f Rr Sr ltac:(lia)) as [c' ->]. exists c'. f_equal. f_equal.
    replace (find (ge_key h k) (nodes l)) with (@None nat); auto.
    symmetry. destruct (find (ge_key h k) (nodes l)) as [b|] eqn:E; auto. apply find_some in E as [Ib E]. specialize (Al b Ib). unfold key_le, ge_key in *. lia.
  - destruct (IHl a (Some a) (c + 1) f Rl Sl ltac:(lia)) as [c' ->]. exists c'. now destruct (find (ge_key h k) (nodes l)).
Qed.

(** Reading fields after an assignment. *)
Lemma key_set_left h a p b : rn_key (set_left h a p b) = rn_key (h b).
Proof. unfold set_left, hset. destruct (Nat.eqb_spec b a) as [->|]; reflexivity. Qed.
Lemma val_set_left h a p b : rn_val (set_left h a p b) = rn_val (h b).
Proof. unfold set_left, hset. destruct (Nat.eqb_spec b a) as [->|]; reflexivity. Qed.
Lemma left_set_left h a p b : rn_left (set_left h a p b) = if Nat.eqb b a then p else rn_left (h b).
Proof. unfold set_left, hset. now destruct (Nat.eqb b a). Qed.
Lemma right_set_left h a p b : rn_right (set_left h a p b) = rn_right (h b).
Proof. unfold set_left, hset. destruct (Nat.eqb_spec b a) as [->|]; reflexivity. Qed.
Lemma parent_set_left h a p b : rn_parent (set_left h a p b) = rn_parent (h b).
Proof. unfold set_left, hset. destruct (Nat.eqb_spec b a) as [->|]; reflexivity. Qed.
Lemma color_set_left h a p b : rn_color (set_left h a p b) = rn_color (h b).
Proof. unfold set_left, hset. destruct (Nat.eqb_spec b a) as [->|]; reflexivity. Qed.
Lemma key_set_right h a p b : rn_key (set_right h a p b) = rn_key (h b).
Proof. unfold set_right, hset. destruct (Nat.eqb_spec b a) as [->|]; reflexivity. Qed.
Lemma val_set_right h a p b : rn_val (set_right h a p b) = rn_val (h b).
Proof. unfold set_right, hset. destruct (Nat.eqb_spec b a) as [->|]; reflexivity. Qed.
Lemma left_set_right h a p b : rn_left (set_right h a p b) = rn_left (h b).
Proof. unfold set_right, hset. destruct (Nat.eqb_spec b a) as [->|]; reflexivity. Qed.
Lemma right_set_right h a p b : rn_right (set_right h a p b) = if Nat.eqb b a then p else rn_right (h b).
Proof. unfold set_right, hset. now destruct (Nat.eqb b a). Qed.
Lemma parent_set_right h a p b : rn_parent (set_right h a p b) = rn_parent (h b).
Proof. unfold set_right, hset. destruct (Nat.eqb_spec b a) as [->|]; reflexivity. Qed.
Lemma color_set_right h a p b : rn_color (set_right h a p b) = rn_color (h b).
Proof. unfold set_right, hset. destruct (Nat.eqb_spec b a) as [->|]; reflexivity. Qed.
Lemma key_set_parent h a p b : rn_key (set_parent h a p b) = rn_key (h b).
Proof. unfold set_parent, hset. destruct (Nat.eqb_spec b a) as [->|]; reflexivity. Qed.
Lemma val_set_parent h a p b : rn_val (set_parent h a p b) = rn_val (h b).
Proof. unfold set_parent, hset. destruct (Nat.eqb_spec b a) as [->|]; reflexivity. Qed.
Lemma left_set_parent h a p b : rn_left (set_parent h a p b) = rn_left (h b).
Proof. unfold set_parent, hset. destruct (Nat.eqb_spec b a) as [->|]; reflexivity. Qed.
Lemma right_set_parent h a p b : rn_right (set_parent h a p b) = rn_right (h b).
Proof. unfold set_parent, hset. destruct (Nat.eqb_spec b a) as [->|]; reflexivity. Qed.
Lemma parent_set_parent h a p b : rn_parent (set_parent h a p b) = if Nat.eqb b a then p else rn_parent (h b).
Proof. unfold set_parent, hset. now destruct (Nat.eqb b a). Qed.
Lemma color_set_parent h a p b : rn_color (set_parent h a p b) = rn_color (h b).
Proof. unfold set_parent, hset. destruct (Nat.eqb_spec b a) as [->|]; reflexivity. Qed.
Lemma key_set_color h a p b : rn_key (set_color h a p b) = rn_key (h b).
Proof. unfold set_color, hset. destruct (Nat.eqb_spec b a) as [->|]; reflexivity. Qed.
Lemma val_set_color h a p b : rn_val (set_color h a p b) = rn_val (h b).
Proof. unfold set_color, hset. destruct (Nat.eqb_spec b a) as [->|]; reflexivity. Qed.
Lemma left_set_color h a p b : rn_left (set_color h a p b) = rn_left (h b).
Proof. unfold set_color, hset. destruct (Nat.eqb_spec b a) as [->|]; reflexivity. Qed.
Lemma right_set_color h a p b : rn_right (set_color h a p b) = rn_right (h b).
Proof. unfold set_color, hset. destruct (Nat.eqb_spec b a) as [->|]; reflexivity. Qed.
Lemma parent_set_color h a p b : rn_parent (set_color h a p b) = rn_parent (h b).
Proof. unfold set_color, hset. destruct (Nat.eqb_spec b a) as [->|]; reflexivity. Qed.
Lemma color_set_color h a p b : rn_color (set_color h a p b) = if Nat.eqb b a then p else rn_color (h b).
Proof. unfold set_color, hset. now destruct (Nat.eqb b a). Qed.
Ltac rd := repeat first [rewrite key_set_left | rewrite val_set_left | rewrite left_set_left | rewrite right_set_left | rewrite parent_set_left | rewrite color_set_left | rewrite key_set_right | rewrite val_set_right | rewrite left_set_right | rewrite right_set_right | rewrite parent_set_right | rewrite color_set_right | rewrite key_set_parent | rewrite val_set_parent | rewrite left_set_parent | rewrite right_set_parent | rewrite parent_set_parent | rewrite color_set_parent | rewrite key_set_color | rewrite val_set_color | rewrite left_set_color | rewrite right_set_color | rewrite parent_set_color | rewrite color_set_color].
Lemma hset_same h a n : hset h a n a = n.
Proof. unfold hset. now rewrite Nat.eqb_refl. Qed.
Lemma hset_other h a n b : b <> a -> hset h a n b = h b.
Proof. intros N. unfold hset. destruct (Nat.eqb_spec b a); congruence. Qed.
(** What insert does to the heap. *)
Definition ent (h : nat -> rnode) (a : nat) : nat * Z * Z := (a, rn_key (h a), rn_val (h a)).
Ltac eqs := repeat match goal with |- context [Nat.eqb ?x ?y] => destruct (Nat.eqb_spec x y); try lia; try congruence end.
Lemma insert_first s k v z : z = rb_next s -> (0 < z)%nat -> let '(s', z') := rb_insert s None 0 k v in let h' := rb_heap s' in
  z' = z /\ rb_next s' = S z /\ rb_size s' = rb_size s + 1 /\ rb_cmp s' = rb_cmp s /\
  rn_left (h' 0%nat) = Some z /\ rn_right (h' 0%nat) = Some z /\ rn_parent (h' 0%nat) = Some z /\
  same_links (h' z) (RN k v None None (Some 0%nat) 0) /\ rn_key (h' z) = k /\ rn_val (h' z) = v.
Proof.
  intros -> Hz. unfold rb_insert. set (z := rb_next s) in *. cbn [Nat.eqb orb rb_next rb_size rb_cmp rb_heap].
  set (h0 := hset (rb_heap s) z (RN k v None None None 0)). assert (E : h0 z = RN k v None None None 0) by apply hset_same. clearbody h0.
  rd. eqs. cbn [peqb]. rewrite Nat.eqb_refl. unfold same_links. rd. rewrite E. cbn [rn_key rn_val rn_left rn_right rn_parent]. eqs. repeat split; auto.
Qed.
Lemma insert_below s k v z b : z = rb_next s -> (0 < b < z)%nat -> rb_cmp s = 0 -> let h := rb_heap s in let left := k <? rn_key (h b) in
  rn_parent (h 0%nat) <> Some z ->
  let '(s', z') := rb_insert s None b k v in let h' := rb_heap s' in
  z' = z /\ rb_next s' = S z /\ rb_size s' = rb_size s + 1 /\ rb_cmp s' = 0 /\
  rn_left (h' 0%nat) = (if left && peqb (Some b) (rn_left (h 0%nat)) then Some z else rn_left (h 0%nat)) /\
  rn_right (h' 0%nat) = (if negb left && peqb (Some b) (rn_right (h 0%nat)) then Some z else rn_right (h 0%nat)) /\
  rn_parent (h' 0%nat) = rn_parent (h 0%nat) /\
  rn_parent (h' b) = rn_parent (h b) /\
  rn_left (h' b) = (if left then Some z else rn_left (h b)) /\ rn_right (h' b) = (if left then rn_right (h b) else Some z) /\
  same_links (h' z) (RN k v None None (Some b) 0) /\ rn_key (h' z) = k /\ rn_val (h' z) = v /\
  (forall a, a <> 0%nat -> a <> b -> a <> z -> same_links (h' a) (h a)) /\
  (forall a, a <> z -> rn_key (h' a) = rn_key (h a) /\ rn_val (h' a) = rn_val (h a)).
Proof.
  intros -> Hb C h left R. unfold rb_insert. set (z := rb_next s) in *. rewrite C, cmp0. cbn [rb_next rb_size rb_cmp rb_heap]. change (negb (peqb None None)) with false. fold h.
  assert (Nat.eqb b 0 = false) as -> by eqs. cbn [orb].
  set (h0 := hset h z (RN k v None None None 0)). assert (Ez : h0 z = RN k v None None None 0) by apply hset_same.
  assert (E : forall a, a <> z -> h0 a = h a) by (intros; now apply hset_other). clearbody h0.
  rewrite (E b ltac:(lia)). fold left.
  assert (Q : forall a, a <> z -> rn_key (h0 a) = rn_key (h a) /\ rn_val (h0 a) = rn_val (h a)) by (intros; rewrite E; auto).
  pose proof (E 0%nat ltac:(lia)) as E0. pose proof (E b ltac:(lia)) as Eb. unfold same_links.
  destruct left.
  - assert (rn_left (set_left h0 b (Some z) 0%nat) = rn_left (h 0%nat)) as -> by (rd; eqs).
    destruct (peqb (Some b) (rn_left (h 0%nat)));
    cbn [andb negb]; match goal with |- context [if peqb ?p (Some z) then _ else _] => replace (peqb p (Some z)) with false by (symmetry; rd; eqs; rewrite E0; now apply peqb_ne) end;
    repeat split; intros; rd; rewrite ?E0, ?Eb, ?Ez; cbn [rn_key rn_val rn_left rn_right rn_parent]; eqs; auto; try (rewrite E by auto; auto; fail).
  - assert (rn_right (set_right h0 b (Some z) 0%nat) = rn_right (h 0%nat)) as -> by (rd; eqs).
    destruct (peqb (Some b) (rn_right (h 0%nat)));
    cbn [andb negb]; match goal with |- context [if peqb ?p (Some z) then _ else _] => replace (peqb p (Some z)) with false by (symmetry; rd; eqs; rewrite E0; now apply peqb_ne) end;
    repeat split; intros; rd; rewrite ?E0, ?Eb, ?Ez; cbn [rn_key rn_val rn_left rn_right rn_parent]; eqs; auto; try (rewrite E by auto; auto; fail).
Qed.

(** A tree in memory: the node right of the header is not needed. *)
Record good (s : rbt) (w : world) (t : shape) : Prop := {
  g_next : rb_next s = w_next w; g_pos : (0 < w_next w)%nat; g_cmp : rb_cmp s = 0; g_size : rb_size s = w_size w;
  g_top : rn_parent (rb_heap s 0%nat) = top t; g_rep : rep (rb_heap s) 0 t; g_nodup : NoDup (nodes t);
  g_range : forall a, In a (nodes t) -> (0 < a < w_next w)%nat;
  g_left : rn_left (rb_heap s 0%nat) = hd_error (nodes t);
  g_ents : w_list w = map (ent (rb_heap s)) (nodes t); g_order : in_order (rb_heap s) (nodes t) }.
(** As made by calls without rotations. *)
Definition rb_rel (s : rbt) (w : world) : Prop := exists t, good s w t /\ aged t.

Lemma nodes_len s w t : good s w t -> (length (nodes t) <= w_next w)%nat.
Proof.
  intros G. replace (w_next w) with (length (seq 0 (w_next w))) by apply seq_length. apply NoDup_incl_length; [apply (g_nodup _ _ _ G)|].
  intros a Ha. apply (g_range _ _ _ G) in Ha. apply in_seq. lia.
Qed.
Lemma put_at z k v (c : nat -> nat * Z * Z) xs ys : (forall x, In x xs -> e_key (c x) <= k) -> (forall y, In y ys -> k < e_key (c y)) ->
  put (z, k, v) (map c (xs ++ ys)) = map c xs ++ (z, k, v) :: map c ys.
Proof.
  intros Hx Hy. induction xs as [|x xs IH]; cbn [app map].
  - destruct ys as [|y ys]; cbn [map put]; auto. change (e_key (z, k, v)) with k.
    assert (k <? e_key (c y) = true) as -> by (specialize (Hy y (or_introl eq_refl)); lia). reflexivity.
  - cbn [put]. change (e_key (z, k, v)) with k.
    assert (k <? e_key (c x) = false) as -> by (specialize (Hx x (or_introl eq_refl)); lia). rewrite IH; auto. intros; apply Hx; now right.
Qed.
Lemma sorted_ext {A} (R R' : A -> A -> Prop) l : (forall a b, In a l -> In b l -> R a b -> R' a b) -> StronglySorted R l -> StronglySorted R' l.
Proof.
  induction l as [|x l IH]; intros H S; [constructor|]. inversion S as [|? ? S1 S2]; subst. constructor.
  - apply IH; auto. intros a b Ha Hb. apply H; now right.
  - rewrite Forall_forall in *. intros y Hy. apply H; [now left|now right|auto].
Qed.
Lemma sorted_split {A} (R : A -> A -> Prop) l r : StronglySorted R (l ++ r) -> StronglySorted R l /\ StronglySorted R r.
Proof.
  induction l as [|x l IH]; cbn; intros S; [split; auto; constructor|]. inversion S as [|? ? S1 S2]; subst. destruct (IH S1). split; auto.
  constructor; auto. now apply Forall_app in S2.
Qed.
(** The new node below [b]: it takes the place of the nodes [lost]. *)
Lemma insert_at s n sz l t k v b left xs lost ys : good s (W n sz l) t -> left = (k <? rn_key (rb_heap s b)) -> In b (nodes t) ->
  nodes t = xs ++ lost ++ ys -> (forall x, In x xs -> rn_key (rb_heap s x) <= k) -> (forall x, In x ys -> k < rn_key (rb_heap s x)) ->
  (if left : bool then lost = [] /\ hd_error ys = Some b else last_error xs = Some b) ->
  (forall h', hung (rb_heap s) h' t b n left -> exists t', t' <> Lf /\ top t' = top t /\ rep h' 0 t' /\ nodes t' = xs ++ n :: ys /\
     (aged t -> (forall x, In x (nodes t) -> (x < n)%nat) -> aged t')) ->
  exists s' t', rb_insert s None b k v = (s', n) /\
    good s' (W (S n) (sz + 1) (map (ent (rb_heap s)) xs ++ (n, k, v) :: map (ent (rb_heap s)) ys)) t' /\ (aged t -> aged t').
Proof.
  intros G El Ib En Hx Hy Hb Hh. pose proof (nodes_len _ _ _ G) as Len. destruct G as [Gn Gp Gc Gs Gt Gr Gd Gg Gl Ge Go].
  cbn [w_next w_size w_list] in *. assert (Fz : ~ In n (nodes t)) by (intros I; apply Gg in I; lia). pose proof (Gg b Ib) as Rb.
  pose proof (insert_below s k v n b (eq_sym Gn) Rb Gc) as Q. cbv zeta in Q. rewrite <- El in Q.
  destruct (rb_insert s None b k v) as [s' z'].
  destruct Q as (-> & Q1 & Q2 & Q3 & Q4 & Q5 & Q6 & Q7 & Q8 & Q9 & (Q10 & Q11 & Q12) & Q13 & Q14 & Q15 & Q16).
  { rewrite Gt. intros T. apply top_in in T. contradiction. }
  cbn [rn_left rn_right rn_parent] in *.
  destruct (Hh (rb_heap s')) as (t' & T0 & T1 & T2 & T3 & T4).
  { split; [|split; [|split; [|auto]]].
    - intros a Ha Hab. apply Q15; auto; apply Gg in Ha; lia.
    - auto.
    - destruct left; auto. }
  exists s', t'. split; auto. split; [|intros A; apply T4; auto; intros x Ix; apply Gg in Ix; lia].
  assert (Ix0 : forall x, In x xs -> In x (nodes t)) by (intros x Ix; rewrite En; apply in_or_app; auto).
  assert (Iy0 : forall x, In x ys -> In x (nodes t)) by (intros x Ix; rewrite En, !in_app_iff; auto).
  assert (Fx : forall x, In x xs -> x <> n) by (intros x Ix ->; auto).
  assert (Fy : forall x, In x ys -> x <> n) by (intros x Ix ->; auto).
  assert (Kx : forall x, In x (nodes t) -> rn_key (rb_heap s' x) = rn_key (rb_heap s x)).
  { intros x Ix. apply Q16. intros ->. contradiction. }
  assert (Nd : NoDup (xs ++ ys)).
  { rewrite En in Gd. clear -Gd. induction xs as [|x xs IH]; cbn in *; [induction lost; auto; inversion Gd; auto|].
    inversion Gd as [|? ? N1 N2]; subst. constructor; auto. rewrite !in_app_iff in *. tauto. }
  constructor; cbn [w_next w_size w_list]; auto; try lia.
  + congruence.
  + rewrite T3. apply (Permutation_NoDup (Permutation_middle xs ys n)). constructor; auto. rewrite in_app_iff. intros [I|I]; [apply (Fx n)|apply (Fy n)]; auto.
  + rewrite T3. intros a Ha. apply in_app_or in Ha as [Ha|[<-|Ha]]; try lia; [apply Ix0, Gg in Ha|apply Iy0, Gg in Ha]; lia.
  + rewrite Q4, T3, Gl, En. rewrite !hd_error_app. cbn [hd_error]. destruct left; cbn [andb].
    * destruct Hb as [-> Hb]. cbn [hd_error]. rewrite Hb. destruct xs as [|x xs]; cbn [hd_error].
      -- now rewrite peqb_refl.
      -- rewrite peqb_ne; auto. intros X. injection X as ->. cbn in Nd. inversion Nd as [|? ? N _]; subst. apply N. apply in_or_app. right. destruct ys; [discriminate|]. cbn in Hb. injection Hb as ->. now left.
    * destruct xs; [discriminate|]. reflexivity.
  + rewrite T3. rewrite map_app. cbn [map]. f_equal; [|f_equal].
    * apply map_ext_in. intros x Ix. unfold ent. destruct (Q16 x (Fx x Ix)) as [-> ->]. reflexivity.
    * unfold ent. congruence.
    * apply map_ext_in. intros x Ix. unfold ent. destruct (Q16 x (Fy x Ix)) as [-> ->]. reflexivity.
  + rewrite T3. rewrite En in Go. destruct (sorted_split _ _ _ Go) as [Sx Sy]. destruct (sorted_split _ _ _ Sy) as [_ Sy']. apply sorted_app.
    * eapply sorted_ext; [|exact Sx]. intros a c Ha Hc. unfold key_le. rewrite !Kx by auto. auto.
    * constructor.
      -- eapply sorted_ext; [|exact Sy']. intros a c Ha Hc. unfold key_le. rewrite !Kx by auto. auto.
      -- apply Forall_forall. intros y Iy. unfold key_le. rewrite Q13, Kx by auto. specialize (Hy y Iy). lia.
    * intros x y Ix [<-|Iy]; unfold key_le.
      -- rewrite Q13, Kx by auto. auto.
      -- rewrite !Kx by auto. specialize (Hx x Ix). specialize (Hy y Iy). lia.
Qed.
Lemma insert_equal_ok s n sz l t k v : good s (W n sz l) t -> exists s' t', insert_equal s k v = Ok (s', Some n) /\
  good s' (W (S n) (sz + 1) (put (n, k, v) l)) t' /\ (aged t -> aged t').
Proof.
  intros G. unfold insert_equal. pose proof (nodes_len _ _ _ G) as Len. pose proof G as G0. destruct G as [Gn Gp Gc Gs Gt Gr Gd Gg Gl Ge Go].
  cbn [w_next w_size w_list] in *. rewrite Gt, Gc. assert (Fz : ~ In n (nodes t)) by (intros I; apply Gg in I; lia).
  destruct (descend_spec (rb_heap s) k n t 0%nat 0%nat true (S (rb_next s)) Gr Gd Go Fz ltac:(lia))
    as [(-> & E)|(b & left & xs & ys & E & El & Ib & En & Hx & Hy & Hb & Hg & Hh)].
  - rewrite E. cbn [bind fst]. pose proof (insert_first s k v n (eq_sym Gn) Gp) as Q.
    destruct (rb_insert s None 0 k v) as [s' z']. cbv zeta in Q. destruct Q as (-> & Q1 & Q2 & Q3 & Q4 & Q5 & Q6 & (Q7 & Q8 & Q9) & Q10 & Q11).
    cbn [rn_left rn_right rn_parent] in *. exists s', (Nd Lf n Lf). split; auto. subst l. split; [|intros _; cbn; repeat split; auto; intros x [[]|[]]].
    cbn [nodes map put app length top hd_error last_error rev] in *. constructor; cbn; auto; try lia; try congruence; auto.
    + constructor; [intros []|constructor].
    + unfold ent. congruence.
    + repeat constructor.
  - rewrite E. cbn [bind fst]. destruct (insert_at s n sz l t k v b left xs [] ys G0 El Ib En Hx Hy) as (s' & t' & Ei & G' & A').
    + destruct left; tauto.
    + exact Hh.
    + rewrite Ei. exists s', t'. split; [reflexivity|split; auto]. rewrite Ge, En, put_at by auto. exact G'.
Qed.

(** The parts of the tree around a node. *)
Lemma sub_at h a : forall t par, rep h par t -> In a (nodes t) -> exists l r pre post,
  nodes t = pre ++ nodes l ++ a :: nodes r ++ post /\ rn_left (h a) = top l /\ rn_right (h a) = top r /\ rep h a l /\ rep h a r.
Proof.
  induction t as [|l IHl c r IHr]; intros par R I; [destruct I|]. cbn [rep nodes] in *. destruct R as (P & L & Q & Rl & Rr).
  apply in_app_or in I as [I|[->|I]].
  - destruct (IHl c Rl I) as (l' & r' & pre & post & E & H). exists l', r', pre, (post ++ c :: nodes r). split; auto.
    rewrite E, <- !app_assoc. cbn [app]. now rewrite <- app_assoc.
  - exists l, r, [], []. rewrite app_nil_r. auto.
  - destruct (IHr c Rr I) as (l' & r' & pre & post & E & H). exists l', r', (nodes l ++ c :: pre), post. split; auto.
    rewrite E, <- !app_assoc. reflexivity.
Qed.
Lemma parent_ne h a : forall t par, rep h par t -> NoDup (nodes t) -> ~ In par (nodes t) -> In a (nodes t) -> rn_parent (h a) <> Some a.
Proof.
  induction t as [|l IHl c r IHr]; intros par R N NP I; [destruct I|]. cbn [rep nodes] in *. destruct R as (P & L & Q & Rl & Rr).
  apply nodup_mid in N as (Nl & Nr & Cl & Cr & D). apply in_app_or in I as [I|[->|I]].
  - eapply IHl; eauto.
  - rewrite P. intros E. injection E as ->. apply NP, in_or_app. right. now left.
  - eapply IHr; eauto.
Qed.
Lemma adjacent_uniq {A} (l : list A) a b c : NoDup l -> adjacent l a b -> adjacent l a c -> b = c.
Proof.
  intros N H1 H2. destruct H1 as [p a b q]. remember (p ++ a :: b :: q) as m eqn:Em. destruct H2 as [p' a c q'].
  revert p' N Em. induction p as [|x p IH]; intros [|x' p'] N Em; cbn in Em.
  - congruence.
  - injection Em as -> E. cbn in N. inversion N as [|? ? N1 _]; subst. exfalso. apply N1. rewrite !in_app_iff. right. now left.
  - injection Em as -> E. cbn in N. rewrite E in N. inversion N as [|? ? N1 _]; subst. exfalso. apply N1. rewrite !in_app_iff. right. now left.
  - injection Em as -> E. cbn in N. inversion N; subst. eapply IH; eauto.
Qed.
Lemma adjacent_uniq' {A} (l : list A) a b c : NoDup l -> adjacent l b a -> adjacent l c a -> b = c.
Proof.
  intros N H1 H2. apply (adjacent_uniq (rev l) a).
  - now apply NoDup_rev.
  - destruct H1. rewrite rev_app_distr. cbn. rewrite <- !app_assoc. cbn. constructor.
  - destruct H2. rewrite rev_app_distr. cbn. rewrite <- !app_assoc. cbn. constructor.
Qed.
Lemma last_adjacent {A} (l : list A) a b : NoDup l -> last_error l = Some a -> ~ adjacent l a b.
Proof.
  intros N E H. destruct H as [p a b q]. apply last_error_in in E as [m E].
  assert (I : In a (b :: q)).
  { assert (L : last_error (p ++ a :: b :: q) = Some a) by (rewrite E; apply last_error_snoc).
    rewrite last_error_app, last_error_cons in L. destruct (last_error (b :: q)) as [x|] eqn:Q.
    - injection L as ->. apply last_error_in in Q as [m' ->]. apply in_or_app. right. now left.
    - apply last_error_none in Q. discriminate. }
  apply NoDup_remove_2 in N. apply N. apply in_or_app. auto.
Qed.
Lemma adjacent_in_l {A} (l : list A) a b : adjacent l a b -> In a l.
Proof. intros []. apply in_or_app. right. now left. Qed.
Lemma adjacent_in_r {A} (l : list A) a b : adjacent l a b -> In b l.
Proof. intros []. apply in_or_app. right. right. now left. Qed.

Lemma first_adjacent {A} (l : list A) a b : NoDup l -> hd_error l = Some a -> ~ adjacent l b a.
Proof.
  intros N E H. destruct H as [[|y p] b a q]; cbn in N, E; injection E as ->; inversion N as [|? ? N1 _]; subst; apply N1.
  - now left.
  - rewrite !in_app_iff. right. right. now left.
Qed.

Section Tree.
  Variables (s : rbt) (w : world) (t : shape).
  Hypothesis G : good s w t.
  Local Notation h := (rb_heap s).
  Local Notation fuel := (S (rb_next s)).
  Lemma Len : (length (nodes t) <= rb_next s)%nat. Proof. rewrite (g_next _ _ _ G). exact (nodes_len _ _ _ G). Qed.
  Lemma zero_out : ~ In 0%nat (nodes t). Proof. intros I. apply (g_range _ _ _ G) in I. lia. Qed.
  Lemma child_ne0 a : In a (nodes t) -> rn_right (h a) <> Some 0%nat /\ rn_left (h a) <> Some 0%nat.
  Proof.
    intros I. destruct (sub_at h a t 0%nat (g_rep _ _ _ G) I) as (l' & r' & pre & post & E & L & R & _ & _). rewrite L, R.
    split; intros T; apply top_in in T; apply zero_out; rewrite E, !in_app_iff; cbn [In]; rewrite ?in_app_iff; tauto.
  Qed.
  Lemma next_inner a b : adjacent (nodes t) a b -> rb_nextp fuel h (Some a) = Ok (Some b).
  Proof.
    intros A. pose proof (adjacent_in_l _ _ _ A) as Ia. cbn [rb_nextp]. destruct (rn_right (h a)) as [r|] eqn:R.
    - destruct (sub_at h a t 0%nat (g_rep _ _ _ G) Ia) as (l' & r' & pre & post & E & L & R' & _ & Rr). rewrite R in R'.
      destruct (top_left_spec h r' a r Rr (eq_sym R') fuel) as (c & -> & Hc).
      { pose proof Len as Le. rewrite E, !app_length in Le. cbn [length] in Le. rewrite app_length in Le. lia. }
      cbn [bind]. f_equal. f_equal. apply (adjacent_uniq (nodes t) a); auto; [apply (g_nodup _ _ _ G)|].
      rewrite E. apply adjacent_r, adjacent_r. destruct (nodes r') as [|x m]; [discriminate|]. injection Hc as ->. cbn. apply (adj [] a c).
    - destruct (climb_right_spec h t 0%nat a (g_rep _ _ _ G) (g_nodup _ _ _ G) zero_out Ia R) as (k & Hk & [(x & c & A' & Ix & B1 & B2 & B3 & F)|(x & E & T & F)]).
      + replace fuel with (k + (fuel - k))%nat by (pose proof Len; lia). rewrite F. cbn [bind]. rewrite peqb_ne by auto. cbn [negb]. f_equal. f_equal.
        exact (adjacent_uniq _ _ _ _ (g_nodup _ _ _ G) A' A).
      + exfalso. exact (last_adjacent _ _ _ (g_nodup _ _ _ G) E A).
  Qed.
  Lemma next_last a : last_error (nodes t) = Some a -> rb_nextp fuel h (Some a) = Ok (Some 0%nat).
  Proof.
    intros E. assert (Ia : In a (nodes t)) by (apply last_error_in in E as [m ->]; apply in_or_app; right; now left).
    cbn [rb_nextp]. destruct (rn_right (h a)) as [r|] eqn:R.
    - exfalso. destruct (sub_at h a t 0%nat (g_rep _ _ _ G) Ia) as (l' & r' & pre & post & E' & L & R' & _ & Rr). rewrite R in R'.
      destruct r' as [|r1 x r2]; [discriminate|]. destruct (hd_error (nodes (Nd r1 x r2))) as [c|] eqn:Hc.
      + apply (last_adjacent (nodes t) a c (g_nodup _ _ _ G) E). rewrite E'. apply adjacent_r, adjacent_r.
        destruct (nodes (Nd r1 x r2)) as [|x' m]; [discriminate|]. injection Hc as ->. cbn. apply (adj [] a c).
      + cbn in Hc. rewrite hd_error_app in Hc. destruct (hd_error (nodes r1)); discriminate.
    - destruct (climb_right_spec h t 0%nat a (g_rep _ _ _ G) (g_nodup _ _ _ G) zero_out Ia R) as (k & Hk & [(x & c & A' & Ix & B1 & B2 & B3 & F)|(x & E' & T & F)]).
      + exfalso. exact (last_adjacent _ _ _ (g_nodup _ _ _ G) E A').
      + assert (Fu : exists f, (fuel = k + S (S f))%nat) by (exists (fuel - k - 2)%nat; pose proof Len; lia). destruct Fu as [f ->]. rewrite F.
        pose proof (top_in _ _ T) as Ix. destruct (child_ne0 x Ix) as [Cx _].
        assert (Ht : rn_parent (h 0%nat) = Some x) by (rewrite (g_top _ _ _ G); auto).
        cbn [climb_right]. destruct (peqb (Some x) (rn_right (h 0%nat))) eqn:X.
        * apply peqb_eq in X. rewrite Ht. rewrite peqb_ne by auto. cbn [bind]. rewrite <- X, peqb_refl. reflexivity.
        * cbn [bind]. rewrite peqb_ne by auto. reflexivity.
  Qed.
  Lemma prev_inner a b : adjacent (nodes t) b a -> rb_prevp fuel h (Some a) = Ok (Some b).
  Proof.
    intros A. pose proof (adjacent_in_r _ _ _ A) as Ia. cbn [rb_prevp].
    rewrite (peqb_ne (rn_parent (h a)) (Some a)) by (apply (parent_ne h a t 0%nat (g_rep _ _ _ G) (g_nodup _ _ _ G) zero_out Ia)).
    rewrite andb_false_r. destruct (rn_left (h a)) as [r|] eqn:R.
    - destruct (sub_at h a t 0%nat (g_rep _ _ _ G) Ia) as (l' & r' & pre & post & E & L & R' & Rl & _). rewrite R in L.
      destruct (top_right_spec h l' a r Rl (eq_sym L) fuel) as (c & -> & Hc).
      { pose proof Len as Le. rewrite E, !app_length in Le. lia. }
      cbn [bind]. f_equal. f_equal. apply (adjacent_uniq' (nodes t) a); auto; [apply (g_nodup _ _ _ G)|].
      rewrite E. apply adjacent_r. now apply adjacent_cut.
    - destruct (climb_left_spec h t 0%nat a (g_rep _ _ _ G) (g_nodup _ _ _ G) zero_out Ia R) as (k & Hk & [(x & c & A' & F)|(x & E & T & F)]).
      + replace fuel with (k + (fuel - k))%nat by (pose proof Len; lia). rewrite F. cbn [bind snd]. f_equal. f_equal.
        exact (adjacent_uniq' _ _ _ _ (g_nodup _ _ _ G) A' A).
      + exfalso. exact (first_adjacent _ _ _ (g_nodup _ _ _ G) E A).
  Qed.
  Lemma walk_from : forall post pre a f, nodes t = pre ++ a :: post -> (length (a :: post) <= f)%nat -> walk f s (Some a) = Ok (map (ent h) (a :: post)).
  Proof.
    induction post as [|b post IH]; intros pre a f E F; cbn [length] in F; (destruct f as [|f]; [lia|]); cbn [walk].
    - rewrite peqb_ne by (intros X; injection X as ->; apply zero_out; rewrite E; apply in_or_app; right; now left).
      rewrite next_last by (rewrite E; apply last_error_snoc). cbn [bind]. destruct f; reflexivity.
    - rewrite peqb_ne by (intros X; injection X as ->; apply zero_out; rewrite E; apply in_or_app; right; now left).
      rewrite (next_inner a b) by (rewrite E; constructor). cbn [bind].
      rewrite (IH (pre ++ [a]) b f); [reflexivity|now rewrite <- app_assoc|cbn [length] in *; lia].
  Qed.
  Lemma walk_all : walk (rb_next s) s (rn_left (h 0%nat)) = match w_list w with [] => Panic | _ => Ok (w_list w) end.
  Proof.
    rewrite (g_left _ _ _ G), (g_ents _ _ _ G). destruct (nodes t) as [|a post] eqn:E.
    - cbn. destruct (rb_next s); reflexivity.
    - cbn [hd_error map]. rewrite (walk_from post [] a); auto. pose proof Len as Le. rewrite E in Le. exact Le.
  Qed.
  Lemma find_all k : exists c, rb_find s k = Ok (option_map (fun e => fst (fst e)) (find (fun e => e_key e =? k) (w_list w)), c).
  Proof.
    unfold rb_find. rewrite (g_cmp _ _ _ G). rewrite (g_top _ _ _ G).
    destruct (find_spec_gen (rb_heap s) k t 0%nat None 0 (S (rb_next s)) (g_rep _ _ _ G) (g_order _ _ _ G) ltac:(pose proof Len; lia)) as [c ->]. cbn [bind].
    rewrite (g_ents _ _ _ G). pose proof (g_order _ _ _ G) as O. revert O. induction (nodes t) as [|a m IH]; intros O; cbn [find map option_map].
    - eauto.
    - inversion O as [|? ? O1 O2]; subst. unfold ge_key at 1. change (e_key (ent h a)) with (rn_key (h a)).
      destruct (rn_key (h a) <? k) eqn:K; cbn [negb].
      + assert (rn_key (h a) =? k = false) as -> by lia. apply IH; auto.
      + rewrite cmp0. exists (c + 1). destruct (rn_key (h a) =? k) eqn:Q.
        * assert (k <? rn_key (h a) = false) as -> by lia. reflexivity.
        * assert (k <? rn_key (h a) = true) as -> by lia. cbn [negb].
          destruct (find (fun e => e_key e =? k) (map (ent h) m)) as [e|] eqn:Fe; auto. exfalso.
          apply find_some in Fe as [Ie Ke]. apply in_map_iff in Ie as (x & <- & Ix). rewrite Forall_forall in O2. specialize (O2 x Ix).
          unfold key_le in O2. change (e_key (ent h x)) with (rn_key (h x)) in Ke. lia.
  Qed.
End Tree.
