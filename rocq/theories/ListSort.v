(** Lemmas about IntList.Sort of [ListModel]. *)
From Coq Require Import ZArith List Bool Arith Lia Permutation Sorted.
From Verif Require Import GoBase GoLists ConcBase ListModel ListCore.
Import ListNotations.
Open Scope nat_scope.

Section Merge.
Variable less : Z -> Z -> bool.
Variable v : nat -> Z.

(** The abstract merge: ties go to the left list. *)
Fixpoint merge_ids (l r : list nat) {struct l} : list nat :=
  match l with
  | [] => r
  | x :: l' =>
      (fix inner (r : list nat) : list nat :=
         match r with
         | [] => x :: l'
         | y :: r' => if less (v y) (v x) then y :: inner r' else x :: merge_ids l' (y :: r')
         end) r
  end.
Lemma merge_nil_r l : merge_ids l [] = l.
Proof. destruct l; reflexivity. Qed.
Lemma merge_cons x l y r : merge_ids (x :: l) (y :: r) =
  if less (v y) (v x) then y :: merge_ids (x :: l) r else x :: merge_ids l (y :: r).
Proof. reflexivity. Qed.

Lemma merge_perm l : forall r, Permutation (merge_ids l r) (l ++ r).
Proof.
  induction l as [|x l IH]; [reflexivity|]. induction r as [|y r IHr].
  - rewrite merge_nil_r, app_nil_r. reflexivity.
  - rewrite merge_cons. destruct (less (v y) (v x)).
    + rewrite IHr. apply Permutation_middle.
    + cbn [app]. constructor. apply IH.
Qed.

(** Ascending: no element is less than an earlier one. *)
Definition asc (l : list nat) : Prop := StronglySorted (fun x y => less (v y) (v x) = false) l.
Hypothesis less_asym : forall a b, less a b = true -> less b a = false.
Hypothesis less_neg : forall a b c, less a c = true -> less a b = true \/ less b c = true.

Lemma merge_asc l : forall r, asc l -> asc r -> asc (merge_ids l r).
Proof.
  induction l as [|x l IH]; [auto|]. induction r as [|y r IHr]; intros Hl Hr.
  - now rewrite merge_nil_r.
  - rewrite merge_cons. inversion Hl as [|? ? Hl' Fl]; subst. inversion Hr as [|? ? Hr' Fr]; subst.
    rewrite Forall_forall in Fl, Fr.
    destruct (less (v y) (v x)) eqn:E.
    + constructor; [now apply IHr|]. apply Forall_forall. intros z Hz.
      apply (Permutation_in _ (merge_perm _ _)) in Hz. apply in_app_iff in Hz.
      destruct Hz as [[<-|Hz]|Hz]; [now apply less_asym| |now apply Fr].
      destruct (less_neg _ (v z) _ E) as [K|K]; [now apply less_asym|]. rewrite Fl in K; [discriminate|auto].
    + constructor; [now apply IH|]. apply Forall_forall. intros z Hz.
      apply (Permutation_in _ (merge_perm _ _)) in Hz. apply in_app_iff in Hz.
      destruct Hz as [Hz|[<-|Hz]]; [now apply Fl|exact E|].
      destruct (less (v z) (v x)) eqn:K; [|reflexivity].
      destruct (less_neg _ (v y) _ K) as [K2|K2]; [rewrite Fr in K2; [discriminate|auto]|congruence].
Qed.

(** The elements that compare as equal to [z], in their order. *)
Definition eqv (z : Z) (x : nat) : bool := negb (less (v x) z) && negb (less z (v x)).

Lemma merge_stable z l : forall r, asc l -> filter (eqv z) (merge_ids l r) = filter (eqv z) l ++ filter (eqv z) r.
Proof.
  induction l as [|x l IH]; [reflexivity|]. induction r as [|y r IHr]; intros Hl.
  - rewrite merge_nil_r. cbn [filter]. now rewrite app_nil_r.
  - rewrite merge_cons. inversion Hl as [|? ? Hl' Fl]; subst. rewrite Forall_forall in Fl.
    destruct (less (v y) (v x)) eqn:E.
    + change (filter (eqv z) (y :: merge_ids (x :: l) r)) with
        (if eqv z y then y :: filter (eqv z) (merge_ids (x :: l) r) else filter (eqv z) (merge_ids (x :: l) r)).
      change (filter (eqv z) (y :: r)) with (if eqv z y then y :: filter (eqv z) r else filter (eqv z) r).
      rewrite (IHr Hl). destruct (eqv z y) eqn:Ey; [|reflexivity].
      assert (filter (eqv z) (x :: l) = []) as ->; [|reflexivity].
      assert (K : forall u, In u (x :: l) -> eqv z u = false).
      { intros u Hu. unfold eqv in *. apply andb_true_iff in Ey. destruct Ey as (Ey1 & Ey2).
        apply negb_true_iff in Ey1, Ey2.
        assert (Hyu : less (v y) (v u) = true).
        { destruct Hu as [<-|Hu]; [exact E|]. destruct (less_neg _ (v u) _ E) as [K|K]; auto. rewrite Fl in K; [discriminate|auto]. }
        destruct (less_neg _ z _ Hyu) as [K|K]; [congruence|]. rewrite K. cbn. apply andb_false_r. }
      clear - K. induction (x :: l) as [|u q IHq]; [reflexivity|]. cbn. rewrite K by (now left). apply IHq.
      intros; apply K; now right.
    + change (filter (eqv z) (x :: merge_ids l (y :: r))) with
        (if eqv z x then x :: filter (eqv z) (merge_ids l (y :: r)) else filter (eqv z) (merge_ids l (y :: r))).
      rewrite (IH _ Hl'). cbn [filter]. destruct (eqv z x); reflexivity.
Qed.

(** ** The loop of merge *)
Lemma hd_error_app_cons {A} (l : list A) x r : hd_error (l ++ x :: r) = hd_error (l ++ [x]).
Proof. destruct l; reflexivity. Qed.

Lemma merge_loop_ok : forall fuel h dn l r,
  length l + length r <= fuel ->
  (forall x, dval (h x) = v x) -> cycl h (dn ++ l) -> cycl h r -> NoDup (dn ++ l ++ r) ->
  exists h' m r', merge_loop less fuel h (hd_error (dn ++ l)) (hd_error r) (hd_error l) (hd_error r) =
      Ok (h', hd_error (dn ++ m), hd_error r', hd_error r') /\
    cycl h' (dn ++ m) /\ cycl h' r' /\ m ++ r' = merge_ids l r /\ foot h h' (dn ++ l ++ r).
Proof.
  induction fuel as [|f IH]; intros h dn l r Hf Hv HL HR Hd.
  - destruct l; [|cbn in Hf; lia]. exists h, [], r. cbn. refine (conj _ (conj _ (conj _ (conj _ _)))); auto using foot_refl, cycl_nil.
  - destruct l as [|x l].
    { exists h, [], r. cbn. refine (conj _ (conj _ (conj _ (conj _ _)))); auto using foot_refl, cycl_nil. }
    destruct r as [|y r].
    { exists h, (x :: l), []. cbn. rewrite ?app_nil_r. refine (conj _ (conj _ (conj _ (conj _ _)))); auto using foot_refl, cycl_nil. }
    cbn [merge_loop hd_error nonnil andb rd_val bind]. rewrite !Hv, merge_cons.
    destruct (less (v y) (v x)) eqn:E.
    + unfold remove_front, front. destruct (remove_ok h [] y r HR) as (h1 & E1 & C1 & F1 & _).
      cbn [app hd_error] in E1, C1, F1. rewrite E1. cbn [bind].
      assert (HL1 : cycl h1 (dn ++ x :: l)).
      { eapply cycl_frame; [|exact HL]. intros u Hu. apply F1. intros Hy. clear - Hd Hu Hy.
        rewrite app_assoc in Hd. induction (dn ++ x :: l) as [|c q IHq]; [destruct Hu|].
        cbn in Hd. inversion Hd; subst. destruct Hu as [->|Hu]; [apply H1; apply in_app_iff; now right|auto]. }
      assert (Hy : ~ In y (dn ++ x :: l)).
      { intros Hu. rewrite app_assoc in Hd. apply NoDup_remove_2 in Hd. apply Hd. apply in_app_iff. now left. }
      destruct (insert_before_ok h1 dn x l y HL1 Hy) as (h2 & E2 & C2 & F2).
      rewrite E2. cbn [bind].
      assert (HR2 : cycl h2 r).
      { eapply cycl_frame; [|exact C1]. intros u Hu. apply F2. intros Hin. clear - Hd Hu Hin.
        rewrite app_assoc in Hd. apply NoDup_remove in Hd. destruct Hd as (Hd & Hy).
        destruct Hin as [->|Hin]; [apply Hy; apply in_app_iff; now right|].
        induction (dn ++ x :: l) as [|c q IHq]; [destruct Hin|].
        cbn in Hd. inversion Hd; subst. destruct Hin as [->|Hin]; [apply H1; apply in_app_iff; now right|].
        apply IHq; auto. intros K. apply Hy. now right. }
      destruct (IH h2 (dn ++ [y]) (x :: l) r) as (h' & m & r' & EE & A & B & C & D).
      * cbn [length] in *. lia.
      * intros u. destruct F1 as (_ & F1). destruct F2 as (_ & F2). now rewrite F2, F1.
      * rewrite <- app_assoc. exact C2.
      * exact HR2.
      * rewrite <- app_assoc. cbn [app]. eapply Permutation_NoDup; [|exact Hd].
        apply Permutation_app_head. change (x :: l ++ y :: r) with ((x :: l) ++ y :: r).
        symmetry. apply (Permutation_middle (x :: l) r y).
      * exists h', (y :: m), r'. rewrite <- !app_assoc in EE. rewrite <- app_assoc in A. cbn [app] in EE, A.
        cbn [hd_error] in EE.
        split; [exact EE|]. split; [exact A|]. split; [exact B|]. split; [cbn [app]; now rewrite C|].
        eapply foot_trans; [eapply foot_mono; [|exact F1]|eapply foot_trans; [eapply foot_mono; [|exact F2]|eapply foot_mono; [|exact D]]].
        -- intros u Hu. apply in_app_iff. right. apply in_app_iff. now right.
        -- intros u [<-|Hu]; rewrite app_assoc; apply in_app_iff; [right; now left|now left].
        -- intros u Hu. rewrite <- app_assoc in Hu. rewrite in_app_iff in Hu |- *. cbn [app In] in Hu |- *.
           rewrite in_app_iff in *. cbn [In]. tauto.
    + assert (En : dnext (h x) = hd_error (l ++ dn ++ [x]) ).
      { apply cycl_rot in HL. cbn [app] in HL. destruct HL as (_ & HL). destruct (l ++ dn) as [|c q] eqn:Elq.
        - apply app_eq_nil in Elq. destruct Elq as (-> & ->). cbn in *. unfold edge in HL. tauto.
        - rewrite app_assoc, Elq. cbn in HL. unfold edge in HL. cbn. tauto. }
      cbn [rd_next bind]. rewrite En.
      assert (Ep : (if peq (hd_error (l ++ dn ++ [x])) (front (hd_error (dn ++ x :: l))) then None
                    else hd_error (l ++ dn ++ [x])) = hd_error l).
      { unfold front. rewrite (hd_error_app_cons dn x l). destruct l as [|c l].
        - cbn [app]. destruct (hd_error (dn ++ [x])) eqn:Q; [now rewrite peq_refl_some|reflexivity].
        - cbn [app hd_error]. rewrite app_assoc in Hd.
          destruct dn as [|d dn]; cbn [app hd_error peq].
          + rewrite eqb_no; [reflexivity|]. intros ->. inversion Hd; subst. apply H1. now left.
          + rewrite eqb_no; [reflexivity|]. intros ->. inversion Hd; subst. apply H1.
            apply in_app_iff. left. apply in_app_iff. right. right. now left. }
      rewrite Ep.
      destruct (IH h (dn ++ [x]) l (y :: r)) as (h' & m & r' & EE & A & B & C & D).
      * cbn [length] in *. lia.
      * exact Hv.
      * rewrite <- app_assoc. exact HL.
      * exact HR.
      * rewrite <- app_assoc. exact Hd.
      * exists h', (x :: m), r'. rewrite <- !app_assoc in EE. rewrite <- app_assoc in A. cbn [app] in EE, A.
        split; [exact EE|]. split; [exact A|]. split; [exact B|]. split; [cbn [app]; now rewrite C|].
        rewrite <- app_assoc in D. exact D.
Qed.

Lemma merge_lists_ok fuel h l r :
  length l + length r <= fuel ->
  (forall x, dval (h x) = v x) -> cycl h l -> cycl h r -> NoDup (l ++ r) ->
  exists h', merge_lists less fuel h (hd_error l) (hd_error r) = Ok (h', hd_error (merge_ids l r), None) /\
    cycl h' (merge_ids l r) /\ foot h h' (l ++ r).
Proof.
  intros Hf Hv HL HR Hd. unfold merge_lists.
  assert (Triv : forall (l r : list nat), l = [] \/ r = [] -> merge_ids l r = l ++ r).
  { intros ? ? [->| ->]; [reflexivity|now rewrite merge_nil_r, app_nil_r]. }
  destruct (empty (hd_error l) || empty (hd_error r)) eqn:Ee.
  - destruct (insert_back_list_ok h l r HL HR Hd) as (h' & E & A & B). rewrite E. cbn [bind].
    exists h'. rewrite Triv; [auto|]. destruct l; auto. destruct r; auto. discriminate.
  - unfold front. destruct (merge_loop_ok fuel h [] l r Hf Hv HL HR Hd) as (h1 & m & r' & E & A & B & C & D).
    cbn [app] in E, A, D. rewrite E. cbn [bind].
    destruct r' as [|y r'].
    + cbn [nonnil hd_error]. exists h1. rewrite app_nil_r in C. subst m. auto.
    + cbn [nonnil hd_error].
      assert (Hd' : NoDup (m ++ y :: r')).
      { rewrite C. eapply Permutation_NoDup; [symmetry; apply merge_perm|exact Hd]. }
      destruct (insert_back_list_ok h1 m (y :: r') A B Hd') as (h2 & E2 & A2 & B2).
      cbn [hd_error] in E2. rewrite E2. cbn [bind]. exists h2. rewrite C in *. split; [reflexivity|].
      split; [exact A2|]. eapply foot_trans; [exact D|]. eapply foot_mono; [|exact B2].
      intros u Hu. eapply Permutation_in; [apply merge_perm|exact Hu].
Qed.

(** ** The bins *)
Variable L : list nat.
Variable h0 : dheap.
Hypothesis L_nodup : NoDup L.

Definition St (h : dheap) (bins : list (list nat)) (hand rest : list nat) : Prop :=
  (forall x, dval (h x) = v x) /\ Forall (cycl h) bins /\ cycl h hand /\ cycl h rest /\
  Permutation (concat bins ++ hand ++ rest) L /\ Forall asc bins /\ asc hand /\
  (forall z, filter (eqv z) (concat (rev bins) ++ hand ++ rest) = filter (eqv z) L) /\ foot h0 h L.

Lemma nodup_disj {A} (a b : list A) x : NoDup (a ++ b) -> In x a -> In x b -> False.
Proof.
  induction a as [|c a IH]; intros Hd Ha Hb; [destruct Ha|].
  cbn in Hd. inversion Hd; subst. destruct Ha as [->|Ha]; [apply H1; apply in_app_iff; now right|auto].
Qed.
Lemma concat_nils {A} i (t : list (list A)) : concat (repeat [] i ++ t) = concat t.
Proof. induction i; cbn; auto. Qed.
Lemma repeat_snoc {A} (x : A) i t : repeat x i ++ x :: t = repeat x (S i) ++ t.
Proof. induction i as [|i IH]; [reflexivity|]. cbn [repeat app] in *. now rewrite IH. Qed.
Lemma concat_rev_nils {A} i (b : list A) t : concat (rev (repeat [] i ++ b :: t)) = concat (rev t) ++ b.
Proof.
  rewrite rev_app_distr. cbn [rev]. rewrite !concat_app. cbn [concat]. rewrite app_nil_r.
  assert (concat (rev (repeat (@nil A) i)) = []) as ->; [|now rewrite app_nil_r].
  induction i as [|i IH]; [reflexivity|]. cbn [repeat rev]. rewrite concat_app, IH. reflexivity.
Qed.
Lemma filter_asc_nil : asc []. Proof. constructor. Qed.
Lemma asc_single x : asc [x]. Proof. constructor; [constructor|constructor]. Qed.

(** Moving the hand to an empty bin. *)
Lemma St_swap h i hand t rest :
  St h (repeat [] i ++ [] :: t) hand rest <-> St h (repeat [] i ++ hand :: t) [] rest.
Proof.
  unfold St. rewrite !concat_nils, !concat_rev_nils. cbn [concat app].
  rewrite !Forall_app, !Forall_cons_iff. rewrite <- !app_assoc. cbn [app].
  assert (P : Permutation (concat t ++ hand ++ rest) ((hand ++ concat t) ++ rest)).
  { rewrite app_assoc. apply Permutation_app_tail. apply Permutation_app_comm. }
  rewrite <- !app_assoc in P.
  pose proof (cycl_nil h). pose proof filter_asc_nil.
  split; intros (H1 & H2 & H3 & H4 & H5 & H6 & H7 & H8 & H9); repeat match goal with |- _ /\ _ => split end; try tauto.
  - now rewrite <- P.
  - now rewrite P.
Qed.

Lemma St_merge h i b t hand rest fuel :
  St h (repeat [] i ++ b :: t) hand rest -> length L <= fuel ->
  exists h', merge_lists less fuel h (hd_error b) (hd_error hand) = Ok (h', hd_error (merge_ids b hand), None) /\
    St h' (repeat [] i ++ [] :: t) (merge_ids b hand) rest.
Proof.
  intros (H1 & H2 & H3 & H4 & H5 & H6 & H7 & H8 & H9) Hf.
  rewrite concat_nils in H5. cbn [concat] in H5.
  rewrite Forall_app, Forall_cons_iff in H2, H6. destruct H2 as (H2a & H2b & H2c). destruct H6 as (H6a & H6b & H6c).
  assert (P : Permutation ((b ++ hand) ++ (concat t ++ rest)) L).
  { rewrite <- H5. rewrite <- !app_assoc. apply Permutation_app_head. rewrite !app_assoc.
    apply Permutation_app_tail. apply Permutation_app_comm. }
  assert (Hd : NoDup ((b ++ hand) ++ (concat t ++ rest))) by (eapply Permutation_NoDup; [symmetry; exact P|exact L_nodup]).
  assert (Hd1 : NoDup (b ++ hand)).
  { clear - Hd. induction (b ++ hand) as [|x q IHq]; [constructor|]. cbn in Hd. inversion Hd; subst.
    constructor; [|auto]. intros K. apply H1. apply in_app_iff. now left. }
  assert (Hlen : length b + length hand <= fuel).
  { apply Permutation_length in P. rewrite !app_length in P. lia. }
  destruct (merge_lists_ok fuel h b hand Hlen H1 H2b H3 Hd1) as (h' & E & A & F).
  exists h'. split; [exact E|].
  assert (Fr : forall c, (forall x, In x c -> In x (concat t ++ rest)) -> cycl h c -> cycl h' c).
  { intros c Hc. apply cycl_frame. intros x Hx. apply F. intros K. exact (nodup_disj _ _ _ Hd K (Hc _ Hx)). }
  unfold St. rewrite concat_nils, concat_rev_nils. cbn [concat app].
  rewrite concat_rev_nils, <- app_assoc in H8.
  rewrite !Forall_app, !Forall_cons_iff.
  repeat match goal with |- _ /\ _ => split end.
  - intros x. destruct F as (_ & F). now rewrite F.
  - clear - Fr. apply Forall_forall. intros x Hx. apply repeat_spec in Hx. subst. apply cycl_nil.
  - apply cycl_nil.
  - rewrite Forall_forall in *. intros c Hc. apply Fr; auto. intros x Hx. apply in_app_iff. left.
    apply in_concat. eauto.
  - exact A.
  - apply Fr; [|exact H4]. intros x Hx. apply in_app_iff. now right.
  - rewrite <- P. rewrite merge_perm. rewrite !app_assoc. apply Permutation_app_tail.
    rewrite <- !app_assoc. rewrite (app_assoc b). apply Permutation_app_comm.
  - exact H6a.
  - apply filter_asc_nil.
  - exact H6c.
  - now apply merge_asc.
  - intros z. rewrite <- H8. rewrite !filter_app, merge_stable by assumption.
    rewrite app_nil_r, <- !app_assoc. reflexivity.
  - eapply foot_trans; [exact H9|]. eapply foot_mono; [|exact F]. intros x Hx.
    eapply Permutation_in; [exact P|]. apply in_app_iff. now left.
Qed.

(** Sizes of the bins from number [i] on. *)
Fixpoint szs (i : nat) (t : list (list nat)) : Prop :=
  match t with
  | [] => True
  | b :: t' => (b = [] \/ zlen b = (2 ^ Z.of_nat i)%Z) /\ szs (S i) t'
  end.

Hypothesis L_small : (zlen L < 2 ^ 64)%Z.

Lemma St_hand_small h bins hand rest : St h bins hand rest -> (zlen hand <= zlen L)%Z.
Proof.
  intros (_ & _ & _ & _ & P & _). apply Permutation_length in P. rewrite !app_length in P. unfold zlen. lia.
Qed.

Lemma pow64 i : (2 ^ Z.of_nat i <= zlen L)%Z -> i < 64.
Proof.
  intros H. destruct (Nat.lt_ge_cases i 64) as [|Hge]; [assumption|exfalso].
  assert (2 ^ 64 <= 2 ^ Z.of_nat i)%Z by (apply Z.pow_le_mono_r; lia). lia.
Qed.

Lemma nth_error_rep {A} (x y : A) i t : nth_error (repeat x i ++ y :: t) i = Some y.
Proof. rewrite nth_error_app2 by (rewrite repeat_length; lia). rewrite repeat_length, Nat.sub_diag. reflexivity. Qed.
Lemma upd_rep {A} (x y z : A) i t : upd (repeat x i ++ y :: t) i z = repeat x i ++ z :: t.
Proof. induction i; cbn; congruence. Qed.
Lemma map_rep i (b : list nat) t : map (@hd_error nat) (repeat [] i ++ b :: t) = repeat None i ++ hd_error b :: map (@hd_error nat) t.
Proof. rewrite map_app. cbn. f_equal. induction i; cbn; congruence. Qed.
Lemma zget_rep {A} (x y : A) i t : zget (repeat x i ++ y :: t) (Z.of_nat i) = Ok y.
Proof.
  unfold zget. destruct (Z.ltb_spec (Z.of_nat i) 0); [lia|]. rewrite Nat2Z.id. unfold aget. now rewrite nth_error_rep.
Qed.
Lemma zset_rep {A} (x y z : A) i t : zset (repeat x i ++ y :: t) (Z.of_nat i) z = Ok (repeat x i ++ z :: t).
Proof.
  unfold zset. destruct (Z.ltb_spec (Z.of_nat i) 0); [lia|]. rewrite Nat2Z.id. unfold aset.
  assert (i <? length (repeat x i ++ y :: t) = true) as ->.
  { apply Nat.ltb_lt. rewrite app_length, repeat_length. cbn. lia. }
  now rewrite upd_rep.
Qed.

Lemma carry_ok rest : forall t i k h hand fuel,
  i + length t = 64 -> k <= length t -> szs i t -> Forall (fun b => b = []) (skipn k t) ->
  zlen hand = (2 ^ Z.of_nat i)%Z -> 64 - i + length L <= fuel ->
  St h (repeat [] i ++ t) hand rest ->
  exists h' hand' j t',
    carry_loop less fuel h (hd_error hand) (map (@hd_error nat) (repeat [] i ++ t)) (Z.of_nat i) (Z.of_nat (i + k)) =
      Ok (h', hd_error hand', map (@hd_error nat) (repeat [] j ++ [] :: t'), Z.of_nat j) /\
    i <= j <= i + k /\ j + S (length t') = 64 /\ zlen hand' = (2 ^ Z.of_nat j)%Z /\
    St h' (repeat [] j ++ [] :: t') hand' rest /\ szs (S j) t' /\
    Forall (fun b => b = []) (skipn (i + k - j - 1) t').
Proof.
  induction t as [|b t IH]; intros i k h hand fuel Hi Hk Hs He Hh Hf HS.
  - exfalso. pose proof (St_hand_small _ _ _ _ HS) as K. rewrite Hh in K. apply pow64 in K. cbn in Hi. lia.
  - cbn [length] in Hi, Hk. destruct Hs as (Hb & Hs).
    assert (Stop : b = [] -> forall e, e = Ok (h, hd_error hand, map (@hd_error nat) (repeat [] i ++ b :: t), Z.of_nat i) ->
      exists h' hand' j t', e = Ok (h', hd_error hand', map (@hd_error nat) (repeat [] j ++ [] :: t'), Z.of_nat j) /\
        i <= j <= i + k /\ j + S (length t') = 64 /\ zlen hand' = (2 ^ Z.of_nat j)%Z /\
        St h' (repeat [] j ++ [] :: t') hand' rest /\ szs (S j) t' /\
        Forall (fun b => b = []) (skipn (i + k - j - 1) t')).
    { intros -> e ->. exists h, hand, i, t. split; [reflexivity|]. split; [lia|]. split; [lia|].
      split; [exact Hh|]. split; [exact HS|]. split; [exact Hs|].
      destruct k as [|k]; [|replace (i + S k - i - 1) with k by lia; exact He].
      replace (i + 0 - i - 1) with 0 by lia. cbn [skipn] in *. inversion He; subst. assumption. }
    destruct k as [|k].
    + apply Stop.
      * cbn [skipn] in He. inversion He; subst. reflexivity.
      * rewrite Nat.add_0_r. destruct fuel; cbn [carry_loop]; rewrite Z.ltb_irrefl; reflexivity.
    + destruct fuel as [|f]; [lia|].
      assert (Hlt : (Z.of_nat i <? Z.of_nat (i + S k))%Z = true) by (apply Z.ltb_lt; lia).
      destruct b as [|x b].
      * apply Stop; [reflexivity|]. cbn [carry_loop]. rewrite Hlt, map_rep, zget_rep. reflexivity.
      * clear Stop. cbn [carry_loop]. rewrite Hlt, map_rep, zget_rep.
        destruct (St_merge h i (x :: b) t hand rest (S f) HS ltac:(lia)) as (h1 & E1 & S1).
        cbn [bind hd_error empty nonnil negb]. cbn [hd_error] in E1. rewrite E1. cbn [bind].
        rewrite zset_rep. cbn [bind].
        replace (repeat None i ++ None :: map (@hd_error nat) t) with (map (@hd_error nat) (repeat [] (S i) ++ t))
          by (rewrite <- repeat_snoc, map_rep; reflexivity).
        replace (Z.of_nat i + 1)%Z with (Z.of_nat (S i)) by lia.
        replace (i + S k) with (S i + k) by lia.
        destruct (IH (S i) k h1 (merge_ids (x :: b) hand) f) as (h' & hand' & j & t' & A & B & C & D & E & F & G).
        -- lia.
        -- lia.
        -- exact Hs.
        -- exact He.
        -- unfold zlen in *. rewrite (Permutation_length (merge_perm _ _)), app_length, Nat2Z.inj_add, Hh.
           destruct Hb as [Hb|Hb]; [discriminate|]. rewrite Hb. rewrite Nat2Z.inj_succ, Z.pow_succ_r by lia. lia.
        -- lia.
        -- rewrite <- repeat_snoc. exact S1.
        -- exists h', hand', j, t'. split; [exact A|]. split; [lia|]. split; [exact C|]. split; [exact D|].
           split; [exact E|]. split; [exact F|exact G].
Qed.

Lemma szs_nils j t : szs 0 (repeat [] j ++ t) <-> szs j t.
Proof.
  assert (G : forall i, szs i (repeat [] j ++ t) <-> szs (j + i) t).
  { induction j as [|j IH]; intros i; [reflexivity|]. cbn [repeat app szs]. rewrite IH.
    replace (j + S i) with (S j + i) by lia. tauto. }
  rewrite G. now rewrite Nat.add_0_r.
Qed.

Lemma sort_loop_ok : forall rest bins nf h fuel,
  length bins = 64 -> szs 0 bins -> nf <= 64 -> Forall (fun b => b = []) (skipn nf bins) ->
  64 + length L + length rest <= fuel -> St h bins [] rest -> (1 <= nf \/ rest <> []) ->
  exists h' bins' nf', sort_loop less fuel h (hd_error rest) None (map (@hd_error nat) bins) (Z.of_nat nf) =
      Ok (h', None, map (@hd_error nat) bins', Z.of_nat nf') /\
    1 <= nf' <= 64 /\ length bins' = 64 /\ Forall (fun b => b = []) (skipn nf' bins') /\ St h' bins' [] [].
Proof.
  induction rest as [|x rest IH]; intros bins nf h fuel Hl Hs Hn He Hf HS Hnz.
  - exists h, bins, nf. destruct Hnz as [Hnz|Hnz]; [|congruence].
    split; [destruct fuel; reflexivity|]. repeat split; auto; try apply HS.
  - cbn [length] in Hf. destruct fuel as [|f]; [lia|]. cbn [sort_loop hd_error empty nonnil negb].
    destruct HS as (H1 & H2 & H3 & H4 & H5 & H6 & H7 & H8 & H9).
    unfold remove_front, front.
    destruct (remove_ok h [] x rest H4) as (h1 & E1 & C1 & F1 & _). cbn [app hd_error] in E1, C1, F1.
    rewrite E1. cbn [bind].
    destruct (insert_front_ok h1 [] x (cycl_nil _) ltac:(intros [])) as (h2 & E2 & C2 & F2).
    cbn [hd_error] in E2. rewrite E2. cbn [bind].
    cbn [app] in H5.
    assert (Hd : NoDup (concat bins ++ x :: rest)) by (eapply Permutation_NoDup; [symmetry; exact H5|exact L_nodup]).
    assert (HS2 : St h2 (repeat [] 0 ++ bins) [x] rest).
    { destruct F1 as (F1 & F1v). destruct F2 as (F2 & F2v). cbn [repeat app]. unfold St.
      repeat match goal with |- _ /\ _ => split end.
      - intros u. now rewrite F2v, F1v.
      - rewrite Forall_forall in *. intros c Hc.
        assert (Hdis : forall u, In u c -> ~ In u (x :: rest)).
        { intros u Hu K. apply (nodup_disj _ _ u Hd); auto. apply in_concat. eauto. }
        eapply cycl_frame; [|apply H2, Hc]. intros u Hu. specialize (Hdis _ Hu).
        rewrite F2, F1; auto. intros [K|[]]. apply Hdis. now left.
      - exact C2.
      - eapply cycl_frame; [|exact C1]. intros u Hu. apply F2. intros [K|[]]. subst u.
        apply NoDup_remove_2 in Hd. apply Hd. apply in_app_iff. now right.
      - exact H5.
      - exact H6.
      - apply asc_single.
      - exact H8.
      - eapply foot_trans; [exact H9|]. apply foot_trans with h1.
        + eapply foot_mono; [|split; [exact F1|exact F1v]]. intros u Hu. eapply Permutation_in; [exact H5|]. apply in_app_iff. now right.
        + eapply foot_mono; [|split; [exact F2|exact F2v]]. intros u [<-|[]]. eapply Permutation_in; [exact H5|]. apply in_app_iff. right; now left. }
    destruct (carry_ok rest bins 0 nf h2 [x] (S f)) as (h3 & hand' & j & t' & A & B & C & D & E & F & G); auto.
    { lia. } { lia. } cbn [app repeat Nat.add] in A. rewrite Nat2Z.inj_0 in A.
    cbn [hd_error] in A. rewrite A. cbn [bind].
    rewrite map_rep, zget_rep. cbn [bind]. rewrite zset_rep. cbn [bind hd_error].
    apply St_swap in E.
    replace (repeat None j ++ hd_error hand' :: map (@hd_error nat) t') with (map (@hd_error nat) (repeat [] j ++ hand' :: t'))
      by apply map_rep.
    assert (En : (if (Z.of_nat j =? Z.of_nat nf)%Z then (Z.of_nat nf + 1)%Z else Z.of_nat nf) =
                 Z.of_nat (if j =? nf then S nf else nf)).
    { destruct (Z.eqb_spec (Z.of_nat j) (Z.of_nat nf)); destruct (Nat.eqb_spec j nf); lia. }
    rewrite En. cbn [Nat.add] in *. apply IH.
    + rewrite app_length, repeat_length. cbn. lia.
    + apply szs_nils. cbn. split; [now right|exact F].
    + destruct (Nat.eqb_spec j nf); lia.
    + rewrite skipn_app, repeat_length.
      apply Forall_app. split.
      * rewrite skipn_all2; [constructor|]. rewrite repeat_length. destruct (Nat.eqb_spec j nf); lia.
      * destruct (Nat.eqb_spec j nf).
        -- replace (S nf - j) with 1 by lia. cbn [skipn]. replace (nf - j - 1) with 0 in G by lia. exact G.
        -- replace (nf - j) with (S (nf - j - 1)) by lia. cbn [skipn]. exact G.
    + lia.
    + exact E.
    + left. destruct (Nat.eqb_spec j nf); lia.
Qed.

Lemma final_ok : forall t i k acc h fuel,
  k <= length t -> length L + k <= fuel ->
  St h (repeat [] i ++ acc :: t) [] [] ->
  exists h' acc' t', final_loop less fuel h (map (@hd_error nat) (repeat [] i ++ acc :: t)) (Z.of_nat (S i)) (Z.of_nat (S (i + k))) =
      Ok (h', map (@hd_error nat) (repeat [] (i + k) ++ acc' :: t')) /\
    t' = skipn k t /\ St h' (repeat [] (i + k) ++ acc' :: t') [] [].
Proof.
  induction t as [|b t IH]; intros i k acc h fuel Hk Hf HS.
  - cbn in Hk. replace k with 0 by lia. rewrite Nat.add_0_r. exists h, acc, [].
    split; [|split; [reflexivity|exact HS]]. destruct fuel; cbn [final_loop]; rewrite Z.ltb_irrefl; reflexivity.
  - destruct k as [|k].
    { rewrite Nat.add_0_r. exists h, acc, (b :: t).
      split; [|split; [reflexivity|exact HS]]. destruct fuel; cbn [final_loop]; rewrite Z.ltb_irrefl; reflexivity. }
    cbn [length] in Hk. destruct fuel as [|f]; [lia|]. cbn [final_loop].
    destruct (Z.ltb_spec (Z.of_nat (S i)) (Z.of_nat (S (i + S k)))); [|lia].
    replace (map (@hd_error nat) (repeat [] i ++ acc :: b :: t)) with
      (repeat None i ++ hd_error acc :: hd_error b :: map (@hd_error nat) t) by (rewrite map_rep; reflexivity).
    assert (Ez : forall (c d : option nat) q, zget (repeat None i ++ c :: d :: q) (Z.of_nat (S i)) = Ok d).
    { intros. unfold zget. destruct (Z.ltb_spec (Z.of_nat (S i)) 0); [lia|]. rewrite Nat2Z.id. unfold aget.
      rewrite nth_error_app2 by (rewrite repeat_length; lia). rewrite repeat_length.
      replace (S i - i) with 1 by lia. reflexivity. }
    assert (Es : forall (c d e : option nat) q, zset (repeat None i ++ c :: d :: q) (Z.of_nat (S i)) e = Ok (repeat None i ++ c :: e :: q)).
    { intros. unfold zset. destruct (Z.ltb_spec (Z.of_nat (S i)) 0); [lia|]. rewrite Nat2Z.id. unfold aset.
      assert (S i <? length (repeat None i ++ c :: d :: q) = true) as ->.
      { apply Nat.ltb_lt. rewrite app_length, repeat_length. cbn. lia. }
      f_equal. rewrite upd_app_r by (rewrite repeat_length; lia). rewrite repeat_length.
      replace (S i - i) with 1 by lia. reflexivity. }
    rewrite Ez. cbn [bind]. replace (Z.of_nat (S i) - 1)%Z with (Z.of_nat i) by lia. rewrite zget_rep. cbn [bind].
    assert (HS' : St h (repeat [] (S i) ++ b :: t) acc []).
    { apply St_swap in HS. change ([] :: b :: t) with (([] : list nat) :: (b :: t)) in HS.
      rewrite repeat_snoc in HS. exact HS. }
    destruct (St_merge h (S i) b t acc [] (S f) HS' ltac:(lia)) as (h1 & E1 & S1).
    rewrite E1. cbn [bind]. rewrite Es. cbn [bind]. rewrite zset_rep. cbn [bind].
    apply St_swap in S1.
    replace (repeat None i ++ None :: hd_error (merge_ids b acc) :: map (@hd_error nat) t) with
      (map (@hd_error nat) (repeat [] (S i) ++ merge_ids b acc :: t)) by (rewrite map_rep, <- repeat_snoc; reflexivity).
    replace (Z.of_nat (S i) + 1)%Z with (Z.of_nat (S (S i))) by lia.
    replace (i + S k) with (S i + k) by lia.
    apply IH; [lia|lia|exact S1].
Qed.

Lemma sort_list_ok fuel : cycl h0 L -> (forall x, dval (h0 x) = v x) -> 2 * length L + 64 <= fuel ->
  exists h' l', sort_list less fuel h0 (hd_error L) = Ok (h', hd_error l') /\
    cycl h' l' /\ foot h0 h' L /\ Permutation l' L /\ asc l' /\
    (forall z, filter (eqv z) l' = filter (eqv z) L).
Proof.
  intros HC Hv Hf.
  assert (Triv : asc L -> sort_list less fuel h0 (hd_error L) = Ok (h0, hd_error L) ->
     exists h' l', sort_list less fuel h0 (hd_error L) = Ok (h', hd_error l') /\
    cycl h' l' /\ foot h0 h' L /\ Permutation l' L /\ asc l' /\
    (forall z, filter (eqv z) l' = filter (eqv z) L)).
  { intros Ha E. exists h0, L. rewrite E. repeat match goal with |- _ /\ _ => split end; auto using foot_refl; apply HC. }
  destruct L as [|a [|b l]] eqn:EL.
  - apply Triv; [apply filter_asc_nil|reflexivity].
  - apply Triv; [apply asc_single|]. cbn [sort_list hd_error].
    apply cycl_single in HC. destruct HC as (-> & _). now rewrite peq_refl_some.
  - clear Triv. cbn [sort_list hd_error]. pose proof (cycl_second _ _ _ _ HC) as (E1 & _). rewrite E1.
    cbn [peq]. rewrite eqb_no.
    2:{ intros ->. inversion L_nodup; subst. apply H1. now left. }
    rewrite <- EL in *.
    assert (HS : St h0 (repeat [] 64) [] L).
    { assert (EC : forall n, concat (repeat (@nil nat) n) = []) by (induction n; cbn; auto).
      unfold St. repeat match goal with |- _ /\ _ => split end; auto using cycl_nil, filter_asc_nil, foot_refl; try apply HC.
      - apply Forall_forall. intros c Hc. apply repeat_spec in Hc. subst. apply cycl_nil.
      - apply Forall_forall. intros c Hc. apply repeat_spec in Hc. subst. apply filter_asc_nil. }
    destruct (sort_loop_ok L (repeat [] 64) 0 h0 fuel) as (h1 & bins & nf & A & B & C & D & E).
    + apply repeat_length.
    + rewrite <- (app_nil_r (repeat [] 64)). apply szs_nils. exact I.
    + lia.
    + apply Forall_forall. intros c Hc. cbn [skipn] in Hc. now apply repeat_spec in Hc.
    + lia.
    + exact HS.
    + right. rewrite EL. discriminate.
    + assert (Em : map (@hd_error nat) (repeat [] 64) = repeat None 64) by reflexivity.
      rewrite Em in A. change (Z.of_nat 0) with 0%Z in A. assert (Ea : Some a = hd_error L) by (now rewrite EL). rewrite Ea. rewrite A. cbn [bind].
      destruct bins as [|acc t]; [discriminate|].
      destruct (final_ok t 0 (nf - 1) acc h1 fuel) as (h2 & acc' & t' & A2 & B2 & C2).
      * cbn in C. lia.
      * lia.
      * exact E.
      * cbn [repeat app Nat.add] in A2. replace (S (nf - 1)) with nf in A2 by lia.
        change (Z.of_nat 1) with 1%Z in A2. rewrite A2. cbn [bind]. rewrite map_rep. replace (Z.of_nat nf - 1)%Z with (Z.of_nat (nf - 1)) by lia.
        rewrite zget_rep. cbn [bind]. exists h2, acc'. split; [reflexivity|].
        assert (Et : concat t' = [] /\ concat (rev t') = []).
        { assert (Ft : Forall (fun b => b = []) t').
          { subst t'. replace nf with (S (nf - 1)) in D by lia. exact D. }
          assert (G : forall q : list (list nat), Forall (fun b => b = []) q -> concat q = []).
          { induction 1; [reflexivity|]. subst. exact IHForall. }
          split; apply G; [exact Ft|]. apply Forall_rev. exact Ft. }
        destruct C2 as (H1 & H2 & H3 & H4 & H5 & H6 & H7 & H8 & H9).
        cbn [Nat.add] in *. rewrite concat_nils in H5. rewrite concat_rev_nils in H8. cbn [concat] in H5.
        destruct Et as (Et1 & Et2). rewrite Et1 in H5. rewrite Et2 in H8. cbn [app] in H8.
        rewrite !app_nil_r in H5. rewrite Forall_app, Forall_cons_iff in H2, H6.
        repeat match goal with |- _ /\ _ => split end; try tauto; try apply H2; try apply H9.
        intros z. rewrite <- (H8 z), app_nil_r. reflexivity.
Qed.
End Merge.
