(** Link-level lemmas about the cyclic doubly linked list of [ListModel]. *)
From Coq Require Import ZArith List Bool Arith Lia Permutation.
From Verif Require Import GoBase ConcBase ListModel.
Import ListNotations.
Open Scope nat_scope.

Lemma eqb_no x y : x <> y -> (x =? y) = false.
Proof. apply Nat.eqb_neq. Qed.

(** Pure forms of the field writes. *)
Definition setn (h : dheap) x q : dheap := fupd h x (DNode (dval (h x)) (dprev (h x)) q).
Definition setp (h : dheap) x q : dheap := fupd h x (DNode (dval (h x)) q (dnext (h x))).

Lemma wr_next_eq h x q : wr_next h (Some x) q = Ok (setn h x q). Proof. reflexivity. Qed.
Lemma wr_prev_eq h x q : wr_prev h (Some x) q = Ok (setp h x q). Proof. reflexivity. Qed.

Lemma next_setn h x q y : dnext (setn h x q y) = if y =? x then q else dnext (h y).
Proof. unfold setn, fupd. destruct (y =? x); reflexivity. Qed.
Lemma next_setp h x q y : dnext (setp h x q y) = dnext (h y).
Proof. unfold setp, fupd. destruct (Nat.eqb_spec y x); subst; reflexivity. Qed.
Lemma prev_setp h x q y : dprev (setp h x q y) = if y =? x then q else dprev (h y).
Proof. unfold setp, fupd. destruct (y =? x); reflexivity. Qed.
Lemma prev_setn h x q y : dprev (setn h x q y) = dprev (h y).
Proof. unfold setn, fupd. destruct (Nat.eqb_spec y x); subst; reflexivity. Qed.
Lemma val_setn h x q y : dval (setn h x q y) = dval (h y).
Proof. unfold setn, fupd. destruct (Nat.eqb_spec y x); subst; reflexivity. Qed.
Lemma val_setp h x q y : dval (setp h x q y) = dval (h y).
Proof. unfold setp, fupd. destruct (Nat.eqb_spec y x); subst; reflexivity. Qed.
Lemma off_setn h x q y : y <> x -> setn h x q y = h y.
Proof. intros. unfold setn. now apply fupd_other. Qed.
Lemma off_setp h x q y : y <> x -> setp h x q y = h y.
Proof. intros. unfold setp. now apply fupd_other. Qed.

#[global] Opaque setn setp.

Ltac lnk := repeat (progress (rewrite ?next_setn, ?next_setp, ?prev_setn, ?prev_setp, ?val_setn, ?val_setp, ?Nat.eqb_refl)).
Ltac lnk_in H := rewrite ?next_setn, ?next_setp, ?prev_setn, ?prev_setp, ?val_setn, ?val_setp, ?Nat.eqb_refl in H.
(** Decide the node comparisons of the goal from hypotheses. *)
Ltac neqs := repeat (lnk; match goal with
  | H : ?x <> ?y |- context [?x =? ?y] => rewrite (eqb_no x y H)
  | H : ?y <> ?x |- context [?x =? ?y] => rewrite (eqb_no x y (not_eq_sym H))
  end); lnk.

(** The link from [x] to [y] and back. *)
Definition edge (h : dheap) x y := dnext (h x) = Some y /\ dprev (h y) = Some x.
Fixpoint links (h : dheap) (l : list nat) : Prop :=
  match l with
  | x :: ((y :: _) as t) => edge h x y /\ links h t
  | _ => True
  end.
(** The nodes [l] form a cycle in this order. *)
Definition cycl (h : dheap) (l : list nat) : Prop :=
  NoDup l /\ match l with [] => True | a :: _ => links h (l ++ [a]) end.

Lemma links_split h l x r : links h (l ++ x :: r) <-> links h (l ++ [x]) /\ links h (x :: r).
Proof.
  induction l as [|a l IH]; [cbn; tauto|].
  destruct l as [|b l].
  - cbn. tauto.
  - change ((a :: b :: l) ++ x :: r) with (a :: (b :: l) ++ x :: r).
    change ((a :: b :: l) ++ [x]) with (a :: (b :: l) ++ [x]).
    cbn [links app] in *. tauto.
Qed.

Lemma links_cons h x y r : links h (x :: y :: r) <-> edge h x y /\ links h (y :: r).
Proof. reflexivity. Qed.

(** Frame: forward links of the last and backward links of the first node do
    not matter. *)
Lemma links_frame h h' l b :
  (forall x, In x l -> dnext (h' x) = dnext (h x)) ->
  (forall x, In x (tl (l ++ [b])) -> dprev (h' x) = dprev (h x)) ->
  links h (l ++ [b]) -> links h' (l ++ [b]).
Proof.
  induction l as [|a l IH]; intros Hn Hp HL; [exact I|].
  destruct l as [|c l].
  - cbn in *. destruct HL as ((E1 & E2) & _). split; [|exact I]. split.
    + rewrite Hn; auto.
    + rewrite Hp; auto.
  - change ((a :: c :: l) ++ [b]) with (a :: c :: (l ++ [b])) in *.
    apply links_cons in HL. destruct HL as ((E1 & E2) & HL). apply links_cons. split.
    + split; [rewrite Hn; [auto|now left]|rewrite Hp; [auto|now left]].
    + apply IH; auto.
      * intros x Hx. apply Hn. now right.
      * intros x Hx. apply Hp. cbn [tl]. right. exact Hx.
Qed.

Lemma cycl_nil h : cycl h []. Proof. split; [constructor|exact I]. Qed.

Lemma cycl_rot h l r : cycl h (l ++ r) -> cycl h (r ++ l).
Proof.
  destruct l as [|a l]; [now rewrite app_nil_r|].
  destruct r as [|b r]; [now rewrite app_nil_r|].
  intros (Hd & HL). split.
  - eapply Permutation_NoDup; [apply Permutation_app_comm|exact Hd].
  - cbn [app] in *. rewrite <- app_assoc in *.
    change (a :: l ++ (b :: r) ++ [a]) with ((a :: l) ++ b :: (r ++ [a])) in HL.
    apply links_split in HL. destruct HL as (H1 & H2).
    change (b :: r ++ (a :: l) ++ [b]) with ((b :: r) ++ a :: (l ++ [b])).
    apply links_split. split; assumption.
Qed.

Lemma cycl_frame h h' l : (forall x, In x l -> h' x = h x) -> cycl h l -> cycl h' l.
Proof.
  intros Hf (Hd & HL). split; [exact Hd|]. destruct l as [|a l]; [exact I|].
  eapply links_frame; [| |exact HL].
  - intros x Hx. now rewrite Hf.
  - intros x Hx. rewrite Hf; [reflexivity|]. cbn [tl app] in Hx.
    apply in_app_iff in Hx. destruct Hx as [Hx|[<-|[]]]; [now right|now left].
Qed.

Lemma cycl_first h a l : cycl h (a :: l) -> edge h (last l a) a.
Proof.
  intros (Hd & HL). destruct (list_eq_dec Nat.eq_dec l []) as [->|Hne].
  - cbn in *. tauto.
  - destruct (exists_last Hne) as (l' & b & ->). rewrite last_last.
    change ((a :: l' ++ [b]) ++ [a]) with (a :: ((l' ++ [b]) ++ [a])) in HL.
    rewrite <- app_assoc in HL. change (a :: l' ++ [b] ++ [a]) with ((a :: l') ++ b :: [a]) in HL.
    apply links_split in HL. destruct HL as (_ & HL). cbn in HL. tauto.
Qed.

Lemma cycl_second h a b l : cycl h (a :: b :: l) -> edge h a b.
Proof. intros (_ & HL). cbn in HL. tauto. Qed.

Lemma cycl_single h a : cycl h [a] -> dnext (h a) = Some a /\ dprev (h a) = Some a.
Proof. intros (_ & HL). cbn in HL. unfold edge in HL. tauto. Qed.

(** The heaps differ only on the nodes [l]; values are never touched. *)
Definition foot (h h' : dheap) (l : list nat) : Prop :=
  (forall x, ~ In x l -> h' x = h x) /\ (forall x, dval (h' x) = dval (h x)).
Lemma foot_trans h h' h'' l : foot h h' l -> foot h' h'' l -> foot h h'' l.
Proof. intros (A & B) (C & D). split; intros; [rewrite C, A|rewrite D, B]; auto. Qed.
Lemma foot_refl h l : foot h h l. Proof. split; auto. Qed.
Lemma foot_mono h h' l l' : (forall x, In x l -> In x l') -> foot h h' l -> foot h h' l'.
Proof. intros Hs (A & B). split; [|exact B]. intros x Hx. apply A. auto. Qed.

(** ** Linking a node in between the last and the first node *)
Definition ins_heap h n a b := setp (setn (setp (setn h n (Some a)) n (Some b)) b (Some n)) a (Some n).

Lemma ins_cycl h a l n : cycl h (a :: l) -> ~ In n (a :: l) ->
  cycl (ins_heap h n a (last l a)) (a :: l ++ [n]) /\ foot h (ins_heap h n a (last l a)) (n :: a :: l).
Proof.
  intros HC Hn. pose proof (cycl_first _ _ _ HC) as HE. destruct HC as (Hd & HL).
  assert (Hna : a <> n) by (intros ->; apply Hn; now left).
  set (b := last l a) in *.
  assert (Hb : In b (a :: l)).
  { unfold b. destruct (list_eq_dec Nat.eq_dec l []) as [->|Hne]; [now left|].
    destruct (exists_last Hne) as (l' & c & ->). rewrite last_last. right. apply in_app_iff. right; now left. }
  assert (Hnb : b <> n) by (intros ->; auto).
  assert (E1 : edge (ins_heap h n a b) b n).
  { unfold edge, ins_heap. neqs. split; [reflexivity|]. reflexivity. }
  assert (E2 : edge (ins_heap h n a b) n a).
  { unfold edge, ins_heap. neqs. split; reflexivity. }
  split; [split|split].
  - change (a :: l ++ [n]) with ((a :: l) ++ [n]).
    eapply Permutation_NoDup; [apply Permutation_app_comm|].
    constructor; auto.
  - destruct (list_eq_dec Nat.eq_dec l []) as [->|Hne].
    + cbn. cbn in b. subst b. split; [exact E1|split; [exact E2|exact I]].
    + destruct (exists_last Hne) as (l' & c & ->). unfold b in *. rewrite last_last in *. clear b.
      change (((a :: l' ++ [c]) ++ [a])) with (a :: ((l' ++ [c]) ++ [a])) in HL.
      rewrite <- app_assoc in HL. change (a :: l' ++ [c] ++ [a]) with ((a :: l') ++ c :: [a]) in HL.
      apply links_split in HL. destruct HL as (HL & _).
      change ((a :: (l' ++ [c]) ++ [n]) ++ [a]) with (a :: (((l' ++ [c]) ++ [n]) ++ [a])).
      rewrite <- !app_assoc. change (a :: l' ++ [c] ++ [n] ++ [a]) with ((a :: l') ++ c :: [n; a]).
      apply links_split. split.
      * inversion Hd as [|? ? Ha Hd']; subst. apply NoDup_remove in Hd'. destruct Hd' as (_ & Hc).
        rewrite app_nil_r in Hc.
        eapply links_frame; [| |exact HL].
        -- intros x Hx. unfold ins_heap.
           assert (x <> n). { intros ->. apply Hn. destruct Hx as [->|Hx]; [now left|right; apply in_app_iff; auto]. }
           assert (x <> c). { intros ->. destruct Hx as [->|Hx]; [|auto]. apply Ha. apply in_app_iff; right; now left. }
           neqs. reflexivity.
        -- intros x Hx. cbn [tl app] in Hx. unfold ins_heap.
           assert (x <> n) by (intros ->; apply Hn; now right).
           assert (x <> a) by (intros ->; auto).
           neqs. reflexivity.
      * cbn. auto.
  - intros x Hx. unfold ins_heap.
    assert (x <> n) by (intros ->; apply Hx; now left).
    assert (x <> a) by (intros ->; apply Hx; right; now left).
    assert (x <> b) by (intros ->; apply Hx; now right).
    rewrite off_setp, off_setn, off_setp, off_setn; auto.
  - intros x. unfold ins_heap. lnk. reflexivity.
Qed.

Lemma ins_self h n : cycl (setp (setn h n (Some n)) n (Some n)) [n] /\
  foot h (setp (setn h n (Some n)) n (Some n)) [n].
Proof.
  split; [split|split].
  - repeat constructor. auto.
  - cbn. unfold edge. neqs. auto.
  - intros x Hx. rewrite off_setp, off_setn; auto; intros ->; apply Hx; now left.
  - intros. lnk. reflexivity.
Qed.

(** ** Unlinking the first node *)
Definition del_heap h n a b := setp (setn (setn (setp h a (Some b)) b (Some a)) n None) n None.

Lemma del_cycl h a l n : cycl h (n :: a :: l) ->
  dnext (h n) = Some a /\ dprev (h n) = Some (last l a) /\
  cycl (del_heap h n a (last l a)) (a :: l) /\ foot h (del_heap h n a (last l a)) (n :: a :: l) /\
  dnext (del_heap h n a (last l a) n) = None /\ dprev (del_heap h n a (last l a) n) = None.
Proof.
  intros HC. pose proof (cycl_first _ _ _ HC) as HE. pose proof (cycl_second _ _ _ _ HC) as HF.
  destruct HC as (Hd & HL). inversion Hd as [|? ? Hn Hd1]; subst.
  assert (El : last (a :: l) n = last l a).
  { destruct (list_eq_dec Nat.eq_dec l []) as [->|Hne]; [reflexivity|].
    destruct (exists_last Hne) as (l' & c & ->). rewrite last_last.
    change (a :: l' ++ [c]) with ((a :: l') ++ [c]). apply last_last. }
  rewrite El in HE. set (b := last l a) in *.
  assert (Hb : In b (a :: l)).
  { unfold b. destruct (list_eq_dec Nat.eq_dec l []) as [->|Hne]; [now left|].
    destruct (exists_last Hne) as (l' & c & ->). rewrite last_last. right. apply in_app_iff. right; now left. }
  assert (Hna : a <> n) by (intros ->; apply Hn; now left).
  assert (Hnb : b <> n) by (intros ->; auto).
  destruct HE as (E1 & E2). destruct HF as (F1 & F2).
  assert (EE : edge (del_heap h n a b) b a).
  { unfold edge, del_heap. neqs. split; reflexivity. }
  repeat match goal with |- _ /\ _ => split end; auto.
  - split; [exact Hd1|].
    destruct (list_eq_dec Nat.eq_dec l []) as [->|Hne].
    + cbn. cbn in b. subst b. split; [exact EE|exact I].
    + destruct (exists_last Hne) as (l' & c & ->). unfold b in *. rewrite last_last in *. clear b El.
      assert (HL' : links h ((a :: l') ++ [c])).
      { change ((n :: a :: l' ++ [c]) ++ [n]) with ([n] ++ a :: ((l' ++ [c]) ++ [n])) in HL.
        apply links_split in HL. destruct HL as (_ & HL).
        rewrite <- app_assoc in HL. change (a :: l' ++ [c] ++ [n]) with ((a :: l') ++ c :: [n]) in HL.
        apply links_split in HL. tauto. }
      change ((a :: l' ++ [c]) ++ [a]) with (a :: ((l' ++ [c]) ++ [a])).
      rewrite <- !app_assoc. change (a :: l' ++ [c] ++ [a]) with ((a :: l') ++ c :: [a]).
      apply links_split. split; [|cbn; auto].
      inversion Hd1 as [|? ? Ha Hd']; subst. apply NoDup_remove in Hd'. destruct Hd' as (_ & Hc).
      rewrite app_nil_r in Hc.
      eapply links_frame; [| |exact HL'].
      * intros x Hx. unfold del_heap.
        assert (x <> n). { intros ->. apply Hn. destruct Hx as [->|Hx]; [now left|right; apply in_app_iff; auto]. }
        assert (x <> c). { intros ->. destruct Hx as [->|Hx]; [|auto]. apply Ha. apply in_app_iff; right; now left. }
        neqs. reflexivity.
      * intros x Hx. cbn [tl app] in Hx. unfold del_heap.
        assert (x <> n) by (intros ->; apply Hn; now right).
        assert (x <> a) by (intros ->; auto).
        neqs. reflexivity.
  - split.
    + intros x Hx. unfold del_heap.
      assert (x <> n) by (intros ->; apply Hx; now left).
      assert (x <> a) by (intros ->; apply Hx; right; now left).
      assert (x <> b) by (intros ->; apply Hx; now right).
      rewrite off_setp, off_setn, off_setn, off_setp; auto.
    + intros x. unfold del_heap. lnk. reflexivity.
  - unfold del_heap. neqs. reflexivity.
  - unfold del_heap. neqs. reflexivity.
Qed.

(** ** The operations on one list *)
Lemma peq_refl_some x : peq (Some x) (Some x) = true.
Proof. cbn. apply Nat.eqb_refl. Qed.

Lemma insert_back_ok h l n : cycl h l -> ~ In n l ->
  exists h', insert_back h (hd_error l) (Some n) = Ok (h', hd_error (l ++ [n])) /\
    cycl h' (l ++ [n]) /\ foot h h' (n :: l).
Proof.
  intros HC Hn. unfold insert_back. cbn [nonnil]. destruct l as [|a l]; cbn [hd_error app].
  - rewrite wr_next_eq. cbn [bind]. rewrite wr_prev_eq. cbn [bind].
    eexists. split; [reflexivity|]. apply ins_self.
  - pose proof (cycl_first _ _ _ HC) as (E1 & E2).
    destruct (ins_cycl _ _ _ _ HC Hn) as (A & B).
    assert (Hna : a <> n) by (intros ->; apply Hn; now left).
    exists (ins_heap h n a (last l a)). split; [|split; assumption].
    rewrite wr_next_eq. cbn [bind rd_prev]. lnk. rewrite E2.
    rewrite wr_prev_eq. cbn [bind rd_prev]. neqs. rewrite E2.
    rewrite wr_next_eq. cbn [bind]. rewrite wr_prev_eq. reflexivity.
Qed.

Lemma insert_front_ok h l n : cycl h l -> ~ In n l ->
  exists h', insert_front h (hd_error l) (Some n) = Ok (h', Some n) /\
    cycl h' (n :: l) /\ foot h h' (n :: l).
Proof.
  intros HC Hn. destruct (insert_back_ok h l n HC Hn) as (h' & E & HC' & HF).
  exists h'. unfold insert_front. rewrite E. cbn [bind nonnil].
  assert (HR : cycl h' ([n] ++ l)) by (apply cycl_rot; exact HC').
  split; [|split; assumption]. f_equal. f_equal.
  destruct l as [|a l]; cbn [app hd_error rotate_backward].
  - now apply cycl_single in HC'.
  - apply cycl_first in HC'. rewrite last_last in HC'. apply HC'.
Qed.

Lemma insert_before_ok h l1 m l2 n : cycl h (l1 ++ m :: l2) -> ~ In n (l1 ++ m :: l2) ->
  exists h', insert_before h (hd_error (l1 ++ m :: l2)) (Some n) (Some m) = Ok (h', hd_error (l1 ++ n :: m :: l2)) /\
    cycl h' (l1 ++ n :: m :: l2) /\ foot h h' (n :: l1 ++ m :: l2).
Proof.
  intros HC Hn. apply cycl_rot in HC. cbn [app] in HC.
  assert (Hn' : ~ In n (m :: l2 ++ l1)).
  { intros [->|H]; apply Hn; apply in_app_iff; [right; now left|].
    apply in_app_iff in H. destruct H; [right; now right|now left]. }
  pose proof (cycl_first _ _ _ HC) as (E1 & E2).
  destruct (ins_cycl _ _ _ _ HC Hn') as (A & B).
  set (b := last (l2 ++ l1) m) in *.
  assert (Hnm : m <> n) by (intros ->; apply Hn'; now left).
  assert (A' : cycl (ins_heap h n m b) (l1 ++ n :: m :: l2)).
  { change (l1 ++ n :: m :: l2) with (l1 ++ [n] ++ (m :: l2)). rewrite app_assoc.
    apply cycl_rot. cbn [app]. rewrite app_assoc. exact A. }
  exists (ins_heap h n m b). split; [|split; [exact A'|]].
  - unfold insert_before. cbn [nonnil andb negb peq]. rewrite (eqb_no n m) by auto.
    cbn [negb]. rewrite wr_next_eq. cbn [bind rd_prev]. lnk. rewrite E2.
    rewrite wr_prev_eq. cbn [bind rd_prev]. neqs. rewrite E2.
    rewrite wr_next_eq. cbn [bind]. rewrite wr_prev_eq. cbn [bind].
    destruct l1 as [|a l1]; cbn [hd_error app peq].
    + rewrite Nat.eqb_refl. f_equal. f_equal. cbn [rotate_backward].
      neqs. reflexivity.
    + destruct (Nat.eqb_spec a m) as [->|]; [|reflexivity].
      destruct HC as (Hd & _). exfalso. inversion Hd as [|? ? Hx _]; subst. apply Hx.
      apply in_app_iff. right; now left.
  - eapply foot_mono; [|exact B]. intros x [<-|[<-|Hx]]; [now left| |];
      right; apply in_app_iff; [right; now left|]. apply in_app_iff in Hx. destruct Hx; [right; now right|now left].
Qed.

Lemma remove_ok h l1 n l2 : cycl h (l1 ++ n :: l2) ->
  exists h', remove h (hd_error (l1 ++ n :: l2)) (Some n) = Ok (h', hd_error (l1 ++ l2), Some n) /\
    cycl h' (l1 ++ l2) /\ foot h h' (l1 ++ n :: l2) /\ dnext (h' n) = None /\ dprev (h' n) = None.
Proof.
  intros HC0. pose proof HC0 as HC. apply cycl_rot in HC. cbn [app] in HC.
  unfold remove.
  destruct (l2 ++ l1) as [|a t] eqn:El.
  - apply app_eq_nil in El. destruct El as (-> & ->). cbn [app hd_error] in *.
    apply cycl_single in HC. destruct HC as (E1 & E2). rewrite E1, E2. cbn [nonnil andb peq].
    rewrite Nat.eqb_refl. rewrite wr_prev_eq. cbn [bind]. lnk. rewrite E1.
    rewrite wr_next_eq. cbn [bind]. rewrite wr_next_eq. cbn [bind]. rewrite wr_prev_eq. cbn [bind].
    eexists. split; [reflexivity|]. split; [apply cycl_nil|]. split; [|neqs; auto].
    split.
    + intros x Hx. assert (x <> n) by (intros ->; apply Hx; now left).
      rewrite off_setp, off_setn, off_setn, off_setp; auto.
    + intros. lnk. reflexivity.
  - pose proof HC as (Hd & _). destruct (del_cycl _ _ _ _ HC) as (E1 & E2 & A & B & C & D).
    set (b := last t a) in *. rewrite E1, E2. cbn [nonnil andb peq].
    assert (Hna : a <> n).
    { intros ->. inversion Hd as [|? ? Hx _]; subst. apply Hx. now left. }
    rewrite (eqb_no a n Hna). rewrite wr_prev_eq. cbn [bind]. neqs. rewrite E1, E2.
    rewrite wr_next_eq. cbn [bind]. rewrite wr_next_eq. cbn [bind]. rewrite wr_prev_eq. cbn [bind].
    exists (del_heap h n a b). split; [|split; [|split; [|auto]]].
    + unfold del_heap. f_equal. f_equal. f_equal.
      destruct l1 as [|c l1]; cbn [app hd_error].
      * rewrite app_nil_r in El. subst l2. rewrite Nat.eqb_refl. reflexivity.
      * destruct (Nat.eqb_spec n c) as [->|]; [|reflexivity].
        exfalso. destruct HC0 as (Hd0 & _). inversion Hd0 as [|? ? Hx _]; subst. apply Hx.
        apply in_app_iff. right; now left.
    + apply cycl_rot. rewrite El. exact A.
    + eapply foot_mono; [|exact B]. rewrite <- El. intros x [<-|Hx]; apply in_app_iff; [right; now left|].
      apply in_app_iff in Hx. destruct Hx; [right; now right|now left].
Qed.

Lemma back_ok h l : cycl h l -> back h (hd_error l) = hd_error (rev l).
Proof.
  destruct l as [|a l]; [reflexivity|]. intros HC. apply cycl_first in HC. destruct HC as (_ & E).
  cbn [hd_error back]. rewrite E. cbn [rev].
  destruct (list_eq_dec Nat.eq_dec l []) as [->|Hne]; [reflexivity|].
  destruct (exists_last Hne) as (l' & c & ->). rewrite last_last, rev_app_distr. reflexivity.
Qed.

Lemma insert_back_list_ok h l r : cycl h l -> cycl h r -> NoDup (l ++ r) ->
  exists h', insert_back_list h (hd_error l) (hd_error r) =
      Ok (h', hd_error (l ++ r), None, match r with [] => false | _ => true end) /\
    cycl h' (l ++ r) /\ foot h h' (l ++ r).
Proof.
  intros HL HR Hd. unfold insert_back_list.
  destruct r as [|b r]; cbn [hd_error empty nonnil negb].
  { rewrite app_nil_r. exists h. split; [reflexivity|]. split; [exact HL|apply foot_refl]. }
  destruct l as [|a l]; cbn [hd_error empty nonnil negb app].
  { exists h. split; [reflexivity|]. split; [exact HR|apply foot_refl]. }
  pose proof (cycl_first _ _ _ HL) as (E1 & E2). pose proof (cycl_first _ _ _ HR) as (F1 & F2).
  cbn [back]. rewrite E2, F2.
  assert (Hla : In (last l a) (a :: l)).
  { destruct (list_eq_dec Nat.eq_dec l []) as [->|Hne]; [now left|].
    destruct (exists_last Hne) as (l' & c & ->). rewrite last_last. right. apply in_app_iff. right; now left. }
  assert (Hlb : In (last r b) (b :: r)).
  { destruct (list_eq_dec Nat.eq_dec r []) as [->|Hne]; [now left|].
    destruct (exists_last Hne) as (l' & c & ->). rewrite last_last. right. apply in_app_iff. right; now left. }
  set (x := last l a) in *. set (y := last r b) in *.
  rewrite wr_next_eq. cbn [bind]. rewrite wr_next_eq. cbn [bind]. rewrite wr_prev_eq. cbn [bind].
  rewrite wr_prev_eq. cbn [bind].
  set (h' := setp _ _ _).
  assert (Hdis : forall u v, In u (a :: l) -> In v (b :: r) -> u <> v).
  { intros u v Hu Hv ->. change ((a :: l) ++ b :: r) with ((a :: l) ++ (b :: r)) in Hd.
    clear - Hd Hu Hv. induction (a :: l) as [|c q IH]; [destruct Hu|].
    cbn in Hd. inversion Hd; subst. destruct Hu as [->|Hu]; [apply H1; apply in_app_iff; now right|auto]. }
  assert (Hxy : x <> y) by (apply Hdis; auto).
  assert (Hab : a <> b) by (apply Hdis; now left).
  exists h'. split; [reflexivity|].
  assert (E3 : edge h' x b) by (unfold edge, h'; neqs; auto).
  assert (E4 : edge h' y a) by (unfold edge, h'; neqs; auto).
  assert (KL : links h' ((a :: l))).
  { destruct HL as (HdL & HL). destruct (list_eq_dec Nat.eq_dec l []) as [->|Hne]; [exact I|].
    destruct (exists_last Hne) as (l' & c & ->). unfold x in *. rewrite last_last in *. clear x.
    change ((a :: l' ++ [c]) ++ [a]) with (a :: (l' ++ [c]) ++ [a]) in HL.
    rewrite <- app_assoc in HL. change (a :: l' ++ [c] ++ [a]) with ((a :: l') ++ c :: [a]) in HL.
    apply links_split in HL. destruct HL as (HL & _).
    change (a :: l' ++ [c]) with ((a :: l') ++ [c]).
    inversion HdL as [|? ? Ha Hd']; subst. apply NoDup_remove in Hd'. destruct Hd' as (_ & Hc).
    rewrite app_nil_r in Hc. eapply links_frame; [| |exact HL].
    - intros u Hu. unfold h'. rewrite ?last_last.
      assert (u <> c). { intros ->. destruct Hu as [->|Hu]; [|auto]. apply Ha. apply in_app_iff; right; now left. }
      assert (u <> y). { apply Hdis; auto. destruct Hu as [->|Hu]; [now left|right; apply in_app_iff; auto]. }
      neqs. reflexivity.
    - intros u Hu. cbn [tl app] in Hu. unfold h'. rewrite ?last_last.
      assert (u <> a) by (intros ->; auto).
      assert (u <> b). { apply Hdis; [|now left]. now right. }
      neqs. reflexivity. }
  assert (KR : links h' ((b :: r))).
  { destruct HR as (HdR & HR). destruct (list_eq_dec Nat.eq_dec r []) as [->|Hne]; [exact I|].
    destruct (exists_last Hne) as (l' & c & ->). unfold y in *. rewrite last_last in *. clear y.
    change ((b :: l' ++ [c]) ++ [b]) with (b :: (l' ++ [c]) ++ [b]) in HR.
    rewrite <- app_assoc in HR. change (b :: l' ++ [c] ++ [b]) with ((b :: l') ++ c :: [b]) in HR.
    apply links_split in HR. destruct HR as (HR & _).
    change (b :: l' ++ [c]) with ((b :: l') ++ [c]).
    inversion HdR as [|? ? Ha Hd']; subst. apply NoDup_remove in Hd'. destruct Hd' as (_ & Hc).
    rewrite app_nil_r in Hc. eapply links_frame; [| |exact HR].
    - intros u Hu. unfold h'. rewrite ?last_last.
      assert (u <> c). { intros ->. destruct Hu as [->|Hu]; [|auto]. apply Ha. apply in_app_iff; right; now left. }
      assert (x <> u). { apply Hdis; auto. destruct Hu as [->|Hu]; [now left|right; apply in_app_iff; auto]. }
      neqs. reflexivity.
    - intros u Hu. cbn [tl app] in Hu. unfold h'. rewrite ?last_last.
      assert (u <> b) by (intros ->; auto).
      assert (a <> u). { apply Hdis; [now left|]. now right. }
      neqs. reflexivity. }
  split; [split; [exact Hd|]|split].
  - change ((a :: l ++ b :: r) ++ [a]) with (((a :: l) ++ b :: r) ++ [a]). rewrite <- app_assoc.
    cbn [app]. change (a :: l ++ b :: r ++ [a]) with ((a :: l) ++ b :: (r ++ [a])).
    apply links_split. split.
    + clear - KL E3. unfold x in *. destruct (list_eq_dec Nat.eq_dec l []) as [->|Hne]; [cbn; auto|].
      destruct (exists_last Hne) as (l' & c & ->). rewrite last_last in E3.
      change ((a :: l' ++ [c]) ++ [b]) with (a :: (l' ++ [c]) ++ [b]). rewrite <- app_assoc.
      change (a :: l' ++ [c] ++ [b]) with ((a :: l') ++ c :: [b]). apply links_split.
      split; [exact KL|cbn; auto].
    + clear - KR E4. unfold y in *. destruct (list_eq_dec Nat.eq_dec r []) as [->|Hne]; [cbn; auto|].
      destruct (exists_last Hne) as (l' & c & ->). rewrite last_last in E4.
      rewrite <- app_assoc. change (b :: l' ++ [c] ++ [a]) with ((b :: l') ++ c :: [a]). apply links_split.
      split; [exact KR|cbn; auto].
  - intros u Hu. unfold h'. rewrite ?last_last.
    assert (u <> x). { intros ->. apply Hu. change (a :: l ++ b :: r) with ((a :: l) ++ b :: r). apply in_app_iff. auto. }
    assert (u <> y). { intros ->. apply Hu. change (a :: l ++ b :: r) with ((a :: l) ++ b :: r). apply in_app_iff. auto. }
    assert (u <> a) by (intros ->; apply Hu; now left).
    assert (u <> b). { intros ->. apply Hu. right. apply in_app_iff. right; now left. }
    rewrite off_setp, off_setp, off_setn, off_setn; auto.
  - intros u. unfold h'. lnk. reflexivity.
Qed.
