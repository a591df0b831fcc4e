(** Proofs about IntList: the calls of [ListModel] refine [ListSpec]. *)
From Coq Require Import ZArith List Bool Arith Lia Permutation Sorted.
From Verif Require Import GoBase GoLists ConcBase ListModel ListCore ListSort ListSpec.
Import ListNotations.
Open Scope nat_scope.

(** ** Sequences *)
Lemma without_notin n l : ~ In n l -> without n l = l.
Proof.
  induction l as [|x l IH]; intros H; [reflexivity|]. cbn.
  rewrite eqb_no by (intros ->; apply H; now left). cbn. f_equal. apply IH. intros K. apply H. now right.
Qed.
Lemma without_app n l r : without n (l ++ r) = without n l ++ without n r.
Proof. apply filter_app. Qed.
Lemma without_split n l1 l2 : NoDup (l1 ++ n :: l2) -> without n (l1 ++ n :: l2) = l1 ++ l2.
Proof.
  intros Hd. apply NoDup_remove_2 in Hd. rewrite without_app.
  change (without n (n :: l2)) with (if negb (n =? n) then n :: without n l2 else without n l2). rewrite Nat.eqb_refl. cbn [negb].
  rewrite without_notin, (without_notin n l2); [reflexivity| |]; intros K; apply Hd; apply in_app_iff; auto.
Qed.
Lemma before_notin n m l : ~ In m l -> before n m l = l.
Proof.
  induction l as [|x l IH]; intros H; [reflexivity|]. cbn.
  rewrite eqb_no by (intros ->; apply H; now left). cbn. f_equal. apply IH. intros K. apply H. now right.
Qed.
Lemma after_notin n m l : ~ In m l -> after n m l = l.
Proof.
  induction l as [|x l IH]; intros H; [reflexivity|]. cbn.
  rewrite eqb_no by (intros ->; apply H; now left). cbn. f_equal. apply IH. intros K. apply H. now right.
Qed.
Lemma before_split n m l1 l2 : NoDup (l1 ++ m :: l2) -> before n m (l1 ++ m :: l2) = l1 ++ n :: m :: l2.
Proof.
  intros Hd. apply NoDup_remove_2 in Hd. unfold before. rewrite flat_map_app. cbn. rewrite Nat.eqb_refl. cbn.
  fold (before n m l1). fold (before n m l2).
  rewrite before_notin, (before_notin n m l2); [reflexivity| |]; intros K; apply Hd; apply in_app_iff; auto.
Qed.
Lemma after_split n m l1 l2 : NoDup (l1 ++ m :: l2) -> after n m (l1 ++ m :: l2) = l1 ++ m :: n :: l2.
Proof.
  intros Hd. apply NoDup_remove_2 in Hd. unfold after. rewrite flat_map_app. cbn. rewrite Nat.eqb_refl. cbn.
  fold (after n m l1). fold (after n m l2).
  rewrite after_notin, (after_notin n m l2); [reflexivity| |]; intros K; apply Hd; apply in_app_iff; auto.
Qed.
Lemma member_In n l : member n l = true <-> In n l.
Proof.
  unfold member. rewrite existsb_exists. split.
  - intros (x & Hx & E). apply Nat.eqb_eq in E. now subst.
  - intros H. exists n. split; [exact H|apply Nat.eqb_refl].
Qed.
Lemma rotate_right_snoc l x : rotate_right (l ++ [x]) = x :: l.
Proof. unfold rotate_right. rewrite rev_app_distr. cbn. rewrite rev_app_distr, rev_involutive. reflexivity. Qed.

Lemma snoc_cases (l : list nat) : l = [] \/ exists t b, l = t ++ [b].
Proof. destruct (list_eq_dec Nat.eq_dec l []) as [->|H]; [now left|]. right. destruct (exists_last H) as (t & b & ->). eauto. Qed.

Lemma cycl_next h l1 n l2 : cycl h (l1 ++ n :: l2) -> dnext (h n) = hd_error (l2 ++ l1 ++ [n]).
Proof.
  intros HC. apply cycl_rot in HC. cbn [app] in HC. destruct HC as (_ & HL). rewrite app_assoc.
  destruct (l2 ++ l1) as [|c q]; cbn in *; unfold edge in HL; tauto.
Qed.
Lemma cycl_prev h l1 n l2 : cycl h (l1 ++ n :: l2) -> dprev (h n) = hd_error (rev l1 ++ rev l2 ++ [n]).
Proof.
  intros HC. apply cycl_rot in HC. cbn [app] in HC. apply cycl_first in HC. destruct HC as (_ & HP). rewrite HP.
  rewrite app_assoc, <- rev_app_distr.
  destruct (snoc_cases (l2 ++ l1)) as [->|(t & b & ->)]; [reflexivity|].
  rewrite last_last, rev_app_distr. reflexivity.
Qed.

Lemma adjacent_links h z n m : forall l, NoDup l -> links h (l ++ [z]) -> In n l ->
  existsb (fun p => (fst p =? n) && (snd p =? m)) (combine l (tl (l ++ [z]))) = peq (dnext (h n)) (Some m).
Proof.
  induction l as [|x l IH]; intros Hd HL Hin; [destruct Hin|].
  inversion Hd as [|? ? Hx Hd']; subst. cbn [app tl].
  destruct (l ++ [z]) as [|y q] eqn:Eq; [destruct l; discriminate|].
  cbn [combine existsb fst snd]. change ((x :: l) ++ [z]) with (x :: (l ++ [z])) in HL. rewrite Eq in HL.
  apply links_cons in HL. destruct HL as ((E1 & _) & HL). rewrite <- Eq in HL.
  replace q with (tl (l ++ [z])) by (rewrite Eq; reflexivity).
  destruct Hin as [->|Hin].
  - rewrite E1, Nat.eqb_refl. cbn [peq andb].
    assert (existsb (fun p => (fst p =? n) && (snd p =? m)) (combine l (tl (l ++ [z]))) = false) as ->; [|apply orb_false_r].
    apply not_true_is_false. intros K. apply existsb_exists in K. destruct K as ((u & w) & Hu & Ku).
    apply in_combine_l in Hu. cbn in Ku. apply andb_true_iff in Ku. destruct Ku as (Ku & _).
    apply Nat.eqb_eq in Ku. subst. auto.
  - rewrite eqb_no by (intros ->; auto). cbn [andb orb]. rewrite Eq. rewrite Eq in HL. apply IH; auto.
Qed.
Lemma adjacent_cycl h l n m : cycl h l -> In n l -> adjacent n m l = peq (dnext (h n)) (Some m).
Proof.
  intros (Hd & HL) Hin. destruct l as [|a t]; [destruct Hin|].
  apply (adjacent_links h a n m (a :: t)); auto.
Qed.

(** ** Node equality *)
Lemma dnode_ext (a b : dnode) : dval a = dval b -> dprev a = dprev b -> dnext a = dnext b -> a = b.
Proof. destruct a, b; cbn; congruence. Qed.

(** ** Moves *)
Lemma foot_ext h h' h'' l : (forall x, h'' x = h' x) -> foot h h' l -> foot h h'' l.
Proof. intros E (A & B). split; intros; rewrite E; auto. Qed.
Lemma cycl_ext h h' l : (forall x, h' x = h x) -> cycl h l -> cycl h' l.
Proof. intros E. apply cycl_frame. auto. Qed.

Lemma last_in (l : list nat) a : In (last l a) (a :: l).
Proof.
  destruct (snoc_cases l) as [->|(t & b & ->)]; [now left|]. rewrite last_last. right. apply in_app_iff. right; now left.
Qed.

Lemma move_back_ok h a l1 n l2 : cycl h (a :: l1 ++ n :: l2) ->
  exists h', move_back h (Some a) (Some n) = Ok (h', Some n) /\
    cycl h' (a :: l1 ++ l2 ++ [n]) /\ foot h h' (a :: l1 ++ n :: l2).
Proof.
  intros HC. pose proof HC as (Hd & _).
  assert (HR : cycl h (n :: l2 ++ a :: l1)).
  { change (n :: l2 ++ a :: l1) with ((n :: l2) ++ (a :: l1)). apply cycl_rot. exact HC. }
  destruct (l2 ++ a :: l1) as [|c q] eqn:Ecq; [destruct l2; discriminate|].
  destruct (del_cycl _ _ _ _ HR) as (E1 & E2 & A & B & C & D).
  set (b := last q c) in *.
  assert (HA : cycl (del_heap h n c b) (a :: l1 ++ l2)).
  { change (a :: l1 ++ l2) with ((a :: l1) ++ l2). apply cycl_rot. rewrite Ecq. exact A. }
  assert (Hn : ~ In n (a :: l1 ++ l2)).
  { intros K. change (a :: l1 ++ n :: l2) with ((a :: l1) ++ n :: l2) in Hd. apply NoDup_remove_2 in Hd. exact (Hd K). }
  assert (Hna : a <> n) by (intros ->; apply Hn; now left).
  destruct (ins_cycl _ _ _ _ HA Hn) as (A2 & B2).
  pose proof (cycl_first _ _ _ HA) as (_ & E3).
  set (e := last (l1 ++ l2) a) in *.
  assert (Hen : e <> n) by (intros K; apply Hn; rewrite <- K; apply last_in).
  assert (Hcn : c <> n).
  { intros ->. destruct HR as (HdR & _). inversion HdR; subst. apply H1. now left. }
  set (h1 := setn (setp h c (Some b)) b (Some c)) in *.
  assert (Ext : forall x, ins_heap h1 n a e x = ins_heap (del_heap h n c b) n a e x).
  { intros x. unfold del_heap. fold h1. unfold ins_heap. apply dnode_ext; lnk; [reflexivity| |].
    - destruct (x =? a); [reflexivity|]. destruct (x =? n); reflexivity.
    - destruct (x =? e); [reflexivity|]. destruct (x =? n); reflexivity. }
  exists (ins_heap h1 n a e). split; [|split].
  - unfold move_back. rewrite E1, E2. cbn [nonnil andb peq]. rewrite (eqb_no c n Hcn). cbn [negb].
    rewrite wr_prev_eq. cbn [bind]. neqs. rewrite E1, E2. rewrite wr_next_eq. cbn [bind]. fold h1.
    rewrite wr_next_eq. cbn [bind rd_prev]. lnk.
    assert (E4 : dprev (h1 a) = Some e).
    { revert E3. unfold del_heap. fold h1. neqs. auto. }
    rewrite E4. rewrite wr_prev_eq. cbn [bind rd_prev]. neqs. rewrite E4.
    rewrite wr_next_eq. cbn [bind]. rewrite wr_prev_eq. reflexivity.
  - eapply cycl_ext; [exact Ext|]. rewrite app_assoc. exact A2.
  - eapply foot_ext; [exact Ext|]. eapply foot_trans.
    + eapply foot_mono; [|exact B]. intros x Hx. rewrite <- Ecq in Hx. cbn [In] in *. rewrite in_app_iff in *. cbn [In] in *. tauto.
    + eapply foot_mono; [|exact B2]. intros x Hx. cbn [In] in *. rewrite in_app_iff in *. cbn [In] in *. tauto.
Qed.

(** Moving the head to the back loses every other node. *)
Lemma move_back_head h a c l : cycl h (a :: c :: l) ->
  exists h', move_back h (Some a) (Some a) = Ok (h', Some a) /\ cycl h' [a] /\ foot h h' (a :: c :: l).
Proof.
  intros HC. destruct (del_cycl _ _ _ _ HC) as (E1 & E2 & _). set (b := last l c) in *.
  pose proof HC as (Hd & _). inversion Hd as [|? ? Ha _]; subst.
  assert (Hca : c <> a) by (intros ->; apply Ha; now left).
  assert (Hba : b <> a) by (intros K; apply Ha; rewrite <- K; apply last_in).
  unfold move_back. rewrite E1, E2. cbn [nonnil andb peq]. rewrite (eqb_no c a Hca). cbn [negb].
  rewrite wr_prev_eq. cbn [bind]. neqs. rewrite E1, E2. rewrite wr_next_eq. cbn [bind].
  rewrite wr_next_eq. cbn [bind rd_prev]. neqs. rewrite E2. rewrite wr_prev_eq. cbn [bind rd_prev]. neqs.
  rewrite wr_next_eq. cbn [bind]. rewrite wr_prev_eq. cbn [bind].
  eexists. split; [reflexivity|]. split; [split|split].
  - repeat constructor. auto.
  - cbn. unfold edge. neqs. auto.
  - intros x Hx. assert (x <> a) by (intros ->; apply Hx; now left).
    assert (x <> c) by (intros ->; apply Hx; right; now left).
    assert (x <> b) by (intros ->; apply Hx; right; apply last_in).
    rewrite off_setp, off_setn, off_setp, off_setn, off_setn, off_setp; auto.
  - intros. lnk. reflexivity.
Qed.

Lemma move_back_single h a : cycl h [a] -> move_back h (Some a) (Some a) = Ok (h, None).
Proof.
  intros HC. apply cycl_single in HC. destruct HC as (E1 & E2). unfold move_back.
  rewrite E1, E2, peq_refl_some. reflexivity.
Qed.

(** The second half of MoveBefore: [n] goes in front of [m], the head stays. *)
Lemma move_before_ok h l n m : cycl h l -> In n l -> In m l ->
  n <> m -> peq (dnext (h n)) (Some m) = false ->
  exists h', move_before h (hd_error l) (Some n) (Some m) =
      Ok (h', hd_error (if is_first m l then without n l ++ [n] else before n m (without n l)), Some n) /\
    cycl h' (if is_first m l then without n l ++ [n] else before n m (without n l)) /\ foot h h' l.
Proof.
  intros HC Hn Hm Hnm Hadj. pose proof HC as (Hd & _).
  apply in_split in Hn. destruct Hn as (l1 & l2 & ->).
  destruct (remove_ok h l1 n l2 HC) as (h1 & E1 & C1 & F1 & N1 & N2).
  rewrite without_split by assumption.
  assert (Hn1 : ~ In n (l1 ++ l2)) by (apply NoDup_remove_2; assumption).
  assert (Hm1 : In m (l1 ++ l2)).
  { rewrite in_app_iff in *. cbn [In] in Hm. intuition congruence. }
  pose proof Hm1 as Hm2. apply in_split in Hm1. destruct Hm1 as (p & q & Epq). rewrite Epq in C1.
  pose proof (cycl_rot _ _ _ C1) as CR. cbn [app] in CR.
  pose proof (cycl_first _ _ _ CR) as (E2 & E3). set (b := last (q ++ p) m) in *.
  assert (Hn3 : ~ In n (m :: q ++ p)).
  { rewrite Epq in Hn1. intros K. apply Hn1. rewrite in_app_iff in *. cbn [In] in *. rewrite in_app_iff in K. tauto. }
  destruct (ins_cycl _ _ _ _ CR Hn3) as (A & B). fold b in A, B.
  assert (Hbn : b <> n) by (intros K; apply Hn3; rewrite <- K; apply last_in).
  exists (ins_heap h1 n m b).
  assert (Efirst : is_first m (l1 ++ n :: l2) = is_first m (l1 ++ l2)).
  { destruct l1 as [|c l1]; [|reflexivity]. cbn [app is_first]. rewrite (eqb_no n m Hnm).
    destruct l2 as [|d l2]; [reflexivity|]. cbn [is_first]. cbn [app] in HC. apply cycl_second in HC.
    destruct HC as (Q & _). rewrite Q in Hadj. cbn in Hadj. now rewrite Hadj. }
  assert (Hd1 : NoDup (p ++ m :: q)) by (destruct C1; assumption).
  assert (Efin : cycl (ins_heap h1 n m b) (if is_first m (l1 ++ l2) then (l1 ++ l2) ++ [n] else before n m (l1 ++ l2)) /\
    hd_error (l1 ++ l2) = hd_error (if is_first m (l1 ++ l2) then (l1 ++ l2) ++ [n] else before n m (l1 ++ l2))).
  { rewrite Epq. destruct p as [|c p].
    - cbn [app is_first]. rewrite Nat.eqb_refl. cbn [app hd_error]. split; [|reflexivity].
      rewrite app_nil_r in A. exact A.
    - cbn [app is_first]. rewrite eqb_no.
      2:{ intros ->. inversion Hd1; subst. apply H1. apply in_app_iff. right; now left. }
      change (c :: p ++ m :: q) with ((c :: p) ++ m :: q). rewrite before_split by assumption.
      split; [|reflexivity]. change ((c :: p) ++ n :: m :: q) with ((c :: p) ++ [n] ++ (m :: q)). rewrite app_assoc.
      apply cycl_rot. cbn [app]. rewrite <- app_assoc in A. exact A. }
  rewrite Efirst. destruct Efin as (Ef1 & Ef2). split; [|split; [exact Ef1|]].
  - unfold move_before. cbn [nonnil andb]. rewrite Hadj. cbn [peq]. rewrite (eqb_no n m Hnm). cbn [negb andb].
    rewrite E1. cbn [bind nonnil rd_prev rd_next]. rewrite E3. cbn [bind rd_next]. rewrite E2.
    rewrite wr_next_eq. cbn [bind rd_prev]. lnk. rewrite E3.
    rewrite wr_prev_eq. cbn [bind rd_prev].
    assert (m <> n) by auto. neqs. rewrite E3.
    rewrite wr_next_eq. cbn [bind]. rewrite wr_prev_eq. cbn [bind]. unfold ins_heap. now rewrite Ef2.
  - eapply foot_trans; [exact F1|]. eapply foot_mono; [|exact B].
    intros x Hx. assert (K : x = n \/ In x (l1 ++ l2)).
    { rewrite Epq. rewrite in_app_iff. cbn [In] in *. rewrite in_app_iff in Hx. intuition. }
    destruct K as [->|K]; apply in_app_iff; [right; now left|]. apply in_app_iff in K. cbn. tauto.
Qed.

Lemma move_after_ok h l n m : cycl h l -> In n l -> In m l ->
  n <> m -> peq (dnext (h m)) (Some n) = false ->
  exists h', move_after h (hd_error l) (Some n) (Some m) = Ok (h', hd_error (after n m (without n l)), Some n) /\
    cycl h' (after n m (without n l)) /\ foot h h' l.
Proof.
  intros HC Hn Hm Hnm Hadj. pose proof HC as (Hd & _).
  apply in_split in Hn. destruct Hn as (l1 & l2 & ->).
  destruct (remove_ok h l1 n l2 HC) as (h1 & E1 & C1 & F1 & N1 & N2).
  rewrite without_split by assumption.
  assert (Hn1 : ~ In n (l1 ++ l2)) by (apply NoDup_remove_2; assumption).
  assert (Hm1 : In m (l1 ++ l2)).
  { rewrite in_app_iff in *. cbn [In] in Hm. intuition congruence. }
  apply in_split in Hm1. destruct Hm1 as (p & q & Epq). rewrite Epq in *.
  assert (Hd1 : NoDup (p ++ m :: q)) by (destruct C1; assumption).
  rewrite after_split by assumption.
  pose proof (cycl_next _ _ _ _ C1) as Enx.
  assert (CR : cycl h1 (q ++ (p ++ [m]))).
  { apply cycl_rot. rewrite <- app_assoc. exact C1. }
  destruct (q ++ (p ++ [m])) as [|a t] eqn:Eat; [destruct q; destruct p; discriminate|].
  cbn [hd_error] in Enx.
  assert (Elast : last t a = m).
  { assert (K : last (a :: t) m = m) by (rewrite <- Eat, app_assoc; apply last_last).
    destruct (snoc_cases t) as [->|(t' & b & ->)]; [exact K|]. rewrite last_last.
    change (a :: t' ++ [b]) with ((a :: t') ++ [b]) in K. rewrite last_last in K. exact K. }
  assert (Hn3 : ~ In n (a :: t)).
  { rewrite <- Eat. intros K. apply Hn1. rewrite !in_app_iff in *. cbn [In] in *. tauto. }
  destruct (ins_cycl _ _ _ _ CR Hn3) as (A & B). rewrite Elast in A, B.
  assert (Hmn : m <> n) by auto.
  assert (Han : a <> n) by (intros ->; apply Hn3; now left).
  set (h2 := setn (setp (setp (setn h1 n (Some a)) n (Some m)) a (Some n)) m (Some n)).
  assert (Ext : forall x, h2 x = ins_heap h1 n a m x).
  { intros x. unfold h2, ins_heap. apply dnode_ext; lnk; reflexivity. }
  exists h2. split; [|split].
  - unfold move_after. cbn [nonnil andb]. rewrite Hadj. cbn [peq]. rewrite (eqb_no n m Hnm). cbn [negb andb].
    rewrite E1. cbn [bind nonnil rd_next]. rewrite Enx. rewrite wr_next_eq. cbn [bind].
    rewrite wr_prev_eq. cbn [bind rd_next]. neqs. rewrite Enx. rewrite wr_prev_eq. cbn [bind].
    rewrite wr_next_eq. cbn [bind]. fold h2. f_equal. f_equal. f_equal. destruct p; reflexivity.
  - eapply cycl_ext; [exact Ext|].
    change (p ++ m :: n :: q) with (p ++ [m] ++ [n] ++ q). rewrite !app_assoc. apply cycl_rot.
    rewrite !app_assoc. rewrite <- (app_assoc q p [m]), Eat. exact A.
  - eapply foot_ext; [exact Ext|]. eapply foot_trans; [exact F1|]. eapply foot_mono; [|exact B].
    intros x Hx. assert (K : x = n \/ In x (p ++ m :: q)).
    { rewrite <- Eat in Hx. cbn [In] in *. rewrite !in_app_iff in *. cbn [In] in *. intuition. }
    rewrite <- Epq in K.
    destruct K as [->|K]; apply in_app_iff; [right; now left|]. apply in_app_iff in K. cbn. tauto.
Qed.

(** ** Reverse keeps only the first node *)
Lemma reverse_ok h l fuel : cycl h l -> 1 <= fuel ->
  exists h', reverse fuel h (hd_error l) = Ok (h', hd_error (firstn 1 l)) /\ cycl h' (firstn 1 l) /\ foot h h' l.
Proof.
  intros HC Hf. destruct fuel as [|f]; [lia|]. destruct l as [|a l].
  - exists h. split; [reflexivity|]. split; [apply cycl_nil|apply foot_refl].
  - unfold reverse. cbn [reverse_loop hd_error visitor vis_next vis_node vis_head nonnil bind].
    destruct (insert_front_ok h [] a (cycl_nil h) ltac:(intros [])) as (h1 & E & C & F).
    cbn [hd_error] in E. change clear with (@None nat). rewrite E. cbn [bind].
    pose proof (cycl_single _ _ C) as (E1 & E2).
    exists h1. split; [|split; [exact C|]].
    + destruct f; cbn [reverse_loop vis_next vis_node vis_head bind]; rewrite E1, peq_refl_some; reflexivity.
    + eapply foot_mono; [|exact F]. intros x [<-|[]]. now left.
Qed.

(** ** Traversals *)
Lemma traverse_next_from h v l : cycl h l -> (forall x, dval (h x) = v x) ->
  forall r p x fuel, l = p ++ x :: r -> length r <= fuel ->
  traverse_next fuel h (DVisitor (Some x) (hd_error l)) = Ok (map v r).
Proof.
  intros HC Hv. induction r as [|y r IH]; intros p x fuel El Hf.
  - subst l. pose proof (cycl_next _ _ _ _ HC) as En. cbn [app] in En.
    destruct fuel; cbn [traverse_next vis_next vis_node vis_head bind]; rewrite En;
      (destruct p; cbn [app hd_error]; rewrite peq_refl_some; reflexivity).
  - destruct fuel as [|f]; [cbn in Hf; lia|]. subst l. pose proof (cycl_next _ _ _ _ HC) as En. cbn [app hd_error] in En.
    cbn [traverse_next vis_next vis_node vis_head bind]. rewrite En.
    assert (Hh : peq (Some y) (hd_error (p ++ x :: y :: r)) = false).
    { destruct HC as (Hd & _). destruct p as [|a p]; cbn [app hd_error peq]; apply eqb_no; intros ->.
      - inversion Hd; subst. apply H1. now left.
      - inversion Hd; subst. apply H1. apply in_app_iff. right. right. now left. }
    rewrite Hh. cbn [negb rd_val vis_node bind].
    rewrite (IH (p ++ [x]) y f); [|now rewrite <- app_assoc|cbn in Hf; lia].
    cbn [bind map]. now rewrite Hv.
Qed.
Lemma traverse_next_ok h v l fuel : cycl h l -> (forall x, dval (h x) = v x) -> length l <= fuel ->
  traverse_next fuel h (visitor (hd_error l)) = Ok (map v l).
Proof.
  intros HC Hv Hf. destruct l as [|a l].
  - destruct fuel; reflexivity.
  - destruct fuel as [|f]; [cbn in Hf; lia|].
    cbn [traverse_next visitor hd_error vis_next vis_node vis_head nonnil bind rd_val].
    change (Some a) with (hd_error (a :: l)) at 2.
    rewrite (traverse_next_from h v (a :: l) HC Hv l [] a f eq_refl); [|cbn in Hf; lia].
    cbn [bind map]. now rewrite Hv.
Qed.
Lemma traverse_prev_from h v l : cycl h l -> (forall x, dval (h x) = v x) ->
  forall p x r fuel, l = rev p ++ x :: r -> length p <= fuel ->
  traverse_prev fuel h (DVisitor (Some x) (hd_error l)) = Ok (map v p).
Proof.
  intros HC Hv. pose proof (back_ok h l HC) as Hb.
  induction p as [|y p IH]; intros x r fuel El Hf.
  - subst l. pose proof (cycl_prev _ _ _ _ HC) as En. cbn [app rev] in *.
    assert (Hbp : rd_prev h (hd_error (x :: r)) = Ok (dprev (h x))) by reflexivity.
    destruct fuel; cbn [traverse_prev vis_prev vis_node vis_head]; rewrite Hbp; cbn [bind];
      rewrite En; destruct (rev r); cbn [app hd_error]; rewrite peq_refl_some; reflexivity.
  - destruct fuel as [|f]; [cbn in Hf; lia|]. subst l. pose proof (cycl_prev _ _ _ _ HC) as En.
    rewrite rev_involutive in En. cbn [app hd_error] in En.
    cbn [traverse_prev vis_prev vis_node vis_head]. rewrite En.
    set (l := rev (y :: p) ++ x :: r) in *.
    assert (Hbp : rd_prev h (hd_error l) = Ok (back h (hd_error l))).
    { unfold l. cbn [rev]. destruct (rev p); reflexivity. }
    rewrite Hbp, Hb. cbn [bind].
    assert (Hh : peq (Some y) (hd_error (rev l)) = false).
    { unfold l. rewrite rev_app_distr, rev_involutive. cbn [rev].
      destruct HC as (Hd & _). unfold l in Hd. apply NoDup_rev in Hd. rewrite rev_app_distr, rev_involutive in Hd. cbn [rev] in Hd.
      rewrite <- app_assoc in *. cbn [app] in *.
      destruct (rev r) as [|c q]; cbn [app hd_error peq] in *; apply eqb_no; intros ->; inversion Hd; subst; apply H1.
      - now left.
      - apply in_app_iff. right. right. now left. }
    rewrite Hh. cbn [negb rd_val vis_node bind].
    rewrite (IH y (x :: r) f).
    + cbn [bind map]. now rewrite Hv.
    + unfold l. cbn [rev]. rewrite <- app_assoc. reflexivity.
    + cbn in Hf; lia.
Qed.
Lemma traverse_prev_ok h v l fuel : cycl h l -> (forall x, dval (h x) = v x) -> length l <= fuel ->
  traverse_prev fuel h (visitor (hd_error l)) = Ok (map v (rev l)).
Proof.
  intros HC Hv Hf. pose proof (back_ok h l HC) as Hb. destruct (snoc_cases l) as [->|(t & b & ->)].
  - destruct fuel; reflexivity.
  - destruct fuel as [|f]; [rewrite app_length in Hf; cbn in Hf; lia|].
    rewrite rev_app_distr in *. cbn [rev app hd_error map] in *.
    assert (Hnn : exists a, hd_error (t ++ [b]) = Some a) by (destruct t; cbn; eauto).
    destruct Hnn as (a & Ea).
    assert (Ep : dprev (h a) = Some b) by (rewrite Ea in Hb; exact Hb).
    cbn [traverse_prev visitor vis_prev vis_node vis_head]. rewrite Ea. cbn [nonnil rd_prev bind]. rewrite Ep.
    cbn [rd_val vis_node bind]. rewrite <- Ea.
    rewrite (traverse_prev_from h v (t ++ [b]) HC Hv (rev t) b [] f).
    + cbn [bind]. now rewrite Hv.
    + now rewrite rev_involutive.
    + rewrite rev_length. rewrite app_length in Hf. cbn in Hf. lia.
Qed.

(** ** Stable sorting is unique *)
Section Unique.
Variable v : nat -> Z.
Notation asc' := (asc Z.ltb v).
Notation eqv' := (eqv Z.ltb v).

Lemma eqv_spec z x : eqv' z x = (v x =? z)%Z.
Proof. unfold eqv. destruct (Z.ltb_spec (v x) z), (Z.ltb_spec z (v x)), (Z.eqb_spec (v x) z); cbn; auto; lia. Qed.

Lemma asc_unique : forall l1 l2, asc' l1 -> asc' l2 ->
  (forall z, filter (eqv' z) l1 = filter (eqv' z) l2) -> l1 = l2.
Proof.
  assert (Hin : forall l x z, In x (filter (eqv' z) l) -> In x l) by (intros l x z H; apply filter_In in H; tauto).
  assert (Hself : forall x, eqv' (v x) x = true) by (intros; rewrite eqv_spec; apply Z.eqb_refl).
  induction l1 as [|x l1 IH]; intros l2 H1 H2 HF.
  - destruct l2 as [|y l2]; [reflexivity|]. specialize (HF (v y)). cbn [filter] in HF. rewrite Hself in HF. discriminate.
  - destruct l2 as [|y l2].
    { specialize (HF (v x)). cbn [filter] in HF. rewrite Hself in HF. discriminate. }
    inversion H1 as [|? ? A1 A2]; subst. inversion H2 as [|? ? B1 B2]; subst. rewrite Forall_forall in A2, B2.
    assert (Kx : In x (y :: l2)).
    { apply Hin with (v x). rewrite <- HF. cbn [filter]. rewrite Hself. now left. }
    assert (Ky : In y (x :: l1)).
    { apply Hin with (v y). rewrite HF. cbn [filter]. rewrite Hself. now left. }
    assert (Ev : v x = v y).
    { destruct Kx as [<-|Kx]; [reflexivity|]. destruct Ky as [<-|Ky]; [reflexivity|].
      apply A2 in Ky. apply B2 in Kx. apply Z.ltb_ge in Kx, Ky. lia. }
    assert (Exy : x = y).
    { pose proof (HF (v x)) as K. cbn [filter] in K. rewrite Hself in K.
      rewrite (eqv_spec (v x) y), Ev, Z.eqb_refl in K. congruence. }
    subst y. f_equal. apply IH; auto. intros z. specialize (HF z). cbn [filter] in HF.
    destruct (eqv' z x); congruence.
Qed.

Lemma insert_sorted_in x y l : In x (insert_sorted v y l) <-> x = y \/ In x l.
Proof.
  induction l as [|z l IH]; cbn; [intuition|]. destruct (v y <=? v z)%Z; cbn; intuition.
Qed.
Lemma insert_sorted_asc x l : asc' l -> asc' (insert_sorted v x l).
Proof.
  induction l as [|y l IH]; intros H; [apply asc_single|]. inversion H as [|? ? A1 A2]; subst. cbn.
  rewrite Forall_forall in A2.
  destruct (Z.leb_spec (v x) (v y)).
  - constructor; [exact H|]. apply Forall_forall. intros z [<-|Hz]; [apply Z.ltb_ge; lia|].
    apply A2 in Hz. apply Z.ltb_ge in Hz. apply Z.ltb_ge. lia.
  - constructor; [exact (IH A1)|]. apply Forall_forall. intros z Hz. apply insert_sorted_in in Hz. destruct Hz as [->|Hz]; auto.
    apply Z.ltb_ge. lia.
Qed.
Lemma insert_sorted_filter z x l : asc' l ->
  filter (eqv' z) (insert_sorted v x l) = filter (eqv' z) (x :: l).
Proof.
  induction l as [|y l IH]; intros H; [reflexivity|]. inversion H as [|? ? A1 A2]; subst. cbn [insert_sorted].
  destruct (Z.leb_spec (v x) (v y)); [reflexivity|].
  cbn [filter]. rewrite IH by assumption. cbn [filter].
  rewrite !eqv_spec. destruct (Z.eqb_spec (v x) z), (Z.eqb_spec (v y) z); try reflexivity. lia.
Qed.
Lemma stable_sort_asc l : asc' (stable_sort v l).
Proof. induction l; [constructor|]. cbn. now apply insert_sorted_asc. Qed.
Lemma stable_sort_filter z l : filter (eqv' z) (stable_sort v l) = filter (eqv' z) l.
Proof.
  induction l as [|x l IH]; [reflexivity|]. cbn [stable_sort fold_right].
  rewrite insert_sorted_filter by apply stable_sort_asc. cbn [filter]. fold (stable_sort v l). now rewrite IH.
Qed.
End Unique.

Lemma ltb_asym a b : (a <? b)%Z = true -> (b <? a)%Z = false.
Proof. intros H. apply Z.ltb_lt in H. apply Z.ltb_ge. lia. Qed.
Lemma ltb_neg a b c : (a <? c)%Z = true -> (a <? b)%Z = true \/ (b <? c)%Z = true.
Proof. rewrite !Z.ltb_lt. lia. Qed.

Lemma sort_ok h v l fuel : cycl h l -> (forall x, dval (h x) = v x) -> (zlen l < 2 ^ 64)%Z -> 2 * length l + 64 <= fuel ->
  exists h', sort_list Z.ltb fuel h (hd_error l) = Ok (h', hd_error (stable_sort v l)) /\
    cycl h' (stable_sort v l) /\ foot h h' l.
Proof.
  intros HC Hv Hs Hf. pose proof HC as (Hd & _).
  destruct (sort_list_ok Z.ltb v ltb_asym ltb_neg l h Hd Hs fuel HC Hv Hf) as (h' & l' & E & C & F & P & A & S).
  assert (l' = stable_sort v l) as <-.
  { apply (asc_unique v); auto using stable_sort_asc. intros z. now rewrite S, stable_sort_filter. }
  eauto.
Qed.
Lemma stable_sort_perm v l : Permutation (stable_sort v l) l.
Proof.
  induction l as [|x l IH]; [reflexivity|]. cbn [stable_sort fold_right]. fold (stable_sort v l).
  assert (K : forall q, Permutation (insert_sorted v x q) (x :: q)).
  { induction q as [|y q IHq]; [reflexivity|]. cbn. destruct (v x <=? v y)%Z; [reflexivity|].
    rewrite IHq. apply perm_swap. }
  rewrite K. now constructor.
Qed.
