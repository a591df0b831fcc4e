(** Histories of calls on many IntLists refine the abstract world. *)
From Coq Require Import ZArith List Bool Arith Lia Permutation.
From Verif Require Import GoBase GoLists ConcBase ListModel ListCore ListSort ListSpec ListProofs.
Import ListNotations.
Open Scope nat_scope.

Record Rel (w : lworld) (a : aworld) : Prop := {
  r_head : forall k, lheads w k = hd_error (aseq a k);
  r_cyc : forall k, cycl (lheap w) (aseq a k);
  r_disj : forall k j x, In x (aseq a k) -> In x (aseq a j) -> k = j;
  r_old : forall k x, In x (aseq a k) -> x < lfresh w;
  r_free : forall x, afree a x = true -> x < lfresh w /\ (forall k, ~ In x (aseq a k)) /\
             dnext (lheap w x) = None /\ dprev (lheap w x) = None;
  r_val : forall x, dval (lheap w x) = aval a x;
  r_fresh : lfresh w = afresh a }.

Lemma Rel0 : Rel lworld0 aworld0.
Proof. split; cbn; auto using cycl_nil; try tauto; discriminate. Qed.

Lemma cycl_nodup h l : cycl h l -> NoDup l. Proof. intros (H & _). exact H. Qed.

Lemma nodup_below (l : list nat) n : NoDup l -> (forall x, In x l -> x < n) -> length l <= n.
Proof.
  intros Hd Hb. rewrite <- (seq_length n 0). apply NoDup_incl_length; [exact Hd|].
  intros x Hx. apply in_seq. apply Hb in Hx. lia.
Qed.
Lemma Rel_len w a k : Rel w a -> length (aseq a k) <= lfresh w.
Proof. intros R. apply nodup_below; [eapply cycl_nodup, (r_cyc w a R)|apply (r_old w a R)]. Qed.

(** Changing one list. *)
Lemma Rel_upd w a k h' l' fr D :
  Rel w a -> cycl h' l' ->
  (forall x, In x l' -> In x (aseq a k) \/ afree a x = true) ->
  foot (lheap w) h' D -> (forall x, In x D -> In x (aseq a k) \/ afree a x = true) ->
  (forall x, fr x = true -> ~ In x l' /\
     ((afree a x = true /\ ~ In x D) \/
      ((In x (aseq a k) \/ afree a x = true) /\ dnext (h' x) = None /\ dprev (h' x) = None))) ->
  Rel (LWorld h' (fupd (lheads w) k (hd_error l')) (lfresh w)) (put_seq a k l' fr).
Proof.
  intros R HC Hl HF HD Hfr. split; cbn.
  - intros j. unfold fupd. destruct (j =? k); [reflexivity|apply R].
  - intros j. unfold fupd. destruct (Nat.eqb_spec j k) as [->|Hj]; [exact HC|].
    eapply cycl_frame; [|apply (r_cyc w a R j)]. intros x Hx. apply HF. intros K.
    destruct (HD _ K) as [K1|K1]; [apply Hj; exact (r_disj w a R _ _ _ Hx K1)|].
    destruct (r_free w a R x K1) as (_ & K2 & _). exact (K2 _ Hx).
  - intros i j x. unfold fupd. destruct (Nat.eqb_spec i k) as [->|Hi], (Nat.eqb_spec j k) as [->|Hj]; intros Hx Hy; auto.
    + destruct (Hl _ Hx) as [K|K]; [exact (r_disj w a R _ _ _ K Hy)|].
      destruct (r_free w a R x K) as (_ & K2 & _). destruct (K2 _ Hy).
    + destruct (Hl _ Hy) as [K|K]; [exact (r_disj w a R _ _ _ Hx K)|].
      destruct (r_free w a R x K) as (_ & K2 & _). destruct (K2 _ Hx).
    + exact (r_disj w a R _ _ _ Hx Hy).
  - intros j x. unfold fupd. destruct (Nat.eqb_spec j k) as [->|Hj]; intros Hx; [|exact (r_old w a R _ _ Hx)].
    destruct (Hl _ Hx) as [K|K]; [exact (r_old w a R _ _ K)|]. apply (r_free w a R x K).
  - intros x Hx. destruct (Hfr x Hx) as (K1 & K2).
    assert (K3 : In x (aseq a k) \/ afree a x = true) by tauto.
    split; [|split].
    + destruct K3 as [K3|K3]; [exact (r_old w a R _ _ K3)|apply (r_free w a R x K3)].
    + intros j. unfold fupd. destruct (Nat.eqb_spec j k) as [->|Hj]; [exact K1|]. intros Hj2.
      destruct K3 as [K3|K3]; [apply Hj; exact (r_disj w a R _ _ _ Hj2 K3)|].
      destruct (r_free w a R x K3) as (_ & K4 & _). exact (K4 _ Hj2).
    + destruct K2 as [(K2 & K4)|(_ & K2)]; [|exact K2]. destruct HF as (HF & _). rewrite (HF x K4).
      apply (r_free w a R x K2).
  - intros x. destruct HF as (_ & HF). rewrite HF. apply R.
  - apply R.
Qed.

(** A new node, free at first. *)
Lemma Rel_alloc w a v : Rel w a ->
  Rel (LWorld (alloc (lheap w) (lfresh w) v) (lheads w) (S (lfresh w)))
      (AWorld (aseq a) (fupd (aval a) (afresh a) v) (fupd (afree a) (afresh a) true) (S (afresh a))).
Proof.
  intros R. unfold alloc. pose proof (r_fresh w a R) as Hf. split; cbn.
  - apply R.
  - intros k. eapply cycl_frame; [|apply (r_cyc w a R k)]. intros x Hx. apply fupd_other.
    apply (r_old w a R) in Hx. lia.
  - apply R.
  - intros k x Hx. apply (r_old w a R) in Hx. lia.
  - intros x. unfold fupd. rewrite <- Hf. destruct (Nat.eqb_spec x (lfresh w)) as [->|Hx].
    + intros _. split; [lia|]. split; [|auto]. intros k K. apply (r_old w a R) in K. lia.
    + intros K. destruct (r_free w a R x K) as (A & B). split; [lia|]. exact B.
  - intros x. unfold fupd. rewrite <- Hf. destruct (Nat.eqb_spec x (lfresh w)) as [->|Hx]; [reflexivity|apply R].
  - now rewrite Hf.
Qed.

Lemma fupd_fupd {X} (f : nat -> X) t x y u : fupd (fupd f t x) t y u = fupd f t y u.
Proof. unfold fupd. destruct (u =? t); reflexivity. Qed.

(** Worlds that agree pointwise are interchangeable. *)
Lemma Rel_ext w hs a sq fr vl : Rel w a -> (forall k, hs k = lheads w k) -> (forall k, sq k = aseq a k) ->
  (forall x, fr x = afree a x) -> (forall x, vl x = aval a x) ->
  Rel (LWorld (lheap w) hs (lfresh w)) (AWorld sq vl fr (afresh a)).
Proof.
  intros R E1 E2 E3 E4. split; cbn.
  - intros k. rewrite E1, E2. apply R.
  - intros k. rewrite E2. apply R.
  - intros k j x. rewrite !E2. apply R.
  - intros k x. rewrite E2. apply R.
  - intros x. rewrite E3. intros Hx. destruct (r_free w a R x Hx) as (A & B & C). split; [exact A|]. split; [|exact C].
    intros k. rewrite E2. apply B.
  - intros x. rewrite E4. apply R.
  - apply R.
Qed.

Lemma Rel_idle w a hs : Rel w a -> (forall k, hs k = lheads w k) -> Rel (LWorld (lheap w) hs (lfresh w)) a.
Proof.
  intros R H. pose proof (Rel_ext w hs a (aseq a) (afree a) (aval a) R H (fun _ => eq_refl) (fun _ => eq_refl) (fun _ => eq_refl)) as K.
  destruct a; exact K.
Qed.

Section Steps.
Variables (w : lworld) (a : aworld).
Hypothesis R : Rel w a.

Lemma free_notin n k : afree a n = true -> ~ In n (aseq a k).
Proof. intros H. apply (r_free w a R n H). Qed.

(** Inserting a free node: the new sequence is the old one with [n] added. *)
Lemma Rel_ins k n h' l' : afree a n = true -> cycl h' l' ->
  (forall x, In x l' <-> x = n \/ In x (aseq a k)) -> foot (lheap w) h' (n :: aseq a k) ->
  Rel (LWorld h' (fupd (lheads w) k (hd_error l')) (lfresh w)) (put_seq a k l' (fupd (afree a) n false)).
Proof.
  intros Hn HC Hl HF. eapply Rel_upd; eauto.
  - intros x Hx. apply Hl in Hx. destruct Hx as [->|Hx]; auto.
  - intros x [<-|Hx]; auto.
  - intros x. unfold fupd. destruct (Nat.eqb_spec x n) as [->|Hx]; [discriminate|]. intros K.
    split.
    + intros K1. apply Hl in K1. destruct K1 as [K1|K1]; [auto|]. exact (free_notin _ _ K K1).
    + left. split; [exact K|]. intros [K1|K1]; [auto|]. exact (free_notin _ _ K K1).
Qed.

(** Rearranging a list. *)
Lemma Rel_perm k h' l' : cycl h' l' -> (forall x, In x l' -> In x (aseq a k)) -> foot (lheap w) h' (aseq a k) ->
  Rel (LWorld h' (fupd (lheads w) k (hd_error l')) (lfresh w)) (put_seq a k l' (afree a)).
Proof.
  intros HC Hl HF. eapply Rel_upd; eauto. intros x K. split.
  - intros K1. exact (free_notin _ _ K (Hl _ K1)).
  - left. split; [exact K|]. exact (free_notin _ _ K).
Qed.

(** Taking a node out. *)
Lemma Rel_take k l1 n l2 h' : aseq a k = l1 ++ n :: l2 -> cycl h' (l1 ++ l2) ->
  foot (lheap w) h' (l1 ++ n :: l2) -> dnext (h' n) = None -> dprev (h' n) = None ->
  Rel (LWorld h' (fupd (lheads w) k (hd_error (l1 ++ l2))) (lfresh w)) (take_node a k (Some n)).
Proof.
  intros El HC HF N1 N2. unfold take_node. rewrite El.
  assert (Hd : NoDup (l1 ++ n :: l2)) by (rewrite <- El; eapply cycl_nodup, (r_cyc w a R)).
  rewrite without_split by exact Hd.
  eapply Rel_upd; eauto.
  - intros x Hx. left. rewrite El. rewrite in_app_iff in *. cbn. tauto.
  - intros x Hx. left. now rewrite El.
  - intros x. unfold fupd. destruct (Nat.eqb_spec x n) as [->|Hx].
    + intros _. split; [now apply NoDup_remove_2|]. right. split; [|auto]. left. rewrite El. apply in_app_iff. right; now left.
    + intros K. assert (K1 : ~ In x (l1 ++ n :: l2)) by (rewrite <- El; exact (free_notin _ _ K)).
      split; [|left; auto]. intros K2. apply K1. rewrite in_app_iff in *. cbn. tauto.
Qed.

Lemma remove_step k p : (p = None \/ exists n, p = Some n /\ In n (aseq a k)) ->
  exists h' hd', remove (lheap w) (lheads w k) p = Ok (h', hd', p) /\
    Rel (LWorld h' (fupd (lheads w) k hd') (lfresh w)) (take_node a k p) /\
    (forall x, dval (h' x) = aval a x).
Proof.
  intros [->|(n & -> & Hn)].
  - exists (lheap w), (lheads w k). split; [reflexivity|]. split; [|apply R].
    cbn [take_node]. apply Rel_idle; [exact R|]. intros j. unfold fupd. destruct (Nat.eqb_spec j k); congruence.
  - apply in_split in Hn. destruct Hn as (l1 & l2 & El).
    pose proof (r_cyc w a R k) as HC. rewrite El in HC.
    destruct (remove_ok _ _ _ _ HC) as (h' & E & C & F & N1 & N2).
    exists h', (hd_error (l1 ++ l2)). rewrite (r_head w a R k), El. split; [exact E|]. split.
    + eapply Rel_take; eauto.
    + intros x. destruct F as (_ & F). rewrite F. apply R.
Qed.

Lemma hd_in (l : list nat) : hd_error l = None \/ exists n, hd_error l = Some n /\ In n l.
Proof. destruct l; [now left|]. right. exists n. split; [reflexivity|now left]. Qed.
Lemma last_node_in (l : list nat) : last_node l = None \/ exists n, last_node l = Some n /\ In n l.
Proof.
  unfold last_node. destruct (hd_in (rev l)) as [H|(n & H & K)]; [now left|]. right. exists n. split; [exact H|].
  now apply in_rev.
Qed.

Lemma back_step k : back (lheap w) (lheads w k) = last_node (aseq a k).
Proof. rewrite (r_head w a R k). apply back_ok. apply R. Qed.

Lemma pop_front_step k : exists h' hd' v ok, pop_front (lheap w) (lheads w k) = Ok (h', hd', (v, ok)) /\
  OVal v ok = got_val a (hd_error (aseq a k)) /\
  Rel (LWorld h' (fupd (lheads w) k hd') (lfresh w)) (take_node a k (hd_error (aseq a k))).
Proof.
  unfold pop_front, front. rewrite (r_head w a R k).
  destruct (remove_step k (hd_error (aseq a k)) (hd_in _)) as (h' & hd' & E & R' & V). rewrite (r_head w a R k) in E. rewrite E. cbn [bind].
  destruct (hd_error (aseq a k)) as [n|].
  - exists h', hd', (dval (h' n)), true. split; [reflexivity|]. split; [cbn; now rewrite V|exact R'].
  - exists h', hd', 0%Z, false. auto.
Qed.
Lemma pop_back_step k : exists h' hd' v ok, pop_back (lheap w) (lheads w k) = Ok (h', hd', (v, ok)) /\
  OVal v ok = got_val a (last_node (aseq a k)) /\
  Rel (LWorld h' (fupd (lheads w) k hd') (lfresh w)) (take_node a k (last_node (aseq a k))).
Proof.
  unfold pop_back. rewrite back_step.
  destruct (remove_step k (last_node (aseq a k)) (last_node_in _)) as (h' & hd' & E & R' & V). rewrite E. cbn [bind].
  destruct (last_node (aseq a k)) as [n|].
  - exists h', hd', (dval (h' n)), true. split; [reflexivity|]. split; [cbn; now rewrite V|exact R'].
  - exists h', hd', 0%Z, false. auto.
Qed.

Lemma insert_front_step k n : afree a n = true ->
  exists h' hd', insert_front (lheap w) (lheads w k) (Some n) = Ok (h', hd') /\
    Rel (LWorld h' (fupd (lheads w) k hd') (lfresh w)) (put_seq a k (n :: aseq a k) (fupd (afree a) n false)).
Proof.
  intros Hn. destruct (insert_front_ok (lheap w) (aseq a k) n (r_cyc w a R k) (free_notin _ _ Hn)) as (h' & E & C & F).
  exists h', (Some n). rewrite (r_head w a R k). split; [exact E|].
  apply (Rel_ins k n h' (n :: aseq a k)); auto. intros x. cbn. intuition.
Qed.
Lemma insert_back_step k n : afree a n = true ->
  exists h' hd', insert_back (lheap w) (lheads w k) (Some n) = Ok (h', hd') /\
    Rel (LWorld h' (fupd (lheads w) k hd') (lfresh w)) (put_seq a k (aseq a k ++ [n]) (fupd (afree a) n false)).
Proof.
  intros Hn. destruct (insert_back_ok (lheap w) (aseq a k) n (r_cyc w a R k) (free_notin _ _ Hn)) as (h' & E & C & F).
  eexists h', _. rewrite (r_head w a R k). split; [exact E|].
  apply Rel_ins; auto. intros x. rewrite in_app_iff. cbn. intuition.
Qed.
Lemma insert_before_step k n m : afree a n = true -> In m (aseq a k) ->
  exists h' hd', insert_before (lheap w) (lheads w k) (Some n) (Some m) = Ok (h', hd') /\
    Rel (LWorld h' (fupd (lheads w) k hd') (lfresh w)) (put_seq a k (before n m (aseq a k)) (fupd (afree a) n false)).
Proof.
  intros Hn Hm. apply in_split in Hm. destruct Hm as (l1 & l2 & El).
  pose proof (r_cyc w a R k) as HC. pose proof (free_notin n k Hn) as Hn'. rewrite El in HC, Hn'.
  destruct (insert_before_ok _ _ _ _ n HC Hn') as (h' & E & C & F).
  eexists h', _. rewrite (r_head w a R k), El. split; [exact E|].
  rewrite before_split by (eapply cycl_nodup; exact HC).
  apply Rel_ins; auto; rewrite ?El; auto. intros x. rewrite !in_app_iff. cbn. intuition.
Qed.

Lemma rot_forward l h : cycl h l -> rotate_forward h (hd_error l) = hd_error (rotate_left l) /\ cycl h (rotate_left l).
Proof.
  destruct l as [|x l]; intros HC; [split; [reflexivity|exact HC]|]. cbn [rotate_left hd_error rotate_forward].
  split; [|apply (cycl_rot h [x] l HC)]. rewrite (cycl_next h [] x l HC). reflexivity.
Qed.
Lemma rot_backward l h : cycl h l -> rotate_backward h (hd_error l) = hd_error (rotate_right l) /\ cycl h (rotate_right l).
Proof.
  destruct (snoc_cases l) as [->|(t & b & ->)]; intros HC; [split; [reflexivity|exact HC]|].
  rewrite rotate_right_snoc. split; [|apply (cycl_rot h t [b] HC)].
  pose proof (back_ok h _ HC) as Hb. rewrite rev_app_distr in Hb. exact Hb.
Qed.
Lemma rotate_left_in x l : In x (rotate_left l) <-> In x l.
Proof. destruct l; [tauto|]. cbn. rewrite in_app_iff. cbn. tauto. Qed.
Lemma rotate_right_in x l : In x (rotate_right l) <-> In x l.
Proof. unfold rotate_right. rewrite <- in_rev, rotate_left_in, <- in_rev. tauto. Qed.

Lemma lists_disj k j : k <> j -> NoDup (aseq a k ++ aseq a j).
Proof.
  intros Hkj. pose proof (cycl_nodup _ _ (r_cyc w a R k)) as H1. pose proof (cycl_nodup _ _ (r_cyc w a R j)) as H2.
  assert (Hd : forall x, In x (aseq a k) -> ~ In x (aseq a j)) by (intros x A B; exact (Hkj (r_disj w a R _ _ _ A B))).
  induction (aseq a k) as [|x l IH]; [exact H2|]. cbn. inversion H1; subst. constructor.
  - rewrite in_app_iff. intros [K|K]; [auto|]. exact (Hd x (or_introl eq_refl) K).
  - apply IH; auto. intros y Hy. apply Hd. now right.
Qed.

(** Two lists become one. *)
Lemma Rel_join k j h' l' : k <> j -> cycl h' l' ->
  (forall x, In x l' -> In x (aseq a k ++ aseq a j)) -> foot (lheap w) h' (aseq a k ++ aseq a j) ->
  Rel (LWorld h' (fupd (fupd (lheads w) k (hd_error l')) j None) (lfresh w))
      (AWorld (fupd (fupd (aseq a) k l') j []) (aval a) (afree a) (afresh a)).
Proof.
  intros Hkj HC Hl HF. split; cbn.
  - intros i. unfold fupd. destruct (i =? j); [reflexivity|]. destruct (i =? k); [reflexivity|apply R].
  - intros i. unfold fupd. destruct (Nat.eqb_spec i j); [apply cycl_nil|]. destruct (Nat.eqb_spec i k); [exact HC|].
    eapply cycl_frame; [|apply (r_cyc w a R i)]. intros x Hx. apply HF. intros K. apply in_app_iff in K.
    destruct K as [K|K]; [apply n0|apply n]; exact (r_disj w a R _ _ _ Hx K).
  - assert (G : forall i x, In x (fupd (fupd (aseq a) k l') j [] i) ->
        i <> j /\ ((i = k /\ (In x (aseq a k) \/ In x (aseq a j))) \/ (i <> k /\ In x (aseq a i)))).
    { intros i x. unfold fupd. destruct (Nat.eqb_spec i j); [intros []|]. destruct (Nat.eqb_spec i k); intros Hx; split; auto.
      left. split; [assumption|]. apply Hl in Hx. now apply in_app_iff in Hx. }
    intros i i' x Hx Hy. apply G in Hx. apply G in Hy.
    destruct Hx as (A1 & A2), Hy as (B1 & B2).
    destruct A2 as [(-> & A2)|(A2 & A3)], B2 as [(-> & B2)|(B2 & B3)]; auto.
    + destruct A2 as [A2|A2]; [exact (r_disj w a R _ _ _ A2 B3)|]. exfalso. apply B1. exact (r_disj w a R _ _ _ B3 A2).
    + destruct B2 as [B2|B2]; [exact (r_disj w a R _ _ _ A3 B2)|]. exfalso. apply A1. exact (r_disj w a R _ _ _ A3 B2).
    + exact (r_disj w a R _ _ _ A3 B3).
  - intros i x. unfold fupd. destruct (i =? j); [intros []|]. destruct (i =? k); [|apply R]. intros Hx.
    apply Hl, in_app_iff in Hx. destruct Hx as [Hx|Hx]; exact (r_old w a R _ _ Hx).
  - intros x Hx. destruct (r_free w a R x Hx) as (A & B & C). split; [exact A|]. split.
    + intros i. unfold fupd. destruct (i =? j); [intros []|]. destruct (i =? k); [|apply B]. intros K.
      apply Hl, in_app_iff in K. destruct K as [K|K]; exact (B _ K).
    + destruct HF as (HF & _). rewrite HF; [exact C|]. intros K. apply in_app_iff in K. destruct K as [K|K]; exact (B _ K).
  - intros x. destruct HF as (_ & HF). rewrite HF. apply R.
  - apply R.
Qed.

Lemma is_first_spec n (l : list nat) : is_first n l = true <-> hd_error l = Some n.
Proof. destruct l as [|x l]; cbn; [split; discriminate|]. rewrite Nat.eqb_eq. split; congruence. Qed.

Lemma move_back_step k n : In n (aseq a k) ->
  exists h' r, move_back (lheap w) (lheads w k) (Some n) = Ok (h', r) /\ r = moved_end n (aseq a k) /\
    (let l' := if is_first n (aseq a k) then [n] else without n (aseq a k) ++ [n] in
     cycl h' l' /\ hd_error l' = lheads w k /\ foot (lheap w) h' (aseq a k) /\ (forall x, In x l' -> In x (aseq a k))).
Proof.
  intros Hn. rewrite (r_head w a R k). pose proof (r_cyc w a R k) as HC.
  destruct (aseq a k) as [|c l]; [destruct Hn|]. cbn [is_first hd_error].
  destruct (Nat.eqb_spec c n) as [->|Hc].
  - destruct l as [|d l].
    + exists (lheap w), None. rewrite (move_back_single _ _ HC). split; [reflexivity|]. split; [reflexivity|].
      split; [exact HC|]. split; [reflexivity|]. split; [apply foot_refl|auto].
    + destruct (move_back_head _ _ _ _ HC) as (h' & E & C & F). exists h', (Some n). split; [exact E|].
      split; [reflexivity|]. split; [exact C|]. split; [reflexivity|]. split; [exact F|]. intros x [<-|[]]. now left.
  - destruct Hn as [Hn|Hn]; [congruence|]. apply in_split in Hn. destruct Hn as (l1 & l2 & ->).
    destruct (move_back_ok _ _ _ _ _ HC) as (h' & E & C & F). exists h', (Some n). split; [exact E|].
    split; [destruct l1; reflexivity|].
    change (c :: l1 ++ n :: l2) with ((c :: l1) ++ n :: l2). rewrite without_split by (eapply cycl_nodup; exact HC).
    split; [rewrite <- app_assoc; exact C|]. split; [reflexivity|]. split; [exact F|].
    intros x. rewrite !in_app_iff. cbn. rewrite ?in_app_iff. cbn. tauto.
Qed.
End Steps.

Lemma hd_app_some {A} (l : list A) x : exists y, hd_error (l ++ [x]) = Some y.
Proof. destruct l; cbn; eauto. Qed.

(** Every call, under the client's obligations, does what [lexact] says. *)
Lemma lstep_ok w a op : Rel w a -> lpre a op ->
  exists w', lstep w op = Ok (w', snd (lexact a op)) /\ Rel w' (fst (lexact a op)).
Proof.
  intros R Hp.
  assert (Push : forall v (f : dheap -> option nat -> option nat -> outcome (dheap * option nat)) k l',
     (exists h' hd', f (alloc (lheap w) (lfresh w) v) (lheads w k) (Some (lfresh w)) = Ok (h', hd') /\
        Rel (LWorld h' (fupd (lheads w) k hd') (S (lfresh w)))
          (put_seq (AWorld (aseq a) (fupd (aval a) (afresh a) v) (fupd (afree a) (afresh a) true) (S (afresh a)))
             k l' (fupd (fupd (afree a) (afresh a) true) (lfresh w) false))) ->
     exists h' hd', f (alloc (lheap w) (lfresh w) v) (lheads w k) (Some (lfresh w)) = Ok (h', hd') /\
        Rel (LWorld h' (fupd (lheads w) k hd') (S (lfresh w))) (with_new a k l' v)).
  { intros v f k l' (h' & hd' & E & R'). exists h', hd'. split; [exact E|].
    apply (Rel_ext _ (fupd (lheads w) k hd') _ (fupd (aseq a) k l') (fupd (afree a) (afresh a) false) (fupd (aval a) (afresh a) v)) in R'; auto.
    cbn. intros x. rewrite (r_fresh w a R). now rewrite fupd_fupd. }
  assert (New : forall v, Rel (LWorld (alloc (lheap w) (lfresh w) v) (lheads w) (S (lfresh w)))
      (AWorld (aseq a) (fupd (aval a) (afresh a) v) (fupd (afree a) (afresh a) true) (S (afresh a))))
    by (intros; now apply Rel_alloc).
  assert (NewFree : forall v, afree (AWorld (aseq a) (fupd (aval a) (afresh a) v) (fupd (afree a) (afresh a) true) (S (afresh a))) (lfresh w) = true)
    by (intros; cbn; rewrite (r_fresh w a R); apply fupd_same).
  assert (IdleK : forall k, Rel (LWorld (lheap w) (fupd (lheads w) k (lheads w k)) (lfresh w)) a).
  { intros k. apply Rel_idle; [exact R|]. intros j. unfold fupd. destruct (Nat.eqb_spec j k); congruence. }
  destruct op; cbn [lstep lexact lbase snd fst lpre] in *.
  - (* PushFront *)
    destruct (Push v insert_front k _ (insert_front_step _ _ (New v) k (lfresh w) (NewFree v))) as (h' & hd' & E & R').
    unfold push_front. rewrite E. cbn [bind]. eexists. split; [rewrite (r_fresh w a R); reflexivity|].
    cbn [aseq] in R'. rewrite (r_fresh w a R) in *. exact R'.
  - destruct (Push v insert_back k _ (insert_back_step _ _ (New v) k (lfresh w) (NewFree v))) as (h' & hd' & E & R').
    unfold push_back. rewrite E. cbn [bind]. eexists. split; [rewrite (r_fresh w a R); reflexivity|].
    cbn [aseq] in R'. rewrite (r_fresh w a R) in *. exact R'.
  - destruct (pop_front_step w a R k) as (h' & hd' & v & ok & E & O & R'). rewrite E. cbn [bind]. rewrite O.
    eexists. split; [reflexivity|exact R'].
  - destruct (pop_back_step w a R k) as (h' & hd' & v & ok & E & O & R'). rewrite E. cbn [bind]. rewrite O.
    eexists. split; [reflexivity|exact R'].
  - destruct (Push v (fun h hd n => insert_before h hd n (Some m)) k _ (insert_before_step _ _ (New v) k (lfresh w) m (NewFree v) Hp)) as (h' & hd' & E & R').
    unfold push_before. rewrite E. cbn [bind]. eexists. split; [rewrite (r_fresh w a R); reflexivity|].
    cbn [aseq] in R'. rewrite (r_fresh w a R) in *. exact R'.
  - destruct (insert_front_step w a R k n Hp) as (h' & hd' & E & R'). rewrite E. cbn [bind]. eauto.
  - destruct (insert_back_step w a R k n Hp) as (h' & hd' & E & R'). rewrite E. cbn [bind]. eauto.
  - destruct Hp as (Hp & Hm). destruct (insert_before_step w a R k n m Hp Hm) as (h' & hd' & E & R'). rewrite E. cbn [bind]. eauto.
  - (* Remove *)
    destruct (member n (aseq a k)) eqn:Em.
    + apply member_In in Em. destruct (remove_step w a R k (Some n)) as (h' & hd' & E & R' & _); [eauto|].
      rewrite E. cbn [bind]. eauto.
    + destruct Hp as [Hp|Hp]; [apply member_In in Hp; congruence|].
      destruct (r_free w a R n Hp) as (_ & _ & N1 & N2). unfold remove. rewrite N1. cbn [nonnil andb bind fst snd].
      eexists. split; [reflexivity|]. apply IdleK.
  - unfold remove_front, front.
    destruct (remove_step w a R k (hd_error (aseq a k)) (hd_in _)) as (h' & hd' & E & R' & _).
    rewrite (r_head w a R k) in *. rewrite E. cbn [bind]. eauto.
  - unfold remove_back. rewrite (back_step w a R k).
    destruct (remove_step w a R k (last_node (aseq a k)) (last_node_in _)) as (h' & hd' & E & R' & _).
    rewrite E. cbn [bind]. eauto.
  - (* InsertBackList *)
    destruct (Nat.eqb_spec k j) as [<-|Hkj].
    + unfold insert_back_list_self, insert_back_list. rewrite (r_head w a R k).
      pose proof (r_cyc w a R k) as HC. destruct (aseq a k) as [|x l] eqn:El.
      * cbn [hd_error empty nonnil negb bind fst snd].
        assert (G : Rel (LWorld (lheap w) (fupd (lheads w) k (@hd_error nat [])) (lfresh w)) (put_seq a k [] (afree a))).
        { apply Rel_perm; auto using cycl_nil, foot_refl. intros x []. }
        eexists. split; [reflexivity|]. exact G.
      * cbn [hd_error empty nonnil negb back]. apply cycl_first in HC. destruct HC as (E1 & E2). rewrite E2.
        rewrite wr_next_eq. cbn [bind]. rewrite wr_next_eq. cbn [bind]. rewrite wr_prev_eq. cbn [bind]. rewrite wr_prev_eq. cbn [bind fst snd].
        set (h' := setp _ _ _).
        assert (G : Rel (LWorld h' (fupd (lheads w) k (@hd_error nat [])) (lfresh w)) (put_seq a k [] (afree a))).
        { apply Rel_perm; auto using cycl_nil. { intros y []. }
          split.
          - intros y Hy. unfold h'.
            assert (y <> last l x). { intros ->. apply Hy. rewrite El. apply last_in. }
            assert (y <> x). { intros ->. apply Hy. rewrite El. now left. }
            rewrite off_setp, off_setp, off_setn, off_setn; auto.
          - intros y. unfold h'. lnk. reflexivity. }
        eexists. split; [reflexivity|]. exact G.
    + destruct (insert_back_list_ok (lheap w) (aseq a k) (aseq a j) (r_cyc w a R k) (r_cyc w a R j) (lists_disj w a R k j Hkj)) as (h' & E & C & F).
      rewrite (r_head w a R k), (r_head w a R j), E. cbn [bind fst snd].
      eexists. split; [reflexivity|].
      apply Rel_join; auto.
  - (* InsertFrontList *)
    destruct (insert_back_list_ok (lheap w) (aseq a k) (aseq a j) (r_cyc w a R k) (r_cyc w a R j) (lists_disj w a R k j Hp)) as (h' & E & C & F).
    unfold insert_front_list.
    rewrite (r_head w a R k), (r_head w a R j), E. cbn [bind].
    set (l' := match aseq a k with [] => aseq a j | x :: l => match aseq a j with [] => x :: l | y :: r => rotate_right ((x :: l) ++ y :: r) end end).
    pose proof (rot_backward _ _ C) as (E2 & C2).
    assert (G : cycl h' l' /\ (forall x, In x l' -> In x (aseq a k ++ aseq a j)) /\
      hd_error l' = (if (match aseq a j with [] => false | _ :: _ => true end) && negb (empty (hd_error (aseq a k)))
                     then rotate_backward h' (hd_error (aseq a k ++ aseq a j)) else hd_error (aseq a k ++ aseq a j))).
    { unfold l'. destruct (aseq a k) as [|x l]; [|destruct (aseq a j) as [|y r]].
      - cbn [app]. split; [exact C|]. split; [auto|]. cbn [hd_error empty nonnil negb]. now rewrite andb_false_r.
      - rewrite app_nil_r in *. split; [exact C|]. split; [auto|]. reflexivity.
      - split; [exact C2|]. split; [intros z; now rewrite rotate_right_in|]. cbn [empty nonnil hd_error negb andb]. now rewrite E2. }
    destruct G as (G1 & G2 & G3).
    pose proof (Rel_join w a R k j h' l' Hp G1 G2 F) as G. rewrite G3 in G. fold l'.
    destruct ((match aseq a j with [] => false | _ :: _ => true end) && negb (empty (hd_error (aseq a k)))) eqn:Ec.
    + eexists. split; [reflexivity|]. exact G.
    + eexists. split; [reflexivity|]. exact G.
  - destruct (rot_forward (aseq a k) (lheap w) (r_cyc w a R k)) as (E & C).
    eexists. split; [reflexivity|]. rewrite (r_head w a R k), E. apply Rel_perm; auto using foot_refl.
    intros x. now rewrite rotate_left_in.
  - destruct (rot_backward (aseq a k) (lheap w) (r_cyc w a R k)) as (E & C).
    eexists. split; [reflexivity|]. rewrite (r_head w a R k), E. apply Rel_perm; auto using foot_refl.
    intros x. now rewrite rotate_right_in.
  - eexists. split; [reflexivity|].
    apply (Rel_perm w a R k (lheap w) []); auto using cycl_nil, foot_refl. intros x [].
  - (* MoveFront *)
    destruct (move_back_step w a R k n Hp) as (h' & r & E & Er & C & Hh & F & Hin).
    unfold move_front. rewrite E. cbn [bind]. subst r.
    set (l' := if is_first n (aseq a k) then [n] else without n (aseq a k) ++ [n]) in *.
    assert (G : forall l'' hd'', hd_error l'' = hd'' -> cycl h' l'' -> (forall x, In x l'' -> In x (aseq a k)) ->
       Rel (LWorld h' (fupd (lheads w) k hd'') (lfresh w)) (put_seq a k l'' (afree a))).
    { intros l'' hd'' <- C'' H''. apply Rel_perm; auto. }
    destruct (moved_end n (aseq a k)) as [q|] eqn:Em; cbn [nonnil].
    + eexists. split; [reflexivity|]. rewrite <- Hh. pose proof (rot_backward _ _ C) as (E2 & C2).
      assert (El : (if is_first n (aseq a k) then [n] else n :: without n (aseq a k)) = rotate_right l').
      { unfold l'. destruct (is_first n (aseq a k)); [reflexivity|]. now rewrite rotate_right_snoc. }
      rewrite El. apply G; auto. intros x. rewrite rotate_right_in. apply Hin.
    + eexists. split; [reflexivity|]. unfold moved_end in Em.
      destruct (aseq a k) as [|x [|y l]] eqn:El; [destruct Hp|destruct Hp as [->|[]]|discriminate].
      unfold l' in *. cbn [is_first] in *. rewrite Nat.eqb_refl in *. apply G; auto.
  - destruct (move_back_step w a R k n Hp) as (h' & r & E & Er & C & Hh & F & Hin).
    rewrite E. cbn [bind]. subst r. eexists. split; [reflexivity|]. rewrite <- Hh. apply Rel_perm; auto.
  - (* MoveBefore *)
    destruct Hp as (Hn & Hm). rewrite (r_head w a R k). pose proof (r_cyc w a R k) as HC.
    rewrite (adjacent_cycl _ _ n m HC Hn).
    destruct ((n =? m) || peq (dnext (lheap w n)) (Some m)) eqn:Ec.
    + unfold move_before. cbn [nonnil andb peq].
      replace (negb (n =? m) && negb (peq (dnext (lheap w n)) (Some m))) with false.
      2:{ rewrite <- negb_orb, Ec. reflexivity. }
      cbn [bind]. eexists. split; [reflexivity|]. apply Rel_perm; auto using foot_refl.
    + apply orb_false_iff in Ec. destruct Ec as (Ec1 & Ec2). apply Nat.eqb_neq in Ec1.
      destruct (move_before_ok _ _ n m HC Hn Hm Ec1 Ec2) as (h' & E & C & F). rewrite E. cbn [bind].
      eexists. split; [reflexivity|]. apply Rel_perm; auto.
      intros x Hx. assert (K : x = n \/ In x (without n (aseq a k))).
      { destruct (is_first m (aseq a k)).
        - apply in_app_iff in Hx. cbn in Hx. intuition.
        - unfold before in Hx. apply in_flat_map in Hx. destruct Hx as (y & Hy & Hx).
          destruct (y =? m); cbn in Hx; intuition (subst; auto). }
      destruct K as [->|K]; [exact Hn|]. unfold without in K. apply filter_In in K. tauto.
  - destruct Hp as (Hn & Hm). rewrite (r_head w a R k). pose proof (r_cyc w a R k) as HC.
    rewrite (adjacent_cycl _ _ m n HC Hm).
    destruct ((n =? m) || peq (dnext (lheap w m)) (Some n)) eqn:Ec.
    + unfold move_after. cbn [nonnil andb peq].
      replace (negb (n =? m) && negb (peq (dnext (lheap w m)) (Some n))) with false.
      2:{ rewrite <- negb_orb, Ec. reflexivity. }
      cbn [bind]. eexists. split; [reflexivity|]. apply Rel_perm; auto using foot_refl.
    + apply orb_false_iff in Ec. destruct Ec as (Ec1 & Ec2). apply Nat.eqb_neq in Ec1.
      destruct (move_after_ok _ _ n m HC Hn Hm Ec1 Ec2) as (h' & E & C & F). rewrite E. cbn [bind].
      eexists. split; [reflexivity|]. apply Rel_perm; auto.
      intros x Hx. assert (K : x = n \/ In x (without n (aseq a k))).
      { unfold after in Hx. apply in_flat_map in Hx. destruct Hx as (y & Hy & Hx).
        destruct (y =? m); cbn in Hx; intuition (subst; auto). }
      destruct K as [->|K]; [exact Hn|]. unfold without in K. apply filter_In in K. tauto.
  - (* Reverse *)
    rewrite (r_head w a R k).
    destruct (reverse_ok (lheap w) (aseq a k) (lfuel w) (r_cyc w a R k)) as (h' & E & C & F); [unfold lfuel; lia|].
    rewrite E. cbn [bind]. eexists. split; [reflexivity|]. apply Rel_perm; auto.
    intros x Hx. destruct (aseq a k); [destruct Hx|]. destruct Hx as [<-|[]]. now left.
  - (* Sort *)
    rewrite (r_head w a R k).
    destruct (sort_ok (lheap w) (aval a) (aseq a k) (lfuel w) (r_cyc w a R k) (r_val w a R) Hp) as (h' & E & C & F).
    { pose proof (Rel_len w a k R). unfold lfuel. lia. }
    rewrite E. cbn [bind]. eexists. split; [reflexivity|]. apply Rel_perm; auto.
    intros x. apply Permutation_in. apply stable_sort_perm.
  - (* Set *)
    cbn [node_set bind]. eexists. split; [now rewrite (r_val w a R)|].
    assert (Eq : forall x, dnext (fupd (lheap w) n (DNode v (dprev (lheap w n)) (dnext (lheap w n))) x) = dnext (lheap w x) /\
                           dprev (fupd (lheap w) n (DNode v (dprev (lheap w n)) (dnext (lheap w n))) x) = dprev (lheap w x)).
    { intros x. unfold fupd. destruct (Nat.eqb_spec x n) as [->|]; auto. }
    split; cbn; try apply R.
    + intros k. destruct (r_cyc w a R k) as (Hd & HL). split; [exact Hd|]. destruct (aseq a k); [exact I|].
      eapply links_frame; [| |exact HL]; intros; apply Eq.
    + intros x Hx. destruct (Eq x) as (-> & ->). now apply (r_free w a R).
    + intros x. unfold fupd. destruct (x =? n); [reflexivity|apply R].
  - cbn [rd_val bind]. eexists. split; [now rewrite (r_val w a R)|exact R].
  - eexists. split; [unfold front; now rewrite (r_head w a R k)|exact R].
  - eexists. split; [now rewrite (back_step w a R k)|exact R].
  - eexists. split; [|exact R]. rewrite (r_head w a R k). destruct (aseq a k); reflexivity.
  - (* IsValidNode *)
    unfold is_valid_node, reachable. rewrite (r_head w a R k).
    destruct (aseq a k) as [|x l]; cbn [hd_error peq nonnil andb is_first bind]; [eauto|].
    destruct (Nat.eqb_spec x n); cbn [andb bind]; [eauto|].
    eexists. split; [|exact R]. destruct (lfuel w); cbn [reach_loop nonnil peq andb];
      rewrite Nat.eqb_refl; reflexivity.
  - rewrite (r_head w a R k), (traverse_next_ok _ _ _ _ (r_cyc w a R k) (r_val w a R)).
    + cbn [bind]. eauto.
    + pose proof (Rel_len w a k R). unfold lfuel. lia.
  - rewrite (r_head w a R k), (traverse_prev_ok _ _ _ _ (r_cyc w a R k) (r_val w a R)).
    + cbn [bind]. eauto.
    + pose proof (Rel_len w a k R). unfold lfuel. lia.
Qed.

Lemma run_exact : forall ops w a, Rel w a -> run_meets lexact lpre a ops ->
  exists w', run_ops lstep w ops = Ok (w', snd (spec_ops lexact a ops)) /\ Rel w' (fst (spec_ops lexact a ops)).
Proof.
  induction ops as [|op ops IH]; intros w a R Hm; [exists w; auto|].
  destruct Hm as (Hp & Hm). destruct (lstep_ok w a op R Hp) as (w1 & E1 & R1).
  destruct (IH w1 _ R1 Hm) as (w2 & E2 & R2). cbn [run_ops spec_ops]. rewrite E1. cbn [bind]. rewrite E2.
  destruct (lexact a op) as (a1 & o). cbn [fst snd] in *. destruct (spec_ops lexact a1 ops) as (a2 & os).
  cbn [bind fst snd] in *. eauto.
Qed.
