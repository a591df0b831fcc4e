(** Neighbours of nodes and the cost of Find. *)
From Coq Require Import ZArith List Bool Lia ZifyBool Sorting.Sorted Permutation.
From Verif Require Import GoBase GoLists CmpModel RbModel RbSpec RbProofs RbOps.
Import ListNotations.
Open Scope Z_scope.

Lemma walk_list s w t l : good s w t -> rb_step s BWalk = Ok (s, RList l) -> l = w_list w /\ l <> [].
Proof.
  intros G E. cbn [rb_step] in E. rewrite (walk_all s w t G) in E. destruct (w_list w) as [|e r]; cbn [bind] in E; [discriminate|]. injection E as <-. split; [auto|discriminate].
Qed.
Lemma ents_adjacent h m pre a b post : map (ent h) m = pre ++ a :: b :: post -> adjacent m (fst (fst a)) (fst (fst b)).
Proof.
  intros E. apply map_eq_app in E as (m1 & m2 & -> & E1 & E2). destruct m2 as [|x [|y m3]]; try discriminate. cbn in E2.
  injection E2 as <- <- _. cbn. constructor.
Qed.
Lemma ents_last h m pre a : map (ent h) m = pre ++ [a] -> last_error m = Some (fst (fst a)).
Proof.
  intros E. apply map_eq_app in E as (m1 & m2 & -> & E1 & E2). destruct m2 as [|x [|y m3]]; try discriminate. cbn in E2.
  injection E2 as <-. cbn. apply last_error_snoc.
Qed.
Lemma rb_neighbours ops s os l : run_ops rb_step rb_new ops = Ok (s, os) -> rb_step s BWalk = Ok (s, RList l) ->
  (forall pre a b post, l = pre ++ a :: b :: post ->
     rb_nextp (S (rb_next s)) (rb_heap s) (Some (fst (fst a))) = Ok (Some (fst (fst b))) /\
     rb_prevp (S (rb_next s)) (rb_heap s) (Some (fst (fst b))) = Ok (Some (fst (fst a)))) /\
  (forall pre a, l = pre ++ [a] -> rb_nextp (S (rb_next s)) (rb_heap s) (Some (fst (fst a))) = Ok (Some 0%nat)).
Proof.
  intros E W. destruct (history_state _ _ _ E) as (w & (t & G & A) & _). destruct (walk_list s w t l G W) as [El _]. rewrite (g_ents _ _ _ G) in El.
  split.
  - intros pre a b post Q. rewrite El in Q. apply ents_adjacent in Q. split; [now apply (next_inner s w t)|now apply (prev_inner s w t)].
  - intros pre a Q. rewrite El in Q. apply ents_last in Q. now apply (next_last s w t).
Qed.

Lemma hd_left h : forall t par a, rep h par t -> hd_error (nodes t) = Some a -> rn_left (h a) = None.
Proof.
  induction t as [|l IHl c r IHr]; intros par a R E; [discriminate|]. cbn [rep nodes] in *. destruct R as (P & L & Q & Rl & Rr).
  rewrite hd_error_app in E. destruct (hd_error (nodes l)) as [x|] eqn:Hx.
  - injection E as ->. eapply IHl; eauto.
  - cbn in E. injection E as <-. rewrite L. destruct l as [|l1 y l2]; auto. cbn in Hx. rewrite hd_error_app in Hx. destruct (hd_error (nodes l1)); discriminate.
Qed.
Lemma oldest_root t a : aged t -> top t = Some a -> forall x, In x (nodes t) -> (a <= x)%nat.
Proof.
  destruct t as [|l c r]; [discriminate|]. cbn [top nodes aged]. intros (A & _) E x I. injection E as ->.
  apply in_app_or in I as [I|[->|I]]; [|lia|]; assert (a < x)%nat by (apply A; auto); lia.
Qed.
(** Going back from Begin. *)
Lemma prev_first s w t a : good s w t -> hd_error (nodes t) = Some a ->
  rb_prevp (S (rb_next s)) (rb_heap s) (Some a) = Ok (Some (if peqb (top t) (Some a) then a else 0%nat)).
Proof.
  intros G E. assert (Ia : In a (nodes t)) by (destruct (nodes t); [discriminate|injection E as ->; now left]).
  cbn [rb_prevp]. rewrite (peqb_ne (rn_parent (rb_heap s a)) (Some a)) by (apply (parent_ne (rb_heap s) a t 0%nat (g_rep _ _ _ G) (g_nodup _ _ _ G) (zero_out s w t G) Ia)).
  rewrite andb_false_r. pose proof (hd_left _ _ _ _ (g_rep _ _ _ G) E) as Z. rewrite Z.
  destruct (climb_left_spec (rb_heap s) t 0%nat a (g_rep _ _ _ G) (g_nodup _ _ _ G) (zero_out s w t G) Ia Z) as (k & Hk & [(x & c & A' & F)|(x & E' & T & F)]).
  - exfalso. exact (first_adjacent _ _ _ (g_nodup _ _ _ G) E A').
  - pose proof (Len s w t G) as Le. assert (Fu : exists f, (S (rb_next s) = k + S (S f))%nat) by (exists (S (rb_next s) - k - 2)%nat; lia). destruct Fu as [f ->]. rewrite F.
    pose proof (top_in _ _ T) as Ix. destruct (child_ne0 s w t G x Ix) as [_ Cx]. rewrite T.
    assert (Ht : rn_parent (rb_heap s 0%nat) = Some x) by (rewrite (g_top _ _ _ G); auto).
    cbn [climb_left]. rewrite (g_left _ _ _ G), E. destruct (peqb (Some x) (Some a)) eqn:X.
    + apply peqb_eq in X. injection X as ->. rewrite Ht. rewrite peqb_ne by auto. reflexivity.
    + reflexivity.
Qed.
(** Going back from End. *)
Lemma prev_end s w t a : good s w t -> hd_error (nodes t) = Some a -> exists b, rb_prevp (S (rb_next s)) (rb_heap s) (Some 0%nat) = Ok (Some b) /\
  (top t = Some a -> last_error (nodes t) = Some b) /\ (top t <> Some a -> last_error (nodes t) <> Some b).
Proof.
  intros G E. pose proof (Len s w t G) as Le. cbn [rb_prevp]. rewrite (g_top _ _ _ G), (g_left _ _ _ G), E.
  rewrite peqb_ne by (intros T; apply top_in in T; exact (zero_out s w t G T)). rewrite andb_false_r.
  pose proof (g_rep _ _ _ G) as R. pose proof (g_nodup _ _ _ G) as N. destruct t as [|l c r]; [discriminate|]. cbn [rep nodes top] in *. destruct R as (P & L & Q & Rl & Rr).
  pose proof (nodup_mid _ _ _ N) as (Nl & Nr & Cl & Cr & D). rewrite app_length in Le. cbn [length] in Le.
  destruct (hd_error (nodes l)) as [x|] eqn:Hx; rewrite hd_error_app, Hx in E.
  - injection E as ->. assert (Ia : In a (nodes l)) by (destruct (nodes l); [discriminate|injection Hx as ->; now left]).
    destruct (sub_at (rb_heap s) a l c Rl Ia) as (l' & r' & pre & post & E' & L' & R' & _ & Rr').
    assert (Lens : (length (nodes r') < length (nodes l))%nat) by (rewrite E', !app_length; cbn [length]; rewrite app_length; lia).
    assert (exists b, top_right (S (rb_next s)) (rb_heap s) a = Ok b /\ In b (nodes l)) as (b & -> & Ib).
    { cbn [top_right]. rewrite R'. destruct r' as [|q1 y q2]; cbn [top].
      - exists a. auto.
      - destruct (top_right_spec (rb_heap s) (Nd q1 y q2) a y Rr' eq_refl (rb_next s) ltac:(lia)) as (b & -> & Hb). exists b. split; auto.
        rewrite E'. apply last_error_in in Hb as [m Hb]. rewrite Hb, !in_app_iff. cbn [In]. rewrite !in_app_iff. cbn [In]. tauto. }
    exists b. cbn [bind]. split; [reflexivity|]. split.
    + intros X. injection X as ->. contradiction.
    + intros _ X. rewrite last_error_app in X. destruct (last_error (c :: nodes r)) as [q|] eqn:Hq; [|apply last_error_none in Hq; discriminate].
      injection X as ->. apply last_error_in in Hq as [m Hq]. assert (I : In b (c :: nodes r)) by (rewrite Hq; apply in_or_app; right; now left).
      destruct I as [->|I]; [contradiction|]. exact (D b Ib I).
  - cbn in E. injection E as ->. exists (match last_error (nodes r) with Some b => b | None => a end).
    assert (l = Lf) as ->. { destruct l as [|l1 y l2]; auto. cbn in Hx. rewrite hd_error_app in Hx. destruct (hd_error (nodes l1)); discriminate. }
    cbn [nodes app top] in *. split; [|split; [|congruence]].
    + cbn [top_right]. rewrite Q. destruct r as [|q1 y q2]; cbn [top].
      * reflexivity.
      * destruct (top_right_spec (rb_heap s) (Nd q1 y q2) a y Rr eq_refl (rb_next s) ltac:(lia)) as (b & -> & Hb). cbn [bind]. now rewrite Hb.
    + intros _. rewrite last_error_cons. now destruct (last_error (nodes r)).
Qed.
Lemma last_first {A} (l : list A) : forall x d, last (x :: l) d = last l x.
Proof. induction l as [|y l IH]; intros x d; [reflexivity|]. change (last (x :: y :: l) d) with (last (y :: l) d). rewrite !IH. reflexivity. Qed.
Lemma rb_ends ops s os e l : run_ops rb_step rb_new ops = Ok (s, os) -> rb_step s BWalk = Ok (s, RList (e :: l)) ->
  exists p q, rb_prevp (S (rb_next s)) (rb_heap s) (Some (fst (fst e))) = Ok (Some p) /\
    rb_prevp (S (rb_next s)) (rb_heap s) (Some 0%nat) = Ok (Some q) /\
    ((forall x, In x l -> (fst (fst e) < fst (fst x))%nat) -> p = fst (fst e) /\ q = fst (fst (last l e))) /\
    ((exists x, In x l /\ (fst (fst x) < fst (fst e))%nat) -> p = 0%nat /\ q <> fst (fst (last l e))).
Proof.
  intros E W. destruct (history_state _ _ _ E) as (w & (t & G & A) & _). destruct (walk_list s w t _ G W) as [El _]. rewrite (g_ents _ _ _ G) in El.
  destruct (nodes t) as [|a m] eqn:En; [discriminate|]. injection El as -> ->. cbn [ent fst].
  assert (Hd : hd_error (nodes t) = Some a) by (rewrite En; reflexivity).
  destruct (prev_end s w t a G Hd) as (q & Eq & Q1 & Q2). rewrite (prev_first s w t a G Hd), Eq. eexists _, q. split; [reflexivity|]. split; [reflexivity|].
  assert (Ls : last_error (nodes t) = Some (fst (fst (last (map (ent (rb_heap s)) m) (ent (rb_heap s) a))))).
  { rewrite En. clear. revert a. induction m as [|b m IH]; intros a; [reflexivity|]. rewrite last_error_cons, IH.
    cbn [map]. now rewrite last_first. }
  destruct (top t) as [c|] eqn:T; [|destruct t as [|tl tx tr]; [discriminate En|discriminate T]].
  pose proof (oldest_root t c A T) as O. rewrite En in O. split.
  - intros H. assert (c = a) as ->.
    { pose proof (top_in _ _ T) as I. rewrite En in I. destruct I as [->|I]; auto. specialize (O a (or_introl eq_refl)).
      specialize (H (ent (rb_heap s) c) (in_map _ _ _ I)). cbn in H. lia. }
    rewrite peqb_refl. split; auto. specialize (Q1 eq_refl). congruence.
  - intros (x & Ix & Hx). apply in_map_iff in Ix as (y & <- & Iy). cbn in Hx.
    assert (c <> a). { intros ->. specialize (O y (or_intror Iy)). lia. }
    rewrite peqb_ne by congruence. split; auto. intros X. apply Q2; congruence.
Qed.

(** The number of comparisons. *)
Lemma find_cost h k : forall t par y c fuel, rep h par t -> (length (nodes t) <= fuel)%nat ->
  exists x c', find_loop fuel h 0 k (top t) y c = Ok (x, c') /\ c' <= c + Z.of_nat (length (nodes t)).
Proof.
  induction t as [|l IHl a r IHr]; intros par y c fuel R F; [exists y, c; destruct fuel; cbn; split; auto; lia|].
  cbn [rep nodes] in *. destruct R as (P & L & Q & Rl & Rr). rewrite app_length in *. cbn [length] in *. destruct fuel as [|f]; [lia|]. cbn [find_loop top].
  rewrite L, Q. destruct (negb (cmp_F 0 (rn_key (h a)) k)).
  - destruct (IHl a (Some a) (c + 1) f Rl ltac:(lia)) as (x & c' & -> & H). exists x, c'. split; auto. lia.
  - destruct (IHr a y (c + 1) f Rr ltac:(lia)) as (x & c' & -> & H). exists x, c'. split; auto. lia.
Qed.
Lemma rb_find_cost s w t k : good s w t -> exists x c, rb_find s k = Ok (x, c) /\ c <= Z.of_nat (length (w_list w)) + 1.
Proof.
  intros G. pose proof (Len s w t G) as Le. unfold rb_find. rewrite (g_cmp _ _ _ G), (g_top _ _ _ G), (g_ents _ _ _ G), map_length.
  destruct (find_cost (rb_heap s) k t 0%nat None 0 (S (rb_next s)) (g_rep _ _ _ G) ltac:(lia)) as (x & c' & -> & H). cbn [bind].
  destruct x; [exists (if negb (cmp_F 0 k (rn_key (rb_heap s n))) then Some n else None), (c' + 1)|exists None, c']; split; auto; lia.
Qed.
(** A tree all of whose nodes came in order is a chain to the right. *)
Fixpoint chain (l : list nat) : shape := match l with [] => Lf | a :: r => Nd Lf a (chain r) end.
Lemma chain_nodes t : aged t -> StronglySorted lt (nodes t) -> t = chain (nodes t).
Proof.
  induction t as [|l IHl a r IHr]; auto. cbn [aged nodes]. intros (A & Al & Ar) S. destruct l as [|l1 b l2].
  - cbn [nodes app chain]. f_equal. apply IHr; auto. inversion S; auto.
  - exfalso. apply sorted_mid in S as (_ & _ & H & _). assert (I : In b (nodes (Nd l1 b l2))) by (cbn; apply in_or_app; right; now left).
    specialize (H b I). specialize (A b (or_introl I)). lia.
Qed.
Lemma chain_top l : top (chain l) = hd_error l.
Proof. destruct l; reflexivity. Qed.
Lemma find_chain h k : forall l x par c fuel, rep h par (chain (l ++ [x])) -> (forall a, In a l -> rn_key (h a) < k) -> rn_key (h x) = k -> (length l < fuel)%nat ->
  find_loop fuel h 0 k (top (chain (l ++ [x]))) None c = Ok (Some x, c + Z.of_nat (length l) + 1).
Proof.
  induction l as [|a l IH]; intros x par c fuel R H K F; cbn [app chain top length] in *; (destruct fuel as [|f]; [lia|]); cbn [find_loop rep] in *.
  - destruct R as (_ & L & _ & _). rewrite cmp0, K, Z.ltb_irrefl, L. cbn [negb top]. destruct f; cbn; do 2 f_equal; lia.
  - destruct R as (_ & L & Q & _ & R). rewrite cmp0. assert (rn_key (h a) <? k = true) as -> by (specialize (H a (or_introl eq_refl)); lia).
    cbn [negb]. rewrite Q. rewrite (IH x a (c + 1) f); auto; [do 2 f_equal; lia|intros b Hb; apply H; now right|lia].
Qed.
Definition ascending (n : nat) : list rb_op := map (fun i => BInsertEqual (Z.of_nat i) 0) (seq 1 n).
Lemma put_last e l : (forall x, In x l -> e_key x <= e_key e) -> put e l = l ++ [e].
Proof.
  induction l as [|x l IH]; intros H; cbn; auto. assert (e_key e <? e_key x = false) as -> by (specialize (H x (or_introl eq_refl)); lia).
  f_equal. apply IH. intros; apply H; now right.
Qed.
Lemma ascending_list m : forall b l, (forall x, In x l -> e_key x < Z.of_nat b) -> exists os,
  run_ops map_step (W b (Z.of_nat b - 1) l) (map (fun i => BInsertEqual (Z.of_nat i) 0) (seq b m)) =
  Ok (W (b + m) (Z.of_nat (b + m) - 1) (l ++ map (fun i => (i, Z.of_nat i, 0)) (seq b m)), os).
Proof.
  induction m as [|m IH]; intros b l H; cbn [seq map run_ops].
  - exists []. rewrite Nat.add_0_r, app_nil_r. reflexivity.
  - cbn [map_step bind]. rewrite put_last by (intros x Hx; apply H in Hx; cbn; lia).
    destruct (IH (S b) (l ++ [(b, Z.of_nat b, 0)])) as [os E].
    + intros x Hx. apply in_app_or in Hx as [Hx|[<-|[]]]; [apply H in Hx|cbn]; lia.
    + replace (Z.of_nat (S b) - 1) with (Z.of_nat b - 1 + 1) in E by lia. rewrite E. cbn [bind]. eexists. rewrite <- app_assoc. cbn [app].
      replace (b + S m)%nat with (S b + m)%nat by lia. reflexivity.
Qed.
Lemma seq_sorted n b : StronglySorted lt (seq b n).
Proof. revert b. induction n as [|n IH]; intros b; cbn; constructor; auto. apply Forall_forall. intros x Hx. apply in_seq in Hx. lia. Qed.
Lemma rb_chain_cost n : exists s os, run_ops rb_step rb_new (ascending (S n)) = Ok (s, os) /\ rb_size s = Z.of_nat (S n) /\
  rb_find s (Z.of_nat (S n)) = Ok (Some (S n), Z.of_nat (S n) + 1).
Proof.
  destruct (ascending_list (S n) 1 [] ltac:(intros x [])) as [os E]. pose proof (history (ascending (S n))) as H. unfold ascending in *.
  change (Z.of_nat 1 - 1) with 0 in E. rewrite E in H. destruct (run_ops rb_step rb_new _) as [[s os']| |]; cbn [sim_out] in H; try tauto. destruct H as [-> (t & G & A)].
  exists s, os. split; auto. split; [rewrite (g_size _ _ _ G); cbn [w_size]; lia|].
  pose proof (g_ents _ _ _ G) as Ge. cbn [w_list] in Ge. rewrite app_nil_l in Ge.
  assert (En : nodes t = seq 1 (S n)).
  { apply (f_equal (map (fun e : nat * Z * Z => fst (fst e)))) in Ge. rewrite !map_map in Ge. cbn in Ge. rewrite !map_id in Ge. auto. }
  assert (Kn : forall a, In a (nodes t) -> rn_key (rb_heap s a) = Z.of_nat a).
  { intros a Ia. assert (I : In (ent (rb_heap s) a) (map (fun i => (i, Z.of_nat i, 0)) (seq 1 (S n)))) by (rewrite Ge; now apply in_map).
    apply in_map_iff in I as (i & Ei & _). unfold ent in Ei. injection Ei as -> -> _. reflexivity. }
  pose proof (chain_nodes t A ltac:(rewrite En; apply seq_sorted)) as Ec. rewrite En, seq_S in Ec. cbn [Nat.add] in Ec.
  unfold rb_find. rewrite (g_cmp _ _ _ G), (g_top _ _ _ G). pose proof (g_rep _ _ _ G) as R. rewrite Ec in R.
  replace (top t) with (top (chain (seq 1 n ++ [S n]))) by (now rewrite <- Ec).
  rewrite (find_chain (rb_heap s) (Z.of_nat (S n)) (seq 1 n) (S n) 0%nat 0); auto.
  - cbn [bind]. rewrite cmp0, Kn by (rewrite En; apply in_seq; lia). rewrite Z.ltb_irrefl. cbn [negb]. rewrite seq_length. do 2 f_equal. lia.
  - intros a Ia. apply in_seq in Ia. rewrite Kn by (rewrite En; apply in_seq; lia). lia.
  - apply Kn. rewrite En. apply in_seq. lia.
  - rewrite seq_length, (g_next _ _ _ G). cbn [w_next]. lia.
Qed.
Lemma rb_not_log c : 0 <= c -> exists ops s os k x cost, run_ops rb_step rb_new ops = Ok (s, os) /\ 0 < rb_size s /\
  rb_find s k = Ok (x, cost) /\ cost > c * (Z.log2 (rb_size s) + 1).
Proof.
  intros Hc. set (N := Z.to_nat (2 ^ (2 * c) - 1)). destruct (rb_chain_cost N) as (s & os & E & Sz & F).
  assert (P : 0 < 2 ^ (2 * c)) by (apply Z.pow_pos_nonneg; lia).
  assert (EN : Z.of_nat (S N) = 2 ^ (2 * c)) by (unfold N; lia).
  exists (ascending (S N)), s, os, (Z.of_nat (S N)), (Some (S N)), (Z.of_nat (S N) + 1). split; auto. split; [lia|]. split; auto.
  rewrite Sz, EN, Z.log2_pow2 by lia. clear -Hc.
  assert (H : c * (2 * c + 1) <= 2 ^ (2 * c)).
  { revert c Hc. apply natlike_ind; [vm_compute; discriminate|]. intros x Hx IH. replace (2 * Z.succ x) with (2 * x + 2) by lia.
    rewrite Z.pow_add_r by lia. change (2 ^ 2) with 4.
    destruct (Z.eq_dec x 0) as [->|]; [vm_compute; discriminate|]. nia. }
  lia.
Qed.

(** The key found first is the oldest. *)
Definition oldest (k : Z) (l : list (nat * Z * Z)) (e : nat * Z * Z) : Prop :=
  In e l /\ e_key e = k /\ forall x, In x l -> e_key x = k -> x = e \/ (fst (fst e) < fst (fst x))%nat.
Lemma find_oldest (R : nat * Z * Z -> nat * Z * Z -> Prop) k l : (forall a b, R a b -> e_key a = e_key b -> (fst (fst a) < fst (fst b))%nat) -> StronglySorted R l ->
  match find (fun e => e_key e =? k) l with Some e => oldest k l e | None => forall x, In x l -> e_key x <> k end.
Proof.
  intros HR S. induction S as [|a l S IH F]; cbn; [intros x []|]. destruct (e_key a =? k) eqn:K.
  - split; [now left|]. split; [lia|]. intros x [->|Ix] Kx; [auto|right]. rewrite Forall_forall in F. apply HR; [auto|lia].
  - destruct (find (fun e => e_key e =? k) l) as [e|].
    + destruct IH as (I & K' & H). split; [now right|]. split; auto. intros x [->|Ix] Kx; [lia|auto].
    + intros x [->|Ix]; [lia|auto].
Qed.
Lemma numbered_sorted kvs : forall n, StronglySorted (fun a b => (fst (fst a) < fst (fst b))%nat) (numbered n kvs) /\ forall x, In x (numbered n kvs) -> (n <= fst (fst x))%nat.
Proof.
  induction kvs as [|[k v] r IH]; intros n; cbn [numbered]; [split; [constructor|intros x []]|]. destruct (IH (S n)) as [S1 S2]. split.
  - constructor; auto. apply Forall_forall. intros x Hx. apply S2 in Hx. cbn. lia.
  - intros x [<-|Hx]; [cbn; lia|]. apply S2 in Hx. lia.
Qed.
Lemma rb_find_first kvs k : exists s os p c, run_ops rb_step rb_new (map (fun e => BInsertEqual (fst e) (snd e)) kvs) = Ok (s, os) /\
  rb_find s k = Ok (p, c) /\ p = option_map (fun e => fst (fst e)) (find (fun e => e_key e =? k) (numbered 1 kvs)) /\ c <= Z.of_nat (length kvs) + 1.
Proof.
  destruct (inserts kvs 1 0 [] ltac:(intros x []) ltac:(constructor)) as (l & E & P & S).
  pose proof (history (map (fun e => BInsertEqual (fst e) (snd e)) kvs)) as H. rewrite E in H.
  destruct (run_ops rb_step rb_new _) as [[s os]| |]; cbn [sim_out] in H; try tauto. destruct H as [-> (t & G & A)].
  destruct (find_all s _ t G k) as [c Ef]. destruct (rb_find_cost s _ t k G) as (x & c' & Ef' & Hc). rewrite Ef in Ef'. injection Ef' as <- <-.
  eexists s, _, _, c. split; [reflexivity|]. split; [exact Ef|]. cbn [w_list] in *.
  assert (Ll : length l = length kvs).
  { rewrite (Permutation_length P). cbn. clear. generalize 1%nat. induction kvs as [|[k v] r IH]; intros n; cbn; auto. }
  split; [|lia]. cbn in P.
  pose proof (find_oldest before k l ltac:(unfold before; lia) S) as F1.
  pose proof (find_oldest (fun a b => (fst (fst a) < fst (fst b))%nat) k (numbered 1 kvs) (fun a b H _ => H) (proj1 (numbered_sorted kvs 1))) as F2.
  destruct (find _ l) as [e|] eqn:X1, (find _ (numbered 1 kvs)) as [e'|] eqn:X2; cbn; auto.
  - destruct F1 as (I1 & K1 & O1), F2 as (I2 & K2 & O2). f_equal. f_equal.
    destruct (O1 e') as [->|L1]; auto; [now apply (Permutation_in _ (Permutation_sym P))|].
    destruct (O2 e) as [->|L2]; auto; [now apply (Permutation_in _ P)|]. lia.
  - destruct F1 as (I1 & K1 & O1). exfalso. apply (F2 e); auto. now apply (Permutation_in _ P).
  - destruct F2 as (I2 & K2 & O2). exfalso. apply (F1 e'); auto. now apply (Permutation_in _ (Permutation_sym P)).
Qed.

(** insertUnique. *)
Definition key_before (a b : nat * Z * Z) : Prop := e_key a <= e_key b.
Lemma list_sorted s w t : good s w t -> StronglySorted key_before (w_list w).
Proof.
  intros G. rewrite (g_ents _ _ _ G). pose proof (g_order _ _ _ G) as O. induction O as [|a m O IH F]; cbn; constructor; auto.
  rewrite Forall_forall in *. intros x Ix. apply in_map_iff in Ix as (y & <- & Iy). apply F. exact Iy.
Qed.
Lemma sorted_parts k l : StronglySorted key_before l -> l = filter (fun x => negb (k <? e_key x)) l ++ filter (fun x => k <? e_key x) l.
Proof.
  intros S. induction S as [|a l S IH F]; auto. cbn. destruct (k <? e_key a) eqn:K; cbn; [|now f_equal].
  rewrite filter_none, filter_all; auto; intros x Ix; rewrite Forall_forall in F; specialize (F x Ix); unfold key_before in F; lia.
Qed.
Lemma put_parts e xs ys : (forall x, In x xs -> e_key x <= e_key e) -> (forall y, In y ys -> e_key e < e_key y) -> put e (xs ++ ys) = xs ++ e :: ys.
Proof.
  intros Hx Hy. induction xs as [|x xs IH]; cbn.
  - destruct ys as [|y ys]; cbn; auto. assert (e_key e <? e_key y = true) as -> by (specialize (Hy y (or_introl eq_refl)); lia). reflexivity.
  - assert (e_key e <? e_key x = false) as -> by (specialize (Hx x (or_introl eq_refl)); lia). f_equal. apply IH. intros; apply Hx; now right.
Qed.
Lemma put_unique_cases e l : StronglySorted key_before l -> (forall x, In x l -> e_key x <> e_key e) ->
  (put_unique e l = put e l /\ forall pre p q post, l = pre ++ p :: q :: post -> e_key p < e_key e < e_key q -> ~ (fst (fst p) < fst (fst q))%nat) \/
  (exists pre p q post, l = pre ++ p :: q :: post /\ e_key p < e_key e < e_key q /\ (fst (fst p) < fst (fst q))%nat /\
     put_unique e l = pre ++ p :: e :: drop_younger (fst (fst p)) post).
Proof.
  intros S N. pose proof (sorted_parts (e_key e) l S) as E. unfold put_unique.
  set (xs := filter (fun x => negb (e_key e <? e_key x)) l) in *. set (ys := filter (fun x => e_key e <? e_key x) l) in *.
  assert (Hx : forall x, In x xs -> e_key x < e_key e). { intros x I. unfold xs in I. apply filter_In in I as [I K]. specialize (N x I). lia. }
  assert (Hy : forall y, In y ys -> e_key e < e_key y). { intros x I. unfold ys in I. apply filter_In in I as [I K]. lia. }
  clearbody xs ys. subst l.
  assert (Put : put e (xs ++ ys) = xs ++ e :: ys) by (apply put_parts; auto; intros x I; specialize (Hx x I); lia).
  assert (Cut : forall pre p q post, xs ++ ys = pre ++ p :: q :: post -> e_key p < e_key e < e_key q -> xs = pre ++ [p] /\ ys = q :: post).
  { clear -Hx Hy. induction xs as [|x xs IH]; intros pre p q post E K.
    - cbn in E. subst ys. exfalso. assert (In p (pre ++ p :: q :: post)) by (apply in_or_app; right; now left). specialize (Hy p H). lia.
    - destruct pre as [|y pre]; cbn in E.
      + injection E as -> E. destruct xs as [|x2 xs]; cbn in E; [subst ys; auto|]. injection E as -> E. specialize (Hx q ltac:(right; now left)). lia.
      + injection E as -> E. destruct (IH ltac:(intros; apply Hx; now right) pre p q post E K) as [-> ->]. auto. }
  destruct (rev xs) as [|p rx] eqn:Er.
  - left. assert (xs = []) as -> by (rewrite <- (rev_involutive xs), Er; reflexivity). split; auto.
    intros pre p q post E K. destruct (Cut pre p q post E K) as [X _]. destruct pre; discriminate.
  - assert (Ex : xs = rev rx ++ [p]) by (rewrite <- (rev_involutive xs), Er; reflexivity). destruct ys as [|q post].
    + left. cbn [drop_younger]. split; auto. intros pre p' q' post E K. destruct (Cut _ _ _ _ E K) as [_ X]. discriminate.
    + cbn [drop_younger]. destruct (Nat.ltb_spec (fst (fst p)) (fst (fst q))) as [B|B].
      * right. exists (rev rx), p, q, post. rewrite Ex, <- !app_assoc. repeat split; auto; [apply Hx; rewrite Ex; apply in_or_app; right; now left|apply Hy; now left].
      * left. split; auto. intros pre p' q' post' E K. destruct (Cut _ _ _ _ E K) as [X Y]. injection Y as -> ->.
        rewrite Ex in X. apply app_inj_tail in X as [_ ->]. lia.
Qed.
Lemma rb_unique ops s os l k v : run_ops rb_step rb_new ops = Ok (s, os) -> rb_step s BWalk = Ok (s, RList l) ->
  ((exists e, In e l /\ e_key e = k) -> rb_step s (BInsertUnique k v) = Ok (s, RPtr None)) /\
  ((forall e, In e l -> e_key e <> k) -> exists s' z, rb_step s (BInsertUnique k v) = Ok (s', RPtr (Some z)) /\ rb_size s' = rb_size s + 1 /\
     ((forall pre p q post, l = pre ++ p :: q :: post -> e_key p < k < e_key q -> (fst (fst q) < fst (fst p))%nat) ->
        rb_step s' BWalk = Ok (s', RList (put (z, k, v) l))) /\
     (forall pre p q post, l = pre ++ p :: q :: post -> e_key p < k < e_key q -> (fst (fst p) < fst (fst q))%nat ->
        rb_step s' BWalk = Ok (s', RList (pre ++ p :: (z, k, v) :: drop_younger (fst (fst p)) post)))).
Proof.
  intros E Wk. destruct (history_state _ _ _ E) as (w & R & _). pose proof R as (t & G & A). destruct (walk_list s w t l G Wk) as [-> Ne].
  pose proof (rb_step_ok s w (BInsertUnique k v) R) as S. pose proof (list_sorted s w t G) as So. destruct w as [n sz l]. cbn [map_step w_list] in *.
  destruct l as [|e0 l0]; [congruence|]. set (l := e0 :: l0) in *. split.
  - intros (e & Ie & Ke). assert (X : existsb (fun e => e_key e =? k) l = true) by (apply existsb_exists; exists e; split; auto; lia).
    rewrite X in S. cbn [rb_step] in *. unfold insert_unique in *.
    (* the state is the same, not only the entries *)
    match goal with H : sim_out _ (bind ?x _) _ |- _ => destruct x as [[s1 p1]| |] eqn:Ei; cbn in H; try tauto end.
    destruct S as [S _]. injection S as ->. cbn.
    assert (s1 = s) as ->; [|reflexivity]. revert Ei. destruct (descend _ _ _ _ _ _ _) as [[y c]| |]; cbn [bind]; try discriminate.
    assert (Z : forall y, (if cmp_F (rb_cmp s) (rn_key (rb_heap s y)) k then let '(t0, z) := rb_insert s None y k v in Ok (t0, Some z) else Ok (s, None)) = Ok (s1, None) -> s1 = s).
    { intros y0. destruct (cmp_F _ _ k); [destruct (rb_insert s None y0 k v); intros Q; discriminate|]. intros Q. now injection Q. }
    destruct c; [|apply Z]. destruct (peqb (Some y) (rn_left (rb_heap s 0%nat))); [destruct (rb_insert s None y k v); intros Q; discriminate|].
    destruct (rb_prevp _ _ _) as [[y0|]| |]; cbn [bind]; try discriminate. apply Z.
  - intros Nk. assert (X : existsb (fun e => e_key e =? k) l = false).
    { apply not_true_iff_false. intros X. apply existsb_exists in X as (e & Ie & Ke). apply (Nk e Ie). lia. }
    rewrite X in S. destruct (rb_step s (BInsertUnique k v)) as [[s' o]| |]; cbn [sim_out] in S; try tauto. destruct S as [-> (t' & G' & A')].
    exists s', n. split; [reflexivity|]. split; [rewrite (g_size _ _ _ G'), (g_size _ _ _ G); reflexivity|].
    assert (Wk' : forall m, put_unique (n, k, v) l = m -> m <> [] -> rb_step s' BWalk = Ok (s', RList m)).
    { intros m Em Nm. cbn [rb_step]. rewrite (walk_all s' _ t' G'). cbn [w_list]. rewrite Em. destruct m; [congruence|reflexivity]. }
    destruct (put_unique_cases (n, k, v) l So Nk) as [[P1 P2]|(pre & p & q & post & P1 & P2 & P3 & P4)].
    + split.
      * intros _. apply Wk'; auto. destruct l; cbn; [discriminate|]. destruct (_ <? _); discriminate.
      * intros pre p q post El K B. exfalso. exact (P2 pre p q post El K B).
    + split.
      * intros H. exfalso. specialize (H pre p q post P1 P2). lia.
      * intros pre' p' q' post' El K B. apply Wk'; [|destruct pre'; discriminate].
        assert (Cut : pre = pre' /\ p = p' /\ post = post').
        { clear -So P1 El P2 K. change (e_key (n, k, v)) with k in P2. rewrite P1 in El, So. clear P1 l. revert pre' El. induction pre as [|x pre IH]; intros [|x' pre'] E; cbn in E.
          - injection E as -> -> ->. auto.
          - injection E as -> E. exfalso. destruct pre' as [|y pre']; cbn in E; injection E as -> E; [lia|]. 
            apply StronglySorted_inv in So as [So1 _]. apply StronglySorted_inv in So1 as [_ So4]. rewrite Forall_forall in So4.
            specialize (So4 p' ltac:(rewrite E; apply in_or_app; right; now left)). unfold key_before in So4. lia.
          - injection E as -> E. exfalso. destruct pre as [|y pre]; cbn in E; injection E as -> E; [lia|].
            apply StronglySorted_inv in So as [So1 _]. cbn in So1. apply StronglySorted_inv in So1 as [_ So4]. rewrite Forall_forall in So4.
            specialize (So4 p ltac:(apply in_or_app; right; now left)). unfold key_before in So4. lia.
          - injection E as -> E. destruct (IH ltac:(inversion So; auto) pre' E) as (-> & -> & ->). auto. }
        destruct Cut as (-> & -> & ->). exact P4.
Qed.

(** The list never diverges. *)
Lemma map_step_ends ops : forall w, run_ops map_step w ops <> Diverge.
Proof.
  induction ops as [|op ops IH]; intros w; cbn [run_ops]; [discriminate|].
  assert (map_step w op <> Diverge).
  { destruct w as [n sz l]. destruct op; cbn [map_step]; try discriminate; destruct l; try discriminate. destruct (existsb _ _); discriminate. }
  destruct (map_step w op) as [[w' o]| |]; cbn [bind]; try discriminate; [|congruence]. specialize (IH w').
  destruct (run_ops map_step w' ops) as [[w2 os]| |]; cbn [bind]; try discriminate. congruence.
Qed.
Lemma rb_exact ops :
  match run_ops rb_step rb_new ops, run_ops map_step (W 1 0 []) ops with
  | Ok (_, os), Ok (_, os') => os = os'
  | Panic, Panic => True
  | _, _ => False
  end.
Proof.
  pose proof (history ops) as H. pose proof (map_step_ends ops (W 1 0 [])) as D.
  destruct (run_ops rb_step rb_new ops) as [[s os]| |], (run_ops map_step (W 1 0 []) ops) as [[w os']| |]; cbn in H; tauto.
Qed.
Lemma rb_cost ops s os k : run_ops rb_step rb_new ops = Ok (s, os) ->
  exists w p c, run_ops map_step (W 1 0 []) ops = Ok (w, os) /\ rb_find s k = Ok (p, c) /\ c <= Z.of_nat (length (w_list w)) + 1.
Proof.
  intros E. destruct (history_state _ _ _ E) as (w & (t & G & _) & Ew). destruct (rb_find_cost s w t k G) as (p & c & Ef & Hc). eauto 6.
Qed.
Lemma rb_again ops s os b kvs : run_ops rb_step rb_new ops = Ok (s, os) -> kvs <> [] -> exists s' l,
  run_ops rb_step s ([BInit b; BSize; BEmpty] ++ map (fun e => BInsertEqual (fst e) (snd e)) kvs ++ [BSize; BWalk]) =
    Ok (s', [RNone; RNum 0; RBool true] ++ map (fun e => RPtr (Some (fst (fst e)))) (numbered (rb_next s) kvs) ++ [RNum (Z.of_nat (length kvs)); RList l]) /\
  Permutation l (numbered (rb_next s) kvs) /\ StronglySorted before l.
Proof.
  intros E N. destruct (history_state _ _ _ E) as (w & R & _). pose proof R as (t & G & _). rewrite (g_next _ _ _ G). destruct w as [n sz l0]. cbn [w_next] in *.
  destruct (inserts kvs n 0 [] ltac:(intros x []) ltac:(constructor)) as (l & Ei & P & S).
  assert (L : exists e l0, l = e :: l0). { destruct l; [|eauto]. cbn in P. apply Permutation_nil in P. destruct kvs as [|[k v] ?]; [congruence|discriminate]. }
  pose proof (run_ops_sim rb_rel rb_step map_step rb_step_ok ([BInit b; BSize; BEmpty] ++ map (fun e => BInsertEqual (fst e) (snd e)) kvs ++ [BSize; BWalk]) s (W n sz l0) R) as H.
  rewrite (run_ops_app map_step [BInit b; BSize; BEmpty]) in H. cbn [run_ops map_step bind] in H. rewrite (run_ops_app map_step), Ei in H.
  destruct L as (e & l1 & ->). cbn [bind run_ops map_step] in H. cbn [app] in *.
  destruct (run_ops rb_step s _) as [[s' os']| |]; cbn [sim_out] in H; try tauto. destruct H as [-> _]. exists s', (e :: l1). split; auto.
Qed.
Lemma rb_loop ops s os : run_ops rb_step rb_new ops = Ok (s, os) -> rb_step s BEmpty = Ok (s, RBool false) ->
  exists l, rb_step s BWalk = Ok (s, RList l) /\ forall k, exists p, rb_step s (BFind k) = Ok (s, RPtr p) /\
    match p with
    | None => forall e, In e l -> e_key e <> k
    | Some a => exists e, In e l /\ e_key e = k /\ fst (fst e) = a
    end.
Proof.
  intros E Em. destruct (history_state _ _ _ E) as (w & R & _). pose proof R as (t & G & _).
  exists (w_list w). pose proof (rb_step_ok s w BEmpty R) as S. rewrite Em in S. split.
  - cbn [rb_step]. rewrite (walk_all s w t G). destruct w as [n sz [|e l]]; cbn in S; [destruct S as [S _]; discriminate|]. reflexivity.
  - intros k. destruct (find_all s w t G k) as [c Ef]. cbn [rb_step]. rewrite Ef. cbn [bind fst]. eexists. split; [reflexivity|].
    destruct (find (fun e => e_key e =? k) (w_list w)) as [e|] eqn:F; cbn.
    + apply find_some in F as [I K]. exists e. repeat split; auto. lia.
    + intros e Ie Ke. pose proof (find_none _ _ F e Ie) as Q. cbn in Q. lia.
Qed.
Lemma rb_rotations ops s os : run_ops rot_step rb_new ops = Ok (s, os) -> forallb (fun o => negb (is_unique o)) (calls ops) = true ->
  exists s', run_ops rb_step rb_new (calls ops) = Ok (s', returned ops os).
Proof.
  intros E U. destruct rb_new_rel as (t & G & _). destruct (rot_sim ops rb_new _ t s os G U E) as [w' Ew].
  pose proof (history (calls ops)) as H. rewrite Ew in H. destruct (run_ops rb_step rb_new (calls ops)) as [[s' os']| |]; cbn in H; try tauto.
  destruct H as [-> _]. eauto.
Qed.
Lemma good_rot ops : forall s w t s' os, good s w t -> forallb (fun o => negb (is_unique o)) (calls ops) = true ->
  run_ops rot_step s ops = Ok (s', os) -> exists w' t', good s' w' t'.
Proof.
  induction ops as [|[o|lft] ops IH]; intros s w t s' os G U E; cbn [run_ops calls] in *.
  - injection E as <- <-. eauto.
  - cbn [forallb] in U. apply andb_true_iff in U as [U1 U2]. cbn [rot_step] in E.
    pose proof (step_core s w t o G ltac:(now destruct (is_unique o))) as S. destruct (rb_step s o) as [[s1 o1]| |]; cbn [bind] in E; try discriminate.
    destruct (map_step w o) as [[w1 o2]| |]; cbn in S; try tauto. destruct S as [<- (t' & G' & _)].
    destruct (run_ops rot_step s1 ops) as [[s2 os2]| |] eqn:E2; cbn [bind] in E; try discriminate. injection E as <- <-. eauto.
  - pose proof (rot_ok s w t lft G) as R. destruct (rot_step s (inr lft)) as [[s1 o1]| |]; cbn [bind] in E; try discriminate. destruct R as [t' G'].
    destruct (run_ops rot_step s1 ops) as [[s2 os2]| |] eqn:E2; cbn [bind] in E; try discriminate. injection E as <- <-. eauto.
Qed.
(** A rotation moves the root down on its side and panics only without the child to
    move up. *)
Lemma rb_rotate ops s os a lft : run_ops rot_step rb_new ops = Ok (s, os) -> forallb (fun o => negb (is_unique o)) (calls ops) = true ->
  rn_parent (rb_heap s 0%nat) = Some a ->
  match (if lft : bool then rn_right (rb_heap s a) else rn_left (rb_heap s a)) with
  | None => rot_step s (inr lft) = Panic
  | Some y => exists s', rot_step s (inr lft) = Ok (s', RNone) /\ rn_parent (rb_heap s' 0%nat) = Some y /\
      (if lft then rn_left (rb_heap s' y) else rn_right (rb_heap s' y)) = Some a
  end.
Proof.
  intros E U T. destruct rb_new_rel as (t0 & G0 & _). destruct (good_rot ops rb_new _ t0 s os G0 U E) as (w & t & G).
  rewrite (g_top _ _ _ G) in T. destruct t as [|l c r]; [discriminate|]. cbn [top] in T. injection T as ->.
  cbn [rot_step]. rewrite (g_top _ _ _ G). cbn [top]. pose proof (g_rep _ _ _ G) as (_ & L & Q & _). rewrite L, Q. destruct lft.
  - destruct r as [|r1 y r2]; cbn [top].
    + unfold rotate_left. rewrite (g_top _ _ _ G). cbn [top]. rewrite peqb_refl, Q. reflexivity.
    + destruct (rotate_left_ok _ _ _ _ _ _ _ G) as (s' & -> & G'). exists s'. cbn [bind]. split; [reflexivity|]. split; [exact (g_top _ _ _ G')|].
      destruct (g_rep _ _ _ G') as (_ & L' & _). exact L'.
  - destruct l as [|l1 y l2]; cbn [top].
    + unfold rotate_right. rewrite (g_top _ _ _ G). cbn [top]. rewrite peqb_refl, L. reflexivity.
    + destruct (rotate_right_ok _ _ _ _ _ _ _ G) as (s' & -> & G'). exists s'. cbn [bind]. split; [reflexivity|]. split; [exact (g_top _ _ _ G')|].
      destruct (g_rep _ _ _ G') as (_ & _ & R' & _). exact R'.
Qed.
Lemma rb_stubs k v :
  (exists s os, run_ops rb_step rb_new [BInsert k v; BFind k; BSize] = Ok (s, os ++ [RPtr None; RNum 0])) /\
  (exists s os, run_ops rb_step rb_new [BInsertEqual k v; BRemove k v; BErase (Some 1%nat); BFind k; BSize] = Ok (s, os ++ [RPtr (Some 1%nat); RNum 1])) /\
  (exists s os, run_ops rb_step rb_new [BInsertEqual k v; BLower k v; BUpper (k - 1) v] = Ok (s, os ++ [RPtr None; RPtr None])).
Proof.
  split; [|split].
  - eexists _, [RPtr None]. reflexivity.
  - set (ops := [BInsertEqual k v; BRemove k v; BErase (Some 1%nat); BFind k; BSize]).
    assert (E : exists w, run_ops map_step (W 1 0 []) ops = Ok (w, [RPtr (Some 1%nat); RPtr None; RPtr None; RPtr (Some 1%nat); RNum 1])).
    { eexists. cbn. change (e_key (1%nat, k, v)) with k. rewrite Z.eqb_refl. reflexivity. }
    destruct E as [w E]. pose proof (history ops) as H. rewrite E in H. destruct (run_ops rb_step rb_new ops) as [[s os]| |]; cbn in H; try tauto. destruct H as [-> _].
    eexists s, [_; _; _]. reflexivity.
  - set (ops := [BInsertEqual k v; BLower k v; BUpper (k - 1) v]).
    assert (E : exists w, run_ops map_step (W 1 0 []) ops = Ok (w, [RPtr (Some 1%nat); RPtr None; RPtr None])) by (eexists; reflexivity).
    destruct E as [w E]. pose proof (history ops) as H. rewrite E in H. destruct (run_ops rb_step rb_new ops) as [[s os]| |]; cbn in H; try tauto. destruct H as [-> _].
    eexists s, [_]. reflexivity.
Qed.
