(** HasCycle, sorting and self-splicing of the singly linked list. *)
From Coq Require Import ZArith List Bool Arith Lia.
From Verif Require Import GoBase GoLists ConcBase ListSpec SListModel SListSpec SListProofs SListRefine.
Import ListNotations.
Open Scope nat_scope.

Lemma steps_add h n : forall p m, steps h p (n + m) = steps h (steps h p n) m.
Proof.
  induction n as [|n IH]; intros p m; cbn; auto. destruct p as [x|]; [apply IH|]. destruct m; reflexivity.
Qed.
Lemma steps_S h p n x : steps h p n = Some x -> snext (h x) = steps h p (S n).
Proof. intros H. replace (S n) with (n + 1) by lia. rewrite steps_add, H. reflexivity. Qed.
Lemma steps_None h p n m : steps h p n = None -> n <= m -> steps h p m = None.
Proof. intros H L. replace m with (n + (m - n)) by lia. rewrite steps_add, H. destruct (m - n); reflexivity. Qed.

Lemma sp_eq_spec p q : sp_eq p q = true <-> p = q.
Proof. destruct p, q; cbn; rewrite ?Nat.eqb_eq; intuition congruence. Qed.

Section Chain.
Variables (h : sheap) (p : option nat).
Let P i := steps h p i.

(** One round of the loop. *)
Lemma round fuel i :
  has_cycle_loop fuel h (P (2 * i)) (P (4 * i)) =
  match P (4 * i + 1) with
  | None => Ok false
  | Some _ =>
      if sp_eq (P (4 * i + 2)) (P (2 * i + 1)) then Ok true
      else match P (4 * i + 3) with
           | None => Panic
           | Some _ => match fuel with
                       | O => Diverge
                       | S f => has_cycle_loop f h (P (2 * S i)) (P (4 * S i))
                       end
           end
  end.
Proof.
  assert (PS : forall n, match P n with Some x => snext (h x) = P (S n) | None => P (S n) = None end).
  { intros n. destruct (P n) eqn:E; [apply steps_S; auto|apply steps_None with n; auto]. }
  pose proof (PS (4 * i)) as F0. pose proof (PS (4 * i + 1)) as F1. pose proof (PS (4 * i + 2)) as F2. pose proof (PS (4 * i + 3)) as F3.
  pose proof (PS (2 * i)) as S0. pose proof (PS (2 * i + 1)) as S1.
  replace (S (4 * i)) with (4 * i + 1) in * by lia. replace (S (4 * i + 1)) with (4 * i + 2) in * by lia.
  replace (S (4 * i + 2)) with (4 * i + 3) in * by lia. replace (S (4 * i + 3)) with (4 * S i) in * by lia.
  replace (S (2 * i)) with (2 * i + 1) in * by lia. replace (S (2 * i + 1)) with (2 * S i) in * by lia.
  assert (N : forall a b, a <= b -> P a = None -> P b = None) by (intros a b L E; apply steps_None with a; auto).
  destruct fuel; cbn [has_cycle_loop].
  all: destruct (P (4 * i)) as [f0|] eqn:E0; [|rewrite F0; reflexivity].
  all: rewrite F0; destruct (P (4 * i + 1)) as [f1|] eqn:E1; [|reflexivity].
  all: rewrite F1; destruct (P (2 * i)) as [s0|] eqn:G0; [|apply (N (2 * i) (4 * i)) in G0; [congruence|lia]].
  all: rewrite S0; destruct (sp_eq (P (4 * i + 2)) (P (2 * i + 1))) eqn:Q; [reflexivity|].
  all: destruct (P (4 * i + 2)) as [f2|] eqn:E2; [|rewrite F2; reflexivity].
  all: rewrite F2; destruct (P (4 * i + 3)) as [f3|] eqn:E3; [|reflexivity].
  all: destruct (P (2 * i + 1)) as [s1|] eqn:G1; [|apply (N (2 * i + 1) (4 * i + 1)) in G1; [congruence|lia]].
  - reflexivity.
  - rewrite F3, S1. reflexivity.
Qed.

Lemma ends_distinct n : ends_after h p n -> forall i j, i < j < n -> P i <> P j.
Proof.
  intros (E & A) i j L K. unfold P in K.
  assert (Q : forall r, steps h p (i + r * (j - i)) = steps h p i).
  { induction r as [|r IH]; [f_equal; lia|]. replace (i + S r * (j - i)) with (i + r * (j - i) + (j - i)) by lia.
    rewrite steps_add, IH, <- steps_add. replace (i + (j - i)) with j by lia. congruence. }
  assert (steps h p (i + n * (j - i)) = None) as K2 by (apply steps_None with n; auto; nia).
  rewrite Q in K2. apply (A i); auto. lia.
Qed.

Lemma round_end n : ends_after h p n -> forall k i fuel, n = 4 * i + k -> k <= fuel ->
  has_cycle_loop fuel h (P (2 * i)) (P (4 * i)) = if k mod 4 <? 2 then Ok false else Panic.
Proof.
  intros H. pose proof (ends_distinct n H) as D. destruct H as (E & A).
  assert (N : forall a, n <= a -> P a = None) by (intros a L; apply steps_None with n; auto).
  induction k as [k IH] using lt_wf_ind; intros i fuel En Hf. rewrite round.
  destruct (Nat.lt_ge_cases k 2) as [L|L].
  - rewrite N by lia. rewrite Nat.mod_small by lia. now rewrite (proj2 (Nat.ltb_lt k 2)) by auto.
  - destruct (P (4 * i + 1)) eqn:E1; [|apply A in E1; [tauto|lia]].
    destruct (sp_eq (P (4 * i + 2)) (P (2 * i + 1))) eqn:Q.
    { apply sp_eq_spec in Q. destruct (Nat.eq_dec k 2) as [->|Nk].
      - rewrite N in Q by lia. symmetry in Q. apply A in Q; [tauto|lia].
      - exfalso. apply (D (2 * i + 1) (4 * i + 2)); [lia|auto]. }
    destruct (Nat.lt_ge_cases k 4) as [L4|L4].
    + rewrite N by lia. rewrite Nat.mod_small by lia. destruct (Nat.ltb_spec k 2); [lia|auto].
    + destruct (P (4 * i + 3)) eqn:E3; [|apply A in E3; [tauto|lia]].
      destruct fuel; [lia|]. rewrite (IH (k - 4)) by lia.
      replace k with (k - 4 + 1 * 4) at 2 by lia. now rewrite Nat.mod_add.
Qed.

Section Cyc.
Variables m c : nat.
Hypothesis C : cycles h p m c.
Lemma cyc_period i : m <= i -> P (i + c) = P i.
Proof.
  destruct C as (_ & _ & E & _). intros L. unfold P. replace (i + c) with (m + c + (i - m)) by lia.
  replace i with (m + (i - m)) at 2 by lia. rewrite (steps_add h (m + c)), (steps_add h m p (i - m)), E. reflexivity.
Qed.
Lemma cyc_mult r : forall i, m <= i -> P (i + r * c) = P i.
Proof.
  induction r as [|r IH]; intros i L; [f_equal; lia|]. replace (i + S r * c) with (i + r * c + c) by lia.
  rewrite cyc_period by lia. auto.
Qed.
Lemma cyc_rep i : exists j, j < m + c /\ P i = P j /\ (i = j \/ m <= j /\ exists r, i = j + r * c).
Proof.
  destruct C as (Hc & _). destruct (Nat.lt_ge_cases i (m + c)) as [L|L]; [exists i; auto|].
  exists (m + (i - m) mod c). pose proof (Nat.mod_upper_bound (i - m) c ltac:(lia)).
  pose proof (Nat.div_mod (i - m) c ltac:(lia)) as K.
  assert (i = m + (i - m) mod c + (i - m) / c * c) as K2 by lia.
  split; [lia|]. split; [rewrite K2 at 1; apply cyc_mult; lia|]. right. split; [lia|]. eexists. exact K2.
Qed.
Lemma cyc_some i : P i <> None.
Proof.
  destruct C as (Hc & N & E & D). intros K.
  assert (P (m + i * c) = None) as Q by (apply steps_None with i; [auto|nia]).
  rewrite cyc_mult in Q by auto. tauto.
Qed.
Lemma cyc_eq i j : i < j -> P i = P j -> m <= i /\ exists r, j = i + r * c.
Proof.
  intros L K. destruct (cyc_rep i) as (i' & Li & Ei & Ri), (cyc_rep j) as (j' & Lj & Ej & Rj).
  destruct C as (Hc & N & E & D).
  assert (i' = j').
  { destruct (Nat.lt_trichotomy i' j') as [Q|[Q|Q]]; auto; exfalso.
    - apply (D i' j'); [lia|]. unfold P in *. congruence.
    - apply (D j' i'); [lia|]. unfold P in *. congruence. }
  subst j'. destruct Ri as [->|(M & r & ->)], Rj as [->|(M' & r' & ->)]; try lia.
  - split; auto. exists r'. lia.
  - split; [lia|]. assert (r * c < r' * c) by lia. exists (r' - r). nia.
Qed.

Lemma round_even : Nat.Even c -> forall fuel i, has_cycle_loop fuel h (P (2 * i)) (P (4 * i)) = Diverge.
Proof.
  intros Ev. assert (Q : forall i, sp_eq (P (4 * i + 2)) (P (2 * i + 1)) = false).
  { intros i. apply not_true_is_false. intros K. apply sp_eq_spec in K. symmetry in K. apply cyc_eq in K; [|lia].
    destruct K as (_ & r & K). destruct Ev as (q & ->). lia. }
  induction fuel as [|fuel IH]; intros i; rewrite round, Q; pose proof (cyc_some (4 * i + 1)); pose proof (cyc_some (4 * i + 3));
    destruct (P (4 * i + 1)), (P (4 * i + 3)); try congruence. all: apply IH.
Qed.

Lemma round_odd : Nat.Odd c -> forall k fuel i, i + k = m * c + (c - 1) / 2 -> k <= fuel ->
  has_cycle_loop fuel h (P (2 * i)) (P (4 * i)) = Ok true.
Proof.
  intros (q & Hq). replace ((c - 1) / 2) with q by (replace (c - 1) with (q * 2) by lia; now rewrite Nat.div_mul by lia).
  induction k as [|k IH]; intros fuel i E Hf; rewrite round; pose proof (cyc_some (4 * i + 1)); pose proof (cyc_some (4 * i + 3));
    destruct (P (4 * i + 1)), (P (4 * i + 3)); try congruence.
  - assert (K : P (4 * i + 2) = P (2 * i + 1)).
    { replace (4 * i + 2) with (2 * i + 1 + (2 * m + 1) * c) by nia. apply cyc_mult. nia. }
    apply sp_eq_spec in K. now rewrite K.
  - destruct (sp_eq _ _); auto. destruct fuel; [lia|]. apply IH; lia.
Qed.
End Cyc.

(** Whatever the loop answers is right. *)
Lemma round_sound fuel : forall i b, has_cycle_loop fuel h (P (2 * i)) (P (4 * i)) = Ok b -> (b = true <-> cyclic h p).
Proof.
  assert (Up : forall i b, (match P (4 * i + 1) with
      | None => Ok false
      | Some _ => if sp_eq (P (4 * i + 2)) (P (2 * i + 1)) then Ok true else match P (4 * i + 3) with None => Panic | Some _ => Diverge end
      end) = Ok b -> (b = true <-> cyclic h p)).
  { intros i b. destruct (P (4 * i + 1)) eqn:E1.
    - destruct (sp_eq _ _) eqn:Q; [|destruct (P (4 * i + 3)); discriminate]. intros [= <-].
      apply sp_eq_spec in Q. split; auto. intros _ k K.
      assert (R : forall r, P (2 * i + 1 + r * (2 * i + 1)) = P (2 * i + 1)).
      { induction r as [|r IH]; [f_equal; lia|]. replace (2 * i + 1 + S r * (2 * i + 1)) with (2 * i + 1 + r * (2 * i + 1) + (2 * i + 1)) by lia.
        unfold P in *. rewrite steps_add, IH, <- steps_add. replace (2 * i + 1 + (2 * i + 1)) with (4 * i + 2) by lia. auto. }
      assert (P (2 * i + 1 + k * (2 * i + 1)) = None) as N by (apply steps_None with k; [auto|nia]).
      rewrite R in N. assert (P (4 * i + 1) = None) by (apply steps_None with (2 * i + 1); [auto|lia]). congruence.
    - intros [= <-]. split; [discriminate|]. intros Cy. exfalso. apply (Cy _ E1). }
  induction fuel as [|fuel IH]; intros i b; rewrite round; intros H.
  - apply (Up i). destruct (P (4 * i + 1)); auto.
  - destruct (P (4 * i + 1)) eqn:E1; [|apply (Up i); rewrite E1; auto].
    destruct (sp_eq (P (4 * i + 2)) (P (2 * i + 1))) eqn:Q; [apply (Up i); rewrite E1, Q; auto|].
    destruct (P (4 * i + 3)) eqn:E3; [|discriminate]. eapply IH; eauto.
Qed.
End Chain.

Lemma has_cycle_ends h p n fuel : ends_after h p n -> n <= fuel ->
  s_has_cycle fuel h p = if n mod 4 <? 2 then Ok false else Panic.
Proof. intros H L. exact (round_end h p n H n 0 fuel eq_refl L). Qed.
Lemma has_cycle_even h p m c fuel : cycles h p m c -> Nat.Even c -> s_has_cycle fuel h p = Diverge.
Proof. intros H E. exact (round_even h p m c H E fuel 0). Qed.
Lemma has_cycle_odd h p m c fuel : cycles h p m c -> Nat.Odd c -> m * c + c <= fuel -> s_has_cycle fuel h p = Ok true.
Proof.
  intros H E L. apply (round_odd h p m c H E (m * c + (c - 1) / 2) fuel 0); [lia|].
  assert ((c - 1) / 2 <= c - 1) by (apply Nat.div_le_upper_bound; lia). lia.
Qed.
Lemma has_cycle_sound h p fuel b : s_has_cycle fuel h p = Ok b -> (b = true <-> cyclic h p).
Proof. intros H. exact (round_sound h p fuel 0 b H). Qed.

(** Every chain in a memory of bounded size ends or cycles. *)
Lemma least (Q : nat -> bool) n : Q n = true -> exists m, m <= n /\ Q m = true /\ forall i, i < m -> Q i = false.
Proof.
  induction n as [n IH] using lt_wf_ind. intros H.
  destruct (existsb Q (seq 0 n)) eqn:E.
  - apply existsb_exists in E. destruct E as (i & Hi & Qi). apply in_seq in Hi.
    destruct (IH i ltac:(lia) Qi) as (m & L & K). exists m. split; [lia|auto].
  - exists n. repeat split; auto. intros i L. apply not_true_is_false. intros K.
    assert (existsb Q (seq 0 n) = true); [|congruence]. apply existsb_exists. exists i. split; auto. apply in_seq. lia.
Qed.
Lemma chain_dichotomy h p F : (forall x y, snext (h x) = Some y -> y < F) ->
  (exists n, n <= F + 1 /\ ends_after h p n) \/ (exists m c, m + c <= F + 1 /\ cycles h p m c).
Proof.
  intros B.
  destruct (existsb (fun i => match steps h p i with None => true | _ => false end) (seq 0 (F + 2))) eqn:E.
  - left. apply existsb_exists in E. destruct E as (i & Hi & Q). apply in_seq in Hi.
    destruct (least (fun i => match steps h p i with None => true | _ => false end) i Q) as (n & L & Qn & Bn).
    exists n. split; [lia|]. split; [destruct (steps h p n); congruence|]. intros j Lj K. specialize (Bn j Lj). cbn in Bn. now rewrite K in Bn.
  - right.
    assert (S : forall i, i < F + 2 -> exists x, steps h p i = Some x).
    { intros i L. destruct (steps h p i) eqn:Q; [eauto|]. exfalso.
      assert (existsb (fun i => match steps h p i with None => true | _ => false end) (seq 0 (F + 2)) = true); [|congruence].
      apply existsb_exists. exists i. rewrite Q. split; auto. apply in_seq. lia. }
    set (D := fun j => existsb (fun i => sp_eq (steps h p i) (steps h p j)) (seq 0 j)).
    destruct (existsb D (seq 0 (F + 2))) eqn:E2.
    + apply existsb_exists in E2. destruct E2 as (j0 & Hj & Q). apply in_seq in Hj.
      destruct (least D j0 Q) as (j & L & Qj & Bj). unfold D in Qj. apply existsb_exists in Qj.
      destruct Qj as (i & Hi & Eq). apply in_seq in Hi. apply sp_eq_spec in Eq.
      exists i, (j - i). split; [lia|]. split; [lia|]. split; [destruct (S i ltac:(lia)) as (x & ->); congruence|].
      replace (i + (j - i)) with j by lia. split; [auto|]. intros u v L2 K.
      specialize (Bj v ltac:(lia)). unfold D in Bj. assert (existsb (fun i => sp_eq (steps h p i) (steps h p v)) (seq 0 v) = true); [|congruence].
      apply existsb_exists. exists u. split; [apply in_seq; lia|]. now apply sp_eq_spec.
    + exfalso.
      assert (ND : NoDup (map (steps h p) (seq 1 (F + 1)))).
      { assert (K : forall u v, u < v < F + 2 -> steps h p u <> steps h p v).
        { intros u v L K. assert (existsb D (seq 0 (F + 2)) = true); [|congruence]. apply existsb_exists. exists v.
          split; [apply in_seq; lia|]. unfold D. apply existsb_exists. exists u. split; [apply in_seq; lia|]. now apply sp_eq_spec. }
        assert (G : forall n s, s + n <= F + 2 -> NoDup (map (steps h p) (seq s n))).
        { induction n as [|n IH]; intros s L; cbn; constructor.
          - intros Q. apply in_map_iff in Q. destruct Q as (v & Q & Hv). apply in_seq in Hv. apply (K s v); [lia|auto].
          - apply IH. lia. }
        apply G. lia. }
      assert (I : incl (map (steps h p) (seq 1 (F + 1))) (map Some (seq 0 F))).
      { intros q Hq. apply in_map_iff in Hq. destruct Hq as (v & <- & Hv). apply in_seq in Hv. destruct v; [lia|].
        destruct (S v ltac:(lia)) as (x & Ex). destruct (S (Datatypes.S v) ltac:(lia)) as (y & Ey).
        rewrite Ey. apply in_map. apply in_seq. split; [lia|]. apply B with x. rewrite <- Ey. now apply steps_S. }
      pose proof (NoDup_incl_length ND I) as K. rewrite !map_length, !seq_length in K. lia.
Qed.

(** Sorting two or more nodes panics. *)
Lemma sort_panics w a k : SRel w a -> qlive a k = true -> 2 <= length (qseq a k) -> sstep w (SSort k) = Panic.
Proof.
  intros R Lk L. cbn [sstep]. unfold s_sort. pose proof (r_seg _ _ R k Lk) as Hs. unfold heads in Hs.
  assert (Hk : k < s_fresh w) by (rewrite (r_fresh _ _ R); apply (r_head _ _ R), (r_live _ _ R); auto).
  destruct (qseq a k) as [|x [|y t]]; cbn in L; try lia. cbn in Hs. destruct Hs as (E1 & E2 & _). rewrite E1, E2.
  unfold s_merge_sort. set (h1 := fun z : nat => if (s_fresh w <=? z) && (z <? s_fresh w + 66) then SNode 0 None else s_heap w z).
  assert (Ek : h1 k = s_heap w k) by (unfold h1; destruct (Nat.leb_spec (s_fresh w) k); [lia|reflexivity]).
  unfold h1 in Ek at 1. rewrite Ek, E1.
  assert (Hd : forall f b c d, s_empty (set_next h1 b (Some x)) b = true ->
     distribute f (set_next h1 b (Some x)) b c d 0 = Ok (set_next h1 b (Some x), 0)).
  { intros f b c d H. destruct f; cbn [distribute]; rewrite H; reflexivity. }
  rewrite Hd; [|unfold s_empty; now rewrite set_next_same]. reflexivity.
Qed.

(** Splicing a list into itself closes a cycle of all its nodes. *)
Lemma seg_steps h l : forall p q i, seg h p l q -> i < length l -> steps h p i = nth_error l i.
Proof.
  induction l as [|x t IH]; intros p q i H L; cbn in L; [lia|]. cbn in H. destruct H as (-> & H).
  destruct i; cbn; auto. eapply IH; eauto. lia.
Qed.
Lemma seg_steps_end h l : forall p q, seg h p l q -> steps h p (length l) = q.
Proof.
  induction l as [|x t IH]; intros p q H; cbn in *; auto. destruct H as (-> & H). auto.
Qed.
Lemma self_splice w a k x t : SRel w a -> qlive a k = true -> qseq a k = x :: t ->
  exists w', sstep w (SPushFrontList k k) = Ok (w', SoNone) /\ cycles (s_heap w') (s_front (s_heap w') k) 0 (length (x :: t)).
Proof.
  intros R Lk E. cbn [sstep]. unfold s_push_front_list. pose proof (r_seg _ _ R k Lk) as Hs. unfold heads in Hs.
  pose proof (SRel_len w a k R Lk) as Hl. rewrite <- (r_fresh _ _ R) in Hl. pose proof (SRel_nodup w a k R Lk) as ND.
  rewrite E in *. cbn in Hs, Hl. destruct Hs as (E1 & Hs). rewrite E1. cbn [s_tail].
  rewrite (tail_loop_ok (s_heap w) t) by (auto; lia). cbn [bind]. eexists. split; [reflexivity|]. cbn [s_heap].
  set (y := last t x). assert (Nyk : y <> k).
  { intros K. pose proof (last_in t x) as Q. fold y in Q. rewrite K in Q. inversion ND; auto. }
  unfold s_front. rewrite set_next_same, set_next_other by auto. rewrite E1.
  set (h' := set_next (set_next (s_heap w) y (Some x)) k (Some x)).
  assert (S : seg h' (Some x) (x :: t) (Some x)).
  { inversion ND as [|? ? Nk NDl]; subst. inversion NDl as [|? ? Nx NDt]; subst.
    assert (Ct : t = [] \/ exists t' z, t = t' ++ [z]).
    { clear. destruct t as [|z t _] using rev_ind; eauto. }
    cbn [seg]. split; auto. destruct Ct as [Et|(t' & z & Et)]; subst t; [|rename t' into t].
    - cbn in *. unfold h', y. cbn. rewrite set_next_other, set_next_same; auto.
    - unfold h', y in *. rewrite last_last in *. clear h' y. apply seg_snoc in Hs. destruct Hs as (Hs & _).
      apply seg_snoc. pose proof (nodup_mid _ _ _ NDt) as (Nz & _). split.
      + rewrite set_next_other by (intros ->; apply Nk; cbn; auto).
        rewrite set_next_other by (intros ->; apply Nx, in_or_app; cbn; auto).
        apply seg_ext with (h := s_heap w); auto. intros u Hu.
        rewrite set_next_other by (intros ->; apply Nk; right; apply in_or_app; auto).
        apply set_next_other. intros ->. tauto.
      + rewrite set_next_other, set_next_same; auto. }
  assert (NDl : NoDup (x :: t)) by (inversion ND; auto).
  split; [cbn; lia|]. split; [cbn; congruence|]. split; [apply (seg_steps_end _ _ _ _ S)|].
  intros i j L K. rewrite (seg_steps _ _ _ _ i S), (seg_steps _ _ _ _ j S) in K by lia.
  assert (i = j); [|lia]. eapply NoDup_nth_error; eauto. lia.
Qed.

Lemma walk_cyclic h : forall fuel p, cyclic h p -> walk_loop fuel h p = Diverge.
Proof.
  induction fuel as [|fuel IH]; intros p C; pose proof (C 0) as C0; cbn in C0; destruct p as [x|]; try congruence; cbn [walk_loop]; auto.
  rewrite IH; auto. intros n. apply (C (S n)).
Qed.

(** After a splice the other list shows the same nodes. *)
Lemma splice_shared w a k j : SRel w a -> qlive a k = true -> qlive a j = true -> k <> j -> qseq a j <> [] ->
  exists w', sstep w (SPushFrontList k j) = Ok (w', SoNone) /\
    sstep w' (SWalk k) = Ok (w', SoNodes (qseq a j ++ qseq a k)) /\
    sstep w' (SWalk j) = Ok (w', SoNodes (qseq a j ++ qseq a k)).
Proof.
  intros R Lk Lj N E.
  destruct (sstep_ok w a (SPushFrontList k j) R) as (w' & E1 & R1); [cbn; auto|].
  assert (Eo : sexact a (SPushFrontList k j) =
     (SAbs (fupd (qseq a) k (qseq a j ++ qseq a k)) (qval a) (qfree a) (fupd (qlive a) j false) (qhead a) (qfresh a), SoNone)).
  { cbn. destruct (qseq a j); congruence. }
  rewrite Eo in E1, R1. cbn [fst snd] in *. exists w'. split; auto.
  destruct (sstep_ok w' _ (SWalk k) R1) as (w2 & E2 & _); [cbn; rewrite fupd_other; auto|].
  cbn [sexact swant fst snd qseq] in E2. rewrite fupd_same in E2.
  assert (K : sstep w' (SWalk k) = Ok (w', SoNodes (qseq a j ++ qseq a k))).
  { rewrite E2. f_equal. f_equal. cbn in E2. destruct (walk_loop _ _ _); cbn in E2; congruence. }
  split; auto. rewrite <- K. cbn [sstep]. f_equal.
  assert (F : s_front (s_heap w') j = s_front (s_heap w') k); [|now rewrite F].
  clear K E2 w2. cbn in E1. unfold s_push_front_list in E1.
  pose proof (r_seg _ _ R j Lj) as Hs. unfold heads in Hs.
  pose proof (SRel_len w a j R Lj) as Hl. rewrite <- (r_fresh _ _ R) in Hl.
  destruct (qseq a j) as [|x t] eqn:Eq; [congruence|]. cbn in Hs, Hl. destruct Hs as (Ej & Hs).
  rewrite Ej in E1. cbn [s_tail] in E1. rewrite (tail_loop_ok (s_heap w) t) in E1 by (auto; lia). cbn [bind] in E1.
  injection E1 as <-. unfold s_front. cbn [s_heap].
  rewrite set_next_same. rewrite set_next_other by auto. reflexivity.
Qed.
