(** Proofs about the lock-free deque. *)
From Coq Require Import ZArith List Bool Lia ZifyBool ZifyNat Permutation.
From Verif Require Import GoBase GoLists ConcBase QueueProofs RingProofs LFDModel LFDSpec.
Import ListNotations.
Open Scope Z_scope.

(** ** The packed word *)
Lemma land_ones32 x : Z.land x 4294967295 = x mod 2 ^ 32.
Proof. change 4294967295 with (Z.ones 32). now apply Z.land_ones. Qed.

Lemma make_ht_val h t : 0 <= h < 2 ^ 32 -> 0 <= t < 2 ^ 32 -> make_ht h t = h + t * 2 ^ 32.
Proof.
  intros Hh Ht. unfold make_ht. rewrite !land_ones32, !Z.mod_small by lia.
  rewrite Z.shiftl_mul_pow2 by lia. rewrite wrap_small by nia.
  assert (L : Z.land h (t * 2 ^ 32) = 0).
  { apply Z.bits_inj'. intros n Hn. rewrite Z.land_spec, Z.bits_0. destruct (Z.ltb_spec n 32).
    - rewrite Z.mul_pow2_bits_low by lia. apply andb_false_r.
    - rewrite (Z.bits_above_log2 h n); [reflexivity|lia|].
      destruct (Z.eq_dec h 0) as [->|]; [cbn; lia|]. apply Z.log2_lt_pow2; [lia|].
      apply Z.lt_le_trans with (2 ^ 32); [lia|]. apply Z.pow_le_mono_r; lia. }
  rewrite Z.add_nocarry_lxor, Z.lxor_lor by exact L. reflexivity.
Qed.

Lemma head_of_val h t : 0 <= h < 2 ^ 32 -> 0 <= t < 2 ^ 32 -> head_of (h + t * 2 ^ 32) = h.
Proof.
  intros Hh Ht. unfold head_of. rewrite land_ones32, Z.mod_add by lia. rewrite Z.mod_small by lia. now apply wrap_small.
Qed.
Lemma tail_of_val h t : 0 <= h < 2 ^ 32 -> 0 <= t < 2 ^ 32 -> tail_of (h + t * 2 ^ 32) = t.
Proof.
  intros Hh Ht. unfold tail_of. rewrite Z.shiftr_div_pow2 by lia. rewrite Z.div_add by lia.
  rewrite Z.div_small by lia. rewrite Z.add_0_l, land_ones32, Z.mod_small by lia. now apply wrap_small.
Qed.

Lemma pack_round h t : 0 <= h < 2 ^ 32 -> 0 <= t < 2 ^ 32 ->
  0 <= make_ht h t < 2 ^ 64 /\ head_of (make_ht h t) = h /\ tail_of (make_ht h t) = t.
Proof. intros Hh Ht. rewrite make_ht_val, head_of_val, tail_of_val by lia. split; auto. nia. Qed.

Lemma unpack_round w : 0 <= w < 2 ^ 64 -> make_ht (head_of w) (tail_of w) = w.
Proof.
  intros H. pose proof (Z.div_mod w (2 ^ 32) ltac:(lia)). pose proof (Z.mod_pos_bound w (2 ^ 32) ltac:(lia)).
  assert (0 <= w / 2 ^ 32 < 2 ^ 32) by (split; [apply Z.div_pos; lia|apply Z.div_lt_upper_bound; lia]).
  replace w with (w mod 2 ^ 32 + (w / 2 ^ 32) * 2 ^ 32) by lia.
  rewrite head_of_val, tail_of_val by lia. now apply make_ht_val.
Qed.

(** ** The buffer *)
Definition slots (n h : Z) (l d : list Z) : Prop := forall x, 0 <= x < zlen l -> zn d ((h + x) mod n) = zn l x.
Definition lay (n h : Z) (l : list Z) (w : Z) (d : list Z) : Prop :=
  0 < n < 2 ^ 31 /\ zlen d = n /\ 0 <= h < n /\ zlen l <= n - 1 /\ w = h + ((h + zlen l) mod n) * 2 ^ 32 /\ slots n h l d.

Lemma fd_next_mod d i : 0 < zlen d < 2 ^ 31 -> 0 <= i < zlen d -> fd_next d i = (i + 1) mod zlen d.
Proof.
  intros Hd Hi. unfold fd_next, fd_cap. rewrite !wrap_small by lia.
  destruct (Z.leb_spec (zlen d) (i + 1)).
  - replace (i + 1) with (zlen d) by lia. now rewrite Z.mod_same by lia.
  - now rewrite Z.mod_small by lia.
Qed.
Lemma fd_prev_pos d i : 0 < i < 2 ^ 32 -> fd_prev d i = i - 1.
Proof. intros Hi. unfold fd_prev. rewrite wrap_small by lia. destruct (Z.ltb_spec (i - 1) 0); lia. Qed.
Lemma fd_prev_zero d : fd_prev d 0 = 2 ^ 32 - 1.
Proof. reflexivity. Qed.

Lemma lay_ends n h l w d : lay n h l w d -> head_of w = h /\ tail_of w = (h + zlen l) mod n /\
  0 <= (h + zlen l) mod n < n.
Proof.
  intros (Hn & Hd & Hh & Hl & -> & _). pose proof (Z.mod_pos_bound (h + zlen l) n ltac:(lia)).
  rewrite head_of_val, tail_of_val by lia. auto.
Qed.

Lemma lay_next n h l w d : lay n h l w d -> fd_next d ((h + zlen l) mod n) = (h + (zlen l + 1)) mod n.
Proof.
  intros (Hn & Hd & Hh & Hl & _). rewrite fd_next_mod.
  - rewrite Hd. rewrite Z.add_mod_idemp_l by lia. f_equal. lia.
  - lia.
  - rewrite Hd. apply Z.mod_pos_bound. lia.
Qed.

Lemma mod_eq_head n h x : 0 < n -> 0 <= h < n -> 0 <= x <= n -> (h = (h + x) mod n <-> x = 0 \/ x = n).
Proof.
  intros Hn Hh Hx. split.
  - intros E. destruct (Z.eq_dec x 0); auto. destruct (Z.eq_dec x n); auto. exfalso.
    assert (h mod n = (h + x) mod n) by (rewrite (Z.mod_small h) by lia; auto).
    apply (mod_inj n) in H; lia.
  - intros [->| ->].
    + rewrite Z.add_0_r, Z.mod_small; lia.
    + replace (h + n) with (h + 1 * n) by lia. rewrite Z.mod_add, Z.mod_small; lia.
Qed.

Lemma lay_empty_eq n h l w d : lay n h l w d -> (head_of w =? tail_of w) = (zlen l =? 0).
Proof.
  intros L. destruct (lay_ends _ _ _ _ _ L) as (-> & -> & _). destruct L as (Hn & Hd & Hh & Hl & _).
  pose proof (zlen_nonneg l). pose proof (mod_eq_head n h (zlen l) ltac:(lia) Hh ltac:(lia)).
  destruct (Z.eqb_spec h ((h + zlen l) mod n)), (Z.eqb_spec (zlen l) 0); auto; exfalso; intuition lia.
Qed.

Lemma lay_full_eq n h l w d : lay n h l w d -> (head_of w =? fd_next d (tail_of w)) = (zlen l =? n - 1).
Proof.
  intros L. pose proof (lay_next _ _ _ _ _ L) as E. destruct (lay_ends _ _ _ _ _ L) as (-> & -> & _). rewrite E.
  destruct L as (Hn & Hd & Hh & Hl & _).
  pose proof (zlen_nonneg l). pose proof (mod_eq_head n h (zlen l + 1) ltac:(lia) Hh ltac:(lia)).
  destruct (Z.eqb_spec h ((h + (zlen l + 1)) mod n)), (Z.eqb_spec (zlen l) (n - 1)); auto; exfalso; intuition lia.
Qed.

Lemma slots_upd n h l d i v : 0 < n -> zlen d = n -> slots n h l d -> 0 <= i < n ->
  (forall x, 0 <= x < zlen l -> i <> (h + x) mod n) -> slots n h l (upd d (Z.to_nat i) v).
Proof.
  intros Hn Hd S Hi N x Hx. pose proof (Z.mod_pos_bound (h + x) n Hn).
  rewrite zn_upd by lia. destruct (Z.eq_dec i ((h + x) mod n)) as [E|]; [|now apply S]. exfalso. now apply (N x).
Qed.

Lemma tail_not_slot n h k x : 0 < n -> 0 <= x < k -> k <= n - 1 -> (h + k) mod n <> (h + x) mod n.
Proof. intros Hn Hx Hk E. apply (mod_inj n) in E; lia. Qed.

Lemma zlen_snoc (l : list Z) v : zlen (l ++ [v]) = zlen l + 1.
Proof. unfold zlen. rewrite app_length. cbn [length]. lia. Qed.
Lemma zlen_cons' (l : list Z) v : zlen (v :: l) = zlen l + 1.
Proof. unfold zlen. cbn [length]. lia. Qed.

(** Writing behind the last value; publishing it. *)
Lemma lay_write n h l w d v : lay n h l w d -> lay n h l w (upd d (Z.to_nat ((h + zlen l) mod n)) v).
Proof.
  intros (Hn & Hd & Hh & Hl & Hw & S). repeat split; auto; try lia.
  - unfold zlen. rewrite upd_length. exact Hd.
  - apply slots_upd; auto; try lia; try (apply Z.mod_pos_bound; lia). intros x Hx. apply tail_not_slot; lia.
Qed.
Lemma lay_publish n h l w d v : lay n h l w d -> zlen l < n - 1 -> zn d ((h + zlen l) mod n) = v ->
  lay n h (l ++ [v]) (make_ht h (fd_next d ((h + zlen l) mod n))) d.
Proof.
  intros L Hf Hv. pose proof (lay_next _ _ _ _ _ L) as E. destruct L as (Hn & Hd & Hh & Hl & Hw & S).
  pose proof (zlen_nonneg l). rewrite E. unfold lay. rewrite zlen_snoc.
  pose proof (Z.mod_pos_bound (h + (zlen l + 1)) n ltac:(lia)).
  repeat split; auto; try lia.
  - apply make_ht_val; lia.
  - intros x Hx. rewrite zlen_snoc in Hx. destruct (Z.eq_dec x (zlen l)) as [->|].
    + rewrite zn_app2 by lia. rewrite Z.sub_diag. exact Hv.
    + rewrite zn_app1 by lia. apply S. lia.
Qed.
Lemma lay_front n h v l w d : lay n h (v :: l) w d -> zget d h = Ok v.
Proof.
  intros (Hn & Hd & Hh & Hl & Hw & S). rewrite (zget_Ok _ _ 0) by lia. f_equal.
  specialize (S 0). rewrite zlen_cons' in S. pose proof (zlen_nonneg l). specialize (S ltac:(lia)).
  rewrite Z.add_0_r, Z.mod_small in S by lia. exact S.
Qed.
Lemma lay_pop n h v l w d : lay n h (v :: l) w d -> lay n ((h + 1) mod n) l (make_ht (fd_next d h) ((h + zlen (v :: l)) mod n)) d.
Proof.
  intros (Hn & Hd & Hh & Hl & Hw & S). rewrite zlen_cons' in *. pose proof (zlen_nonneg l).
  rewrite fd_next_mod, Hd by lia. pose proof (Z.mod_pos_bound (h + 1) n ltac:(lia)).
  pose proof (Z.mod_pos_bound (h + (zlen l + 1)) n ltac:(lia)).
  repeat split; auto; try lia.
  - rewrite make_ht_val by lia. f_equal. f_equal. rewrite Z.add_mod_idemp_l by lia. f_equal. lia.
  - intros x Hx. rewrite Z.add_mod_idemp_l by lia. specialize (S (x + 1)). rewrite zlen_cons' in S.
    specialize (S ltac:(lia)). rewrite zn_cons_S in S by lia. replace (x + 1 - 1) with x in S by lia.
    rewrite <- S. f_equal. f_equal. lia.
Qed.
Lemma lay_push_front n h l w d v : lay n h l w d -> 0 < h -> zlen l < n - 1 ->
  lay n (h - 1) (v :: l) (make_ht (h - 1) ((h + zlen l) mod n)) (upd d (Z.to_nat (h - 1)) v).
Proof.
  intros (Hn & Hd & Hh & Hl & Hw & S) Hp Hf. pose proof (zlen_nonneg l).
  pose proof (Z.mod_pos_bound (h + zlen l) n ltac:(lia)).
  repeat split; auto; try lia.
  - unfold zlen. rewrite upd_length. exact Hd.
  - rewrite zlen_cons'. lia.
  - rewrite make_ht_val by lia. rewrite zlen_cons'. f_equal. f_equal. f_equal. lia.
  - intros x Hx. rewrite zlen_cons' in Hx. destruct (Z.eq_dec x 0) as [->|].
    + rewrite Z.add_0_r, Z.mod_small by lia. rewrite zn_upd by lia. destruct (Z.eq_dec _ _); [reflexivity|lia].
    + rewrite zn_cons_S by lia. pose proof (Z.mod_pos_bound (h - 1 + x) n ltac:(lia)). rewrite zn_upd by lia.
      destruct (Z.eq_dec _ _) as [E|].
      * exfalso. rewrite <- (Z.mod_small (h - 1) n) in E at 1 by lia. apply (mod_inj n) in E; lia.
      * rewrite <- (S (x - 1)) by lia. f_equal. f_equal. lia.
Qed.
Lemma lay_back n h l x w d : lay n h (l ++ [x]) w d -> (h + zlen (l ++ [x])) mod n <> 0 ->
  zget d ((h + zlen (l ++ [x])) mod n - 1) = Ok x /\
  lay n h l (make_ht h ((h + zlen (l ++ [x])) mod n - 1)) d.
Proof.
  intros (Hn & Hd & Hh & Hl & Hw & S) Hz. rewrite zlen_snoc in *. pose proof (zlen_nonneg l).
  pose proof (Z.mod_pos_bound (h + (zlen l + 1)) n ltac:(lia)).
  assert (E : (h + (zlen l + 1)) mod n - 1 = (h + zlen l) mod n).
  { destruct (Z_lt_le_dec (h + (zlen l + 1)) n) as [L|L].
    - rewrite !Z.mod_small; lia.
    - rewrite <- (Z.mod_add (h + (zlen l + 1)) (-1) n) in * by lia.
      rewrite <- (Z.mod_add (h + zlen l) (-1) n) by lia.
      rewrite (Z.mod_small (h + (zlen l + 1) + -1 * n)) in * by lia. rewrite Z.mod_small; lia. }
  rewrite E. pose proof (Z.mod_pos_bound (h + zlen l) n ltac:(lia)). split.
  - rewrite (zget_Ok _ _ 0) by lia. f_equal. specialize (S (zlen l)). rewrite zlen_snoc in S. specialize (S ltac:(lia)).
    rewrite zn_app2, Z.sub_diag in S by lia. exact S.
  - repeat split; auto; try lia.
    + apply make_ht_val; lia.
    + intros y Hy. specialize (S y). rewrite zlen_snoc in S. rewrite S by lia. apply zn_app1. lia.
Qed.

Lemma lay_size n h l w d : lay n h l w d -> fd_size d w = zlen l.
Proof.
  intros L. unfold fd_size. destruct (lay_ends _ _ _ _ _ L) as (-> & -> & B). destruct L as (Hn & Hd & Hh & Hl & _).
  pose proof (zlen_nonneg l). cbv zeta. unfold fd_cap. rewrite Hd, (wrap_small 32 n) by lia.
  destruct (Z_lt_le_dec (h + zlen l) n) as [Lt|Ge].
  - rewrite !Z.mod_small by lia. destruct (Z.leb_spec h (h + zlen l)); [|lia]. rewrite wrap_small; lia.
  - assert (E : (h + zlen l) mod n = h + zlen l - n).
    { rewrite <- (Z.mod_add (h + zlen l) (-1) n) by lia. rewrite Z.mod_small; lia. }
    rewrite E. destruct (Z.leb_spec h (h + zlen l - n)); [lia|].
    rewrite (wrap_small 32 (h - _)) by lia. rewrite wrap_small; lia.
Qed.

(** ** One goroutine *)
Definition fd_rel (s : lfd) (a : Z * Z * list Z) : Prop :=
  let '(n, h, l) := a in fd_busy s = 0 /\ zlen (fd_d s) = n /\
  ((n = 0 /\ h = 0 /\ l = [] /\ fd_ht s = 0) \/ lay n h l (fd_ht s) (fd_d s)).

Lemma zlen_zero (d : list Z) : zlen d = 0 -> d = [].
Proof. destruct d; auto. unfold zlen. cbn [length]. lia. Qed.
Lemma zlen_repeat n : 0 <= n -> zlen (repeat 0 (Z.to_nat n)) = n.
Proof. intros. unfold zlen. rewrite repeat_length. lia. Qed.
Lemma lay_fresh n d : 0 < n < 2 ^ 31 -> zlen d = n -> lay n 0 [] 0 d.
Proof.
  intros Hn Hd. unfold lay. change (zlen (@nil Z)) with 0. repeat split; auto; try lia.
  - intros x Hx. change (zlen (@nil Z)) with 0 in Hx. lia.
Qed.
Lemma lay_pos n h l w d : lay n h l w d -> 0 < n < 2 ^ 31.
Proof. intros L. apply L. Qed.

Lemma fd_ready_rel s n h l : fd_rel s (n, h, l) ->
  fd_busy (fd_ready s) = 0 /\ lay (if n =? 0 then 8 else n) h l (fd_ht (fd_ready s)) (fd_d (fd_ready s)).
Proof.
  intros (B & D & [(-> & -> & -> & W)|L]).
  - unfold fd_ready. rewrite (zlen_zero _ D). unfold fd_init. rewrite (zlen_zero _ D).
    change (-1 <=? 0) with true. cbv iota zeta. cbn [fd_busy fd_ht fd_d]. split; auto.
    change (0 =? 0) with true. cbv iota. apply lay_fresh; [lia|reflexivity].
  - assert (Hn : 0 < n) by apply L. destruct (Z.eqb_spec n 0); [lia|].
    unfold fd_ready. destruct (fd_d s) eqn:E; [cbn in D; lia|]. rewrite E. auto.
Qed.

Lemma fd_step_sim s a op : arg_ok op -> fd_rel s a -> sim_out fd_rel (fd_step s op) (exact_step a op).
Proof.
  intros Ha R. destruct a as [[n h] l]. unfold exact_step.
  destruct op as [m| |v|v| | | | | |]; unfold fd_step.
  - (* Init *) destruct R as (B & D & R). cbn. split; auto. unfold fd_init. destruct (Z.eqb_spec n 0) as [->|N].
    + rewrite (zlen_zero _ D). cbn in Ha. cbv zeta. cbn [fd_busy fd_ht fd_d fd_rel].
      assert (0 < (if m <=? 0 then 8 else m) < 2 ^ 31) by (destruct (Z.leb_spec m 0); lia).
      rewrite zlen_repeat by lia. split; [auto|]. split; [auto|]. right. apply lay_fresh; auto. apply zlen_repeat. lia.
    + destruct R as [(-> & _)|L]; [congruence|]. destruct (fd_d s) eqn:E; [cbn in D; lia|]. rewrite <- E in *.
      cbn [fd_busy fd_ht fd_d fd_rel]. split; [auto|]. split; [auto|]. right. apply lay_fresh; auto. now apply lay_pos in L.
  - destruct R as (B & D & R). cbn. split; auto. cbn [fd_busy fd_ht fd_d fd_rel]. split; [auto|]. split; [auto|].
    destruct R as [(-> & -> & -> & W)|L]; [left; auto|right]. apply lay_fresh; auto. now apply lay_pos in L.
  - (* PushFront *) destruct (fd_ready_rel s n h l R) as (B & L). set (n' := if n =? 0 then 8 else n) in *.
    cbv zeta. set (q := fd_ready s) in *. clearbody q n'.
    destruct (lay_ends _ _ _ _ _ L) as (Eh & Et & Hb). rewrite Eh, Et.
    pose proof L as (Hn & Hd & Hh & Hl & Hw & S).
    destruct (Z.eqb_spec h 0) as [->|Nh].
    + rewrite fd_prev_zero. destruct (Z.eqb_spec (2 ^ 32 - 1) ((0 + zlen l) mod n')); [lia|].
      unfold zset. destruct (Z.ltb_spec (2 ^ 32 - 1) 0); [lia|]. unfold aset.
      destruct (Nat.ltb_spec (Z.to_nat (2 ^ 32 - 1)) (length (fd_d q))); [|exact I]. unfold zlen in Hd. lia.
    + rewrite fd_prev_pos by lia. pose proof (zlen_nonneg l).
      assert (Hf : (h - 1 =? (h + zlen l) mod n') = (zlen l =? n' - 1)).
      { destruct (Z.eqb_spec (h - 1) ((h + zlen l) mod n')) as [E|E], (Z.eqb_spec (zlen l) (n' - 1)) as [F|F]; auto; exfalso.
        - rewrite <- (Z.mod_small (h - 1) n') in E by lia. apply F.
          rewrite <- (Z.mod_add (h - 1) 1 n') in E by lia. apply (mod_inj n') in E; lia.
        - apply E. rewrite F. replace (h + (n' - 1)) with (h - 1 + 1 * n') by lia. rewrite Z.mod_add, Z.mod_small; lia. }
      rewrite Hf. destruct (Z.eqb_spec (zlen l) (n' - 1)); [exact I|].
      rewrite zset_Ok by lia. cbn [bind sim_out]. split; auto. cbn [fd_rel fd_busy fd_ht fd_d].
      assert (L2 : lay n' (h - 1) (v :: l) (make_ht (h - 1) ((h + zlen l) mod n')) (upd (fd_d q) (Z.to_nat (h - 1)) v))
        by (apply (lay_push_front _ _ _ (fd_ht q)); auto; lia).
      split; auto. split; [apply L2|]. right. exact L2.
  - (* PushBack *) destruct (fd_ready_rel s n h l R) as (B & L). set (n' := if n =? 0 then 8 else n) in *.
    cbv zeta. set (q := fd_ready s) in *. clearbody q n'. rewrite (lay_full_eq _ _ _ _ _ L).
    pose proof L as (Hn & Hd & Hh & Hl & Hw & S).
    destruct (Z.eqb_spec (zlen l) (n' - 1)); [exact I|].
    destruct (lay_ends _ _ _ _ _ L) as (Eh & Et & Hb). rewrite Eh, Et.
    rewrite zset_Ok by lia. cbn [bind sim_out]. split; auto. cbn [fd_rel fd_busy fd_ht fd_d].
    pose proof (lay_write _ _ _ _ _ v L) as L1.
    assert (L2 : lay n' h (l ++ [v]) (make_ht h (fd_next (fd_d q) ((h + zlen l) mod n'))) (upd (fd_d q) (Z.to_nat ((h + zlen l) mod n')) v)).
    { replace (fd_next (fd_d q) ((h + zlen l) mod n')) with
        (fd_next (upd (fd_d q) (Z.to_nat ((h + zlen l) mod n')) v) ((h + zlen l) mod n'))
        by (unfold fd_next, fd_cap, zlen; now rewrite upd_length).
      apply (lay_publish _ _ _ _ _ _ L1); [lia|]. rewrite zn_upd by lia. destruct (Z.eq_dec _ _); congruence. }
    split; auto. split; [apply L2|]. right. exact L2.
  - (* PopFront *) destruct R as (B & D & [(-> & -> & -> & W)|L]).
    + rewrite W. cbn. split; auto. cbn. auto 10.
    + cbv zeta. rewrite (lay_empty_eq _ _ _ _ _ L). destruct l as [|v l]; [cbn; auto|].
      destruct (Z.eqb_spec (zlen (v :: l)) 0); [rewrite zlen_cons' in *; pose proof (zlen_nonneg l); lia|].
      destruct (lay_ends _ _ _ _ _ L) as (Eh & Et & Hb). rewrite Eh, Et.
      rewrite (lay_front _ _ _ _ _ _ L). cbn [bind sim_out]. split; auto. cbn [fd_rel fd_busy fd_ht fd_d].
      split; auto. split; auto. right. now apply (lay_pop _ _ _ _ (fd_ht s)).
  - (* PopBack *) destruct R as (B & D & [(-> & -> & -> & W)|L]).
    + rewrite W. cbn. split; auto. cbn. auto 10.
    + cbv zeta. rewrite (lay_empty_eq _ _ _ _ _ L). destruct l as [|v0 l0]; [cbn; auto|].
      destruct (Z.eqb_spec (zlen (v0 :: l0)) 0); [rewrite zlen_cons' in *; pose proof (zlen_nonneg l0); lia|].
      destruct (lay_ends _ _ _ _ _ L) as (Eh & Et & Hb). rewrite Eh, Et.
      assert (Hs : exists l x, v0 :: l0 = l ++ [x]) by (destruct (@exists_last _ (v0 :: l0)) as (l & x & E); [discriminate|eauto]).
      destruct Hs as (l & x & El). rewrite El in *. pose proof L as (Hn & Hd & Hh & Hl & Hw & S).
      destruct (Z.eqb_spec ((h + zlen (l ++ [x])) mod n) 0) as [Ez|Nz].
      * rewrite Ez, fd_prev_zero. unfold zget. destruct (Z.ltb_spec (2 ^ 32 - 1) 0); [lia|]. unfold aget.
        rewrite (proj2 (nth_error_None _ _)); [exact I|]. unfold zlen in Hd. lia.
      * rewrite fd_prev_pos by lia. destruct (lay_back _ _ _ _ _ _ L Nz) as (G & L2). rewrite G. cbn [bind sim_out].
        rewrite removelast_last, last_last. split; auto. cbn [fd_rel fd_busy fd_ht fd_d]. auto.
  - destruct R as (B & D & R). cbn. split; [|auto]. unfold fd_cap. rewrite D. f_equal. apply wrap_small.
    destruct R as [(-> & _)|L]; [lia|]. apply lay_pos in L. lia.
  - pose proof R as (B & D & R2). cbn. split; [|auto]. f_equal. destruct R2 as [(-> & -> & -> & W)|L].
    + rewrite W, (zlen_zero _ D). reflexivity.
    + now apply (lay_size n h).
  - pose proof R as (B & D & R2). cbn. split; [|auto]. now rewrite B.
  - pose proof R as (B & D & R2). cbn. split; [|auto]. do 2 f_equal. destruct R2 as [(-> & -> & -> & W)|L].
    + rewrite W, (zlen_zero _ D). reflexivity.
    + now apply (lay_size n h).
Qed.

Lemma exact_run ops : forall s a, Forall arg_ok ops -> fd_rel s a -> fobs (run_ops fd_step s ops) = fobs (run_ops exact_step a ops).
Proof.
  induction ops as [|op ops IH]; intros s a F R; [reflexivity|]. apply Forall_cons_iff in F as [F1 F]. cbn [run_ops].
  pose proof (fd_step_sim s a op F1 R) as S.
  destruct (fd_step s op) as [[s1 o]| |], (exact_step a op) as [[a1 o']| |]; cbn in S; try contradiction; auto.
  destruct S as [-> R1]. specialize (IH s1 a1 F R1). cbn [bind].
  destruct (run_ops fd_step s1 ops) as [[s2 os]| |], (run_ops exact_step a1 ops) as [[a2 os']| |]; cbn in *; congruence.
Qed.

Lemma lfd_exact ops : Forall arg_ok ops -> fobs (run_ops fd_step lfd_zero ops) = fobs (run_ops exact_step (0, 0, []) ops).
Proof. intros F. apply exact_run; auto. cbn. auto 10. Qed.

Lemma exact_fifo n ops : 0 < n -> forall h l, fits (n - 1) l ops ->
  fobs (run_ops exact_step (n, h, l) ops) = Ok (snd (spec_ops fifo_step l ops)).
Proof.
  intros Hn. induction ops as [|op ops IH]; intros h l F; [reflexivity|]. cbn [fits] in F. destruct F as [F1 F].
  cbn [run_ops spec_ops]. assert (exists h', exact_step (n, h, l) op = Ok (n, h', fst (fifo_step l op), snd (fifo_step l op))) as (h' & E).
  { destruct op as [m| |v|v| | | | | |]; try contradiction; cbn.
    - exists 0. reflexivity.
    - destruct (Z.eqb_spec n 0); [lia|]. destruct (Z.eqb_spec (zlen l) (n - 1)); [lia|]. eauto.
    - destruct l; cbn; eauto.
    - eauto.
    - eauto. }
  rewrite E. cbn [bind]. specialize (IH h' _ F). destruct (fifo_step l op) as [l1 o]. cbn [fst snd] in *.
  destruct (run_ops exact_step (n, h', l1) ops) as [[a2 os]| |]; cbn in IH; try discriminate. injection IH as ->. cbn.
  destruct (spec_ops fifo_step l1 ops); reflexivity.
Qed.

Lemma fits_args cap ops : forall l, fits cap l ops -> Forall arg_ok ops.
Proof.
  induction ops as [|op ops IH]; intros l F; constructor; destruct F as [F1 F]; eauto.
  destruct op; cbn; auto; contradiction.
Qed.

Lemma lfd_fifo n ops : 0 < n < 2 ^ 31 -> fits (n - 1) [] ops ->
  fobs (run_ops fd_step lfd_zero (FInit n :: ops)) = Ok (FUnit :: snd (spec_ops fifo_step [] ops)).
Proof.
  intros Hn F. rewrite lfd_exact.
  - cbn [run_ops exact_step]. change (0 =? 0) with true. cbv iota. destruct (Z.leb_spec n 0); [lia|]. cbn [bind].
    pose proof (exact_fifo n ops ltac:(lia) 0 [] F) as E.
    destruct (run_ops exact_step (n, 0, []) ops) as [[a2 os]| |]; cbn in E; try discriminate. injection E as ->. reflexivity.
  - constructor; [cbn; lia|]. now apply fits_args in F.
Qed.

Lemma exact_panics ops : Forall arg_ok ops -> run_ops exact_step (0, 0, []) ops = Panic -> run_ops fd_step lfd_zero ops = Panic.
Proof.
  intros F E. pose proof (lfd_exact ops F) as K. rewrite E in K.
  destruct (run_ops fd_step lfd_zero ops) as [[s o]| |]; cbn in K; congruence.
Qed.
