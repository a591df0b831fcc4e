(** Lemmas about the deque model. *)
From Coq Require Import ZArith List Bool Lia ZifyBool ZifyNat.
From Verif Require Import GoBase GoLists DequeModel DequeSpec.
From Verif Require Import QueueProofs.
Import ListNotations.
Open Scope Z_scope.

(** [items] stored in the ring [d] starting at [off] *)
Definition holds (d : list Z) (off : Z) (items : list Z) (cap : Z) : Prop :=
  zlen d = cap /\ 0 <= off < cap /\ zlen items <= cap /\
  forall k, 0 <= k < zlen items -> zn d (rpos off k cap) = zn items k.

Definition RD (q : deque) (a : adeque) : Prop :=
  let '(ADeque items cap off) := a in
  dhead q = off /\
  ((cap = 0 /\ dd q = [] /\ items = [] /\ off = 0 /\ dtail q = 0) \/
   (holds (dd q) off items cap /\ zlen items < cap /\ dtail q = rpos off (zlen items) cap)).

Lemma rpos_bounds off k cap : 0 <= off < cap -> 0 <= k <= cap -> 0 <= rpos off k cap < cap \/ k = cap.
Proof. unfold rpos. intros. destruct (Z.ltb_spec (off + k) cap); lia. Qed.

Lemma scramble_short k l : (length l <= k)%nat -> scramble k l = l.
Proof.
  intros H. unfold scramble. rewrite skipn_all2 by auto. cbn [length].
  rewrite Nat.min_0_r. cbn. rewrite firstn_all2 by auto. apply app_nil_r.
Qed.

Lemma scramble_len k l : zlen (scramble k l)
  = Z.min (Z.of_nat k) (zlen l) + Z.min (Z.min (Z.of_nat k) (zlen l)) (zlen l - Z.of_nat k)
  \/ zlen l <= Z.of_nat k /\ zlen (scramble k l) = zlen l.
Proof.
  destruct (Z_le_dec (zlen l) (Z.of_nat k)).
  - right. split; auto. rewrite scramble_short; auto. unfold zlen in l0. lia.
  - left. unfold scramble. rewrite !zlen_app. unfold zlen in *.
    rewrite !firstn_length, !skipn_length, !firstn_length, repeat_length. lia.
Qed.

Lemma slice_items d off items cap lo n : holds d off items cap ->
  (* a stretch of the buffer that holds items number j, j+1, ... *)
  forall j, 0 <= lo -> 0 <= j -> 0 <= n -> j + n <= zlen items -> lo + n <= cap ->
  (forall i, 0 <= i < n -> rpos off (j + i) cap = lo + i) ->
  firstn (Z.to_nat n) (skipn (Z.to_nat lo) d) = firstn (Z.to_nat n) (skipn (Z.to_nat j) items).
Proof.
  intros (Hd & Ho & Hs & Hk) j Hlo Hj Hn Hjn Hln Hpos.
  apply list_ext with (d := 0).
  - rewrite !firstn_length, !skipn_length. unfold zlen in *. lia.
  - rewrite firstn_length, skipn_length. intros i Hi.
    rewrite !nth_firstn by lia. rewrite !nth_skipn.
    specialize (Hpos (Z.of_nat i) ltac:(lia)).
    specialize (Hk (j + Z.of_nat i) ltac:(lia)). rewrite Hpos in Hk. unfold zn in Hk.
    replace (Z.to_nat lo + i)%nat with (Z.to_nat (lo + Z.of_nat i)) by lia.
    replace (Z.to_nat j + i)%nat with (Z.to_nat (j + Z.of_nat i)) by lia. exact Hk.
Qed.

Lemma transfer_holds d off items cap n : holds d off items cap ->
  cap <= off + zlen items -> 0 < n ->
  (cap - off) + Z.min (cap - off) (zlen items - (cap - off)) <= n ->
  exists nb, deque_transfer (repeat 0 (Z.to_nat n)) d off (off + zlen items - cap)
    = Ok (nb, zlen (scramble (Z.to_nat (cap - off)) items)) /\
    holds nb 0 (scramble (Z.to_nat (cap - off)) items) n.
Proof.
  intros H Hw Hn0 Hn. pose proof H as (Hd & Ho & Hs & Hk).
  set (A := firstn (Z.to_nat (cap - off)) items).
  set (B := skipn (Z.to_nat (cap - off)) items).
  set (t := Nat.min (length A) (length B)).
  assert (LA : length A = Z.to_nat (cap - off)).
  { unfold A. rewrite firstn_length. unfold zlen in *. lia. }
  assert (LB : Z.of_nat (length B) = off + zlen items - cap).
  { unfold B. rewrite skipn_length. unfold zlen in *. lia. }
  assert (S1 : zslice d off (zlen d) = Ok A).
  { rewrite zslice_Ok by lia. rewrite Hd. f_equal.
    rewrite (slice_items d off items cap off (cap - off) H 0); try lia.
    - reflexivity.
    - intros i Hi. unfold rpos. destruct (Z.ltb_spec (off + (0 + i)) cap); lia. }
  assert (S2 : zslice d 0 (off + zlen items - cap) = Ok B).
  { rewrite zslice_Ok by lia. f_equal.
    rewrite (slice_items d off items cap 0 (off + zlen items - cap - 0) H (cap - off)); try lia.
    - unfold B. apply firstn_all2. rewrite skipn_length. unfold zlen in *. lia.
    - intros i Hi. unfold rpos. destruct (Z.ltb_spec (off + (cap - off + i)) cap); lia. }
  assert (Ln : (length A <= Z.to_nat n)%nat) by lia.
  unfold deque_transfer. rewrite S1. cbn [bind]. unfold gocopy at 1.
  rewrite repeat_length. replace (Nat.min (Z.to_nat n) (length A)) with (length A) by lia.
  rewrite firstn_all. rewrite S2. cbn [bind].
  rewrite zslice_Ok.
  2: lia.
  2:{ rewrite zlen_app. unfold zlen. rewrite skipn_length, repeat_length. lia. }
  cbn [bind]. change (Z.to_nat 0) with 0%nat. cbn [skipn]. rewrite Z.sub_0_r, Nat2Z.id.
  rewrite firstn_app, Nat.sub_diag, firstn_O, app_nil_r, firstn_all.
  unfold gocopy. fold t. rewrite skipn_app, Nat.sub_diag, skipn_all. cbn [app skipn].
  eexists. split.
  - f_equal. f_equal. unfold scramble. fold A B t. rewrite !zlen_app. unfold zlen.
    rewrite firstn_length, skipn_length, repeat_length. lia.
  - unfold holds.
    assert (Hlen : zlen ((firstn t B ++ skipn t A) ++ skipn (length A) (repeat 0 (Z.to_nat n))) = n).
    { rewrite !zlen_app. unfold zlen. rewrite firstn_length, !skipn_length, repeat_length. lia. }
    assert (Hls : zlen (scramble (Z.to_nat (cap - off)) items) = Z.of_nat (length A + t)).
    { unfold scramble. fold A B t. rewrite !zlen_app. unfold zlen.
      rewrite firstn_length, skipn_length, repeat_length. lia. }
    split; [exact Hlen|]. split; [lia|]. rewrite Hls. split; [lia|].
    intros k Hkk. unfold rpos. destruct (Z.ltb_spec (0 + k) n); [|lia]. rewrite Z.add_0_l.
    unfold scramble. fold A B t. rewrite app_assoc.
    assert (Lx : zlen (firstn t B ++ skipn t A) = Z.of_nat (length A)).
    { rewrite zlen_app. unfold zlen. rewrite firstn_length, skipn_length. lia. }
    destruct (Z_lt_dec k (Z.of_nat (length A))).
    + rewrite (zn_app1 (firstn t B ++ skipn t A)) by lia. symmetry. apply zn_app1. lia.
    + rewrite (zn_app2 (firstn t B ++ skipn t A)) by lia. symmetry.
      etransitivity; [apply zn_app2; lia|]. unfold zn. rewrite nth_skipn, !nth_repeat. reflexivity.
Qed.

Lemma RD_size q a : RD q a -> deque_size q = zlen (ad_items a).
Proof.
  destruct a as [items cap off]. intros (Hh & H). unfold deque_size, deque_cap. cbn [ad_items].
  destruct H as [(-> & Hd & -> & -> & ->)|((Hd & Ho & Hs & Hk) & Hlt & Ht)].
  - rewrite Hh. reflexivity.
  - rewrite Hh, Ht, Hd. unfold rpos. pose proof (zlen_nonneg items).
    destruct (Z.ltb_spec (off + zlen items) cap); [destruct (Z.leb_spec off (off + zlen items))|
      destruct (Z.leb_spec off (off + zlen items - cap))]; lia.
Qed.

Lemma RD_empty_iff q a : RD q a -> (dhead q =? dtail q) = (zlen (ad_items a) =? 0).
Proof.
  destruct a as [items cap off]. intros (Hh & H). cbn [ad_items].
  destruct H as [(-> & Hd & -> & -> & ->)|((Hd & Ho & Hs & Hk) & Hlt & Ht)].
  - rewrite Hh. reflexivity.
  - rewrite Hh, Ht. unfold rpos. pose proof (zlen_nonneg items).
    destruct (Z.ltb_spec (off + zlen items) cap); lia.
Qed.

Lemma RD_fresh q cap : 0 < cap -> zlen (dd q) = cap -> dhead q = 0 -> dtail q = 0 ->
  RD q (ADeque [] cap 0).
Proof.
  intros Hc Hd Hh Ht. unfold RD, holds. split; [auto|]. right.
  change (zlen (@nil Z)) with 0.
  split; [split; [auto|split; [lia|split; [lia|intros; lia]]]|]. split; [lia|].
  rewrite Ht. unfold rpos. destruct (Z.ltb_spec (0 + 0) cap); lia.
Qed.

(** placing one more value, then growing if the ring is full *)
Lemma grow_settle d off items cap :
  holds d off items cap -> 0 < zlen items ->
  exists q', deque_grow (Deque off (if zlen items <? cap then rpos off (zlen items) cap else off) d) = Ok q' /\
    RD q' (settle items cap off).
Proof.
  intros H Hp. pose proof H as (Hd & Ho & Hs & Hk).
  unfold deque_grow, settle. cbn [dhead dtail dd].
  destruct (Z.ltb_spec (zlen items) cap) as [Hlt|Hge].
  - destruct (Z.eqb_spec off (rpos off (zlen items) cap)) as [e|e].
    { exfalso. unfold rpos in e. destruct (Z.ltb_spec (off + zlen items) cap); lia. }
    eexists. split; [reflexivity|]. unfold RD. cbn [dhead dtail dd]. auto.
  - rewrite Z.eqb_refl. unfold deque_cap. cbn [dd]. rewrite Hd.
    unfold deque_new_buf. destruct (Z.ltb_spec 0 (cap * 2)); [|lia].
    destruct (transfer_holds d off items cap (cap * 2) H) as (nb & E & Hh); try lia.
    replace (off + zlen items - cap) with off in E by lia. rewrite E. cbn [bind].
    eexists. split; [reflexivity|]. unfold RD. cbn [dhead dtail dd]. split; auto. right.
    replace (2 * cap) with (cap * 2) by lia. split; [exact Hh|].
    pose proof (scramble_len (Z.to_nat (cap - off)) items) as HL.
    assert (zlen (scramble (Z.to_nat (cap - off)) items) < cap * 2 \/ off = 0 ) as HL2 by lia.
    assert (zlen (scramble (Z.to_nat (cap - off)) items) < cap * 2).
    { destruct HL2 as [|e]; auto. rewrite e in *. destruct HL as [HL|[_ HL]]; lia. }
    split; auto. unfold rpos. match goal with |- _ = if ?c then _ else _ => destruct c eqn:? end; lia.
Qed.

Lemma holds_push_back d off items cap v : holds d off items cap -> zlen items < cap ->
  holds (upd d (Z.to_nat (rpos off (zlen items) cap)) v) off (items ++ [v]) cap.
Proof.
  intros (Hd & Ho & Hs & Hk) Hlt. pose proof (zlen_nonneg items) as Hnn.
  assert (Hl' : zlen (items ++ [v]) = zlen items + 1) by (rewrite zlen_app; reflexivity).
  split; [now rewrite zlen_upd|]. split; [auto|]. split; [lia|].
  assert (Htb : 0 <= rpos off (zlen items) cap < cap).
  { unfold rpos. destruct (Z.ltb_spec (off + zlen items) cap); lia. }
  intros k Hkk. rewrite zn_upd; [|lia|].
  2:{ unfold rpos. destruct (Z.ltb_spec (off + k) cap); lia. }
  destruct (Z.eq_dec (rpos off (zlen items) cap) (rpos off k cap)) as [e|e].
  - assert (k = zlen items) as ->.
    { unfold rpos in e. destruct (Z.ltb_spec (off + zlen items) cap), (Z.ltb_spec (off + k) cap); lia. }
    rewrite zn_app2 by lia. rewrite Z.sub_diag. reflexivity.
  - assert (k < zlen items) by (destruct (Z.eq_dec k (zlen items)) as [->|]; [congruence|lia]).
    rewrite zn_app1 by lia. apply Hk. lia.
Qed.

Definition pre (off cap : Z) : Z := if off - 1 <? 0 then cap - 1 else off - 1.

Lemma pre_mod off cap : 0 <= off < cap -> (off - 1) mod cap = pre off cap.
Proof.
  intros H. unfold pre. destruct (Z.ltb_spec (off - 1) 0).
  - replace (off - 1) with (cap - 1 + (-1) * cap) by lia. rewrite Z.mod_add by lia.
    apply Z.mod_small. lia.
  - apply Z.mod_small. lia.
Qed.

Lemma holds_push_front d off items cap v : holds d off items cap -> zlen items < cap ->
  holds (upd d (Z.to_nat (pre off cap)) v) (pre off cap) (v :: items) cap.
Proof.
  intros (Hd & Ho & Hs & Hk) Hlt. pose proof (zlen_nonneg items) as Hnn.
  assert (Hl' : zlen (v :: items) = zlen items + 1) by (unfold zlen; cbn [length]; lia).
  assert (Hp : 0 <= pre off cap < cap) by (unfold pre; destruct (Z.ltb_spec (off - 1) 0); lia).
  split; [now rewrite zlen_upd|]. split; [auto|]. split; [lia|].
  intros k Hkk. rewrite zn_upd; [|lia|].
  2:{ unfold rpos. destruct (Z.ltb_spec (pre off cap + k) cap); lia. }
  destruct (Z.eq_dec (pre off cap) (rpos (pre off cap) k cap)) as [e|e].
  - assert (k = 0) as ->.
    { unfold rpos in e. destruct (Z.ltb_spec (pre off cap + k) cap); lia. }
    reflexivity.
  - assert (0 < k).
    { destruct (Z.eq_dec k 0) as [->|]; [|lia]. exfalso. apply e. unfold rpos.
      destruct (Z.ltb_spec (pre off cap + 0) cap); lia. }
    rewrite zn_cons_S by lia. rewrite <- (Hk (k - 1)) by lia. f_equal.
    unfold rpos, pre. destruct (Z.ltb_spec (off - 1) 0);
    repeat match goal with |- context [if ?c then _ else _] => destruct c eqn:? end; lia.
Qed.

(** "nil buffer" states behave like a fresh buffer of 8 *)
Lemma init_nil q : RD q (ADeque [] 0 0) -> q = deque_zero.
Proof.
  intros (Hh & [(_ & Hd & _ & _ & Ht)|((Hd & Ho & _) & _)]); [|lia].
  destruct q as [h t d]. cbn in *. subst. reflexivity.
Qed.

Lemma push_back_RD q items cap off v : 0 < cap -> RD q (ADeque items cap off) ->
  exists q', deque_push_back q v = Ok q' /\ RD q' (settle (items ++ [v]) cap off).
Proof.
  intros Hc (Hh & [(-> & _)|(H & Hlt & Ht)]); [lia|].
  pose proof H as (Hd & Ho & Hs & Hk). pose proof (zlen_nonneg items) as Hnn.
  unfold deque_push_back.
  destruct (dd q) as [|d0 dt] eqn:Ed; [cbn in Hd; lia|]. rewrite <- Ed in *. clear d0 dt Ed.
  cbv zeta.
  assert (Htb : 0 <= rpos off (zlen items) cap < cap).
  { unfold rpos. destruct (Z.ltb_spec (off + zlen items) cap); lia. }
  rewrite Ht. rewrite zset_Ok by lia. cbn [bind].
  assert (Hl' : zlen (items ++ [v]) = zlen items + 1) by (rewrite zlen_app; reflexivity).
  destruct (grow_settle _ _ _ _ (holds_push_back _ _ _ _ v H Hlt)) as (q' & E & HR); [lia|].
  exists q'. split; auto. rewrite <- E. f_equal. f_equal; [auto|].
  unfold deque_next, deque_cap. rewrite Hd, Hl'. unfold rpos.
  destruct (Z.ltb_spec (off + zlen items) cap);
  repeat match goal with |- context [if ?c then _ else _] => destruct c eqn:? end; lia.
Qed.

Lemma push_front_RD q items cap off v : 0 < cap -> RD q (ADeque items cap off) ->
  exists q', deque_push_front q v = Ok q' /\ RD q' (settle (v :: items) cap ((off - 1) mod cap)).
Proof.
  intros Hc (Hh & [(-> & _)|(H & Hlt & Ht)]); [lia|].
  pose proof H as (Hd & Ho & Hs & Hk). pose proof (zlen_nonneg items) as Hnn.
  unfold deque_push_front.
  destruct (dd q) as [|d0 dt] eqn:Ed; [cbn in Hd; lia|]. rewrite <- Ed in *. clear d0 dt Ed.
  cbv zeta. rewrite pre_mod by auto.
  assert (Hp : 0 <= pre off cap < cap) by (unfold pre; destruct (Z.ltb_spec (off - 1) 0); lia).
  assert (Ep : deque_prev q (dhead q) = pre off cap).
  { unfold deque_prev, deque_cap, pre. now rewrite Hh, Hd. }
  rewrite Ep. rewrite zset_Ok by lia. cbn [bind].
  assert (Hl' : zlen (v :: items) = zlen items + 1) by (unfold zlen; cbn [length]; lia).
  destruct (grow_settle _ _ _ _ (holds_push_front _ _ _ _ v H Hlt)) as (q' & E & HR); [lia|].
  exists q'. split; auto. rewrite <- E. f_equal. f_equal.
  rewrite Ht, Hl'. unfold rpos, pre.
  repeat match goal with |- context [if ?c then _ else _] => destruct c eqn:? end; lia.
Qed.

Lemma deque_push_nil v :
  deque_push_back deque_zero v = deque_push_back (deque_init deque_zero (-1)) v /\
  deque_push_front deque_zero v = deque_push_front (deque_init deque_zero (-1)) v.
Proof. split; reflexivity. Qed.

Lemma RD_cap_pos q items cap off : RD q (ADeque items cap off) -> cap <> 0 -> 0 < cap.
Proof. intros (_ & [(-> & _)|((_ & Ho & _) & _)]); lia. Qed.

Lemma RD_zero_init : RD (deque_init deque_zero (-1)) (ADeque [] 8 0).
Proof. apply RD_fresh; reflexivity || lia. Qed.

Lemma RD_cap0 q items off : RD q (ADeque items 0 off) -> items = [] /\ off = 0 /\ q = deque_zero.
Proof.
  intros HR. pose proof HR as (_ & [(_ & _ & -> & -> & _)|((_ & Ho & _) & _)]); [|lia].
  split; auto. split; auto. now apply init_nil.
Qed.

Lemma pop_front_RD q a : RD q a ->
  exists q', (' (q', o) <- deque_pop_front q ;; Ok (q', DVal o)) = Ok (q', snd (dring_step a DPopFront)) /\
    RD q' (fst (dring_step a DPopFront)).
Proof.
  intros HR. pose proof (RD_empty_iff _ _ HR) as He.
  destruct a as [items cap off]. cbn [ad_items] in He. unfold deque_pop_front. rewrite He.
  destruct items as [|x t].
  - exists q. cbn. split; auto.
  - cbn [dring_step fst snd].
    destruct HR as (Hh & [(_ & _ & E & _)|((Hd & Ho & Hs & Hk) & Hlt & Ht)]); [discriminate|].
    assert (Hl : zlen (x :: t) = zlen t + 1) by (unfold zlen; cbn; lia).
    pose proof (zlen_nonneg t) as Hnn.
    destruct (Z.eqb_spec (zlen (x :: t)) 0) as [e|_]; [lia|].
    rewrite (zget_Ok _ _ 0) by lia. cbn [bind].
    specialize (Hk 0 ltac:(lia)) as Hk0.
    assert (Ef : nth (Z.to_nat (dhead q)) (dd q) 0 = x).
    { transitivity (zn (dd q) (rpos off 0 cap)); [|exact Hk0].
      unfold zn, rpos. destruct (Z.ltb_spec (off + 0) cap); do 2 f_equal; lia. }
    rewrite Ef. eexists. split; [reflexivity|].
    assert (Hnh : deque_next q (dhead q) = rpos off 1 cap).
    { unfold deque_next, deque_cap, rpos. rewrite Hh, Hd.
      destruct (Z.leb_spec cap (off + 1)), (Z.ltb_spec (off + 1) cap); lia. }
    assert (Hm : (off + 1) mod cap = rpos off 1 cap).
    { unfold rpos. destruct (Z.ltb_spec (off + 1) cap).
      - apply Z.mod_small. lia.
      - replace (off + 1) with cap by lia. rewrite Z.mod_same by lia. lia. }
    rewrite Hm, Hnh. unfold RD, holds. cbn [dd dhead dtail]. split; [reflexivity|]. right.
    assert (Hr : 0 <= rpos off 1 cap < cap).
    { unfold rpos. destruct (Z.ltb_spec (off + 1) cap); lia. }
    split; [split; [auto|split; [lia|split; [lia|]]]|split; [lia|]].
    + intros k Hkr. specialize (Hk (k + 1) ltac:(lia)).
      rewrite zn_cons_S in Hk by lia. replace (k + 1 - 1) with k in Hk by lia.
      rewrite <- Hk. f_equal. unfold rpos in *.
      repeat match goal with |- context [if ?c then _ else _] => destruct c eqn:? end; lia.
    + rewrite Ht. unfold rpos in *.
      repeat match goal with |- context [if ?c then _ else _] => destruct c eqn:? end; lia.
Qed.

Lemma prev_tail q items cap off : RD q (ADeque items cap off) -> 0 < zlen items ->
  deque_prev q (dtail q) = rpos off (zlen items - 1) cap.
Proof.
  intros (Hh & [(_ & _ & -> & _)|((Hd & Ho & Hs & Hk) & Hlt & Ht)]) Hp; [cbn in Hp; lia|].
  unfold deque_prev, deque_cap. rewrite Hd, Ht. unfold rpos.
  destruct (Z.ltb_spec (off + zlen items) cap);
  repeat match goal with |- context [if ?c then _ else _] => destruct c eqn:? end; lia.
Qed.

Lemma pop_back_RD q a : RD q a ->
  exists q', (' (q', o) <- deque_pop_back q ;; Ok (q', DVal o)) = Ok (q', snd (dring_step a DPopBack)) /\
    RD q' (fst (dring_step a DPopBack)).
Proof.
  intros HR. pose proof (RD_empty_iff _ _ HR) as He.
  destruct a as [items cap off]. cbn [ad_items] in He. unfold deque_pop_back. rewrite He.
  destruct items as [|x t _] using rev_ind.
  - exists q. cbn. split; auto.
  - assert (Hl : zlen (t ++ [x]) = zlen t + 1) by (rewrite zlen_app; reflexivity).
    pose proof (zlen_nonneg t) as Hnn.
    destruct (Z.eqb_spec (zlen (t ++ [x])) 0) as [e|_]; [lia|].
    cbv zeta. rewrite (prev_tail _ _ _ _ HR) by lia.
    cbn [dring_step]. rewrite rev_app_distr. cbn [rev app]. rewrite rev_involutive. cbn [fst snd].
    destruct HR as (Hh & [(_ & _ & E & _)|((Hd & Ho & Hs & Hk) & Hlt & Ht)]).
    { destruct t; discriminate. }
    replace (zlen (t ++ [x]) - 1) with (zlen t) by lia.
    assert (Hr : 0 <= rpos off (zlen t) cap < cap).
    { unfold rpos. destruct (Z.ltb_spec (off + zlen t) cap); lia. }
    rewrite (zget_Ok _ _ 0) by lia. cbn [bind].
    specialize (Hk (zlen t) ltac:(lia)) as Hkl.
    rewrite zn_app2 in Hkl by lia. rewrite Z.sub_diag in Hkl. unfold zn in Hkl at 1.
    rewrite Hkl. eexists. split; [reflexivity|].
    unfold RD, holds. cbn [dd dhead dtail]. split; [auto|]. right.
    split; [split; [auto|split; [lia|split; [lia|]]]|split; [lia|auto]].
    intros k Hkr. rewrite Hk by lia. apply zn_app1. lia.
Qed.

Lemma shrink_RD q a : RD q a ->
  exists q', (' (q', b) <- deque_shrink q ;; Ok (q', DBool b)) = Ok (q', snd (dring_step a DShrink)) /\
    RD q' (fst (dring_step a DShrink)).
Proof.
  intros HR. pose proof (RD_size _ _ HR) as Hsz.
  destruct a as [items cap off]. cbn [ad_items] in Hsz. unfold deque_shrink.
  assert (Hcap : deque_cap q = cap).
  { destruct HR as (_ & [(-> & Hd & _)|((Hd & _) & _)]); auto. unfold deque_cap. now rewrite Hd. }
  rewrite Hsz, Hcap. cbv zeta. cbn [dring_step].
  destruct ((8 <? cap) && (3 * zlen items <=? cap)) eqn:Es; [|exists q; auto].
  apply andb_prop in Es as [Es1 Es2]. apply Z.ltb_lt in Es1. apply Z.leb_le in Es2.
  destruct HR as (Hh & [(-> & _)|(H & Hlt & Ht)]); [lia|].
  pose proof H as (Hd & Ho & Hs & Hk). pose proof (zlen_nonneg items) as Hnn.
  cbn [fst snd].
  assert (Hc2 : Z.quot cap 2 = cap / 2) by (apply Z.quot_div_nonneg; lia).
  rewrite Hc2. pose proof (Z.div_mod cap 2 ltac:(lia)) as Hdm.
  pose proof (Z.mod_pos_bound cap 2 ltac:(lia)) as Hmb.
  set (c2 := cap / 2) in *. clearbody c2.
  unfold deque_new_buf. destruct (Z.ltb_spec 0 c2); [|lia].
  destruct (Z.leb_spec (dhead q) (dtail q)) as [Hle|Hgt].
  - assert (Htl : dtail q = off + zlen items /\ off + zlen items < cap).
    { rewrite Ht in Hle |- *. unfold rpos in *. destruct (Z.ltb_spec (off + zlen items) cap); lia. }
    rewrite scramble_short by (unfold zlen in *; lia).
    rewrite zslice_Ok by lia. cbn [bind].
    rewrite (slice_items (dd q) off items cap (dhead q) (dtail q - dhead q) H 0); try lia.
    2:{ intros i Hi. unfold rpos. destruct (Z.ltb_spec (off + (0 + i)) cap); lia. }
    change (Z.to_nat 0) with 0%nat. cbn [skipn]. rewrite firstn_all2 by (unfold zlen in *; lia).
    unfold gocopy. rewrite repeat_length.
    replace (Nat.min (Z.to_nat c2) (length items)) with (length items) by (unfold zlen in *; lia).
    rewrite firstn_all. eexists. split; [reflexivity|].
    unfold RD, holds. cbn [dd dhead dtail]. split; auto. right.
    split; [split; [|split; [lia|split; [lia|]]]|split; [lia|]].
    + rewrite zlen_app. unfold zlen in *. rewrite skipn_length, repeat_length. lia.
    + intros k Hkk. unfold rpos. destruct (Z.ltb_spec (0 + k) c2); [|lia]. rewrite Z.add_0_l.
      apply zn_app1. lia.
    + unfold rpos. destruct (Z.ltb_spec (0 + zlen items) c2); lia.
  - assert (Htl : dtail q = off + zlen items - cap /\ cap <= off + zlen items).
    { rewrite Ht in Hgt |- *. unfold rpos in *. destruct (Z.ltb_spec (off + zlen items) cap); lia. }
    destruct (transfer_holds (dd q) off items cap c2 H) as (nb & E & Hh2); try lia.
    destruct Htl as [Htl Hw]. rewrite Htl, Hh, E. cbn [bind].
    eexists. split; [reflexivity|]. unfold RD. cbn [dd dhead dtail]. split; auto. right.
    split; [exact Hh2|].
    pose proof (scramble_len (Z.to_nat (cap - off)) items) as HL.
    assert (zlen (scramble (Z.to_nat (cap - off)) items) < c2) by lia.
    split; auto. unfold rpos. match goal with |- _ = if ?c then _ else _ => destruct c eqn:? end; lia.
Qed.

Lemma deque_step_RD q a op : RD q a ->
  exists q', deque_step q op = Ok (q', snd (dring_step a op)) /\ RD q' (fst (dring_step a op)).
Proof.
  intros HR. pose proof (RD_empty_iff _ _ HR) as He. pose proof (RD_size _ _ HR) as Hsz.
  destruct op as [n| |v|v| | | | | | |].
  - (* Init *)
    destruct a as [items cap off]. cbn [deque_step dring_step fst snd].
    eexists. split; [reflexivity|]. unfold deque_init.
    destruct (Z.eqb_spec cap 0) as [->|e].
    + apply RD_cap0 in HR as (-> & -> & ->). cbn [dd deque_zero].
      unfold deque_clear, deque_new_buf. cbn [dd dhead dtail].
      set (n' := if n <=? 0 then 8 else n).
      assert (0 < n') by (unfold n'; destruct (Z.leb_spec n 0); lia).
      destruct (Z.ltb_spec 0 n'); [|lia].
      apply RD_fresh; auto. cbn [dd]. unfold zlen. rewrite repeat_length. lia.
    + pose proof (RD_cap_pos _ _ _ _ HR e).
      destruct HR as (Hh & [(-> & _)|((Hd & _) & _)]); [lia|].
      destruct (dd q) as [|d0 dt] eqn:Ed; [cbn in Hd; lia|].
      apply RD_fresh; auto. cbn [deque_clear dd]. now rewrite Ed.
  - (* Clear *)
    destruct a as [items cap off]. cbn [deque_step dring_step fst snd].
    eexists. split; [reflexivity|].
    destruct HR as (Hh & [(-> & Hd & _)|((Hd & Ho & _) & _)]).
    + unfold RD. cbn. split; auto. left. auto.
    + apply RD_fresh; auto. lia.
  - destruct a as [items cap off]. cbn [dring_step fst snd deque_step].
    destruct (Z.eqb_spec cap 0) as [->|e].
    + apply RD_cap0 in HR as (-> & -> & ->).
      destruct (push_front_RD (deque_init deque_zero (-1)) [] 8 0 v) as (q' & E & HR');
        [lia|apply RD_zero_init|].
      exists q'. destruct (deque_push_nil v) as [_ ->]. rewrite E. auto.
    + destruct (push_front_RD q items cap off v) as (q' & E & HR'); auto.
      { eapply RD_cap_pos; eauto. }
      exists q'. rewrite E. auto.
  - destruct a as [items cap off]. cbn [dring_step fst snd deque_step].
    destruct (Z.eqb_spec cap 0) as [->|e].
    + apply RD_cap0 in HR as (-> & -> & ->).
      destruct (push_back_RD (deque_init deque_zero (-1)) [] 8 0 v) as (q' & E & HR');
        [lia|apply RD_zero_init|].
      exists q'. destruct (deque_push_nil v) as [-> _]. rewrite E. auto.
    + destruct (push_back_RD q items cap off v) as (q' & E & HR'); auto.
      { eapply RD_cap_pos; eauto. }
      exists q'. rewrite E. auto.
  - apply pop_front_RD; auto.
  - apply pop_back_RD; auto.
  - (* Front *)
    exists q. cbn [deque_step]. unfold deque_front. rewrite He.
    destruct a as [items cap off]. cbn [dring_step fst snd ad_items] in *. split; auto.
    destruct items as [|x t]; [reflexivity|].
    destruct HR as (Hh & [(_ & _ & E & _)|((Hd & Ho & Hs & Hk) & Hlt & Ht)]); [discriminate|].
    assert (Hl : zlen (x :: t) = zlen t + 1) by (unfold zlen; cbn; lia).
    pose proof (zlen_nonneg t) as Hnn.
    destruct (Z.eqb_spec (zlen (x :: t)) 0) as [e|_]; [lia|].
    rewrite (zget_Ok _ _ 0) by lia. cbn [bind hd_error]. do 4 f_equal.
    transitivity (zn (dd q) (rpos off 0 cap)); [|exact (Hk 0 ltac:(lia))].
    unfold zn, rpos. destruct (Z.ltb_spec (off + 0) cap); do 2 f_equal; lia.
  - (* Back *)
    exists q. cbn [deque_step]. unfold deque_back. rewrite He.
    destruct a as [items cap off]. cbn [dring_step fst snd ad_items] in *. split; auto.
    destruct (Z.eqb_spec (zlen items) 0) as [e|e].
    { apply zlen_0 in e. subst. reflexivity. }
    pose proof (zlen_nonneg items) as Hnn.
    rewrite (prev_tail _ _ _ _ HR) by lia.
    destruct HR as (Hh & [(_ & _ & E & _)|((Hd & Ho & Hs & Hk) & Hlt & Ht)]);
      [subst items; cbn in e; lia|].
    change (dlast_error items) with (QueueSpec.last_error items).
    rewrite last_error_zn by lia.
    specialize (Hk (zlen items - 1) ltac:(lia)).
    rewrite (zget_Ok _ _ 0).
    2:{ unfold rpos. destruct (Z.ltb_spec (off + (zlen items - 1)) cap); lia. }
    cbn [bind]. do 4 f_equal. exact Hk.
  - exists q. cbn [deque_step]. rewrite Hsz. destruct a as [items cap off]. split; auto.
  - exists q. cbn [deque_step]. unfold deque_empty. rewrite Hsz.
    destruct a as [items cap off]. cbn [dring_step ad_items fst snd]. split; auto.
    do 3 f_equal. destruct items; reflexivity.
  - apply shrink_RD; auto.
Qed.

Lemma deque_zero_RD : RD deque_zero (ADeque [] 0 0).
Proof. cbn. auto 10. Qed.

Lemma deque_exact ops :
  exists q, run_ops deque_step deque_zero ops
            = Ok (q, snd (spec_ops dring_step (ADeque [] 0 0) ops)) /\
    deque_size q = zlen (ad_items (fst (spec_ops dring_step (ADeque [] 0 0) ops))) /\
    deque_cap q = ad_cap (fst (spec_ops dring_step (ADeque [] 0 0) ops)).
Proof.
  destruct (run_ops_refine RD deque_step dring_step) with
    (ops := ops) (s := deque_zero) (a := ADeque [] 0 0) as (q & E & HR).
  - intros. now apply deque_step_RD.
  - apply deque_zero_RD.
  - exists q. split; auto. split; [now apply RD_size|].
    destruct (fst (spec_ops dring_step (ADeque [] 0 0) ops)) as [it c o]. unfold deque_cap. cbn [ad_cap].
    destruct HR as (_ & [(-> & -> & _)|((Hd & _) & _)]); auto.
Qed.

Lemma settle_items items cap off : (zlen items < cap \/ off = 0) -> zlen items <= cap ->
  ad_items (settle items cap off) = items.
Proof.
  intros H Hle. unfold settle. destruct (Z.ltb_spec (zlen items) cap); auto.
  cbn [ad_items]. apply scramble_short. unfold zlen in *. lia.
Qed.

(** sizes stay below the capacity in every reachable abstract state *)
Definition abs_ok (a : adeque) : Prop := exists q, RD q a.

Lemma abs_ok_step a op : abs_ok a -> abs_ok (fst (dring_step a op)).
Proof. intros (q & HR). destruct (deque_step_RD q a op HR) as (q' & _ & H). exists q'. auto. Qed.

Lemma abs_ok_lt a : abs_ok a ->
  zlen (ad_items a) < (if ad_cap a =? 0 then 8 else ad_cap a) /\ 0 <= ad_off a.
Proof.
  intros (q & HR). destruct a as [items cap off]. cbn.
  destruct HR as (Hh & [(-> & _ & -> & -> & _)|((_ & Ho & _) & Hlt & _)]); [cbn; lia|].
  destruct (Z.eqb_spec cap 0); lia.
Qed.

Lemma dring_is_seq ops : forall a, abs_ok a -> no_wrapped_move a ops ->
  snd (spec_ops dring_step a ops) = snd (spec_ops seq_step (ad_items a) ops) /\
  ad_items (fst (spec_ops dring_step a ops)) = fst (spec_ops seq_step (ad_items a) ops).
Proof.
  induction ops as [|op ops IH]; intros a Ha H; cbn [spec_ops no_wrapped_move] in *; auto.
  destruct H as (H1 & H2).
  pose proof (abs_ok_step a op Ha) as Ha'. pose proof (abs_ok_lt a Ha) as [Hlt Hoff].
  assert (Hs : snd (dring_step a op) = snd (seq_step (ad_items a) op) /\
               ad_items (fst (dring_step a op)) = fst (seq_step (ad_items a) op)).
  { destruct a as [items cap off]. cbn [ad_items ad_cap ad_off] in *.
    destruct op as [n| |v|v| | | | | | |]; cbn [dring_step seq_step fst snd] in *; auto.
    - split; auto. apply settle_items; unfold zlen in *; cbn [length]; lia.
    - split; auto. apply settle_items; unfold zlen in *; rewrite ?app_length; cbn [length]; lia.
    - destruct items; cbn; auto.
    - destruct (rev items) eqn:Er; cbn; auto. split; auto.
      rewrite <- (rev_involutive items), Er. reflexivity.
    - destruct ((8 <? cap) && (3 * zlen items <=? cap)); cbn; split; auto.
      apply scramble_short. destruct H1 as [H1|H1]; [discriminate|]. unfold zlen in *. lia. }
  destruct Hs as [Hs1 Hs2].
  destruct (dring_step a op) as [a1 o1]. destruct (seq_step (ad_items a) op) as [l1 o2].
  cbn [fst snd] in *. subst o2 l1.
  destruct (IH a1 Ha' H2) as [E1 E2].
  destruct (spec_ops dring_step a1 ops) as [a2 os]. destruct (spec_ops seq_step (ad_items a1) ops) as [l2 os2].
  cbn [fst snd] in *. subst. auto.
Qed.

Lemma deque_seq_partial ops : no_wrapped_move (ADeque [] 0 0) ops ->
  exists q, run_ops deque_step deque_zero ops = Ok (q, snd (spec_ops seq_step [] ops)) /\
    deque_size q = zlen (fst (spec_ops seq_step [] ops)).
Proof.
  intros H. destruct (dring_is_seq ops (ADeque [] 0 0)) as [E1 E2]; auto.
  { exists deque_zero. apply deque_zero_RD. }
  destruct (deque_exact ops) as (q & E & Hs & _).
  exists q. rewrite E, E1, Hs, E2. auto.
Qed.

Lemma spec_ops_app {St Op Obs : Type} (step : St -> Op -> St * Obs) ops1 ops2 s :
  spec_ops step s (ops1 ++ ops2) =
  (fst (spec_ops step (fst (spec_ops step s ops1)) ops2),
   snd (spec_ops step s ops1) ++ snd (spec_ops step (fst (spec_ops step s ops1)) ops2)).
Proof.
  revert s; induction ops1 as [|op ops1 IH]; intros s; cbn.
  - now destruct (spec_ops step s ops2).
  - destruct (step s op) as [s1 o]. rewrite IH. destruct (spec_ops step s1 ops1). reflexivity.
Qed.

Lemma deque_shrink_partial ops rest :
  no_wrapped_move (ADeque [] 0 0) (ops ++ DShrink :: rest) ->
  exists q os1 os2,
    run_ops deque_step deque_zero (ops ++ DShrink :: rest) = Ok (q, os1 ++ DBool false :: os2) /\
    snd (spec_ops seq_step [] (ops ++ rest)) = os1 ++ os2 /\ length os1 = length ops.
Proof.
  intros H. destruct (deque_seq_partial _ H) as (q & E & _).
  exists q, (snd (spec_ops seq_step [] ops)),
    (snd (spec_ops seq_step (fst (spec_ops seq_step [] ops)) rest)).
  split; [|split].
  - rewrite E, spec_ops_app. cbn [snd]. do 3 f_equal. cbn [spec_ops seq_step].
    now destruct (spec_ops seq_step (fst (spec_ops seq_step [] ops)) rest).
  - rewrite spec_ops_app. reflexivity.
  - clear. generalize (@nil Z). induction ops as [|op ops IH]; intros l; cbn; auto.
    destruct (seq_step l op) as [l1 o]. specialize (IH l1).
    destruct (spec_ops seq_step l1 ops). cbn in *. auto.
Qed.
