(** Lemmas about the tree visitor model. *)
From Coq Require Import ZArith List Bool Lia ZifyBool ZifyNat.
From Verif Require Import GoBase GoLists TreeModel TreeSpec.
Import ListNotations.
Open Scope Z_scope.

Section T.
Context {V : Type}.
Notation tree := (tree V).
Implicit Types t root n p : tree.

(** induction over trees with a list hypothesis for the children *)
Fixpoint tree_ind' (P : tree -> Prop) (H : forall v cs, Forall P cs -> P (Node v cs)) (t : tree) : P t :=
  match t with
  | Node v cs => H v cs ((fix go l : Forall P l :=
      match l with [] => Forall_nil P | c :: l' => Forall_cons c (tree_ind' P H c) (go l') end) cs)
  end.

(** all nodes of a tree in pre-order *)
Fixpoint pre (t : tree) : list tree :=
  match t with Node v cs => t :: flat_map pre cs end.

Lemma pre_eq t : pre t = t :: flat_map pre (tchildren t).
Proof. destruct t; reflexivity. Qed.

Lemma fold_left_app_concat {A B} (f : A -> list B) l acc :
  fold_left (fun a c => a ++ f c) l acc = acc ++ flat_map f l.
Proof.
  revert acc; induction l as [|x l IH]; intros acc; cbn; [now rewrite app_nil_r|].
  rewrite IH. now rewrite app_assoc.
Qed.

Lemma all_pre t : all t = map tval (pre t).
Proof.
  induction t as [v cs IH] using tree_ind'. cbn [all].
  rewrite fold_left_app_concat. rewrite pre_eq. cbn. f_equal.
  induction IH as [|c cs Hc _ IHl]; cbn; auto. rewrite map_app, Hc, IHl. reflexivity.
Qed.

Lemma all_preorder t : Preorder t (all t).
Proof.
  induction t as [v cs IH] using tree_ind'. cbn [all].
  rewrite fold_left_app_concat. cbn.
  rewrite flat_map_concat_map. constructor.
  induction IH; cbn; constructor; auto.
Qed.

Lemma preorder_unique t : forall l, Preorder t l -> l = all t.
Proof.
  induction t as [v cs IH] using tree_ind'. intros l H. inversion H as [v' cs' ls HF]; subst.
  cbn [all]. rewrite fold_left_app_concat. cbn. f_equal.
  rewrite flat_map_concat_map. f_equal. clear H.
  revert ls HF. induction IH as [|c cs Hc _ IHl]; intros ls HF; inversion HF; subst; cbn; auto.
  f_equal; auto.
Qed.

(** *** position of a visitor inside the pre-order *)
Definition zidx (i : Z) : nat := Z.to_nat i.

Fixpoint well (st : list (tree * Z)) (t root : tree) : Prop :=
  match st with
  | [] => t = root
  | (p, i) :: rest => 0 <= i /\ nth_error (tchildren p) (zidx i) = Some t /\ well rest p root
  end.

Fixpoint bef (st : list (tree * Z)) : list tree :=
  match st with
  | [] => []
  | (p, i) :: rest => bef rest ++ p :: flat_map pre (firstn (zidx i) (tchildren p))
  end.

Fixpoint aft (st : list (tree * Z)) : list tree :=
  match st with
  | [] => []
  | (p, i) :: rest => flat_map pre (skipn (S (zidx i)) (tchildren p)) ++ aft rest
  end.

Lemma split_nth {A} (l : list A) i x : nth_error l i = Some x ->
  l = firstn i l ++ x :: skipn (S i) l.
Proof.
  revert i; induction l as [|y l IH]; intros [|i] H; cbn in *; try discriminate.
  - injection H as ->. reflexivity.
  - f_equal. now apply IH.
Qed.

Lemma well_total st : forall t root, well st t root -> bef st ++ pre t ++ aft st = pre root.
Proof.
  induction st as [|[p i] rest IH]; intros t root H; cbn in *.
  - subst. apply app_nil_r.
  - destruct H as (Hi & Hn & Hw). rewrite <- (IH p root Hw).
    rewrite <- app_assoc. f_equal. rewrite (pre_eq p). cbn. f_equal.
    rewrite (split_nth _ _ _ Hn) at 3. rewrite flat_map_app. cbn. now rewrite <- !app_assoc.
Qed.

(** the visitor stands on the node numbered [length (bef st)] *)
Definition RV (root : tree) (v : visitor V) (c : cursor) : Prop :=
  match c with
  | Fresh => v = new_visitor root
  | At k => exists t, vnode v = Some t /\ well (vstack v) t root /\ k = length (bef (vstack v))
  | Done => v = Visitor None []
  end.

Lemma next_loop_spec st : forall t root, well st t root ->
  exists v, next_loop st = Ok v /\
    RV root v (if (length (bef st ++ pre t) <? length (pre root))%nat
               then At (length (bef st ++ pre t)) else Done).
Proof.
  induction st as [|[p i] rest IH]; intros t root H; cbn [next_loop].
  - cbn in H. subst. exists (Visitor None []). split; auto.
    cbn [bef app]. rewrite Nat.ltb_irrefl. reflexivity.
  - pose proof (well_total _ _ _ H) as Htot.
    cbn [well] in H. destruct H as (Hi & Hn & Hw).
    destruct (Z.ltb_spec i 0); [lia|].
    assert (Hlt : (zidx i < length (tchildren p))%nat) by (apply nth_error_Some; congruence).
    destruct (Z.ltb_spec i (zlen (tchildren p) - 1)) as [Hb|Hb].
    + (* next brother *)
      destruct (nth_error (tchildren p) (zidx (i + 1))) as [c|] eqn:Ec.
      2:{ apply nth_error_None in Ec. unfold zidx, zlen in *. lia. }
      unfold zget. destruct (Z.ltb_spec (i + 1) 0); [lia|]. unfold aget. fold (zidx (i + 1)).
      rewrite Ec. cbn [bind]. eexists. split; [reflexivity|].
      assert (Hw' : well ((p, i + 1) :: rest) c root) by (cbn; split; [lia|auto]).
      assert (Hb' : bef ((p, i + 1) :: rest) = bef ((p, i) :: rest) ++ pre t).
      { cbn [bef]. rewrite <- app_assoc. f_equal. cbn. f_equal.
        replace (zidx (i + 1)) with (S (zidx i)) by (unfold zidx; lia).
        rewrite (split_nth _ _ _ Hn) at 1.
        rewrite firstn_app, firstn_length.
        replace (S (zidx i) - Nat.min (zidx i) (length (tchildren p)))%nat with 1%nat by lia.
        rewrite firstn_all2 by (rewrite firstn_length; lia).
        cbn [firstn]. rewrite flat_map_app. cbn. now rewrite app_nil_r. }
      pose proof (well_total _ _ _ Hw') as Htot'.
      assert (Hltt : (length (bef ((p, i) :: rest) ++ pre t) < length (pre root))%nat).
      { rewrite <- Htot', <- Hb'. rewrite !app_length, (pre_eq c). cbn [length]. lia. }
      apply Nat.ltb_lt in Hltt. rewrite Hltt. exists c. cbn [vnode vstack]. split; auto. split; [exact Hw'|].
      rewrite <- Hb'. reflexivity.
    + (* last child: climb *)
      destruct (IH p root Hw) as (v & E & HR). exists v. split; auto.
      replace (length (bef ((p, i) :: rest) ++ pre t)) with (length (bef rest ++ pre p)); auto.
      cbn [bef]. rewrite <- app_assoc, !app_length. f_equal. rewrite (pre_eq p). cbn. f_equal.
      rewrite (split_nth _ _ _ Hn) at 1. rewrite flat_map_app, app_length. cbn [flat_map].
      rewrite (skipn_all2 (n := S (zidx i)) (tchildren p)) by (unfold zidx, zlen in *; lia).
      cbn [flat_map]. rewrite app_nil_r, ?app_length. reflexivity.
Qed.

Lemma height_child n c : In c (tchildren n) -> (height c < height n)%nat.
Proof.
  destruct n as [v cs]. cbn [tchildren height]. induction cs as [|d cs IH]; intros []; cbn [fold_right].
  - subst. lia.
  - specialize (IH H). lia.
Qed.

Lemma last_nth {A} (l : list A) i x : nth_error l i = Some x -> length l = S i ->
  l = firstn i l ++ [x].
Proof.
  intros H Hl. rewrite (split_nth l i x H) at 1. rewrite skipn_all2 by lia. reflexivity.
Qed.

Lemma top_right_spec fuel : forall n st root, (height n < fuel)%nat -> well st n root ->
  exists t st', top_right_loop fuel n st = Ok (t, st') /\ well st' t root /\
    S (length (bef st')) = length (bef st ++ pre n).
Proof.
  induction fuel as [|fuel IH]; intros n st root Hf Hw; [lia|]. cbn [top_right_loop].
  destruct (Z.ltb_spec 0 (zlen (tchildren n))) as [Hp|Hp].
  - assert (Hl : (0 < length (tchildren n))%nat) by (unfold zlen in Hp; lia).
    set (i := (length (tchildren n) - 1)%nat).
    destruct (nth_error (tchildren n) i) as [c|] eqn:Ec.
    2:{ apply nth_error_None in Ec. lia. }
    unfold zget. destruct (Z.ltb_spec (zlen (tchildren n) - 1) 0); [lia|].
    unfold aget. replace (Z.to_nat (zlen (tchildren n) - 1)) with i by (unfold zlen, i; lia).
    rewrite Ec. cbn [bind].
    pose proof (height_child n c (nth_error_In _ _ Ec)).
    destruct (IH c ((n, zlen (tchildren n) - 1) :: st) root) as (t & st' & E & Hw' & Hb).
    + lia.
    + cbn. split; [lia|]. split; auto.
      unfold zidx. replace (Z.to_nat (zlen (tchildren n) - 1)) with i by (unfold zlen, i; lia). auto.
    + exists t, st'. split; auto. split; auto. rewrite Hb.
      cbn [bef]. unfold zidx.
      replace (Z.to_nat (zlen (tchildren n) - 1)) with i by (unfold zlen, i; lia).
      rewrite <- app_assoc, !app_length. f_equal. rewrite (pre_eq n). cbn. f_equal.
      replace (flat_map pre (tchildren n)) with (flat_map pre (firstn i (tchildren n)) ++ pre c).
      2:{ rewrite (last_nth _ _ _ Ec) at 2 by (unfold i; lia).
          rewrite flat_map_app. cbn. now rewrite app_nil_r. }
      rewrite app_length. lia.
  - exists n, st. split; auto. split; auto.
    assert (E : tchildren n = []) by (destruct (tchildren n); auto; unfold zlen in Hp; cbn in Hp; lia).
    rewrite pre_eq, E. cbn. rewrite app_length. cbn. lia.
Qed.

Lemma nth_at st t root zero : well st t root ->
  nth (length (bef st)) (all root) zero = tval t /\ (length (bef st) < length (all root))%nat.
Proof.
  intros H. pose proof (well_total _ _ _ H) as E. rewrite all_pre, <- E, (pre_eq t).
  rewrite !map_app. cbn. split.
  - rewrite app_nth2; rewrite map_length; [|lia]. now rewrite Nat.sub_diag.
  - rewrite app_length. cbn. rewrite map_length. lia.
Qed.

Lemma RV_obs root v c zero : RV root v c ->
  (is_some (vnode v), visitor_get zero v) =
  match c with At k => (true, nth k (all root) zero) | _ => (false, zero) end.
Proof.
  destruct c as [|k|]; cbn; intros H.
  - subst. reflexivity.
  - destruct H as (t & Hn & Hw & ->). unfold visitor_get. rewrite Hn. cbn.
    now rewrite (proj1 (nth_at _ _ _ zero Hw)).
  - subst. reflexivity.
Qed.

Ltac fin_ok :=
  unfold visitor_next, visitor_prev; cbn [bind vnode vstack next_loop];
  match goal with |- exists v', Ok (?w, _) = _ /\ _ => exists w; split; [reflexivity|] end.

Lemma visitor_step_RV root zero v c op : RV root v c ->
  exists v', visitor_step zero v op = Ok (v', snd (cursor_step (all root) zero c op)) /\
    RV root v' (fst (cursor_step (all root) zero c op)).
Proof.
  intros HR.
  assert (Hlen : length (all root) = length (pre root)) by (rewrite all_pre, map_length; auto).
  assert (G : exists v', (match op with VNext => visitor_next v | VPrev => visitor_prev v end)
      = Ok (v', is_some (vnode v')) /\ RV root v' (fst (cursor_step (all root) zero c op))).
  { destruct op, c as [|k|]; cbn [cursor_step fst].
    - (* fresh Next *)
      cbn in HR. subst v. unfold visitor_next, new_visitor. cbn.
      fin_ok. cbn. exists root. auto.
    - (* Next *)
      destruct HR as (t & Hn & Hw & ->). unfold visitor_next. rewrite Hn.
      destruct (Z.ltb_spec 0 (zlen (tchildren t))) as [Hp|Hp].
      + destruct (tchildren t) as [|c cs] eqn:Ec; [unfold zlen in Hp; cbn in Hp; lia|].
        cbn. fin_ok.
        assert (Hw' : well ((t, 0) :: vstack v) c root) by (cbn; rewrite Ec; cbn; split; [lia|auto]).
        assert (Hb : length (bef ((t, 0) :: vstack v)) = S (length (bef (vstack v)))).
        { cbn. rewrite app_length. cbn. lia. }
        destruct (nth_at _ _ _ zero Hw') as [_ Hlt]. rewrite Hb in Hlt.
        match goal with |- RV _ _ (if ?b then _ else _) => destruct b eqn:Eb end;
          [|exfalso; change (S (length (bef (vstack v))) <? length (all root) = false)%nat in Eb;
            apply Nat.ltb_ge in Eb; lia].
        exists c. cbn [vnode vstack]. split; auto.
      + assert (E : tchildren t = []) by (destruct (tchildren t); auto; unfold zlen in Hp; cbn in Hp; lia).
        destruct (next_loop_spec _ _ _ Hw) as (v' & E' & HR'). rewrite E'. cbn [bind].
        exists v'. split; auto. rewrite (pre_eq t), E in HR'. cbn in HR'.
        rewrite app_length in HR'. cbn in HR'. rewrite Nat.add_1_r in HR'. now rewrite Hlen.
    - cbn in HR. subst v. fin_ok. reflexivity.
    - (* fresh Prev *)
      cbn in HR. subst v. unfold visitor_prev, new_visitor, top_right. cbn [vnode vstack].
      destruct (top_right_spec (S (height root)) root [] root) as (t & st & E & Hw & Hb); [lia|reflexivity|].
      rewrite E. cbn [bind]. fin_ok. exists t. cbn [vnode vstack].
      split; auto. split; auto. cbn in Hb. rewrite Hlen. lia.
    - (* Prev *)
      destruct HR as (t & Hn & Hw & ->). unfold visitor_prev. rewrite Hn.
      destruct (vstack v) as [|[p i] rest] eqn:Est.
      + cbn. fin_ok. reflexivity.
      + cbn [well] in Hw. destruct Hw as (Hi & Hc & Hw).
        destruct (Z.ltb_spec 0 i) as [Hp|Hp].
        * destruct (nth_error (tchildren p) (zidx (i - 1))) as [c|] eqn:Ec.
          2:{ apply nth_error_None in Ec.
              assert (zidx i < length (tchildren p))%nat by (apply nth_error_Some; congruence).
              unfold zidx in *. lia. }
          unfold zget. destruct (Z.ltb_spec (i - 1) 0); [lia|]. unfold aget. fold (zidx (i - 1)).
          rewrite Ec. cbn [bind].
          destruct (top_right_spec (S (height c)) c ((p, i - 1) :: rest) root)
            as (t' & st' & E & Hw' & Hb); [lia|cbn; split; [lia|auto]|].
          unfold top_right. rewrite E. cbn [bind]. fin_ok.
          assert (Hbb : length (bef ((p, i) :: rest)) = S (length (bef st'))).
          { rewrite Hb. cbn [bef]. rewrite <- app_assoc, !app_length. f_equal. cbn. f_equal.
            replace (zidx i) with (S (zidx (i - 1))) by (unfold zidx; lia).
            assert (Hz : (zidx (i-1) < length (tchildren p))%nat) by (apply nth_error_Some; congruence).
            assert (Hf : firstn (S (zidx (i - 1))) (tchildren p)
                         = firstn (zidx (i - 1)) (tchildren p) ++ [c]).
            { rewrite (split_nth _ _ _ Ec) at 1. rewrite firstn_app, firstn_length.
              replace (S (zidx (i-1)) - Nat.min (zidx (i-1)) (length (tchildren p)))%nat with 1%nat by lia.
              rewrite firstn_all2 by (rewrite firstn_length; lia). reflexivity. }
            rewrite Hf, flat_map_app, app_length. cbn. now rewrite app_nil_r. }
          rewrite Hbb. exists t'. cbn [vnode vstack]. auto.
        * assert (i = 0) as -> by lia. cbn [bind]. fin_ok.
          replace (length (bef ((p, 0) :: rest))) with (S (length (bef rest))).
          2:{ cbn. rewrite app_length. cbn. lia. }
          exists p. cbn [vnode vstack]. auto.
    - cbn in HR. subst v. fin_ok. reflexivity. }
  destruct G as (v' & E & HR'). unfold visitor_step. rewrite E. cbn [bind].
  rewrite (RV_obs _ _ _ zero HR'). exists v'. split; [|auto].
  unfold cursor_step. cbn [fst snd]. reflexivity.
Qed.

Lemma visitor_history root zero ops :
  exists v, run_ops (visitor_step zero) (new_visitor root) ops
    = Ok (v, snd (spec_ops (cursor_step (all root) zero) Fresh ops)).
Proof.
  destruct (run_ops_refine (RV root) (visitor_step zero) (cursor_step (all root) zero))
    with (ops := ops) (s := new_visitor root) (a := Fresh) as (v & E & _).
  - intros. now apply visitor_step_RV.
  - reflexivity.
  - eauto.
Qed.

Lemma done_forever (l : list V) zero op m :
  snd (spec_ops (cursor_step l zero) Done (repeat op m)) = repeat (false, zero) m.
Proof.
  induction m as [|m IH]; cbn; auto. destruct op; cbn;
  destruct (spec_ops (cursor_step l zero) Done _) as [c os]; cbn in *; now rewrite IH.
Qed.

Lemma cursor_forward (l : list V) zero m : forall k, (k < length l)%nat ->
  snd (spec_ops (cursor_step l zero) (At k) (repeat VNext (length l - S k + m))) =
  map (pair true) (skipn (S k) l) ++ repeat (false, zero) m.
Proof.
  intros k Hk. remember (length l - S k)%nat as n eqn:En. revert k Hk En.
  induction n as [|n IH]; intros k Hk En.
  - rewrite skipn_all2 by lia. cbn [Nat.add map app].
    destruct m as [|m]; auto. cbn [repeat spec_ops cursor_step].
    destruct (Nat.ltb_spec (S k) (length l)); [lia|].
    pose proof (done_forever l zero VNext m) as Hd.
    destruct (spec_ops (cursor_step l zero) Done (repeat VNext m)). cbn in *. now rewrite Hd.
  - cbn [Nat.add repeat spec_ops cursor_step].
    destruct (Nat.ltb_spec (S k) (length l)) as [Hl|]; [|lia].
    specialize (IH (S k) Hl ltac:(lia)).
    destruct (spec_ops (cursor_step l zero) (At (S k)) (repeat VNext (n + m))) as [c os].
    cbn [snd] in *. rewrite IH.
    assert (E : skipn (S k) l = nth (S k) l zero :: skipn (S (S k)) l).
    { clear -Hl. revert k Hl. induction l as [|x l IH]; intros k Hl; cbn in *; [lia|].
      destruct k as [|k]; [|apply IH; lia].
      destruct l; cbn in *; [lia|reflexivity]. }
    rewrite E. reflexivity.
Qed.

Lemma forward_all root zero m :
  exists v, run_ops (visitor_step zero) (new_visitor root) (repeat VNext (length (all root) + m))
    = Ok (v, map (pair true) (all root) ++ repeat (false, zero) m).
Proof.
  destruct (visitor_history root zero (repeat VNext (length (all root) + m))) as (v & E).
  exists v. rewrite E. do 2 f_equal.
  assert (exists x l, all root = x :: l) as (x & l & El).
  { rewrite all_pre, pre_eq. cbn. eauto. }
  rewrite El. cbn [length Nat.add repeat spec_ops cursor_step].
  pose proof (cursor_forward (x :: l) zero m 0) as H. cbn [length] in H.
  rewrite Nat.sub_succ, Nat.sub_0_r in H. specialize (H ltac:(lia)).
  destruct (spec_ops (cursor_step (x :: l) zero) (At 0) (repeat VNext (length l + m))) as [c os].
  cbn in *. now rewrite H.
Qed.

Lemma cursor_backward (l : list V) zero m : forall k, (k < length l)%nat ->
  snd (spec_ops (cursor_step l zero) (At k) (repeat VPrev (k + m))) =
  map (pair true) (rev (firstn k l)) ++ repeat (false, zero) m.
Proof.
  induction k as [|k IH]; intros Hk.
  - cbn [Nat.add firstn rev map app].
    destruct m as [|m]; auto. cbn [repeat spec_ops cursor_step].
    pose proof (done_forever l zero VPrev m) as Hd.
    destruct (spec_ops (cursor_step l zero) Done (repeat VPrev m)). cbn in *. now rewrite Hd.
  - cbn [Nat.add repeat spec_ops cursor_step].
    specialize (IH ltac:(lia)).
    destruct (spec_ops (cursor_step l zero) (At k) (repeat VPrev (k + m))) as [c os].
    cbn [snd] in *. rewrite IH.
    assert (E : firstn (S k) l = firstn k l ++ [nth k l zero]).
    { clear -Hk. revert k Hk. induction l as [|x l IH]; intros [|k] Hl; cbn in *; try lia; auto.
      f_equal. apply IH. lia. }
    rewrite E, rev_app_distr. reflexivity.
Qed.

Lemma backward_all root zero m :
  exists v, run_ops (visitor_step zero) (new_visitor root) (repeat VPrev (length (all root) + m))
    = Ok (v, map (pair true) (rev (all root)) ++ repeat (false, zero) m).
Proof.
  destruct (visitor_history root zero (repeat VPrev (length (all root) + m))) as (v & E).
  exists v. rewrite E. do 2 f_equal.
  assert (exists x l, all root = l ++ [x]) as (x & l & El).
  { assert (Hne : all root <> []) by (rewrite all_pre, pre_eq; discriminate).
    destruct (exists_last Hne) as (l & x & El). eauto. }
  rewrite El. rewrite app_length. cbn [length]. rewrite Nat.add_1_r.
  cbn [Nat.add repeat spec_ops cursor_step].
  rewrite app_length. cbn [length]. rewrite Nat.add_1_r, Nat.sub_succ, Nat.sub_0_r.
  pose proof (cursor_backward (l ++ [x]) zero m (length l)) as H.
  rewrite app_length in H. cbn [length] in H. specialize (H ltac:(lia)).
  destruct (spec_ops (cursor_step (l ++ [x]) zero) (At (length l)) (repeat VPrev (length l + m))) as [c os].
  cbn [snd] in *. rewrite H, rev_app_distr, firstn_app, Nat.sub_diag, firstn_all, firstn_O, app_nil_r.
  cbn. do 2 f_equal. rewrite app_nth2, Nat.sub_diag by lia. reflexivity.
Qed.
End T.
