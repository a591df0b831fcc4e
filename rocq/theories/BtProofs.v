From Coq Require Import String.
From Coq Require Import ZArith List Bool Lia ZifyBool ZifyNat.
From Verif Require Import GoBase GoStrings MathModel MathSpec MathProofs RingModel WorkModel BtModel BtSpec.
Import ListNotations.
Local Open Scope Z_scope.

(** ** Hexadecimal numerals *)
Lemma hex_up_digit : forall v, 0 <= v < 16 -> is_hex_digit (hex_up v) /\ hex_digit_value (hex_up v) = v.
Proof. intros v H. unfold hex_up, is_hex_digit, hex_digit_value. destruct (Z.ltb_spec v 10); split; try lia; match goal with |- context [?a <=? 57] => destruct (Z.leb_spec a 57) end; lia. Qed.

Lemma hex_value_snoc : forall s c, hex_value (s ++ [c]) = 16 * hex_value s + hex_digit_value c.
Proof. intros. unfold hex_value. rewrite fold_left_app. reflexivity. Qed.

Lemma hex_loop_spec : forall fuel v, 0 <= v < 2 ^ Z.of_nat fuel -> (0 < fuel)%nat -> is_hex v (hex_loop fuel v).
Proof.
  induction fuel as [|f IH]; intros v Hv Hf; [lia|]. cbn [hex_loop]. destruct (Z.ltb_spec v 16).
  - destruct (hex_up_digit v) as [A B]; [lia|]. repeat split; try congruence.
    + constructor; auto.
    + unfold hex_value. cbn [fold_left]. lia.
    + cbn. congruence.
  - assert (Hf' : (0 < f)%nat). { destruct f; [|lia]. change (2 ^ Z.of_nat 1) with 2 in Hv. lia. }
    assert (Hd : 0 <= v / 16 < 2 ^ Z.of_nat f).
    { replace (Z.of_nat (S f)) with (Z.of_nat f + 1) in Hv by lia. rewrite Z.pow_add_r in Hv by lia.
      split; [apply Z.div_pos; lia|]. apply Z.div_lt_upper_bound; lia. }
    destruct (IH (v / 16) Hd Hf') as (A & B & C & D).
    destruct (hex_up_digit (v mod 16)) as [E F]; [apply Z.mod_pos_bound; lia|].
    repeat split.
    + intro K. apply app_eq_nil in K. destruct K; congruence.
    + apply Forall_app. split; auto.
    + rewrite hex_value_snoc, C, F. pose proof (Z.div_mod v 16 ltac:(lia)). lia.
    + destruct (hex_loop f (v / 16)) as [|c r]; [congruence|]. cbn [app hd] in *. intro K. specialize (D K). injection D as -> ->.
      unfold hex_value in C. cbn in C. pose proof (Z.div_str_pos v 16 ltac:(lia)). lia.
Qed.
Lemma fmt_X_spec : forall v, 0 <= v -> is_hex v (fmt_X v).
Proof.
  intros v Hv. unfold fmt_X. apply hex_loop_spec; [|lia]. split; auto.
  destruct (Z.eq_dec v 0) as [->|]; [reflexivity|].
  pose proof (Z.log2_spec v ltac:(lia)). pose proof (Z.log2_nonneg v).
  rewrite Nat2Z.inj_succ, Z2Nat.id by lia. lia.
Qed.

(** ** Which frame *)
Lemma info_at : forall stk k fm head f, nth_error stk k = Some f ->
  call_stack_info stk (Z.of_nat k) fm head = call_stack_info [f] 0 fm head.
Proof.
  intros stk k fm head f H. unfold call_stack_info, runtime_caller. replace (Z.of_nat k <? 0) with false by lia.
  rewrite Nat2Z.id, H. reflexivity.
Qed.
Lemma info_none : forall stk k fm head, nth_error stk k = None -> call_stack_info stk (Z.of_nat k) fm head = [].
Proof.
  intros stk k fm head H. unfold call_stack_info, runtime_caller. replace (Z.of_nat k <? 0) with false by lia.
  rewrite Nat2Z.id, H. reflexivity.
Qed.

Lemma info_all : forall f head, frame_ok f -> tells_all (head ++ [32]) (bytes_of "FileLine") (call_stack_info [f] 0 fmtAll head) (f_call f) (f_pc f - 1).
Proof.
  intros f head ((Hl & _) & _ & Hp). exists (fmt_d (l_line (f_call f))), (fmt_X (f_pc f - 1)).
  split; [apply fmt_d_spec; auto|]. split; [apply fmt_X_spec; lia|].
  cbn -[fmt_d fmt_X]. rewrite <- !app_assoc. reflexivity.
Qed.
Lemma info_line : forall f head, frame_ok f -> tells_line head (call_stack_info [f] 0 fmtFileLine head) (f_call f).
Proof.
  intros f head ((Hl & _) & _ & Hp). exists (fmt_d (l_line (f_call f))).
  split; [apply fmt_d_spec; auto|]. reflexivity.
Qed.
Lemma info_func : forall f head, tells_func head (call_stack_info [f] 0 fmtFunc head) (f_call f).
Proof. intros. reflexivity. Qed.

Lemma bt_me : forall o f stk, frame_ok f ->
  tells_all (bytes_of " ") (bytes_of "FileLine") (bt o (f :: stk)) (f_call f) (f_pc f - 1) /\
  tells_line (bytes_of "") (bt_file_line o (f :: stk)) (f_call f) /\
  tells_func (bytes_of "") (bt_func o (f :: stk)) (f_call f).
Proof.
  intros o f stk H. unfold bt, bt_file_line, bt_func, BtMe. change 2 with (Z.of_nat 2).
  rewrite !(info_at _ 2 _ _ f) by reflexivity. split; [|split].
  - apply (info_all f []). auto.
  - apply info_line. auto.
  - apply info_func.
Qed.

Lemma int64_small : forall x, - 2 ^ 63 <= x < 2 ^ 63 -> int64 x = x.
Proof. intros x H. unfold int64. rewrite Z.mod_small by lia. lia. Qed.

Lemma bt_caller : forall o stk depth, 0 <= depth < 2 ^ 63 - 3 ->
  match nth_error stk (S (Z.to_nat depth)) with
  | Some f => frame_ok f ->
      tells_all (bytes_of "Caller: ") (bytes_of "FileLine") (caller o stk depth) (f_call f) (f_pc f - 1) /\
      tells_line (bytes_of "Caller:") (caller_file_line o stk depth) (f_call f) /\
      tells_func (bytes_of "Caller:") (caller_func o stk depth) (f_call f)
  | None => caller o stk depth = [] /\ caller_file_line o stk depth = [] /\ caller_func o stk depth = []
  end.
Proof.
  intros o stk depth Hd. unfold caller, caller_file_line, caller_func, BtFather. rewrite int64_small by lia.
  replace (3 + depth) with (Z.of_nat (S (S (S (Z.to_nat depth))))) by lia.
  destruct (nth_error stk (S (Z.to_nat depth))) as [f|] eqn:E.
  - intro H. rewrite !(info_at _ _ _ _ f) by (cbn [nth_error]; exact E). split; [|split].
    + apply (info_all f (bytes_of "Caller:")). auto.
    + apply info_line. auto.
    + apply info_func.
  - rewrite !info_none by (cbn [nth_error]; exact E). auto.
Qed.

(** ** Reading the texts *)
Definition digit_suffix (Q : Z -> Prop) (a b c d : list Z) (x y : Z) : Prop :=
  Forall Q b -> Forall Q d -> ~ Q x -> ~ Q y -> a ++ x :: b = c ++ y :: d -> a = c /\ b = d.
Lemma suffix_unique : forall (Q : Z -> Prop) b d a c x y, digit_suffix Q a b c d x y.
Proof.
  unfold digit_suffix. intros Q b. induction b as [|z b IH] using rev_ind; intros d a c x y Hb Hd Hx Hy E.
  - destruct d as [|w d _] using rev_ind.
    + apply app_inj_tail in E. tauto.
    + exfalso. rewrite app_comm_cons, app_assoc in E. apply app_inj_tail in E. destruct E as [_ <-].
      apply Forall_app in Hd. destruct Hd as [_ Hd]. inversion Hd; auto.
  - apply Forall_app in Hb. destruct Hb as [Hb Hz]. inversion Hz; subst.
    destruct d as [|w d _] using rev_ind.
    + exfalso. rewrite app_comm_cons, app_assoc in E. apply app_inj_tail in E. destruct E as [_ ->]. auto.
    + apply Forall_app in Hd. destruct Hd as [Hd Hw].
      rewrite !app_comm_cons, !app_assoc in E. apply app_inj_tail in E. destruct E as [E ->].
      destruct (IH d a c x y Hb Hd Hx Hy E) as [-> ->]. auto.
Qed.
Lemma prefix_unique : forall q (a c b d : list Z), ~ In q a -> ~ In q c -> a ++ q :: b = c ++ q :: d -> a = c /\ b = d.
Proof.
  induction a as [|x a IH]; intros c b d Ha Hc E; destruct c as [|y c]; cbn in E.
  - injection E as ->. auto.
  - injection E as -> _. exfalso. apply Hc. left. auto.
  - injection E as -> _. exfalso. apply Ha. left. auto.
  - injection E as -> E. destruct (IH c b d) as [-> ->]; auto; intro K; [apply Ha|apply Hc]; right; auto.
Qed.

Lemma hex_not : ~ is_hex_digit 123 /\ ~ is_digit 32.
Proof. unfold is_hex_digit, is_digit. lia. Qed.

Lemma tells_all_inj : forall head sep text l pc l' pc', loc_ok l -> loc_ok l' ->
  tells_all head sep text l pc -> tells_all head sep text l' pc' -> l = l' /\ pc = pc'.
Proof.
  intros head sep text [f1 p1 n1] pc [f2 p2 n2] pc' (_ & H1) (_ & H2) (d & x & Hd & Hx & ->) (d' & x' & Hd' & Hx' & E).
  cbn [l_func l_file l_line] in *. apply app_inv_head in E. apply app_inv_head in E.
  destruct hex_not as [Nx Nd].
  apply (prefix_unique 125) in E; [|assumption|assumption]. destruct E as [<- E].
  cbn [bytes_of app map list_ascii_of_string] in E. 
  assert (E2 : p1 ++ bytes_of " : " ++ d ++ bytes_of "} pc{" ++ x ++ bytes_of "}" = p2 ++ bytes_of " : " ++ d' ++ bytes_of "} pc{" ++ x' ++ bytes_of "}").
  { change (32 :: sep ++ 123 :: p1 ++ bytes_of " : " ++ d ++ bytes_of "} pc{" ++ x ++ bytes_of "}" =
            32 :: sep ++ 123 :: p2 ++ bytes_of " : " ++ d' ++ bytes_of "} pc{" ++ x' ++ bytes_of "}") in E.
    assert (E1 : sep ++ 123 :: p1 ++ bytes_of " : " ++ d ++ bytes_of "} pc{" ++ x ++ bytes_of "}" =
                 sep ++ 123 :: p2 ++ bytes_of " : " ++ d' ++ bytes_of "} pc{" ++ x' ++ bytes_of "}") by congruence.
    apply app_inv_head in E1. congruence. }
  clear E.
  assert (R : forall p (d x : list Z), p ++ bytes_of " : " ++ d ++ bytes_of "} pc{" ++ x ++ bytes_of "}" =
    ((((p ++ [32; 58]) ++ 32 :: d) ++ bytes_of "} pc") ++ 123 :: x) ++ [125]).
  { intros p e y. change (bytes_of " : ") with [32; 58; 32]. change (bytes_of "} pc{") with [125; 32; 112; 99; 123].
    change (bytes_of "} pc") with [125; 32; 112; 99]. change (bytes_of "}") with [125].
    repeat first [rewrite <- app_assoc | progress cbn [app]]. reflexivity. }
  rewrite !R in E2. apply app_inj_tail in E2. destruct E2 as [E2 _].
  destruct Hx as (Hx0 & Hx1 & Hx2 & Hx3), Hx' as (Hx0' & Hx1' & Hx2' & Hx3').
  destruct Hd as (Hd0 & Hd1 & Hd2 & Hd3), Hd' as (Hd0' & Hd1' & Hd2' & Hd3').
  apply (suffix_unique is_hex_digit) in E2; auto. destruct E2 as [E2 <-].
  apply app_inv_tail in E2. apply (suffix_unique is_digit) in E2; auto. destruct E2 as [E2 <-].
  apply app_inv_tail in E2. subst. auto.
Qed.
Lemma tells_line_inj : forall head text l l', tells_line head text l -> tells_line head text l' ->
  l_file l = l_file l' /\ l_line l = l_line l'.
Proof.
  intros head text l l' (d & Hd & ->) (d' & Hd' & E). destruct hex_not as [Nx Nd].
  apply app_inv_head in E. apply app_inv_head in E.
  assert (R : forall p (d : list Z), p ++ bytes_of " : " ++ d ++ bytes_of "}" = ((p ++ [32; 58]) ++ 32 :: d) ++ [125]).
  { intros p e. change (bytes_of " : ") with [32; 58; 32]. change (bytes_of "}") with [125].
    rewrite <- !app_assoc. cbn [app]. reflexivity. }
  rewrite !R in E. apply app_inj_tail in E. destruct E as [E _].
  destruct Hd as (Hd0 & Hd1 & Hd2 & Hd3), Hd' as (Hd0' & Hd1' & Hd2' & Hd3').
  apply (suffix_unique is_digit) in E; auto. destruct E as [E <-]. apply app_inv_tail in E. split; congruence.
Qed.

(** ** Lists of frames *)
Lemma bts_loop_lines : forall fs i, 0 <= i -> Forall frame_ok fs -> exists ls, bts_loop i fs = lines_of ls /\ length ls = length fs /\
  forall k f, nth_error fs k = Some f -> exists l d, nth_error ls k = Some l /\ is_decimal (i + Z.of_nat k) d /\
    tells_all (bytes_of "#" ++ d ++ bytes_of " ") (bytes_of "File") l (f_ret f) (f_pc f).
Proof.
  induction fs as [|f fs IH]; intros i Hi HF.
  - exists []. split; [reflexivity|]. split; [reflexivity|]. intros [|k] f H; discriminate.
  - inversion HF as [|? ? Hf HF']; subst. destruct (IH (i + 1) ltac:(lia) HF') as (ls & E & L & K).
    exists ((bytes_of "#" ++ fmt_d i ++ bytes_of " Func{" ++ l_func (f_ret f) ++ bytes_of "} File{" ++ l_file (f_ret f) ++
      bytes_of " : " ++ fmt_d (l_line (f_ret f)) ++ bytes_of "} pc{" ++ fmt_X (f_pc f) ++ bytes_of "}") :: ls).
    split; [|split].
    + unfold lines_of in *. cbn [bts_loop map concat]. rewrite E. rewrite <- !app_assoc. reflexivity.
    + cbn [length]. congruence.
    + intros [|k] g Hg; cbn [nth_error] in *.
      * injection Hg as <-. do 2 eexists. split; [reflexivity|]. split; [rewrite Z.add_0_r; apply fmt_d_spec; auto|].
        destruct Hf as (_ & (Hl & _) & Hp). exists (fmt_d (l_line (f_ret f))), (fmt_X (f_pc f)).
        split; [apply fmt_d_spec; auto|]. split; [apply fmt_X_spec; lia|].
        repeat first [rewrite <- app_assoc | progress cbn [app]]. reflexivity.
      * destruct (K k g Hg) as (l & d & A & B & C). exists l, d. replace (i + Z.of_nat (S k)) with (i + 1 + Z.of_nat k) by lia. auto.
Qed.

Lemma nth_firstn_lt : forall A k n (l : list A), (k < n)%nat -> nth_error (firstn n l) k = nth_error l k.
Proof.
  intros A k. induction k as [|k IH]; intros [|n] [|x l] H; try lia; cbn; auto. apply IH. lia.
Qed.
Lemma Forall_firstn' : forall A (P : A -> Prop) n l, Forall P l -> Forall P (firstn n l).
Proof. intros A P n. induction n; intros l H; [constructor|]. destruct H; cbn; constructor; auto. Qed.

Lemma bts_lines : forall o stk, Forall frame_ok stk -> exists ls, bts o stk = lines_of ls /\
  Z.of_nat (length ls) = Z.min 50 (Z.of_nat (length stk)) /\
  forall k f, (k < 50)%nat -> nth_error stk k = Some f -> exists l d, nth_error ls k = Some l /\ is_decimal (Z.of_nat k) d /\
    tells_all (bytes_of "#" ++ d ++ bytes_of " ") (bytes_of "File") l (f_ret f) (f_pc f).
Proof.
  intros o stk H. unfold bts. change (runtime_callers (o_callers o) (o_bts o :: stk) BtMe maxBtListLen) with (firstn 50 stk).
  destruct (bts_loop_lines (firstn 50 stk) 0 ltac:(lia) (Forall_firstn' _ _ _ _ H)) as (ls & E & L & K).
  exists ls. split; auto. split; [rewrite L, firstn_length; lia|].
  intros k f Hk Hf. apply (K k f). rewrite nth_firstn_lt by auto. exact Hf.
Qed.

Lemma list_lines : forall o stk k, Forall frame_ok stk ->
  let ls := call_stack_list o stk (2 + Z.of_nat k) in
  Z.of_nat (length ls) = Z.min 50 (Z.max 0 (Z.of_nat (length stk) - Z.of_nat k)) /\
  forall i f, (i < 50)%nat -> nth_error stk (k + i) = Some f -> exists l, nth_error ls i = Some l /\
    tells_all [] (bytes_of "FileLine") l (f_ret f) (f_pc f).
Proof.
  intros o stk k H ls. unfold ls, call_stack_list. clear ls.
  replace (runtime_callers (o_callers o) (o_bts o :: stk) (2 + Z.of_nat k) maxBtListLen) with (firstn 50 (skipn k stk)).
  2: { unfold runtime_callers. replace (Z.to_nat (2 + Z.of_nat k)) with (S (S k)) by lia. reflexivity. }
  rewrite map_length, firstn_length, skipn_length. split; [lia|].
  intros i f Hi Hf.
  assert (N : nth_error (firstn 50 (skipn k stk)) i = Some f).
  { rewrite nth_firstn_lt by auto. rewrite <- Hf. clear. revert stk. induction k as [|k IH]; intro stk; [reflexivity|].
    destruct stk; cbn [skipn plus nth_error]; [destruct i; reflexivity|apply IH]. }
  eexists. split; [apply map_nth_error; exact N|].
  assert (Hok : frame_ok f) by (rewrite Forall_forall in H; apply H; eapply nth_error_In; eauto).
  destruct Hok as (_ & (Hl & _) & Hp). exists (fmt_d (l_line (f_ret f))), (fmt_X (f_pc f)).
  split; [apply fmt_d_spec; auto|]. split; [apply fmt_X_spec; lia|].
  repeat first [rewrite <- app_assoc | progress cbn [app]]. reflexivity.
Qed.

Lemma assert_exact : forall o stk b, Forall frame_ok (o_assert o :: stk) ->
  (assert o stk b = inl true <-> b = true) /\
  (b = false -> exists ls, assert o stk b = inr (lines_of (bytes_of "Assert fail" :: ls)) /\
    (forall f, nth_error stk 0 = Some f -> exists l, nth_error ls 1 = Some l /\ tells_all (bytes_of "#1 ") (bytes_of "File") l (f_ret f) (f_pc f))).
Proof.
  intros o stk b H. split; [destruct b; cbn; split; congruence|]. intros ->. unfold assert.
  destruct (bts_lines o (o_assert o :: stk) H) as (ls & E & L & K). exists ls. rewrite E. split; [reflexivity|].
  intros f Hf. destruct (K 1%nat f ltac:(lia) Hf) as (l & d & A & (B0 & B1 & B2 & B3) & C). exists l. split; auto.
  assert (D : d = [49]).
  { destruct d as [|c r]; [congruence|]. inversion B1 as [|? ? Hc Hr]; subst. unfold is_digit in Hc.
    destruct r as [|c' r].
    - unfold digits_value in B2. cbn in B2. f_equal. lia.
    - exfalso. assert (Hlow : forall r a, Forall is_digit r -> 0 <= a -> a <= fold_left (fun a c => 10 * a + (c - 48)) r a).
      { clear. induction r as [|c r IH]; intros a Hr Ha; [cbn; lia|]. inversion Hr as [|? ? Hc Hr']; subst. cbn [fold_left]. unfold is_digit in Hc.
        specialize (IH (10 * a + (c - 48)) Hr' ltac:(lia)). lia. }
      destruct (Z.eq_dec c 48) as [->|Hc48]; [specialize (B3 eq_refl); discriminate|].
      unfold digits_value in B2. cbn [fold_left] in B2. inversion Hr as [|? ? Hc' Hr']; subst. unfold is_digit in Hc'.
      pose proof (Hlow r (10 * (10 * 0 + (c - 48)) + (c' - 48)) Hr' ltac:(lia)). change (Z.of_nat 1) with 1 in B2. lia. }
  subst d. exact C.
Qed.

Lemma file_line_exact : forall env self f stk,
  file_line self (f :: stk) = (l_file (f_call f), l_line (f_call f)) /\
  relate_file_line env self (f :: stk) = (relate_go env (l_file (f_call f)), l_line (f_call f)) /\
  (0 <= l_line (f_call f) -> exists d, is_decimal (l_line (f_call f)) d /\ func_line self (f :: stk) = l_func (f_call f) ++ bytes_of " : " ++ d).
Proof.
  intros. split; [reflexivity|]. split; [reflexivity|]. intro H. exists (fmt_d (l_line (f_call f))). split; [apply fmt_d_spec; auto|reflexivity].
Qed.
