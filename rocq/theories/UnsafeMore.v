From Coq Require Import ZArith List Bool Arith Lia.
From Verif Require Import GoBase GoLists UnsafeModel UnsafeSpec UnsafeProofs.
Import ListNotations.
Open Scope nat_scope.

Definition wfst (s : ust) : Prop := exists c, urel s c.

Lemma wfst_init : wfst u_init.
Proof. exists c_init. apply urel_init. Qed.

Lemma wfst_step : forall s op s' o, wfst s -> u_step s op = Ok (s', o) -> wfst s'.
Proof.
  intros s op s' o (c & R) E. pose proof (u_step_sim s c op R) as S. rewrite E in S.
  destruct (c_step c op) as [[c' o']| |]; cbn in S; try contradiction. exists c'. apply S.
Qed.

Lemma wfst_run : forall ops s s' o, wfst s -> run_ops u_step s ops = Ok (s', o) -> wfst s'.
Proof.
  induction ops as [|op ops IH]; intros s s' o W E; cbn [run_ops] in E.
  - injection E as <- _. exact W.
  - destruct (u_step s op) as [[s1 o1]| |] eqn:E1; cbn [bind] in E; try discriminate.
    destruct (run_ops u_step s1 ops) as [[s2 o2]| |] eqn:E2; cbn [bind] in E; try discriminate.
    injection E as <- _. eapply IH; [eapply wfst_step; eassumption|exact E2].
Qed.

Lemma wfst_reach : forall ops s o, run_ops u_step u_init ops = Ok (s, o) -> wfst s.
Proof. intros. eapply wfst_run; [apply wfst_init|exact H]. Qed.

Lemma wfst_b : forall s n h, wfst s -> nth_error (u_bytes s) n = Some h -> wfb (u_blks s) h.
Proof.
  intros s n h (c & _ & _ & _ & D & _) H. rewrite Forall_forall in D. apply D. eapply nth_error_In; exact H.
Qed.
Lemma wfst_s : forall s n h, wfst s -> nth_error (u_strs s) n = Some h -> wfs (u_blks s) h.
Proof.
  intros s n h (c & _ & _ & _ & _ & D) H. rewrite Forall_forall in D. apply D. eapply nth_error_In; exact H.
Qed.

Ltac ustep E :=
  repeat match type of E with
  | context [match nth_error ?l ?n with _ => _ end] => destruct (nth_error l n) eqn:?
  | context [if ?b then _ else _] => destruct b eqn:?
  | context [match poke ?a ?b ?c ?d with _ => _ end] => destruct (poke a b c d) eqn:?
  end; try discriminate E; injection E as <- <-; cbn [u_blks u_bytes u_strs] in *.

Lemma step_mono : forall s op s' o, u_step s op = Ok (s', o) ->
  (exists lb, u_bytes s' = u_bytes s ++ lb) /\ (exists ls, u_strs s' = u_strs s ++ ls).
Proof.
  intros s op s' o E. destruct op; cbn [u_step] in E; ustep E;
    (split; [first [exists []; rewrite app_nil_r; reflexivity | eexists; reflexivity]
            |first [exists []; rewrite app_nil_r; reflexivity | eexists; reflexivity]]).
Qed.

Lemma run_mono : forall ops s s' o, run_ops u_step s ops = Ok (s', o) ->
  (exists lb, u_bytes s' = u_bytes s ++ lb) /\ (exists ls, u_strs s' = u_strs s ++ ls).
Proof.
  induction ops as [|op ops IH]; intros s s' o E; cbn [run_ops] in E.
  - injection E as <- _. split; exists []; rewrite app_nil_r; reflexivity.
  - destruct (u_step s op) as [[s1 o1]| |] eqn:E1; cbn [bind] in E; try discriminate.
    destruct (run_ops u_step s1 ops) as [[s2 o2]| |] eqn:E2; cbn [bind] in E; try discriminate.
    injection E as <- _.
    destruct (IH _ _ _ E2) as [[a' A] [b' B]]. destruct (step_mono _ _ _ _ E1) as [[c C] [d D]].
    rewrite A, B, C, D. split; eexists; rewrite <- app_assoc; reflexivity.
Qed.

Lemma text_iff : forall s x l, text s x l <-> exists h, nth_error (u_strs s) x = Some h /\ str_val (u_blks s) h = l.
Proof.
  intros. unfold text. cbn [u_step]. destruct (nth_error (u_strs s) x) as [h|].
  - split; [intros E; injection E as <-; eauto|]. intros (h' & E & <-). injection E as <-. reflexivity.
  - split; [discriminate|]. intros (h' & E & _). discriminate.
Qed.
Lemma contents_iff : forall s x l, contents s x l <-> exists h, nth_error (u_bytes s) x = Some h /\ bytes_val (u_blks s) h = l.
Proof.
  intros. unfold contents. cbn [u_step]. destruct (nth_error (u_bytes s) x) as [h|].
  - split; [intros E; injection E as <-; eauto|]. intros (h' & E & <-). injection E as <-. reflexivity.
  - split; [discriminate|]. intros (h' & E & _). discriminate.
Qed.

Lemma nth_error_grow : forall (A : Type) (l r : list A) n x, nth_error l n = Some x -> nth_error (l ++ r) n = Some x.
Proof. intros. rewrite nth_error_app1; [assumption|]. apply nth_error_Some. congruence. Qed.

(** ** Sharing *)
Lemma share_string_bytes : forall s x l ops2 s2 o2, text s x l ->
  run_ops u_step s (UStringBytes x :: ops2) = Ok (s2, o2) ->
  exists l', text s2 x l' /\ contents s2 (slices s) l'.
Proof.
  intros s x l ops2 s2 o2 T E. apply text_iff in T as (h & N & _).
  cbn [run_ops u_step] in E. rewrite N in E. cbn [bind] in E.
  destruct (run_ops u_step _ ops2) as [[s3 o3]| |] eqn:E2; cbn [bind] in E; try discriminate. injection E as <- _.
  destruct (run_mono _ _ _ _ E2) as [[lb B] [ls S]]. cbn [u_bytes u_strs] in B, S.
  exists (str_val (u_blks s3) h). split.
  - apply text_iff. exists h. split; [|reflexivity]. rewrite S. apply nth_error_grow. exact N.
  - apply contents_iff. exists (string_bytes h). split; [|reflexivity]. rewrite B. apply nth_error_grow.
    unfold slices. rewrite nth_error_app2, Nat.sub_diag by lia. reflexivity.
Qed.

Lemma share_bytes_string : forall s b l ops2 s2 o2, contents s b l ->
  run_ops u_step s (UBytesString b :: ops2) = Ok (s2, o2) ->
  exists l', contents s2 b l' /\ text s2 (strings s) l'.
Proof.
  intros s x l ops2 s2 o2 T E. apply contents_iff in T as (h & N & _).
  cbn [run_ops u_step] in E. rewrite N in E. cbn [bind] in E.
  destruct (run_ops u_step _ ops2) as [[s3 o3]| |] eqn:E2; cbn [bind] in E; try discriminate. injection E as <- _.
  destruct (run_mono _ _ _ _ E2) as [[lb B] [ls S]]. cbn [u_bytes u_strs] in B, S.
  exists (bytes_val (u_blks s3) h). split.
  - apply contents_iff. exists h. split; [|reflexivity]. rewrite B. apply nth_error_grow. exact N.
  - apply text_iff. exists (bytes_string h). split; [|reflexivity]. rewrite S. apply nth_error_grow.
    unfold strings. rewrite nth_error_app2, Nat.sub_diag by lia. reflexivity.
Qed.

Lemma firstn_skipn_upd : forall off (d : list Z) len i v, i < len ->
  firstn len (skipn off (upd d (off + i) v)) = upd (firstn len (skipn off d)) i v.
Proof.
  induction off as [|off IH]; intros d len i v H.
  - cbn [skipn Nat.add]. revert len i H. induction d as [|x d IHd]; intros len i H; destruct len, i; cbn [upd firstn]; try lia; try reflexivity.
    f_equal. apply IHd. lia.
  - destruct d as [|x d]; cbn [skipn upd Nat.add]; [destruct len, i; reflexivity|]. apply IH. exact H.
Qed.

Lemma nth_error_upd_eq : forall (A : Type) (l : list A) k x, k < length l -> nth_error (upd l k x) k = Some x.
Proof. induction l; intros k x H; destruct k; cbn in *; try lia; [reflexivity|]. apply IHl. lia. Qed.
Lemma nth_error_upd_neq : forall (A : Type) (l : list A) k k' x, k <> k' -> nth_error (upd l k x) k' = nth_error l k'.
Proof. induction l; intros k k' x H; destruct k, k'; cbn; try congruence; try reflexivity. apply IHl. congruence. Qed.

Lemma set_through : forall s b i v h k, wfst s -> nth_error (u_bytes s) b = Some h ->
  nth_error (u_blks s) (bh_blk h) = Some k -> i < bh_len h ->
  (bk_rw k = false /\ u_step s (USet b i v) = Panic) \/
  (bk_rw k = true /\ u_step s (USet b i v) =
     Ok (UST (upd (u_blks s) (bh_blk h) (Block (bk_addr k) true (upd (bk_data k) (bh_off h + i) v))) (u_bytes s) (u_strs s), UNone)).
Proof.
  intros s b i v h k W N K I. destruct (wfst_b _ _ _ W N) as (L & k' & K' & C). assert (k' = k) by congruence. subst k'.
  cbn [u_step]. rewrite N. destruct (Nat.ltb_spec i (bh_len h)) as [_|X]; [|lia].
  unfold poke. rewrite K. destruct (bk_rw k) eqn:RW; [right|left]; (split; [reflexivity|]); [|reflexivity].
  rewrite (upd_split (bk_data k)) by lia. cbn [app length]. rewrite Nat.add_1_r. reflexivity.
Qed.

Lemma write_string : forall s x l i v, wfst s -> text s x l -> i < length l ->
  (exists s2, run_ops u_step s [UStringBytes x; USet (slices s) i v] = Ok (s2, [UNone; UNone]) /\ text s2 x (upd l i v)) \/
  run_ops u_step s [UStringBytes x; USet (slices s) i v] = Panic.
Proof.
  intros s x l i v W T I. apply text_iff in T as (h & N & V).
  destruct (wfst_s _ _ _ W N) as (k & K & C).
  assert (LL: length l = sh_len h).
  { rewrite <- V. unfold str_val, view. rewrite K, firstn_length, skipn_length. lia. }
  assert (E1: u_step s (UStringBytes x) = Ok (UST (u_blks s) (u_bytes s ++ [string_bytes h]) (u_strs s), UNone)).
  { cbn [u_step]. rewrite N. reflexivity. }
  pose proof (wfst_step _ _ _ _ W E1) as W1.
  assert (N1: nth_error (u_bytes (UST (u_blks s) (u_bytes s ++ [string_bytes h]) (u_strs s))) (slices s) = Some (string_bytes h)).
  { cbn [u_bytes]. unfold slices. rewrite nth_error_app2, Nat.sub_diag by lia. reflexivity. }
  cbn [run_ops]. rewrite E1. cbn [bind].
  destruct (set_through _ _ i v _ k W1 N1 K ltac:(cbn; lia)) as [[_ E2]|[_ E2]]; rewrite E2; [right; reflexivity|].
  left. eexists. split; [reflexivity|]. apply text_iff. exists h. cbn [u_blks u_bytes u_strs string_bytes bh_blk bh_off].
  split; [exact N|]. unfold str_val, view. rewrite nth_error_upd_eq by (apply nth_error_Some; congruence). cbn [bk_data].
  rewrite firstn_skipn_upd by lia. rewrite <- V. unfold str_val, view. rewrite K. reflexivity.
Qed.

(** ** Families *)
Definition finv (g : list nat) (t : fam) (s : ust) : Prop :=
  length g = length (u_blks s) /\
  f_bytes t = map (fun h => nth (bh_blk h) g 0) (u_bytes s) /\
  f_strs t = map (fun h => nth (sh_blk h) g 0) (u_strs s) /\
  (forall f, In f g -> f < f_next t) /\
  (forall k b, nth_error (u_blks s) k = Some b -> bk_rw b = false -> In (nth k g 0) (f_lits t)).

Lemma finv_init : finv [] (FAM 0 [] [] []) u_init.
Proof. repeat split; cbn; try tauto. intros [|k] b H; discriminate. Qed.

Lemma fam_grow_b : forall (g : list nat) f bs l, length g = length bs -> Forall (wfb bs) l ->
  map (fun h => nth (bh_blk h) (g ++ [f]) 0) l = map (fun h => nth (bh_blk h) g 0) l.
Proof.
  intros g f bs l L H. apply map_ext_in. intros h I. rewrite Forall_forall in H. destruct (H h I) as (_ & b & B & _).
  apply app_nth1. rewrite L. apply nth_error_Some. congruence.
Qed.
Lemma fam_grow_s : forall (g : list nat) f bs l, length g = length bs -> Forall (wfs bs) l ->
  map (fun h => nth (sh_blk h) (g ++ [f]) 0) l = map (fun h => nth (sh_blk h) g 0) l.
Proof.
  intros g f bs l L H. apply map_ext_in. intros h I. rewrite Forall_forall in H. destruct (H h I) as (b & B & _).
  apply app_nth1. rewrite L. apply nth_error_Some. congruence.
Qed.

Lemma finv_ro : forall (g : list nat) t bs x f lits,
  length g = length bs ->
  (forall k b, nth_error bs k = Some b -> bk_rw b = false -> In (nth k g 0) (f_lits t)) ->
  (forall y, In y (f_lits t) -> In y lits) ->
  (bk_rw x = false -> In f lits) ->
  forall k b, nth_error (bs ++ [x]) k = Some b -> bk_rw b = false -> In (nth k (g ++ [f]) 0) lits.
Proof.
  intros g t bs x f lits L H Sub X k b N RW. destruct (Nat.lt_ge_cases k (length bs)) as [K|K].
  - rewrite nth_error_app1 in N by exact K. rewrite app_nth1 by lia. eapply Sub, H; eassumption.
  - rewrite nth_error_app2 in N by exact K. rewrite app_nth2 by lia. rewrite L.
    destruct (k - length bs) as [|m]; cbn [nth_error nth] in *.
    + injection N as <-. apply X. exact RW.
    + destruct m; discriminate.
Qed.

Lemma finv_step : forall g t s op s' o, wfst s -> finv g t s -> u_step s op = Ok (s', o) ->
  exists g', finv g' (fam_step t (op, o)) s' /\
    (forall f, In f (f_bytes t) -> In f (f_bytes (fam_step t (op, o)))).
Proof.
  intros g t s op s' o W (L & B & S & M & RO) E.
  destruct W as (c & _ & _ & _ & WB & WS).
  assert (LB: length (f_bytes t) = length (u_bytes s)) by (rewrite B; apply map_length).
  assert (LS: length (f_strs t) = length (u_strs s)) by (rewrite S; apply map_length).
  assert (NB: forall n, nth_error (f_bytes t) n = option_map (fun h => nth (bh_blk h) g 0) (nth_error (u_bytes s) n)).
  { intros. rewrite B. apply nth_error_map. }
  assert (NS: forall n, nth_error (f_strs t) n = option_map (fun h => nth (sh_blk h) g 0) (nth_error (u_strs s) n)).
  { intros. rewrite S. apply nth_error_map. }
  assert (START_B: forall x h, bk_rw x = true -> bh_blk h = length (u_blks s) ->
     finv (g ++ [f_next t]) (FAM (Datatypes.S (f_next t)) (f_bytes t ++ [f_next t]) (f_strs t) (f_lits t))
          (UST (u_blks s ++ [x]) (u_bytes s ++ [h]) (u_strs s))).
  { intros x h RW K. unfold finv. cbn [f_next f_bytes f_strs f_lits u_blks u_bytes u_strs].
    split; [rewrite !app_length; cbn; lia|].
    split; [rewrite map_app, (fam_grow_b g _ (u_blks s)), <- B by assumption; cbn [map];
            rewrite K, app_nth2, L, Nat.sub_diag by lia; reflexivity|].
    split; [rewrite (fam_grow_s g _ (u_blks s)), <- S by assumption; reflexivity|].
    split; [intros f F; apply in_app_iff in F as [F|[F|[]]]; [apply M in F|]; lia|].
    eapply finv_ro; try eassumption; [auto|congruence]. }
  assert (START_S: forall x h lits, (forall y, In y (f_lits t) -> In y lits) -> (bk_rw x = false -> In (f_next t) lits) ->
     sh_blk h = length (u_blks s) ->
     finv (g ++ [f_next t]) (FAM (Datatypes.S (f_next t)) (f_bytes t) (f_strs t ++ [f_next t]) lits)
          (UST (u_blks s ++ [x]) (u_bytes s) (u_strs s ++ [h]))).
  { intros x h lits Sub RW K. unfold finv. cbn [f_next f_bytes f_strs f_lits u_blks u_bytes u_strs].
    split; [rewrite !app_length; cbn; lia|].
    split; [rewrite (fam_grow_b g _ (u_blks s)), <- B by assumption; reflexivity|].
    split; [rewrite map_app, (fam_grow_s g _ (u_blks s)), <- S by assumption; cbn [map];
            rewrite K, app_nth2, L, Nat.sub_diag by lia; reflexivity|].
    split; [intros f F; apply in_app_iff in F as [F|[F|[]]]; [apply M in F|]; lia|].
    eapply finv_ro; eassumption. }
  assert (JOIN_B: forall h, finv g (FAM (f_next t) (f_bytes t ++ [nth (bh_blk h) g 0]) (f_strs t) (f_lits t))
          (UST (u_blks s) (u_bytes s ++ [h]) (u_strs s))).
  { intros h. unfold finv. cbn [f_next f_bytes f_strs f_lits u_blks u_bytes u_strs].
    rewrite map_app, <- B. repeat (split; [assumption || reflexivity|]). exact RO. }
  assert (JOIN_S: forall h, finv g (FAM (f_next t) (f_bytes t) (f_strs t ++ [nth (sh_blk h) g 0]) (f_lits t))
          (UST (u_blks s) (u_bytes s) (u_strs s ++ [h]))).
  { intros h. unfold finv. cbn [f_next f_bytes f_strs f_lits u_blks u_bytes u_strs].
    rewrite map_app, <- S. repeat (split; [assumption || reflexivity|]). exact RO. }
  assert (SAME: finv g t s) by (repeat split; assumption).
  assert (POKE: forall k off vs bs, poke (u_blks s) k off vs = Some bs ->
     length g = length bs /\ (forall k b, nth_error bs k = Some b -> bk_rw b = false -> In (nth k g 0) (f_lits t))).
  { intros k off vs bs P. unfold poke in P. destruct vs as [|v vs]; [injection P as <-; split; assumption|].
    destruct (nth_error (u_blks s) k) as [b|] eqn:K; [|discriminate]. destruct (bk_rw b) eqn:RW; [|discriminate].
    injection P as <-. split; [rewrite upd_length; exact L|]. intros k2 b2 K2 RW2.
    destruct (Nat.eq_dec k k2) as [<-|NE].
    - rewrite nth_error_upd_eq in K2 by (apply nth_error_Some; congruence). injection K2 as <-. discriminate.
    - rewrite nth_error_upd_neq in K2 by exact NE. eapply RO; eassumption. }
  assert (INB: forall x f, In f (f_bytes t) -> In f (f_bytes t ++ [x])) by (intros; apply in_app_iff; auto).
  destruct op as [a l extra|a l|a b|a x extra|x|b|x i j|b i j|b i v|a b vs extra|x|b]; cbn [u_step] in E; ustep E;
    cbn [fam_step]; rewrite ?NB, ?NS, ?LB, ?LS;
    repeat match goal with
    | H : nth_error _ _ = _ |- _ => rewrite H
    end; cbn [option_map].
  - eexists; split; [apply START_B; reflexivity|apply INB].
  - eexists; split; [apply START_S; [intros y Y; right; exact Y|left; reflexivity|reflexivity]|auto].
  - assert (X: (b <? length (u_bytes s)) = true) by (apply Nat.ltb_lt, nth_error_Some; congruence). rewrite X.
    eexists; split; [apply START_S; [auto|discriminate|reflexivity]|auto].
  - assert (X: (b <? length (u_bytes s)) = false) by (apply Nat.ltb_ge, nth_error_None; assumption). rewrite X.
    eexists; split; [exact SAME|auto].
  - assert (X: (x <? length (u_strs s)) = true) by (apply Nat.ltb_lt, nth_error_Some; congruence). rewrite X.
    eexists; split; [apply START_B; reflexivity|apply INB].
  - assert (X: (x <? length (u_strs s)) = false) by (apply Nat.ltb_ge, nth_error_None; assumption). rewrite X.
    eexists; split; [exact SAME|auto].
  - eexists; split; [apply (JOIN_B (string_bytes _))|apply INB].
  - eexists; split; [exact SAME|auto].
  - eexists; split; [apply (JOIN_S (bytes_string _))|auto].
  - eexists; split; [exact SAME|auto].
  - eexists; split; [apply (JOIN_S (SH _ _ _))|auto].
  - eexists; split; [exact SAME|auto].
  - eexists; split; [exact SAME|auto].
  - eexists; split; [apply (JOIN_B (BH _ _ _ _))|apply INB].
  - eexists; split; [exact SAME|auto].
  - eexists; split; [exact SAME|auto].
  - match goal with H : poke _ _ _ _ = Some _ |- _ => destruct (POKE _ _ _ _ H) as [L2 RO2] end.
    exists g; split; [repeat split; assumption|auto].
  - eexists; split; [exact SAME|auto].
  - eexists; split; [exact SAME|auto].
  - match goal with H : poke _ _ _ _ = Some _ |- _ => destruct (POKE _ _ _ _ H) as [L2 RO2] end.
    exists g; split; [|apply INB]. destruct (JOIN_B (BH (bh_blk b0) (bh_off b0) (bh_len b0 + length vs) (bh_cap b0))) as (_ & B2 & S2 & M2 & _).
    repeat split; assumption.
  - exists (g ++ [nth (bh_blk b0) g 0]); split; [|apply INB].
    unfold finv. cbn [f_next f_bytes f_strs f_lits u_blks u_bytes u_strs].
    split; [rewrite !app_length; cbn; lia|].
    split; [rewrite map_app, (fam_grow_b g _ (u_blks s)), <- B by assumption; cbn [map bh_blk];
            rewrite (app_nth2 g), L, Nat.sub_diag by lia; reflexivity|].
    split; [rewrite (fam_grow_s g _ (u_blks s)), <- S by assumption; reflexivity|].
    assert (IN: In (nth (bh_blk b0) g 0) g).
    { apply nth_In. rewrite L. rewrite Forall_forall in WB.
      match goal with H : nth_error (u_bytes s) b = Some _ |- _ => apply nth_error_In in H; destruct (WB _ H) as (_ & k & K & _) end.
      apply nth_error_Some. congruence. }
    split; [intros f F; apply in_app_iff in F as [F|[F|[]]]; [apply M in F; lia|subst f; apply M; exact IN]|].
    eapply finv_ro; try eassumption; [auto|discriminate].
  - eexists; split; [exact SAME|auto].
  - eexists; split; [exact SAME|auto].
  - eexists; split; [exact SAME|auto].
  - eexists; split; [exact SAME|auto].
  - eexists; split; [exact SAME|auto].
Qed.

Lemma run_length : forall ops s s' o, run_ops u_step s ops = Ok (s', o) -> length o = length ops.
Proof.
  induction ops as [|op ops IH]; intros s s' o E; cbn [run_ops] in E.
  - injection E as _ <-. reflexivity.
  - destruct (u_step s op) as [[s1 o1]| |] eqn:E1; cbn [bind] in E; try discriminate.
    destruct (run_ops u_step s1 ops) as [[s2 o2]| |] eqn:E2; cbn [bind] in E; try discriminate.
    injection E as _ <-. cbn [length]. f_equal. eapply IH. exact E2.
Qed.

Lemma finv_run : forall ops g t s s' o, wfst s -> finv g t s -> run_ops u_step s ops = Ok (s', o) ->
  exists g', finv g' (fold_left fam_step (combine ops o) t) s' /\
    (forall f, In f (f_bytes t) -> In f (f_bytes (fold_left fam_step (combine ops o) t))).
Proof.
  induction ops as [|op ops IH]; intros g t s s' o W F E; cbn [run_ops] in E.
  - injection E as <- <-. exists g. split; [exact F|auto].
  - destruct (u_step s op) as [[s1 o1]| |] eqn:E1; cbn [bind] in E; try discriminate.
    destruct (run_ops u_step s1 ops) as [[s2 o2]| |] eqn:E2; cbn [bind] in E; try discriminate.
    injection E as <- <-. cbn [combine fold_left].
    destruct (finv_step _ _ _ _ _ _ W F E1) as (g1 & F1 & I1).
    destruct (IH _ _ _ _ _ (wfst_step _ _ _ _ W E1) F1 E2) as (g2 & F2 & I2).
    exists g2. split; [exact F2|]. intros f Hf. apply I2, I1, Hf.
Qed.

(** Blocks of other families are not written. *)
Lemma step_keeps : forall g t s op s' o h f, wfst s -> finv g t s -> u_step s op = Ok (s', o) ->
  wfs (u_blks s) h -> nth (sh_blk h) g 0 = f -> ~ In f (f_bytes t) ->
  str_val (u_blks s') h = str_val (u_blks s) h.
Proof.
  intros g t s op s' o h f W (L & B & S & M & RO) E (k & K & C) F NI.
  assert (APP: forall x, str_val (u_blks s ++ [x]) h = str_val (u_blks s) h).
  { intros x. unfold str_val, view. rewrite nth_error_app1 by (apply nth_error_Some; congruence). reflexivity. }
  assert (POKE: forall b hb off vs bs, nth_error (u_bytes s) b = Some hb -> poke (u_blks s) (bh_blk hb) off vs = Some bs ->
     str_val bs h = str_val (u_blks s) h).
  { intros b hb off vs bs N P. unfold poke in P. destruct vs as [|v vs]; [injection P as <-; reflexivity|].
    destruct (nth_error (u_blks s) (bh_blk hb)) as [x|] eqn:X; [|discriminate].
    destruct (bk_rw x); [|discriminate]. injection P as <-.
    unfold str_val, view. rewrite nth_error_upd_neq; [reflexivity|].
    intros EQ. apply NI. rewrite <- F, <- EQ, B. apply in_map_iff. exists hb. split; [reflexivity|].
    eapply nth_error_In. exact N. }
  destruct op as [a l extra|a l|a b|a x extra|x|b|x i j|b i j|b i v|a b vs extra|x|b]; cbn [u_step] in E; ustep E;
    first [apply APP | reflexivity | eapply POKE; eassumption].
Qed.

Lemma run_keeps : forall ops g t s s' o h f, wfst s -> finv g t s -> run_ops u_step s ops = Ok (s', o) ->
  (exists n, nth_error (u_strs s) n = Some h) -> nth (sh_blk h) g 0 = f ->
  ~ In f (f_bytes (fold_left fam_step (combine ops o) t)) ->
  str_val (u_blks s') h = str_val (u_blks s) h.
Proof.
  induction ops as [|op ops IH]; intros g t s s' o h f W F E (n & N) G NI; cbn [run_ops] in E.
  - injection E as <- <-. reflexivity.
  - destruct (u_step s op) as [[s1 o1]| |] eqn:E1; cbn [bind] in E; try discriminate.
    destruct (run_ops u_step s1 ops) as [[s2 o2]| |] eqn:E2; cbn [bind] in E; try discriminate.
    injection E as <- <-. cbn [combine fold_left] in NI.
    destruct (finv_step _ _ _ _ _ _ W F E1) as (g1 & F1 & I1).
    pose proof (wfst_step _ _ _ _ W E1) as W1.
    destruct (finv_run _ _ _ _ _ _ W1 F1 E2) as (g2 & F2 & I2).
    destruct (step_mono _ _ _ _ E1) as [_ [ls LS]].
    assert (N1: nth_error (u_strs s1) n = Some h) by (rewrite LS; apply nth_error_grow; exact N).
    assert (G1: nth (sh_blk h) g1 0 = f).
    { destruct F as (_ & _ & S & _), F1 as (_ & _ & S1 & _).
      assert (Q: nth_error (f_strs t) n = Some f) by (rewrite S, nth_error_map, N; cbn; congruence).
      assert (Q1: nth_error (f_strs (fam_step t (op, o1))) n = Some (nth (sh_blk h) g1 0)) by (rewrite S1, nth_error_map, N1; reflexivity).
      assert (EXT: exists r, f_strs (fam_step t (op, o1)) = f_strs t ++ r).
      { cbn [fam_step]. destruct o1, op; cbn [f_strs];
          repeat match goal with |- context [match ?x with _ => _ end] => destruct x end; cbn [f_strs];
          first [exists []; rewrite app_nil_r; reflexivity | eexists; reflexivity]. }
      destruct EXT as [r EX]. rewrite EX, (nth_error_grow _ _ r n f Q) in Q1. congruence. }
    rewrite (IH _ _ _ _ _ _ _ W1 F1 E2 (ex_intro _ n N1) G1 NI).
    eapply step_keeps; try eassumption; [eapply wfst_s; eassumption|].
    intros IN. apply NI, I2, I1, IN.
Qed.

Lemma combine_app : forall (A B : Type) (a1 a2 : list A) (b1 b2 : list B), length a1 = length b1 ->
  combine (a1 ++ a2) (b1 ++ b2) = combine a1 b1 ++ combine a2 b2.
Proof.
  induction a1; intros a2 [|y b1] b2 L; try discriminate; cbn [app combine]; [reflexivity|].
  f_equal. apply IHa1. cbn in L. lia.
Qed.

Lemma fstrs_ext : forall es t, exists r, f_strs (fold_left fam_step es t) = f_strs t ++ r.
Proof.
  induction es as [|[op o1] es IH]; intros t; [exists []; rewrite app_nil_r; reflexivity|].
  cbn [fold_left]. destruct (IH (fam_step t (op, o1))) as [r R].
  assert (EXT: exists r, f_strs (fam_step t (op, o1)) = f_strs t ++ r).
  { cbn [fam_step]. destruct o1, op; cbn [f_strs];
      repeat match goal with |- context [match ?x with _ => _ end] => destruct x end; cbn [f_strs];
      first [exists []; rewrite app_nil_r; reflexivity | eexists; reflexivity]. }
  destruct EXT as [r0 R0]. rewrite R, R0, <- app_assoc. eexists. reflexivity.
Qed.

Lemma unshared_kept : forall ops1 ops2 s1 s2 o1 o2 x l,
  run_ops u_step u_init ops1 = Ok (s1, o1) -> run_ops u_step s1 ops2 = Ok (s2, o2) ->
  text s1 x l -> unshared (families (ops1 ++ ops2) (o1 ++ o2)) x -> text s2 x l.
Proof.
  intros ops1 ops2 s1 s2 o1 o2 x l E1 E2 T (f & FS & NI).
  apply text_iff in T as (h & N & V).
  pose proof (wfst_reach _ _ _ E1) as W1.
  destruct (finv_run _ _ _ _ _ _ wfst_init finv_init E1) as (g1 & F1 & _).
  unfold families in *. rewrite combine_app in FS, NI by (symmetry; eapply run_length; exact E1).
  rewrite fold_left_app in FS, NI.
  set (t1 := fold_left fam_step (combine ops1 o1) (FAM 0 [] [] [])) in *.
  assert (G: nth (sh_blk h) g1 0 = f).
  { destruct F1 as (_ & _ & S & _). destruct (fstrs_ext (combine ops2 o2) t1) as [r R]. rewrite R in FS.
    assert (Q: nth_error (f_strs t1) x = Some (nth (sh_blk h) g1 0)) by (rewrite S, nth_error_map, N; reflexivity).
    rewrite (nth_error_grow _ _ r _ _ Q) in FS. congruence. }
  destruct (run_mono _ _ _ _ E2) as [_ [ls LS]].
  apply text_iff. exists h. split; [rewrite LS; apply nth_error_grow; exact N|].
  rewrite <- V. eapply run_keeps; try eassumption; exists x; exact N.
Qed.

(** ** Death *)
Lemma dies_on_literal : forall ops s obs op,
  run_ops u_step u_init ops = Ok (s, obs) -> u_step s op = Panic ->
  exists b, of_literal (families ops obs) b /\
    ((exists i v, op = USet b i v) \/ (exists a vs extra, op = UAppend a b vs extra)).
Proof.
  intros ops s obs op E P. pose proof (wfst_reach _ _ _ E) as W.
  destruct (finv_run _ _ _ _ _ _ wfst_init finv_init E) as (g & (L & B & S & M & RO) & _).
  fold (families ops obs) in *.
  assert (Q: forall b h off vs, nth_error (u_bytes s) b = Some h -> poke (u_blks s) (bh_blk h) off vs = None ->
     of_literal (families ops obs) b).
  { intros b h off vs N K. destruct (wfst_b _ _ _ W N) as (_ & k & X & _). unfold poke in K. rewrite X in K.
    destruct vs; [discriminate|]. destruct (bk_rw k) eqn:RW; [discriminate|].
    exists (nth (bh_blk h) g 0). split; [rewrite B, nth_error_map, N; reflexivity|]. eapply RO; eassumption. }
  destruct op as [a l extra|a l|a b|a x extra|x|b|x i j|b i j|b i v|a b vs extra|x|b]; cbn [u_step] in P;
    try discriminate P;
    repeat match type of P with
    | context [match nth_error ?l ?n with _ => _ end] => destruct (nth_error l n) eqn:?; try discriminate P
    | context [if ?b then _ else _] => destruct b eqn:?; try discriminate P
    | context [match poke ?a ?b ?c ?d with _ => _ end] => destruct (poke a b c d) eqn:?; try discriminate P
    end.
  - exists b. split; [eapply Q; eassumption|]. left. eauto.
  - exists b. split; [eapply Q; eassumption|]. right. eauto.
Qed.

Lemma literal_dies : forall ops s obs a l i v,
  run_ops u_step u_init ops = Ok (s, obs) -> i < length l ->
  run_ops u_step s [ULit a l; UStringBytes (strings s); USet (slices s) i v] = Panic.
Proof.
  intros ops s obs a l i v E I. unfold strings, slices. cbn [run_ops u_step bind u_strs u_bytes u_blks].
  rewrite nth_error_app2, Nat.sub_diag by lia. cbn [nth_error bind u_strs u_bytes u_blks].
  rewrite nth_error_app2, Nat.sub_diag by lia. cbn [nth_error string_bytes bh_len bh_blk bh_off sh_blk sh_off sh_len].
  destruct (Nat.ltb_spec i (length l)); [|lia]. unfold poke. rewrite nth_error_app2, Nat.sub_diag by lia. reflexivity.
Qed.

(** ** Append *)
Lemma str_val_app : forall bs x h, wfs bs h -> str_val (bs ++ [x]) h = str_val bs h.
Proof.
  intros bs x h (k & K & _). unfold str_val, view. rewrite nth_error_app1 by (apply nth_error_Some; congruence). reflexivity.
Qed.
Lemma bytes_val_app : forall bs x h, wfb bs h -> bytes_val (bs ++ [x]) h = bytes_val bs h.
Proof.
  intros bs x h (_ & k & K & _). unfold bytes_val, view. rewrite nth_error_app1 by (apply nth_error_Some; congruence). reflexivity.
Qed.

Lemma append_string_bytes : forall s x l a vs extra, wfst s -> text s x l -> vs <> [] ->
  exists s2, run_ops u_step s [UStringBytes x; UAppend a (slices s) vs extra] = Ok (s2, [UNone; UNone]) /\
    contents s2 (slices s + 1) (l ++ vs) /\
    (forall y m, text s y m -> text s2 y m) /\ (forall b m, contents s b m -> contents s2 b m).
Proof.
  intros s x l a vs extra W T NE. apply text_iff in T as (h & N & V).
  unfold slices. cbn [run_ops u_step]. rewrite N. cbn [bind u_bytes u_strs u_blks].
  rewrite nth_error_app2, Nat.sub_diag by lia. cbn [nth_error].
  destruct (Nat.leb_spec (bh_len (string_bytes h) + length vs) (bh_cap (string_bytes h))) as [X|X].
  { cbn [string_bytes bh_len bh_cap] in X. destruct vs; [contradiction|]. cbn [length] in X. lia. }
  cbn [bind]. eexists. split; [reflexivity|].
  assert (VV: bytes_val (u_blks s) (string_bytes h) = l) by exact V. rewrite VV.
  split; [|split].
  - apply contents_iff. cbn [u_blks u_bytes]. eexists. split.
    + replace (length (u_bytes s) + 1) with (length (u_bytes s ++ [string_bytes h])) by (rewrite app_length; reflexivity).
      rewrite nth_error_app2, Nat.sub_diag by lia. reflexivity.
    + unfold bytes_val, view. cbn [bh_blk bh_off bh_len]. rewrite nth_error_app2, Nat.sub_diag by lia. cbn [nth_error bk_data skipn].
      rewrite firstn_app, Nat.sub_diag, firstn_all. cbn [firstn]. apply app_nil_r.
  - intros y m Y. apply text_iff in Y as (hy & NY & <-). apply text_iff. exists hy. cbn [u_blks u_strs]. split; [exact NY|].
    apply str_val_app. eapply wfst_s; eassumption.
  - intros y m Y. apply contents_iff in Y as (hy & NY & <-). apply contents_iff. exists hy. cbn [u_blks u_bytes].
    split; [rewrite <- app_assoc; apply nth_error_grow; exact NY|].
    apply bytes_val_app. eapply wfst_b; eassumption.
Qed.

Lemma append_bytes_string : forall s b l a vs extra s2 o2, wfst s -> contents s b l ->
  run_ops u_step s [UBytesString b; UAppend a b vs extra] = Ok (s2, o2) ->
  text s2 (strings s) l /\ contents s2 b l /\ contents s2 (slices s) (l ++ vs).
Proof.
  intros s b l a vs extra s2 o2 W T E. apply contents_iff in T as (h & N & V).
  destruct (wfst_b _ _ _ W N) as (LC & k & K & C).
  cbn [run_ops u_step] in E. rewrite N in E. cbn [bind u_bytes u_strs u_blks] in E. rewrite N in E.
  assert (NN: forall (A : Type) (l : list A) z, nth_error (l ++ [z]) (length l) = Some z).
  { intros. rewrite nth_error_app2, Nat.sub_diag by lia. reflexivity. }
  destruct (Nat.leb_spec (bh_len h + length vs) (bh_cap h)) as [X|X].
  - destruct (poke (u_blks s) (bh_blk h) (bh_off h + bh_len h) vs) as [bs|] eqn:P; cbn [bind] in E; [|discriminate].
    injection E as <- _.
    assert (VW: exists d, bk_rw k = bk_rw k /\ nth_error bs (bh_blk h) = Some (Block (bk_addr k) (bk_rw k) d) /\
              d = firstn (bh_off h + bh_len h) (bk_data k) ++ vs ++ skipn (bh_off h + bh_len h + length vs) (bk_data k)).
    { unfold poke in P. destruct vs as [|v vs].
      - injection P as <-. exists (bk_data k). split; [reflexivity|]. split; [rewrite K; destruct k; reflexivity|].
        cbn [length app]. rewrite Nat.add_0_r, firstn_skipn. reflexivity.
      - rewrite K in P. destruct (bk_rw k); [|discriminate]. injection P as <-.
        eexists. split; [reflexivity|]. split; [apply nth_error_upd_eq, nth_error_Some; congruence|reflexivity]. }
    destruct VW as (d & _ & KB & D).
    assert (D1: firstn (bh_len h) (skipn (bh_off h) d) = l).
    { rewrite <- V. unfold bytes_val, view. rewrite K, D. rewrite skipn_app, firstn_app.
      rewrite skipn_length, firstn_length.
      replace (bh_len h - (Nat.min (bh_off h + bh_len h) (length (bk_data k)) - bh_off h)) with 0 by lia.
      cbn [firstn]. rewrite app_nil_r, skipn_firstn_comm, firstn_firstn. f_equal. lia. }
    assert (D2: firstn (bh_len h + length vs) (skipn (bh_off h) d) = l ++ vs).
    { rewrite <- V. unfold bytes_val, view. rewrite K, D. rewrite skipn_app, firstn_app.
      rewrite skipn_length, firstn_length.
      replace (bh_off h - Nat.min (bh_off h + bh_len h) (length (bk_data k))) with 0 by lia.
      replace (bh_len h + length vs - (Nat.min (bh_off h + bh_len h) (length (bk_data k)) - bh_off h)) with (length vs) by lia.
      cbn [skipn]. rewrite firstn_app, Nat.sub_diag, firstn_all. cbn [firstn]. rewrite app_nil_r.
      f_equal. rewrite skipn_firstn_comm, firstn_firstn. f_equal. lia. }
    split; [|split].
    + apply text_iff. exists (bytes_string h). cbn [u_blks u_strs]. split; [apply NN|].
      unfold str_val, view. cbn [bytes_string sh_blk sh_off sh_len]. rewrite KB. exact D1.
    + apply contents_iff. exists h. cbn [u_blks u_bytes]. split; [apply nth_error_grow; exact N|].
      unfold bytes_val, view. rewrite KB. exact D1.
    + apply contents_iff. eexists. cbn [u_blks u_bytes]. split; [apply NN|].
      unfold bytes_val, view. cbn [bh_blk bh_off bh_len]. rewrite KB. exact D2.
  - cbn [bind] in E. injection E as <- _. split; [|split].
    + apply text_iff. exists (bytes_string h). cbn [u_blks u_strs]. split; [apply NN|]. rewrite <- V.
      rewrite str_val_app; [reflexivity|]. exists k. split; [exact K|]. cbn. lia.
    + apply contents_iff. exists h. cbn [u_blks u_bytes]. split; [apply nth_error_grow; exact N|].
      rewrite bytes_val_app; [exact V|]. split; [exact LC|]. eauto.
    + apply contents_iff. eexists. cbn [u_blks u_bytes]. split; [apply NN|].
      unfold bytes_val at 1, view. cbn [bh_blk bh_off bh_len]. rewrite NN. cbn [bk_data skipn].
      rewrite firstn_app, Nat.sub_diag, firstn_all. cbn [firstn]. rewrite app_nil_r, V. reflexivity.
Qed.

(** ** Writeable *)
Definition layout (first : Z) (s : ust) : Prop :=
  forall k b, nth_error (u_blks s) k = Some b ->
    if bk_rw b then (first <= bk_addr b)%Z else (bk_addr b + Z.of_nat (length (bk_data b)) <= first)%Z.

Lemma layout_step : forall first s op s' o, laid_out first op -> layout first s -> u_step s op = Ok (s', o) -> layout first s'.
Proof.
  intros first s op s' o LO H E.
  assert (APP: forall x, (if bk_rw x then (first <= bk_addr x)%Z else (bk_addr x + Z.of_nat (length (bk_data x)) <= first)%Z) ->
    forall k b, nth_error (u_blks s ++ [x]) k = Some b ->
    if bk_rw b then (first <= bk_addr b)%Z else (bk_addr b + Z.of_nat (length (bk_data b)) <= first)%Z).
  { intros x X k b N. destruct (Nat.lt_ge_cases k (length (u_blks s))) as [K|K].
    - rewrite nth_error_app1 in N by exact K. eapply H. exact N.
    - rewrite nth_error_app2 in N by exact K. destruct (k - length (u_blks s)) as [|[|m]]; cbn in N; try discriminate.
      injection N as <-. exact X. }
  assert (POKE: forall k off vs bs, poke (u_blks s) k off vs = Some bs -> forall k b, nth_error bs k = Some b ->
    if bk_rw b then (first <= bk_addr b)%Z else (bk_addr b + Z.of_nat (length (bk_data b)) <= first)%Z).
  { intros k off vs bs P k2 b2 N. unfold poke in P. destruct vs as [|v vs]; [injection P as <-; eapply H; exact N|].
    destruct (nth_error (u_blks s) k) as [b|] eqn:K; [|discriminate]. destruct (bk_rw b) eqn:RW; [|discriminate].
    injection P as <-. destruct (Nat.eq_dec k k2) as [<-|NE].
    - rewrite nth_error_upd_eq in N by (apply nth_error_Some; congruence). injection N as <-. cbn [bk_rw bk_addr].
      specialize (H k b K). rewrite RW in H. exact H.
    - rewrite nth_error_upd_neq in N by exact NE. eapply H. exact N. }
  destruct op as [a l extra|a l|a b|a x extra|x|b|x i j|b i j|b i v|a b vs extra|x|b]; cbn [u_step] in E; ustep E;
    cbn [laid_out] in LO; unfold layout; cbn [u_blks];
    first [exact H | apply APP; exact LO | eapply POKE; eassumption].
Qed.

Lemma layout_run : forall first ops s s' o, Forall (laid_out first) ops -> layout first s ->
  run_ops u_step s ops = Ok (s', o) -> layout first s'.
Proof.
  induction ops as [|op ops IH]; intros s s' o LO H E; cbn [run_ops] in E.
  - injection E as <- _. exact H.
  - destruct (u_step s op) as [[s1 o1]| |] eqn:E1; cbn [bind] in E; try discriminate.
    destruct (run_ops u_step s1 ops) as [[s2 o2]| |] eqn:E2; cbn [bind] in E; try discriminate.
    injection E as <- _. inversion LO as [|? ? L1 L2]; subst. eapply IH; [exact L2| |exact E2].
    eapply layout_step; eassumption.
Qed.

Lemma writeable_exact : forall first ops s obs b l i v,
  Forall (laid_out first) ops -> run_ops u_step u_init ops = Ok (s, obs) ->
  contents s b l -> i < length l ->
  (says_writeable first s b = Some true /\ exists s2, u_step s (USet b i v) = Ok (s2, UNone) /\ contents s2 b (upd l i v)) \/
  (says_writeable first s b = Some false /\ u_step s (USet b i v) = Panic).
Proof.
  intros first ops s obs b l i v LO E T I. pose proof (wfst_reach _ _ _ E) as W.
  assert (LY: layout first s).
  { eapply layout_run; [exact LO| |exact E]. intros [|k] x X; discriminate. }
  apply contents_iff in T as (h & N & V). destruct (wfst_b _ _ _ W N) as (LC & k & K & C).
  assert (LL: length l = bh_len h).
  { rewrite <- V. unfold bytes_val, view. rewrite K, firstn_length, skipn_length. lia. }
  specialize (LY _ _ K).
  unfold says_writeable. rewrite N. cbn [option_map]. unfold bytes_writeable, writeable, address. rewrite K.
  destruct (set_through s b i v h k W N K ltac:(lia)) as [[RW EP]|[RW EP]]; rewrite RW in LY.
  - right. split; [|exact EP]. f_equal. apply Z.leb_gt. lia.
  - left. split; [f_equal; apply Z.leb_le; lia|]. eexists. split; [exact EP|].
    apply contents_iff. exists h. cbn [u_blks u_bytes]. split; [exact N|].
    unfold bytes_val, view. rewrite nth_error_upd_eq by (apply nth_error_Some; congruence). cbn [bk_data].
    rewrite firstn_skipn_upd by lia. rewrite <- V. unfold bytes_val, view. rewrite K. reflexivity.
Qed.

(** ** The forms used in the property file *)
Lemma cells_exact : forall ops,
    match run_ops u_step u_init ops, run_ops c_step c_init ops with
    | Ok (_, seen), Ok (_, seen') => seen = seen'
    | Panic, Panic => True
    | _, _ => False
    end.
Proof.
  intros ops. pose proof (u_run_sim ops) as S. 
  destruct (run_ops u_step u_init ops) as [[s o]| |] eqn:E, (run_ops c_step c_init ops) as [[c o']| |]; cbn in S; try tauto.
  exfalso. revert E. clear. generalize u_init. induction ops as [|op ops IH]; intros s E; cbn [run_ops] in E; [discriminate|].
  destruct (u_step s op) as [[s1 o1]| |] eqn:E1; cbn [bind] in E; try discriminate.
  - destruct (run_ops u_step s1 ops) as [[s2 o2]| |] eqn:E2; cbn [bind] in E; try discriminate. eapply IH. exact E2.
  - destruct op; cbn [u_step] in E1; 
      repeat match type of E1 with
      | context [match nth_error ?l ?n with _ => _ end] => destruct (nth_error l n) eqn:?; try discriminate E1
      | context [if ?b then _ else _] => destruct b eqn:?; try discriminate E1
      | context [match poke ?a ?b ?c ?d with _ => _ end] => destruct (poke a b c d) eqn:?; try discriminate E1
      end; discriminate E1.
Qed.

Lemma share_all :
  (forall ops s obs x l ops2 s2 obs2,
     run_ops u_step u_init ops = Ok (s, obs) -> text s x l ->
     run_ops u_step s (UStringBytes x :: ops2) = Ok (s2, obs2) ->
     exists l', text s2 x l' /\ contents s2 (slices s) l') /\
  (forall ops s obs b l ops2 s2 obs2,
     run_ops u_step u_init ops = Ok (s, obs) -> contents s b l ->
     run_ops u_step s (UBytesString b :: ops2) = Ok (s2, obs2) ->
     exists l', contents s2 b l' /\ text s2 (strings s) l') /\
  (forall ops s obs x l i v,
     run_ops u_step u_init ops = Ok (s, obs) -> text s x l -> (i < length l)%nat ->
     (exists s2, run_ops u_step s [UStringBytes x; USet (slices s) i v] = Ok (s2, [UNone; UNone]) /\
                 text s2 x (upd l i v)) \/
     run_ops u_step s [UStringBytes x; USet (slices s) i v] = Panic).
Proof.
  split; [intros; eapply share_string_bytes; eassumption|].
  split; [intros; eapply share_bytes_string; eassumption|].
  intros. apply write_string; try assumption. eapply wfst_reach. eassumption.
Qed.

Lemma string_changes :
  exists ops1 ops2 s1 s2 obs1 obs2 x l,
    run_ops u_step u_init ops1 = Ok (s1, obs1) /\ run_ops u_step s1 ops2 = Ok (s2, obs2) /\
    text s1 x l /\ ~ text s2 x l.
Proof.
  exists [UMake 100 [97%Z] 0; UCopyS 200 0], [UStringBytes 0; USet 1 0 98%Z]. do 4 eexists. exists 0, [97%Z].
  split; [vm_compute; reflexivity|]. split; [vm_compute; reflexivity|]. split; vm_compute; [reflexivity|discriminate].
Qed.

Lemma append_all :
  (forall ops s obs x l a vs extra,
     run_ops u_step u_init ops = Ok (s, obs) -> text s x l -> vs <> [] ->
     exists s2, run_ops u_step s [UStringBytes x; UAppend a (slices s) vs extra] = Ok (s2, [UNone; UNone]) /\
       contents s2 (slices s + 1) (l ++ vs) /\
       (forall y m, text s y m -> text s2 y m) /\ (forall b m, contents s b m -> contents s2 b m)) /\
  (forall ops s obs b l a vs extra s2 obs2,
     run_ops u_step u_init ops = Ok (s, obs) -> contents s b l ->
     run_ops u_step s [UBytesString b; UAppend a b vs extra] = Ok (s2, obs2) ->
     text s2 (strings s) l /\ contents s2 b l /\ contents s2 (slices s) (l ++ vs)) /\
  (exists ops s obs x l i j s2 obs2 a v l',
     run_ops u_step u_init ops = Ok (s, obs) /\ text s x l /\
     run_ops u_step s [UStringBytes x; USubB (slices s) i j; UAppend a (slices s + 1) [v] 0] = Ok (s2, obs2) /\
     text s2 x l' /\ l' <> l).
Proof.
  split; [intros; apply append_string_bytes; try assumption; eapply wfst_reach; eassumption|].
  split; [intros; eapply append_bytes_string; try eassumption; eapply wfst_reach; eassumption|].
  exists [UMake 100 [97; 98]%Z 0; UCopyS 200 0]. do 2 eexists. exists 0, [97; 98]%Z, 0, 1. do 2 eexists. exists 300%Z, 99%Z, [97; 99]%Z.
  split; [vm_compute; reflexivity|]. split; [vm_compute; reflexivity|]. split; [vm_compute; reflexivity|].
  split; [vm_compute; reflexivity|discriminate].
Qed.

Lemma writeable_wrong :
  (exists first ops s obs b l i v s2,
     run_ops u_step u_init ops = Ok (s, obs) /\ contents s b l /\ (i < length l)%nat /\
     says_writeable first s b = Some false /\ u_step s (USet b i v) = Ok (s2, UNone)) /\
  (exists first ops s obs b l i v,
     run_ops u_step u_init ops = Ok (s, obs) /\ contents s b l /\ (i < length l)%nat /\
     says_writeable first s b = Some true /\ u_step s (USet b i v) = Panic).
Proof.
  split.
  - exists 500%Z, [UMake 400 [97%Z] 0]. do 2 eexists. exists 0, [97%Z], 0, 98%Z. eexists.
    split; [vm_compute; reflexivity|]. split; [vm_compute; reflexivity|]. split; [cbn; lia|].
    split; vm_compute; reflexivity.
  - exists 500%Z, [ULit 600 [97%Z]; UStringBytes 0]. do 2 eexists. exists 0, [97%Z], 0, 98%Z.
    split; [vm_compute; reflexivity|]. split; [vm_compute; reflexivity|]. split; [cbn; lia|].
    split; vm_compute; reflexivity.
Qed.

Lemma literals_kill :
  (forall ops s obs op,
     run_ops u_step u_init ops = Ok (s, obs) -> u_step s op = Panic ->
     exists b, of_literal (families ops obs) b /\
       ((exists i v, op = USet b i v) \/ (exists a vs extra, op = UAppend a b vs extra))) /\
  (forall ops s obs a l i v,
     run_ops u_step u_init ops = Ok (s, obs) -> (i < length l)%nat ->
     run_ops u_step s [ULit a l; UStringBytes (strings s); USet (slices s) i v] = Panic).
Proof.
  split; intros; [eapply dies_on_literal; eassumption|eapply literal_dies; eassumption].
Qed.

Lemma str_writeable_exact : forall first ops s obs x l i v,
  Forall (laid_out first) ops -> run_ops u_step u_init ops = Ok (s, obs) ->
  text s x l -> (i < length l)%nat ->
  (says_str_writeable first s x = Some true /\
   exists s2, run_ops u_step s [UStringBytes x; USet (slices s) i v] = Ok (s2, [UNone; UNone]) /\ text s2 x (upd l i v)) \/
  (says_str_writeable first s x = Some false /\
   run_ops u_step s [UStringBytes x; USet (slices s) i v] = Panic).
Proof.
  intros first ops s obs x l i v LO E T I. pose proof (wfst_reach _ _ _ E) as W.
  pose proof (write_string s x l i v W T I) as WS.
  assert (E1: run_ops u_step u_init (ops ++ [UStringBytes x]) =
     match u_step s (UStringBytes x) with Ok (s1, o) => Ok (s1, obs ++ [o]) | Panic => Panic | Diverge => Diverge end).
  { rewrite run_ops_app, E. cbn [bind run_ops]. destruct (u_step s (UStringBytes x)) as [[s1 o]| |]; reflexivity. }
  pose proof T as T0. apply text_iff in T0 as (h & N & V).
  cbn [u_step] in E1. rewrite N in E1.
  set (s1 := UST (u_blks s) (u_bytes s ++ [string_bytes h]) (u_strs s)) in *.
  assert (C1: contents s1 (slices s) l).
  { apply contents_iff. exists (string_bytes h). split; [|exact V]. cbn [u_bytes s1]. unfold slices.
    rewrite nth_error_app2, Nat.sub_diag by lia. reflexivity. }
  assert (LO1: Forall (laid_out first) (ops ++ [UStringBytes x])).
  { apply Forall_app. split; [exact LO|]. constructor; [exact Logic.I|constructor]. }
  assert (SW: says_writeable first s1 (slices s) = says_str_writeable first s x).
  { unfold says_writeable, says_str_writeable. rewrite N. cbn [u_bytes s1]. unfold slices.
    rewrite nth_error_app2, Nat.sub_diag by lia. reflexivity. }
  assert (RU: run_ops u_step s [UStringBytes x; USet (slices s) i v] =
     match u_step s1 (USet (slices s) i v) with Ok (s2, o) => Ok (s2, [UNone; o]) | Panic => Panic | Diverge => Diverge end).
  { cbn [run_ops]. replace (u_step s (UStringBytes x)) with (Ok (s1, UNone)) by (cbn [u_step]; rewrite N; reflexivity).
    cbn [bind]. destruct (u_step s1 (USet (slices s) i v)) as [[s2 o]| |]; reflexivity. }
  destruct (writeable_exact first _ s1 _ (slices s) l i v LO1 E1 C1 I) as [(A & s2 & B & C)|(A & B)];
    rewrite SW in A.
  - left. split; [exact A|]. destruct WS as [X|X]; [exact X|]. rewrite RU, B in X. discriminate X.
  - right. split; [exact A|]. rewrite RU, B. reflexivity.
Qed.
