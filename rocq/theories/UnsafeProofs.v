From Coq Require Import ZArith List Bool Arith Lia.
From Verif Require Import GoBase GoLists UnsafeModel UnsafeSpec.
Import ListNotations.
Open Scope nat_scope.

Definition fblk (b : block) : list (bool * Z) := map (fun v => (bk_rw b, v)) (bk_data b).
Fixpoint flat (bs : list block) : list (bool * Z) :=
  match bs with [] => [] | b :: bs => fblk b ++ flat bs end.
Definition base (bs : list block) (k : nat) : nat := length (flat (firstn k bs)).

Lemma flat_app : forall a b, flat (a ++ b) = flat a ++ flat b.
Proof. induction a; intros; cbn [flat app]; [reflexivity|]. rewrite IHa, app_assoc. reflexivity. Qed.

Lemma fblk_length : forall b, length (fblk b) = length (bk_data b).
Proof. intros. apply map_length. Qed.

Lemma skipn_add : forall (A : Type) a (l : list A) b, skipn b (skipn a l) = skipn (a + b) l.
Proof.
  induction a; intros l b; [reflexivity|]. destruct l; cbn [skipn Nat.add]; [destruct b; reflexivity|apply IHa].
Qed.

(** Where the cells of a block are. *)
Lemma block_split : forall bs k b, nth_error bs k = Some b ->
  exists l1 l2, bs = l1 ++ b :: l2 /\ length l1 = k /\ base bs k = length (flat l1) /\
    flat bs = flat l1 ++ fblk b ++ flat l2.
Proof.
  intros bs k b H. apply nth_error_split in H as (l1 & l2 & -> & L). exists l1, l2.
  split; [reflexivity|]. split; [exact L|]. split.
  - unfold base. rewrite <- L, firstn_app, Nat.sub_diag, firstn_all. cbn [firstn]. rewrite app_nil_r. reflexivity.
  - rewrite flat_app. reflexivity.
Qed.

Lemma nth_middle : forall (A : Type) (p d q : list A) i x, i < length d ->
  nth (length p + i) (p ++ d ++ q) x = nth i d x.
Proof.
  intros A p d q i x H. rewrite app_nth2 by lia. replace (length p + i - length p) with i by lia.
  apply app_nth1. exact H.
Qed.

Lemma read_middle : forall rw d p q n, n = length d ->
  read (p ++ map (fun v => (rw, v)) d ++ q) (seq (length p) n) = d.
Proof.
  intros rw d. induction d as [|v d IH]; intros p q n ->; cbn [map length seq read]; [reflexivity|].
  unfold read. cbn [map]. f_equal.
  - rewrite app_nth2 by lia. rewrite Nat.sub_diag. reflexivity.
  - specialize (IH (p ++ [(rw, v)]) q _ eq_refl). rewrite app_length in IH. cbn [length] in IH.
    rewrite Nat.add_1_r in IH. rewrite <- app_assoc in IH. exact IH.
Qed.

Lemma view_read : forall bs k off len b, nth_error bs k = Some b -> off + len <= length (bk_data b) ->
  view bs k off len = read (flat bs) (seq (base bs k + off) len).
Proof.
  intros bs k off len b H L. unfold view. rewrite H.
  destruct (block_split bs k b H) as (l1 & l2 & _ & _ & -> & ->).
  set (d := bk_data b) in *.
  assert (D: d = firstn off d ++ firstn len (skipn off d) ++ skipn (off + len) d).
  { rewrite <- (firstn_skipn off d) at 1. f_equal. rewrite <- (firstn_skipn len (skipn off d)) at 1.
    f_equal. apply skipn_add. }
  assert (F: fblk b = map (fun v => (bk_rw b, v)) (firstn off d) ++
     map (fun v => (bk_rw b, v)) (firstn len (skipn off d)) ++ map (fun v => (bk_rw b, v)) (skipn (off + len) d)).
  { rewrite <- !map_app, <- D. reflexivity. }
  rewrite F. symmetry.
  assert (L1: length (flat l1 ++ map (fun v => (bk_rw b, v)) (firstn off d)) = length (flat l1) + off).
  { rewrite app_length, map_length, firstn_length. lia. }
  assert (L2: length (firstn len (skipn off d)) = len) by (rewrite firstn_length, skipn_length; lia).
  rewrite <- !app_assoc, <- L1. rewrite app_assoc.
  apply read_middle. symmetry. exact L2.
Qed.

Lemma upd_middle : forall (A : Type) (p q : list A) x y, upd (p ++ x :: q) (length p) y = p ++ y :: q.
Proof. induction p; intros; cbn [app upd length]; [reflexivity|]. rewrite IHp. reflexivity. Qed.

Lemma write_middle : forall vs p d q n, length vs = length d -> n = length d ->
  write (p ++ map (fun v => (true, v)) d ++ q) (seq (length p) n) vs =
  Some (p ++ map (fun v => (true, v)) vs ++ q).
Proof.
  induction vs as [|v vs IH]; intros p d q n L ->; destruct d as [|x d]; try discriminate; cbn [length seq map app write].
  - reflexivity.
  - rewrite nth_error_app2 by lia. rewrite Nat.sub_diag. cbn [nth_error].
    rewrite upd_middle. change (p ++ (true, v) :: ?l) with (p ++ [(true, v)] ++ l). rewrite app_assoc.
    replace (S (length p)) with (length (p ++ [(true, v)])) by (rewrite app_length; cbn; lia).
    rewrite (IH _ d q (length d)) by (cbn in L; lia). rewrite <- app_assoc. reflexivity.
Qed.

Lemma write_stop : forall vs p d q n, vs <> [] -> 0 < length d -> n <> 0 ->
  write (p ++ map (fun v => (false, v)) d ++ q) (seq (length p) n) vs = None.
Proof.
  intros [|v vs] p [|x d] q [|n] H1 H2 H3; try contradiction; try (cbn in H2; lia).
  cbn [seq map app write]. rewrite nth_error_app2 by lia. rewrite Nat.sub_diag. reflexivity.
Qed.

(** Only the first cells are written. *)
Lemma write_firstn : forall vs st cells, write st cells vs = write st (firstn (length vs) cells) vs.
Proof.
  induction vs as [|v vs IH]; intros st cells; destruct cells as [|c cells]; cbn [write firstn length]; try reflexivity.
  destruct (nth_error st c) as [[[] x]|]; [apply IH|reflexivity|reflexivity].
Qed.

Definition same_shape (bs bs' : list block) : Prop :=
  Forall2 (fun b b' => bk_addr b = bk_addr b' /\ bk_rw b = bk_rw b' /\ length (bk_data b) = length (bk_data b')) bs bs'.

Lemma same_shape_refl : forall bs, same_shape bs bs.
Proof. induction bs; constructor; auto. Qed.

Lemma same_shape_base : forall bs bs' k, same_shape bs bs' -> base bs k = base bs' k.
Proof.
  unfold base. intros bs bs' k H. revert k. induction H as [|b b' bs bs' (A & B & C) H IH]; intros k.
  - reflexivity.
  - destruct k; cbn [firstn flat]; [reflexivity|]. rewrite !app_length, !fblk_length, C, IH. reflexivity.
Qed.

Lemma same_shape_nth : forall bs bs' k b, same_shape bs bs' -> nth_error bs k = Some b ->
  exists b', nth_error bs' k = Some b' /\ bk_addr b = bk_addr b' /\ bk_rw b = bk_rw b' /\ length (bk_data b) = length (bk_data b').
Proof.
  intros bs bs' k b H. revert k. induction H as [|x x' bs bs' R H IH]; intros k E.
  - destruct k; discriminate.
  - destruct k; cbn in *; [injection E as <-; eauto|apply IH; exact E].
Qed.

Lemma poke_write : forall bs k off vs b, nth_error bs k = Some b -> off + length vs <= length (bk_data b) ->
  match poke bs k off vs with
  | Some bs' => write (flat bs) (seq (base bs k + off) (length vs)) vs = Some (flat bs') /\ same_shape bs bs'
  | None => write (flat bs) (seq (base bs k + off) (length vs)) vs = None
  end.
Proof.
  intros bs k off vs b H L. unfold poke. destruct vs as [|v vs].
  { split; [reflexivity|apply same_shape_refl]. }
  rewrite H. destruct (block_split bs k b H) as (l1 & l2 & E & K & B & F). rewrite B, F.
  remember (v :: vs) as ws eqn:W.
  set (d := bk_data b) in *.
  assert (D: d = firstn off d ++ firstn (length ws) (skipn off d) ++ skipn (off + length ws) d).
  { rewrite <- (firstn_skipn off d) at 1. f_equal. rewrite <- (firstn_skipn (length ws) (skipn off d)) at 1.
    f_equal. apply skipn_add. }
  assert (FB: fblk b = map (fun v => (bk_rw b, v)) (firstn off d) ++
     map (fun v => (bk_rw b, v)) (firstn (length ws) (skipn off d)) ++ map (fun v => (bk_rw b, v)) (skipn (off + length ws) d)).
  { rewrite <- !map_app, <- D. reflexivity. }
  rewrite FB.
  assert (L1: length (flat l1 ++ map (fun v => (bk_rw b, v)) (firstn off d)) = length (flat l1) + off).
  { rewrite app_length, map_length, firstn_length. lia. }
  assert (L2: length (firstn (length ws) (skipn off d)) = length ws) by (rewrite firstn_length, skipn_length; lia).
  rewrite <- !app_assoc, <- L1, (app_assoc (flat l1)).
  destruct (bk_rw b) eqn:RW.
  - split.
    + rewrite write_middle by lia.
      f_equal. rewrite E. rewrite <- K, upd_middle, flat_app. cbn [flat]. unfold fblk. cbn [bk_rw bk_data].
      rewrite !map_app, <- !app_assoc. reflexivity.
    + rewrite E, <- K, upd_middle. apply Forall2_app; [apply same_shape_refl|].
      constructor; [|apply same_shape_refl]. cbn [bk_addr bk_rw bk_data].
      split; [reflexivity|]. split; [exact RW|]. fold d. rewrite D at 1. rewrite !app_length, L2. reflexivity.
  - apply write_stop; [rewrite W; discriminate|rewrite L2, W; cbn; lia|rewrite W; discriminate].
Qed.

(** ** The relation *)
Definition bcells (bs : list block) (h : bhdr) : list nat * list nat :=
  (seq (base bs (bh_blk h) + bh_off h) (bh_len h),
   seq (base bs (bh_blk h) + bh_off h + bh_len h) (bh_cap h - bh_len h)).
Definition scells (bs : list block) (h : shdr) : list nat :=
  seq (base bs (sh_blk h) + sh_off h) (sh_len h).
Definition wfb (bs : list block) (h : bhdr) : Prop :=
  bh_len h <= bh_cap h /\ exists b, nth_error bs (bh_blk h) = Some b /\ bh_off h + bh_cap h <= length (bk_data b).
Definition wfs (bs : list block) (h : shdr) : Prop :=
  exists b, nth_error bs (sh_blk h) = Some b /\ sh_off h + sh_len h <= length (bk_data b).

Definition urel (s : ust) (c : cst) : Prop :=
  c_store c = flat (u_blks s) /\
  c_bytes c = map (bcells (u_blks s)) (u_bytes s) /\
  c_strs c = map (scells (u_blks s)) (u_strs s) /\
  Forall (wfb (u_blks s)) (u_bytes s) /\ Forall (wfs (u_blks s)) (u_strs s).

Lemma base_app : forall bs x k, k < length bs -> base (bs ++ x) k = base bs k.
Proof.
  intros. unfold base. rewrite firstn_app. replace (k - length bs) with 0 by lia.
  cbn [firstn]. rewrite app_nil_r. reflexivity.
Qed.

Lemma base_end : forall bs x, base (bs ++ x) (length bs) = length (flat bs).
Proof.
  intros. unfold base. rewrite firstn_app, Nat.sub_diag, firstn_all. cbn [firstn]. rewrite app_nil_r. reflexivity.
Qed.

Lemma wfb_app : forall bs x h, wfb bs h -> wfb (bs ++ x) h.
Proof.
  intros bs x h (A & b & B & C). split; [exact A|]. exists b. split; [|exact C].
  rewrite nth_error_app1; [exact B|]. apply nth_error_Some. congruence.
Qed.
Lemma wfs_app : forall bs x h, wfs bs h -> wfs (bs ++ x) h.
Proof.
  intros bs x h (b & B & C). exists b. split; [|exact C].
  rewrite nth_error_app1; [exact B|]. apply nth_error_Some. congruence.
Qed.

Lemma map_bcells_app : forall bs x l, Forall (wfb bs) l -> map (bcells (bs ++ x)) l = map (bcells bs) l.
Proof.
  intros bs x l H. apply map_ext_in. intros h Hh. rewrite Forall_forall in H. destruct (H h Hh) as (_ & b & B & _).
  unfold bcells. rewrite base_app; [reflexivity|]. apply nth_error_Some. congruence.
Qed.
Lemma map_scells_app : forall bs x l, Forall (wfs bs) l -> map (scells (bs ++ x)) l = map (scells bs) l.
Proof.
  intros bs x l H. apply map_ext_in. intros h Hh. rewrite Forall_forall in H. destruct (H h Hh) as (b & B & _).
  unfold scells. rewrite base_app; [reflexivity|]. apply nth_error_Some. congruence.
Qed.

Lemma urel_blk : forall s c x, urel s c ->
  c_store c ++ flat [x] = flat (u_blks s ++ [x]) /\
  c_bytes c = map (bcells (u_blks s ++ [x])) (u_bytes s) /\
  c_strs c = map (scells (u_blks s ++ [x])) (u_strs s) /\
  Forall (wfb (u_blks s ++ [x])) (u_bytes s) /\ Forall (wfs (u_blks s ++ [x])) (u_strs s).
Proof.
  intros s c x (A & B & C & D & E).
  rewrite flat_app, A, B, C, map_bcells_app, map_scells_app by assumption.
  repeat (split; [reflexivity|]). split.
  - eapply Forall_impl; [|exact D]. intros. apply wfb_app. assumption.
  - eapply Forall_impl; [|exact E]. intros. apply wfs_app. assumption.
Qed.

Lemma urel_new_bytes : forall s c a l extra, urel s c ->
  urel (UST (u_blks s ++ [Block a true (l ++ repeat 0%Z extra)])
            (u_bytes s ++ [BH (length (u_blks s)) 0 (length l) (length l + extra)]) (u_strs s))
       (new_bytes c l extra).
Proof.
  intros s c a l extra R. destruct (urel_blk s c (Block a true (l ++ repeat 0%Z extra)) R) as (A & B & C & D & E).
  unfold new_bytes, fresh. split; cbn [c_store c_bytes c_strs u_blks u_bytes u_strs].
  - rewrite <- A. cbn [flat]. unfold fblk. cbn [bk_rw bk_data]. rewrite map_app, app_nil_r, app_assoc. reflexivity.
  - split; [|split; [exact C|split; [|exact E]]].
    + rewrite map_app, <- B. f_equal. cbn [map]. unfold bcells. cbn [bh_blk bh_off bh_len bh_cap].
      rewrite base_end, app_length, map_length, repeat_length, Nat.add_0_r.
      destruct R as (-> & _). replace (length l + extra - length l) with extra by lia. reflexivity.
    + apply Forall_app. split; [exact D|]. constructor; [|constructor]. unfold wfb. cbn [bh_blk bh_off bh_len bh_cap].
      split; [lia|]. eexists. split; [rewrite nth_error_app2, Nat.sub_diag by lia; reflexivity|].
      cbn [bk_data]. rewrite app_length, repeat_length. lia.
Qed.

Lemma urel_new_str : forall s c a rw l, urel s c ->
  urel (UST (u_blks s ++ [Block a rw l]) (u_bytes s) (u_strs s ++ [SH (length (u_blks s)) 0 (length l)]))
       (new_str c rw l).
Proof.
  intros s c a rw l R. destruct (urel_blk s c (Block a rw l) R) as (A & B & C & D & E).
  unfold new_str, fresh. split; cbn [c_store c_bytes c_strs u_blks u_bytes u_strs].
  - rewrite <- A. cbn [flat]. unfold fblk. cbn [bk_rw bk_data]. rewrite app_nil_r. reflexivity.
  - split; [exact B|split; [|split; [exact D|]]].
    + rewrite map_app, <- C. f_equal. cbn [map]. unfold scells. cbn [sh_blk sh_off sh_len].
      rewrite base_end, Nat.add_0_r. destruct R as (-> & _). reflexivity.
    + apply Forall_app. split; [exact E|]. constructor; [|constructor]. unfold wfs. cbn [sh_blk sh_off sh_len].
      eexists. split; [rewrite nth_error_app2, Nat.sub_diag by lia; reflexivity|]. cbn [bk_data]. lia.
Qed.

Lemma urel_poke : forall s c bs, urel s c -> same_shape (u_blks s) bs ->
  urel (UST bs (u_bytes s) (u_strs s)) (CST (flat bs) (c_bytes c) (c_strs c)).
Proof.
  intros s c bs (A & B & C & D & E) S.
  assert (BB: forall k, base bs k = base (u_blks s) k) by (intros; symmetry; apply same_shape_base; exact S).
  split; [reflexivity|]. cbn [c_bytes c_strs u_blks u_bytes u_strs].
  split; [rewrite B; apply map_ext; intros; unfold bcells; rewrite BB; reflexivity|].
  split; [rewrite C; apply map_ext; intros; unfold scells; rewrite BB; reflexivity|].
  split.
  - eapply Forall_impl; [|exact D]. intros h (X & b & Y & Z). split; [exact X|].
    destruct (same_shape_nth _ _ _ _ S Y) as (b' & Y' & _ & _ & L). exists b'. split; [exact Y'|lia].
  - eapply Forall_impl; [|exact E]. intros h (b & Y & Z).
    destruct (same_shape_nth _ _ _ _ S Y) as (b' & Y' & _ & _ & L). exists b'. split; [exact Y'|lia].
Qed.

Lemma urel_add_bytes : forall s c h x, urel s c -> wfb (u_blks s) h -> x = bcells (u_blks s) h ->
  urel (UST (u_blks s) (u_bytes s ++ [h]) (u_strs s)) (add_bytes c x).
Proof.
  intros s c h x (A & B & C & D & E) W ->. unfold urel, add_bytes. cbn [c_store c_bytes c_strs u_blks u_bytes u_strs].
  rewrite A, B, C, map_app. repeat (split; [reflexivity|]). split; [|exact E].
  apply Forall_app. split; [exact D|]. constructor; [exact W|constructor].
Qed.
Lemma urel_add_str : forall s c h x, urel s c -> wfs (u_blks s) h -> x = scells (u_blks s) h ->
  urel (UST (u_blks s) (u_bytes s) (u_strs s ++ [h])) (add_str c x).
Proof.
  intros s c h x (A & B & C & D & E) W ->. unfold urel, add_str. cbn [c_store c_bytes c_strs u_blks u_bytes u_strs].
  rewrite A, B, C, map_app. repeat (split; [reflexivity|]). split; [exact D|].
  apply Forall_app. split; [exact E|]. constructor; [exact W|constructor].
Qed.

Lemma firstn_seq : forall n k m, n <= m -> firstn n (seq k m) = seq k n.
Proof.
  induction n; intros k m H; cbn [firstn]; [reflexivity|]. destruct m; [lia|]. cbn [seq]. f_equal. apply IHn. lia.
Qed.
Lemma skipn_seq : forall n k m, skipn n (seq k m) = seq (k + n) (m - n).
Proof.
  induction n; intros k m; cbn [skipn]; [rewrite Nat.add_0_r, Nat.sub_0_r; reflexivity|].
  destruct m; [reflexivity|]. cbn [seq]. rewrite IHn. f_equal. lia.
Qed.
Lemma seq_glue : forall k a b, seq k a ++ seq (k + a) b = seq k (a + b).
Proof. intros. rewrite seq_app. reflexivity. Qed.

Lemma bytes_val_read : forall s c h, urel s c -> wfb (u_blks s) h ->
  bytes_val (u_blks s) h = read (c_store c) (fst (bcells (u_blks s) h)).
Proof.
  intros s c h (A & _) (L & b & B & C). rewrite A. unfold bytes_val, bcells. cbn [fst].
  eapply view_read; [exact B|lia].
Qed.
Lemma str_val_read : forall s c h, urel s c -> wfs (u_blks s) h ->
  str_val (u_blks s) h = read (c_store c) (scells (u_blks s) h).
Proof.
  intros s c h (A & _) (b & B & C). rewrite A. eapply view_read; [exact B|lia].
Qed.

Lemma u_step_sim : forall s c op, urel s c -> sim_out urel (u_step s op) (c_step c op).
Proof.
  intros s c op R. pose proof R as (A & B & C & D & E).
  assert (NB: forall n, nth_error (c_bytes c) n = option_map (bcells (u_blks s)) (nth_error (u_bytes s) n)).
  { intros. rewrite B. apply nth_error_map. }
  assert (NS: forall n, nth_error (c_strs c) n = option_map (scells (u_blks s)) (nth_error (u_strs s) n)).
  { intros. rewrite C. apply nth_error_map. }
  assert (WB: forall n h, nth_error (u_bytes s) n = Some h -> wfb (u_blks s) h).
  { intros n h H. apply nth_error_In in H. rewrite Forall_forall in D. apply D. exact H. }
  assert (WS: forall n h, nth_error (u_strs s) n = Some h -> wfs (u_blks s) h).
  { intros n h H. apply nth_error_In in H. rewrite Forall_forall in E. apply E. exact H. }
  destruct op as [a l extra|a l|a b|a x extra|x|b|x i j|b i j|b i v|a b vs extra|x|b]; cbn [u_step c_step].
  - split; [reflexivity|]. apply urel_new_bytes. exact R.
  - split; [reflexivity|]. apply urel_new_str. exact R.
  - rewrite NB. destruct (nth_error (u_bytes s) b) as [h|] eqn:N; cbn [option_map]; [|split; [reflexivity|exact R]].
    unfold bcells at 1. rewrite (bytes_val_read s c h R (WB _ _ N)). unfold bcells. cbn [fst].
    split; [reflexivity|]. apply urel_new_str. exact R.
  - rewrite NS. destruct (nth_error (u_strs s) x) as [h|] eqn:N; cbn [option_map]; [|split; [reflexivity|exact R]].
    rewrite (str_val_read s c h R (WS _ _ N)). split; [reflexivity|]. apply urel_new_bytes. exact R.
  - rewrite NS. destruct (nth_error (u_strs s) x) as [h|] eqn:N; cbn [option_map]; [|split; [reflexivity|exact R]].
    split; [reflexivity|]. destruct (WS _ _ N) as (b & X & Y). apply urel_add_bytes; [exact R| |].
    + split; [apply Nat.le_refl|]. exists b. split; assumption.
    + unfold bcells, string_bytes, scells. cbn [bh_blk bh_off bh_len bh_cap]. rewrite Nat.sub_diag. reflexivity.
  - rewrite NB. destruct (nth_error (u_bytes s) b) as [h|] eqn:N; cbn [option_map]; [|split; [reflexivity|exact R]].
    unfold bcells at 1. split; [reflexivity|]. destruct (WB _ _ N) as (L & k & X & Y). apply urel_add_str; [exact R| |].
    + exists k. split; [exact X|]. cbn. lia.
    + reflexivity.
  - rewrite NS. destruct (nth_error (u_strs s) x) as [h|] eqn:N; cbn [option_map]; [|split; [reflexivity|exact R]].
    unfold scells at 1 2. rewrite seq_length.
    destruct (Nat.leb_spec i j), (Nat.leb_spec j (sh_len h)); cbn [andb]; try (split; [reflexivity|exact R]).
    split; [reflexivity|]. destruct (WS _ _ N) as (b & X & Y). apply urel_add_str; [exact R| |].
    + exists b. split; [exact X|]. cbn. lia.
    + unfold scells. cbn [sh_blk sh_off sh_len]. rewrite skipn_seq, firstn_seq by lia. f_equal. lia.
  - rewrite NB. destruct (nth_error (u_bytes s) b) as [h|] eqn:N; cbn [option_map]; [|split; [reflexivity|exact R]].
    unfold bcells at 1. destruct (WB _ _ N) as (L & k & X & Y).
    rewrite seq_glue. replace (bh_len h + (bh_cap h - bh_len h)) with (bh_cap h) by lia. rewrite seq_length.
    destruct (Nat.leb_spec i j), (Nat.leb_spec j (bh_cap h)); cbn [andb]; try (split; [reflexivity|exact R]).
    split; [reflexivity|]. apply urel_add_bytes; [exact R| |].
    + split; [cbn; lia|]. exists k. split; [exact X|]. cbn. lia.
    + unfold bcells. cbn [bh_blk bh_off bh_len bh_cap]. rewrite !skipn_seq, firstn_seq by lia.
      f_equal; f_equal; lia.
  - rewrite NB. destruct (nth_error (u_bytes s) b) as [h|] eqn:N; cbn [option_map]; [|split; [reflexivity|exact R]].
    unfold bcells at 1. destruct (WB _ _ N) as (L & k & X & Y).
    destruct (Nat.ltb_spec i (bh_len h)) as [I|I].
    + assert (NE: nth_error (seq (base (u_blks s) (bh_blk h) + bh_off h) (bh_len h)) i =
                  Some (base (u_blks s) (bh_blk h) + (bh_off h + i))).
      { rewrite nth_error_nth' with (d := 0) by (rewrite seq_length; exact I). rewrite seq_nth by exact I. f_equal. lia. }
      rewrite NE. pose proof (poke_write (u_blks s) (bh_blk h) (bh_off h + i) [v] k X ltac:(cbn; lia)) as P.
      cbn [length seq] in P. rewrite A. destruct (poke (u_blks s) (bh_blk h) (bh_off h + i) [v]) as [bs|].
      * destruct P as [-> S]. split; [reflexivity|]. apply urel_poke; assumption.
      * rewrite P. exact Logic.I.
    + assert (NE: nth_error (seq (base (u_blks s) (bh_blk h) + bh_off h) (bh_len h)) i = None).
      { apply nth_error_None. rewrite seq_length. exact I. }
      rewrite NE. split; [reflexivity|exact R].
  - rewrite NB. destruct (nth_error (u_bytes s) b) as [h|] eqn:N; cbn [option_map]; [|split; [reflexivity|exact R]].
    destruct (WB _ _ N) as (L & k & X & Y).
    rewrite (bytes_val_read s c h R (WB _ _ N)).
    unfold bcells. cbn [fst]. rewrite seq_length.
    destruct (Nat.leb_spec (bh_len h + length vs) (bh_cap h)) as [I|I],
      (Nat.leb_spec (length vs) (bh_cap h - bh_len h)) as [J|J]; try lia.
    + rewrite write_firstn, firstn_seq by exact J. rewrite A.
      pose proof (poke_write (u_blks s) (bh_blk h) (bh_off h + bh_len h) vs k X ltac:(lia)) as P.
      rewrite Nat.add_assoc in P.
      destruct (poke (u_blks s) (bh_blk h) (bh_off h + bh_len h) vs) as [bs|].
      * destruct P as [-> S]. split; [reflexivity|].
        pose proof (urel_poke s c bs R S) as R2.
        pose proof (urel_add_bytes _ _ (BH (bh_blk h) (bh_off h) (bh_len h + length vs) (bh_cap h))
          (bcells bs (BH (bh_blk h) (bh_off h) (bh_len h + length vs) (bh_cap h))) R2) as R3.
        cbn [u_blks u_bytes u_strs] in R3. unfold add_bytes in R3. cbn [c_store c_bytes c_strs] in R3.
        assert (Q: (seq (base (u_blks s) (bh_blk h) + bh_off h) (bh_len h) ++ seq (base (u_blks s) (bh_blk h) + bh_off h + bh_len h) (length vs),
           skipn (length vs) (seq (base (u_blks s) (bh_blk h) + bh_off h + bh_len h) (bh_cap h - bh_len h))) =
           bcells bs (BH (bh_blk h) (bh_off h) (bh_len h + length vs) (bh_cap h))).
        { unfold bcells. cbn [bh_blk bh_off bh_len bh_cap]. rewrite <- (same_shape_base _ _ _ S).
          rewrite seq_glue, skipn_seq. f_equal. f_equal; lia. }
        rewrite Q. apply R3; [|reflexivity].
        split; [cbn; lia|]. cbn [bh_blk bh_off bh_len bh_cap].
        destruct (same_shape_nth _ _ _ _ S X) as (k' & X' & _ & _ & Lk). exists k'. split; [exact X'|lia].
      * rewrite P. exact Logic.I.
    + split; [reflexivity|]. apply urel_new_bytes. exact R.
  - rewrite NS. destruct (nth_error (u_strs s) x) as [h|] eqn:N; cbn [option_map]; [|split; [reflexivity|exact R]].
    rewrite (str_val_read s c h R (WS _ _ N)). split; [reflexivity|exact R].
  - rewrite NB. destruct (nth_error (u_bytes s) b) as [h|] eqn:N; cbn [option_map]; [|split; [reflexivity|exact R]].
    rewrite (bytes_val_read s c h R (WB _ _ N)). split; [reflexivity|exact R].
Qed.

Lemma urel_init : urel u_init c_init.
Proof. repeat split; constructor. Qed.

Lemma u_run_sim : forall ops, sim_out urel (run_ops u_step u_init ops) (run_ops c_step c_init ops).
Proof. intros. apply run_ops_sim; [apply u_step_sim|apply urel_init]. Qed.
