(** Proofs: concurrent calls of package regable behave as if made one after the other. *)
From Coq Require Import String.
From Coq Require Import ZArith List Bool Arith Lia ZifyBool.
From Verif Require Import GoBase GoLists GoStrings MathModel QueueProofs ConcBase SpinProofs RegModel RegSpec RegProofs RegObjModel RegObjSpec RegObjProofs.
From Verif Require Import RegFineModel RegFineSpec.
Import ListNotations.
Open Scope Z_scope.

(** ** Registries with the same names *)
Lemma names_nth l l' g : map names l = map names l' -> option_map names (nth_error l g) = option_map names (nth_error l' g).
Proof. intros H. rewrite <- !nth_error_map. now rewrite H. Qed.
Lemma names_cell l l' p : map names l = map names l' -> option_map fst (ocell l p) = option_map fst (ocell l' p).
Proof.
  intros H. apply (names_nth _ _ (fst p)) in H. unfold ocell.
  destruct (nth_error l (fst p)) as [g|], (nth_error l' (fst p)) as [g'|]; try discriminate; [|reflexivity].
  cbn in H. unfold names in H. assert (E : map fst (ag_cells g) = map fst (ag_cells g')) by congruence.
  rewrite <- !nth_error_map. now rewrite E.
Qed.
Lemma names_icell l l' id : map names l = map names l' -> icell l id = icell l' id.
Proof.
  intros H. unfold icell. destruct (_ && _); [|reflexivity].
  pose proof (names_cell _ _ (Z.to_nat (id / 2 ^ 24 - 1), Z.to_nat (id mod 2 ^ 24 - 1)) H) as E.
  destruct (ocell l _), (ocell l' _); try discriminate; reflexivity.
Qed.
Lemma same_refl a : same_names a a. Proof. split; reflexivity. Qed.
Lemma same_trans a b c : same_names a b -> same_names b c -> same_names a c.
Proof. intros [A B] [C D]. split; congruence. Qed.
Lemma same_sym a b : same_names a b -> same_names b a.
Proof. intros [A B]. split; congruence. Qed.
Lemma set_names l p v : map names (set_ocell l p v) = map names l.
Proof.
  unfold set_ocell. destruct (nth_error l (fst p)) as [g|] eqn:E; [|reflexivity]. destruct (nth_error (ag_cells g) (snd p)) as [c|] eqn:E2; [|reflexivity].
  rewrite map_upd. apply upd_same. rewrite nth_error_map, E. cbn. unfold names. cbn. rewrite map_upd. cbn. rewrite upd_same; [reflexivity|].
  now rewrite nth_error_map, E2.
Qed.

(** What does not change: everything but the values. *)
Definition rshape (p : reger) := (rg_id p, rg_name p, rg_gen p, map (fun c => (rc_name c, rc_id c)) (rg_list p)).
Definition shape (r : regs) := (rs_locked r, rs_gen r, map rshape (rs_list r)).
Lemma shape_nth r r' g : shape r = shape r' -> option_map rshape (nth_error (rs_list r) g) = option_map rshape (nth_error (rs_list r') g).
Proof. unfold shape. intros H. rewrite <- !nth_error_map. congruence. Qed.
Lemma shape_len r r' : shape r = shape r' -> zlen (rs_list r) = zlen (rs_list r').
Proof. unfold shape. intros H. assert (E : map rshape (rs_list r) = map rshape (rs_list r')) by congruence. apply (f_equal zlen) in E. now rewrite !zlen_map in E. Qed.
Lemma rshape_len p p' : rshape p = rshape p' -> zlen (rg_list p) = zlen (rg_list p').
Proof.
  unfold rshape. intros H. assert (E : map (fun c => (rc_name c, rc_id c)) (rg_list p) = map (fun c => (rc_name c, rc_id c)) (rg_list p')) by congruence.
  apply (f_equal zlen) in E. now rewrite !zlen_map in E.
Qed.
Lemma set_shape r p v r' o : ro_step r (OSet (Some p) v) = Ok (r', o) -> shape r' = shape r.
Proof.
  destruct p as [i j]. cbn [ro_step]. intros H. apply bind_ok in H. destruct H as (q & Hq & H). apply bind_ok in H. destruct H as (c & Hc & H).
  apply bind_ok in H. destruct H as (l1 & H1 & H). apply bind_ok in H. destruct H as (l2 & H2 & H). injection H as <- _.
  apply aget_ok in Hq, Hc. apply aset_ok in H1, H2. subst. unfold shape. cbn. rewrite map_upd. rewrite upd_same; [reflexivity|].
  rewrite nth_error_map, Hq. cbn. f_equal. unfold rshape. cbn. rewrite map_upd. cbn. rewrite upd_same; [reflexivity|]. now rewrite nth_error_map, Hc.
Qed.

(** ** Looking up an id *)
Definition ia (id : Z) : Z := wrap 32 (fst (reged_ids id) - 0 - 1).
Definition ib (id : Z) : Z := wrap 32 (snd (reged_ids id) - 0 - 1).
Definition oka (r : regs) (id : Z) : bool := negb ((fst (reged_ids id) =? 0) || negb (in_current_range (rs_gen r) (fst (reged_ids id)))).
Definition okb (p : reger) (id : Z) : bool := negb ((snd (reged_ids id) =? 0) || negb (in_current_range (rg_gen p) (snd (reged_ids id)))).
Lemma get_parts r id p : 0 <= ia id -> nth_error (rs_list r) (Z.to_nat (ia id)) = Some p -> 0 <= ib id < zlen (rg_list p) ->
  exists c, reg_get r id = Ok (Z.to_nat (ia id), Z.to_nat (ib id), c, oka r id && okb p id).
Proof.
  intros Hi Hp Hb. unfold reg_get. destruct (zget_handle (rg_list p) (ib id) Hb) as (c & Hc & Ec).
  unfold oka, okb, ia, ib in *. destruct (reged_ids id) as [a b]. cbn [fst snd] in *. rewrite (zget_some _ _ p Hi Hp). cbn [bind]. rewrite Ec. cbn [bind]. now exists c.
Qed.

(** ** Texts *)
Definition head_text (n : Z) (g : areger) : list Z :=
  bytes_of "[Uint32Reger#" ++ fmt_d n ++ bytes_of ": " ++ ag_name g ++ bytes_of "] ids:RangeUint32{val:" ++ fmt_d (zlen (ag_cells g) + 1) ++
  bytes_of " min:0 max:" ++ fmt_d (ag_max g) ++ bytes_of "}".
Definition top_text (o : ro_op) (a : aregs) : list Z :=
  match o with GShowAll => bytes_of "[regable] locked:" ++ bytes_of (if as_locked a then "true" else "false") ++ [10] | _ => [] end.
Definition pre_text (o : ro_op) (a : aregs) (g : nat) (all : option nat) : list Z :=
  match all with
  | None => []
  | Some _ => top_text o a ++ bytes_of "[Uint32Regers] count:" ++ fmt_d (zlen (as_list a)) ++ areger_texts 1 (firstn g (as_list a)) ++ [10]
  end.
Lemma head_ok n g : areger_text n g = head_text n g ++ cell_lines 1 (ag_cells g).
Proof. unfold areger_text, head_text. now rewrite <- !app_assoc. Qed.
Lemma lines_snoc l c : forall n, cell_lines n (l ++ [c]) = cell_lines n l ++ [10] ++ cell_text (n + zlen l) c.
Proof.
  induction l as [|d l IH]; intros n; cbn [cell_lines app].
  - rewrite app_nil_r. do 2 f_equal. unfold zlen. cbn. lia.
  - rewrite IH. rewrite <- !app_assoc. cbn [app]. do 3 f_equal. f_equal. f_equal. unfold zlen. cbn [length]. lia.
Qed.
Lemma texts_snoc l c : forall n, areger_texts n (l ++ [c]) = areger_texts n l ++ [10] ++ areger_text (n + zlen l) c.
Proof.
  induction l as [|d l IH]; intros n; cbn [areger_texts app].
  - rewrite app_nil_r. do 2 f_equal. unfold zlen. cbn. lia.
  - rewrite IH. rewrite <- !app_assoc. cbn [app]. do 3 f_equal. f_equal. f_equal. unfold zlen. cbn [length]. lia.
Qed.
Lemma firstn_upd_le {A} (l : list A) n m x : (n <= m)%nat -> firstn n (upd l m x) = firstn n l.
Proof.
  revert l m. induction n as [|n IH]; intros l m H; [reflexivity|]. destruct l as [|y l]; [reflexivity|]. destruct m as [|m]; [lia|].
  cbn. f_equal. apply IH. lia.
Qed.
Lemma firstn_S_nth {A} (l : list A) n x : nth_error l n = Some x -> firstn (S n) l = firstn n l ++ [x].
Proof.
  revert l. induction n as [|n IH]; intros [|y l] H; try discriminate.
  - cbn in H. injection H as ->. reflexivity.
  - cbn [firstn app]. f_equal. now apply IH.
Qed.

Section Lin.
Context (r0 : regs) (a0 : aregs) (R0 : ro_rel 0 0 r0 a0).

Definition tgt (op : ro_op) (id : Z) : Prop :=
  match op with
  | RBase (GValid i) | RBase (GGet i) | RBase (GSet i _) | RBase (GName i) | RBase (GObjId i) | RObject i | IGetNoErr i | IString i => i = id /\ 0 <= id < 2 ^ 32
  | _ => False
  end.
Definition otgt (op : ro_op) (p : nat * nat) : Prop :=
  match op with OGet (Some q) | OGetNoErr (Some q) | OSet (Some q) _ | OName (Some q) | OId (Some q) | OString (Some q) => q = p | _ => False end.
(** The call [op] is at the record [p]. *)
Definition at_rec (op : ro_op) (p : nat * nat) : Prop :=
  otgt op p \/ exists id, tgt op id /\ icell (as_list a0) id = Some p.
Definition idop (op : ro_op) : Prop := match op with RBase (GObjId _) | OId _ => True | _ => False end.
Definition rdop (op : ro_op) : Prop :=
  match op with RBase (GGet _) | RBase (GName _) | IGetNoErr _ | IString _ | OGet _ | OGetNoErr _ | OName _ | OString _ => True | _ => False end.
Definition wrop (op : ro_op) (v : Z) : Prop := match op with RBase (GSet _ w) | OSet _ w => w = v | _ => False end.

Definition all_ok (o : ro_op) (g : nat) (all : option nat) : Prop :=
  match all with
  | None => exists g', o = GString g' /\ 0 <= g' /\ g = Z.to_nat g'
  | Some n => (o = GShowRegers \/ o = GShowAll) /\ n = length (as_list a0) /\ (g < n)%nat
  end.
(** All values of [a] are of [V]. *)
Definition held (V : nat * nat -> Z -> Prop) (a : aregs) : Prop := forall p c, ocell (as_list a) p = Some c -> V p (snd c).
Definition text_ok (V : nat * nat -> Z -> Prop) (o : ro_op) (x : rf_text) (k : nat) : Prop :=
  all_ok o (tx_g x) (tx_all x) /\ exists a' q, same_names a0 a' /\ held V a' /\ nth_error (as_list a') (tx_g x) = Some q /\ tx_n x = length (ag_cells q) /\ (k <= tx_n x)%nat /\
    tx_buf x = pre_text o a' (tx_g x) (tx_all x) ++ head_text (Z.of_nat (tx_g x) + 1) q ++ cell_lines 1 (firstn k (ag_cells q)).

(** The text was put together from values of [V]. *)
Definition shown (V : nat * nat -> Z -> Prop) (op : ro_op) (r : ro_res) : Prop :=
  is_text op = true -> exists a', same_names a0 a' /\ held V a' /\ ro_spec a' op = Ok (a', r).
(** The call panics, whatever the values. *)
Definition pan (op : ro_op) : Prop := forall b, same_names a0 b -> ro_spec b op = Panic.
Definition pc_ok (V : nat * nat -> Z -> Prop) (pc : rf_pc) (st : tstat ro_op ro_res) : Prop :=
  match pc with
  | QIdle => st = TIdle
  | QGens op id => st = TPend op /\ tgt op id
  | QRegers op id ok => st = TPend op /\ tgt op id /\ ok = oka r0 id
  | QGen op id g ok => st = TPend op /\ tgt op id /\ ok = oka r0 id /\ 0 <= ia id < zlen (rs_list r0) /\ g = Z.to_nat (ia id)
  | QList op id g ok => st = TPend op /\ tgt op id /\ 0 <= ia id /\ g = Z.to_nat (ia id) /\ exists p, nth_error (rs_list r0) g = Some p /\ ok = oka r0 id && okb p id
  | QId op p => st = TPend op /\ at_rec op p /\ idop op
  | QRLock op p | QRead op p => st = TPend op /\ at_rec op p /\ rdop op
  | QLock op p v | QWrite op p v => st = TPend op /\ at_rec op p /\ wrop op v
  | QRUnlock op _ r | QUnlock op _ r => st = TDone op r /\ is_text op = false
  | QRet op r => st = TDone op r /\ shown V op r
  | QFlag op => st = TPend op /\ op = GShowAll
  | QCount op buf => st = TPend op /\ (op = GShowRegers \/ op = GShowAll) /\ buf = top_text op a0
  | QHead op buf g all => st = TPend op /\ all_ok op g all /\ exists a', same_names a0 a' /\ held V a' /\ buf = pre_text op a' g all
  | QLine op x => st = TPend op /\ text_ok V op x (tx_i x)
  | QLRLock op x | QLRead op x => st = TPend op /\ text_ok V op x (tx_i x) /\ (tx_i x < tx_n x)%nat
  | QLRUnlock op x => st = TPend op /\ text_ok V op x (S (tx_i x))
  | QDead => exists op, st = TPend op /\ pan op
  | QCheck _ _ _ _ | QInc _ _ _ _ | QIncW _ _ _ _ _ _ | QApp _ _ _ _ _ | QFinish _ => False
  end.
Record rel (V : nat -> nat * nat -> Z -> Prop) (s : rf_state) (a : aregs) (st : nat -> tstat ro_op ro_res) : Prop := {
  r_rel : ro_rel 0 0 (rf_regs s) a;
  r_shape : shape (rf_regs s) = shape r0;
  r_names : same_names a0 a;
  r_pcs : forall t, pc_ok (V t) (rf_pcs s t) (st t) }.

Lemma held_mono (V W : nat * nat -> Z -> Prop) a : (forall p v, V p v -> W p v) -> held V a -> held W a.
Proof. intros H K p c E. auto. Qed.
Lemma text_mono (V W : nat * nat -> Z -> Prop) o x k : (forall p v, V p v -> W p v) -> text_ok V o x k -> text_ok W o x k.
Proof. intros H (A & a' & q & B & C & D). split; [exact A|]. exists a', q. repeat split; try apply D; try apply B. eapply held_mono; eauto. Qed.
Lemma pc_mono (V W : nat * nat -> Z -> Prop) pc x : (forall p v, V p v -> W p v) -> pc_ok V pc x -> pc_ok W pc x.
Proof.
  intros H. destruct pc; cbn; auto.
  - intros (A & B & a' & C & D & E). repeat split; auto. exists a'. repeat split; try apply C; auto. eapply held_mono; eauto.
  - intros (A & B). split; auto. eapply text_mono; eauto.
  - intros (A & B & C). repeat split; auto. eapply text_mono; eauto. eapply text_mono; eauto.
  - intros (A & B & C). repeat split; auto. eapply text_mono; eauto. eapply text_mono; eauto.
  - intros (A & B). split; auto. eapply text_mono; eauto.
  - intros (A & B). split; auto. intros E. destruct (B E) as (a' & C & D & F). exists a'. repeat split; try apply C; auto. eapply held_mono; eauto.
Qed.
Lemma rel_mono (V W : nat -> nat * nat -> Z -> Prop) s a st : (forall t p v, V t p v -> W t p v) -> rel V s a st -> rel W s a st.
Proof. intros H [A B C D]. constructor; auto. intros t. eapply pc_mono; [apply H|apply D]. Qed.

Section Step.
Context (V : nat -> nat * nat -> Z -> Prop).
(** A step that only moves goroutine [t], without or with effect. *)
Lemma move s a st t pc x : rel V s a st -> pc_ok (V t) pc x -> rel V (rf_go s t pc) a (fupd st t x).
Proof.
  intros [A B C D] H. constructor; cbn; auto. intros u. unfold fupd. destruct (Nat.eqb_spec u t) as [->|N]; auto.
Qed.
Lemma rel_lock s a st p l : rel V s a st -> rel V (rf_set_lock s p l) a st.
Proof. intros [A B C D]. constructor; auto. Qed.
Lemma fupd_id {X} (f : nat -> X) t : forall u, fupd f t (f t) u = f u.
Proof. intros u. unfold fupd. destruct (Nat.eqb_spec u t); congruence. Qed.
Lemma rel_ext s a st st' : (forall u, st' u = st u) -> rel V s a st -> rel V s a st'.
Proof. intros E [A B C D]. constructor; auto. intros t. rewrite E. apply D. Qed.

Definition good (a : aregs) (st : nat -> tstat ro_op ro_res) (s' : rf_state) (h : list (ext ro_op ro_res)) : Prop :=
  exists evs a' st', erase evs = h /\ lin_run rf_seq a st evs a' st' /\ rel V s' a' st'.
Lemma g_stay s a st : rel V s a st -> good a st s [].
Proof. intros H. exists [], a, st. split; [reflexivity|]. split; [constructor|auto]. Qed.
Lemma g_tau a st s1 t pc : rel V s1 a st -> pc_ok (V t) pc (st t) -> good a st (rf_go s1 t pc) [].
Proof.
  intros H K. exists [], a, st. split; [reflexivity|]. split; [constructor|]. eapply rel_ext; [|eapply move; eauto].
  intros u. symmetry. apply fupd_id.
Qed.
Lemma g_lin a st s1 a1 t pc op r : st t = TPend op -> rf_seq a op r a1 -> rel V s1 a1 st -> pc_ok (V t) pc (TDone op r) -> good a st (rf_go s1 t pc) [].
Proof.
  intros Ht Hs H K. exists [ALin t op r], a1, (fupd st t (TDone op r)). split; [reflexivity|]. split.
  - eapply lr_lin; eauto. constructor.
  - now apply move.
Qed.
End Step.
Lemma same_cell a p : same_names a0 a -> ocell (as_list a0) p <> None -> ocell (as_list a) p <> None.
Proof. intros [_ H] N E. apply N. pose proof (names_cell _ _ p H) as K. rewrite E in K. destruct (ocell (as_list a0) p); [discriminate|reflexivity]. Qed.
Lemma same_icell a id : same_names a0 a -> icell (as_list a) id = icell (as_list a0) id.
Proof. intros [_ H]. symmetry. now apply names_icell. Qed.
Lemma icell_ocell l id p : icell l id = Some p -> exists c, ocell l p = Some c.
Proof. intros H. apply icell_some in H. destruct H as (_ & _ & H). exact H. Qed.

(** A record is there, or an object leads nowhere. *)
Lemma rd_spec a op p c : same_names a0 a -> at_rec op p -> rdop op -> ocell (as_list a) p = Some c ->
  forall rc, rc_name rc = fst c -> rc_val rc = snd c -> rc_id rc = Z.of_nat (snd p) + 1 -> Z.of_nat (snd p) + 1 < 2 ^ 24 -> ro_spec a op = Ok (a, rf_read op rc).
Proof.
  intros Hn Ha Hr Hc rc E1 E2 E3 E4.
  assert (T : rec_text rc = obj_text (Z.of_nat (snd p) + 1) c). { rewrite (rec_text_ok rc _ E3) by lia. rewrite E1, E2. now destruct c. }
  destruct Ha as [Ha|(id & Ha & Hi)].
  - destruct op as [[]|? ? ?|?|[q|]|[q|]|[q|]|[q|] ?|[q|]|[q|]|[q|]|?|?|?| |]; cbn in Ha, Hr; try contradiction; subst q; cbn [ro_spec rf_read]; unfold with_cell; rewrite Hc; cbn [bind]; congruence.
  - rewrite <- (same_icell a id Hn) in Hi.
    destruct op as [[]|? ? ?|?|[q|]|[q|]|[q|]|[q|] ?|[q|]|[q|]|[q|]|?|?|?| |]; cbn in Ha, Hr; try contradiction; destruct Ha as [-> _]; cbn [ro_spec rf_read]; unfold with_id, with_cell; rewrite Hi, Hc; cbn [bind]; congruence.
Qed.
Lemma id_spec a op p c : same_names a0 a -> at_rec op p -> idop op -> ocell (as_list a) p = Some c -> ro_spec a op = Ok (a, RRes (GId (Z.of_nat (snd p) + 1))).
Proof.
  intros Hn Ha Hr Hc. destruct Ha as [Ha|(id & Ha & Hi)].
  - destruct op as [[]|? ? ?|?|[q|]|[q|]|[q|]|[q|] ?|[q|]|[q|]|[q|]|?|?|?| |]; cbn in Ha, Hr; try contradiction; subst q; cbn [ro_spec]; unfold with_cell; now rewrite Hc.
  - rewrite <- (same_icell a id Hn) in Hi. apply icell_some in Hi as Hp. destruct Hp as (Ep & H1 & _).
    destruct op as [[]|? ? ?|?|[q|]|[q|]|[q|]|[q|] ?|[q|]|[q|]|[q|]|?|?|?| |]; cbn in Ha, Hr; try contradiction; destruct Ha as [-> _]; cbn [ro_spec]; unfold with_id, with_cell; rewrite Hi, Hc; cbn [bind].
    assert (id mod 2 ^ 24 = Z.of_nat (snd p) + 1) as -> by (rewrite Ep; cbn [snd]; lia). reflexivity.
Qed.
Lemma wr_spec a op p v c : same_names a0 a -> at_rec op p -> wrop op v -> ocell (as_list a) p = Some c ->
  ro_spec a op = Ok (ARegs (as_locked a) (set_ocell (as_list a) p v), RRes (GVal v true)).
Proof.
  intros Hn Ha Hr Hc. destruct Ha as [Ha|(id & Ha & Hi)].
  - destruct op as [[]|? ? ?|?|[q|]|[q|]|[q|]|[q|] ?|[q|]|[q|]|[q|]|?|?|?| |]; cbn in Ha, Hr; try contradiction; subst; cbn [ro_spec]; unfold with_cell; now rewrite Hc.
  - rewrite <- (same_icell a id Hn) in Hi.
    destruct op as [[]|? ? ?|?|[q|]|[q|]|[q|]|[q|] ?|[q|]|[q|]|[q|]|?|?|?| |]; cbn in Ha, Hr; try contradiction; destruct Ha as [-> _]; subst; cbn [ro_spec]; unfold with_id, with_cell; now rewrite Hi, Hc.
Qed.
Lemma seq_plain a op r b : is_text op = false -> ro_spec a op = Ok (b, r) -> rf_seq a op r b.
Proof. unfold rf_seq. now intros ->. Qed.
Lemma rdop_text op : rdop op -> is_text op = false. Proof. destruct op as [[]|? ? ?|?|?|?|?|? ?|?|?|?|?|?|?| |]; cbn; tauto. Qed.
Lemma idop_text op : idop op -> is_text op = false. Proof. destruct op as [[]|? ? ?|?|?|?|?|? ?|?|?|?|?|?|?| |]; cbn; tauto. Qed.
Lemma wrop_text op v : wrop op v -> is_text op = false. Proof. destruct op as [[]|? ? ?|?|?|?|?|? ?|?|?|?|?|?|?| |]; cbn; tauto. Qed.

Section Step2.
Context (V : nat -> nat * nat -> Z -> Prop) (s : rf_state) (a : aregs) (st : nat -> tstat ro_op ro_res).
Context (H : rel V s a st) (cur : forall t, held (V t) a).

Lemma step_idle t op : rf_safe op -> rf_pcs s t = QIdle -> good V a st (fst (rf_step s t op)) (snd (rf_step s t op)).
Proof.
  intros Hs Hpc. pose proof (r_pcs _ _ _ _ H t) as K. rewrite Hpc in K. cbn in K. unfold rf_step. rewrite Hpc.
  assert (INV : forall pc, pc_ok (V t) pc (TPend op) -> good V a st (rf_go s t pc) [Inv t op]).
  { intros pc P. exists [AInv t op], a, (fupd st t (TPend op)). split; [reflexivity|]. split; [apply lr_inv; [exact K|constructor]|]. now apply move. }
  assert (FIN : forall r, is_text op = false -> ro_spec a op = Ok (a, r) -> good V a st (rf_go s t (QRet op r)) [Inv t op]).
  { intros r Ht E. exists [AInv t op; ALin t op r], a, (fupd (fupd st t (TPend op)) t (TDone op r)). split; [reflexivity|]. split.
    - apply lr_inv; [exact K|]. eapply lr_lin; [apply fupd_same|exact (seq_plain _ _ _ _ Ht E)|constructor].
    - apply (rel_ext V _ _ (fupd st t (TDone op r))); [|apply move; [exact H|]].
      + intros u. unfold fupd. now destruct (u =? t)%nat.
      + cbn. split; [reflexivity|]. unfold shown. congruence. }
  destruct op as [[]|? ? ?|?|[q|]|[q|]|[q|]|[q|] ?|[q|]|[q|]|[q|]|?|?|g| |]; cbn in Hs; try contradiction; cbn [rf_start fst snd];
    try (apply FIN; reflexivity); try (apply INV; cbn; auto; fail).
  - apply FIN; [reflexivity|]. cbn [ro_spec]. now rewrite ids_val.
  - apply INV. cbn. split; [reflexivity|]. split; [now left|exact Logic.I].
  - apply INV. cbn. split; [reflexivity|]. split; [now left|exact Logic.I].
  - apply INV. cbn. eexists. split; [reflexivity|]. intros b _. reflexivity.
  - apply INV. cbn. split; [reflexivity|]. split; [now left|reflexivity].
  - apply INV. cbn. split; [reflexivity|]. split; [now left|exact Logic.I].
  - apply INV. cbn. split; [reflexivity|]. split; [now left|exact Logic.I].
  - apply INV. cbn. split; [reflexivity|]. split; [now left|exact Logic.I].
  - destruct (Z.ltb_spec g 0).
    + apply INV. cbn. eexists. split; [reflexivity|]. intros b _. cbn [ro_spec]. destruct (Z.leb_spec 0 g); [lia|reflexivity].
    + apply INV. cbn. split; [reflexivity|]. split; [exists g; repeat split; auto|]. exists a. repeat split; try apply (r_names _ _ _ _ H). apply cur.
Qed.
Lemma dead t op : st t = TPend op -> pan op -> good V a st (rf_go s t QDead) [].
Proof. intros E P. apply g_tau; [exact H|]. cbn. eauto. Qed.

Lemma get_out id : ~ 0 <= ia id < zlen (rs_list r0) -> reg_get r0 id = Panic.
Proof.
  unfold reg_get, ia. destruct (reged_ids id) as [x y]. cbn [fst]. intros N. unfold zget, aget. destruct (Z.ltb_spec (wrap 32 (x - 0 - 1)) 0); [reflexivity|].
  destruct (nth_error (rs_list r0) _) eqn:E; [|reflexivity]. apply nth_error_some_lt in E. unfold zlen in N. lia.
Qed.
Lemma get_out2 id p : 0 <= ia id -> nth_error (rs_list r0) (Z.to_nat (ia id)) = Some p -> ~ 0 <= ib id < zlen (rg_list p) -> reg_get r0 id = Panic.
Proof.
  unfold reg_get, ia, ib. destruct (reged_ids id) as [x y]. cbn [fst snd]. intros Hi Hp N. rewrite (zget_some _ _ p Hi Hp). cbn [bind].
  unfold zget, aget. destruct (Z.ltb_spec (wrap 32 (y - 0 - 1)) 0); [reflexivity|].
  destruct (nth_error (rg_list p) _) eqn:E; [|reflexivity]. apply nth_error_some_lt in E. unfold zlen in N. lia.
Qed.
Lemma pan_id op id : tgt op id -> reg_get r0 id = Panic -> pan op.
Proof.
  intros T P b N. assert (Hid : 0 <= id < 2 ^ 32). { destruct op as [[]| | | | | | | | | | | | | |]; cbn in T; try contradiction; apply T. }
  pose proof (lookup 0 0 r0 a0 id ltac:(lia) ltac:(lia) R0 Hid) as L. destruct (icell (as_list a0) id) eqn:E; [destruct L as (r & _ & L & _); congruence|].
  rewrite <- (same_icell b id N) in E.
  destruct op as [[]| | | | | | | | | | | | | |]; cbn in T; try contradiction; destruct T as [-> _]; cbn [ro_spec]; unfold with_id; now rewrite E.
Qed.
Lemma pan_rec op p : at_rec op p -> ocell (as_list a) p = None -> pan op.
Proof.
  pose proof (r_names _ _ _ _ H) as NM. intros T E b N.
  assert (E0 : ocell (as_list a0) p = None). { destruct (ocell (as_list a0) p) eqn:E0; [|reflexivity]. exfalso. apply (same_cell a p NM); congruence. }
  destruct T as [T|(id & T & Hi)]; [|apply icell_ocell in Hi; destruct Hi; congruence].
  assert (Eb : ocell (as_list b) p = None). { pose proof (names_cell _ _ p (proj2 N)) as C. rewrite E0 in C. destruct (ocell (as_list b) p); [discriminate|reflexivity]. }
  destruct op as [[]|? ? ?|?|[q|]|[q|]|[q|]|[q|] ?|[q|]|[q|]|[q|]|?|?|?| |]; cbn in T; try contradiction; subst q; cbn [ro_spec]; unfold with_cell; now rewrite Eb.
Qed.
Lemma same_len b : same_names a0 b -> length (as_list b) = length (as_list a0).
Proof. intros [_ N]. apply (f_equal (@length _)) in N. now rewrite !map_length in N. Qed.
Lemma pan_head op g all : all_ok op g all -> nth_error (as_list a) g = None -> pan op.
Proof.
  pose proof (r_names _ _ _ _ H) as NM. intros A E b N. apply nth_error_None in E. pose proof (same_len a NM). pose proof (same_len b N). destruct all as [n|]; cbn in A.
  - lia.
  - destruct A as (g' & -> & G1 & G2). cbn [ro_spec]. unfold zlen. assert ((0 <=? g') && (g' <? Z.of_nat (length (as_list b))) = false) as -> by lia. reflexivity.
Qed.
Lemma text_cell v op x k : text_ok v op x k -> (tx_i x < tx_n x)%nat -> ocell (as_list a) (tx_g x, tx_i x) = None -> False.
Proof.
  intros (_ & b & q & N & _ & Q & E1 & _) Hi E. pose proof (same_trans _ _ _ (same_sym _ _ (r_names _ _ _ _ H)) N) as N'.
  pose proof (names_cell _ _ (tx_g x, tx_i x) (proj2 N')) as C. rewrite E in C. unfold ocell in C. cbn [fst snd] in C. rewrite Q in C.
  destruct (nth_error (ag_cells q) (tx_i x)) eqn:F; [discriminate|]. apply nth_error_None in F. lia.
Qed.

Lemma step_get t op : (match rf_pcs s t with QGens _ _ | QRegers _ _ _ | QGen _ _ _ _ | QList _ _ _ _ => True | _ => False end) ->
  good V a st (fst (rf_step s t op)) (snd (rf_step s t op)).
Proof.
  pose proof (r_pcs _ _ _ _ H t) as K. pose proof (r_shape _ _ _ _ H) as S. unfold rf_step. destruct (rf_pcs s t) as [|o id|o id ok|o id g ok|o id g ok| | | | | | | | | | | | | | | | | | | | |]; intros M; try contradiction; cbn in K; cbn [fst snd].
  - apply g_tau; [exact H|]. cbn. split; [apply K|]. split; [apply K|]. unfold oka. unfold shape in S. assert (rs_gen (rf_regs s) = rs_gen r0) as -> by congruence. reflexivity.
  - destruct K as (K1 & K2 & K3). rewrite (shape_len _ _ S). fold (ia id). destruct ((0 <=? ia id) && (ia id <? zlen (rs_list r0))) eqn:B.
    + apply g_tau; [exact H|]. cbn. repeat split; auto; lia.
    + eapply dead; eauto. eapply pan_id; eauto. apply get_out. lia.
  - destruct K as (K1 & K2 & K3 & K4 & K5). pose proof (shape_nth _ _ g S) as N. destruct (nth_error (rs_list (rf_regs s)) g) as [p|].
    + destruct (nth_error (rs_list r0) g) as [p0|] eqn:E0; [|discriminate]. cbn [fst snd]. apply g_tau; [exact H|]. cbn. repeat split; auto; [lia|].
      exists p0. split; [exact E0|]. subst ok. f_equal. unfold okb. cbn in N. unfold rshape in N. assert (rg_gen p = rg_gen p0) as -> by congruence. reflexivity.
    + exfalso. destruct (nth_error (rs_list r0) g) eqn:E0; [discriminate|]. apply nth_error_None in E0. unfold zlen in K4. lia.
  - destruct K as (K1 & K2 & K3 & K4 & p0 & E0 & K5). pose proof (shape_nth _ _ g S) as N. rewrite E0 in N. destruct (nth_error (rs_list (rf_regs s)) g) as [p|]; [|discriminate].
    cbn in N. assert (RL := rshape_len p p0 ltac:(congruence)). fold (ib id). rewrite RL. cbn [fst snd]. destruct ((0 <=? ib id) && (ib id <? zlen (rg_list p0))) eqn:B; [|eapply dead; eauto; eapply pan_id; eauto; subst g; eapply get_out2; eauto; lia].
    assert (Hid : 0 <= id < 2 ^ 32). { destruct o as [[]| | | | | | | | | | | | | |]; cbn in K2; try contradiction; apply K2. }
    subst g. destruct (get_parts r0 id p0 K3 E0 ltac:(lia)) as (c & G). pose proof (lookup 0 0 r0 a0 id ltac:(lia) ltac:(lia) R0 Hid) as L.
    destruct (icell (as_list a0) id) as [q|] eqn:Ei; [|congruence]. destruct L as (r & L1 & L2 & L3). rewrite L2 in G. assert (E1 : fst q = Z.to_nat (ia id)) by congruence. assert (E2 : snd q = Z.to_nat (ib id)) by congruence.
    assert (ok = true) as -> by congruence. assert ((Z.to_nat (ia id), Z.to_nat (ib id)) = q) as -> by (rewrite <- E1, <- E2; now destruct q).
    assert (AT : at_rec o q) by (right; eauto). rewrite <- (same_icell a id (r_names _ _ _ _ H)) in Ei. destruct (icell_ocell _ _ _ Ei) as (d & Hd).
    destruct o as [[]|? ? ?|?|?|?|?|? ?|?|?|?|?|?|?| |]; cbn in K2; try contradiction; destruct K2 as [-> K2]; cbn [rf_found];
      try (apply g_tau; [exact H|]; cbn; rewrite K1; repeat split; auto; fail).
    + eapply g_lin; [exact K1| |exact H|cbn; split; [reflexivity|unfold shown; discriminate]]. apply seq_plain; [reflexivity|]. cbn [ro_spec]. unfold with_id, with_cell. now rewrite Ei, Hd.
    + eapply g_lin; [exact K1| |exact H|cbn; split; [reflexivity|unfold shown; discriminate]]. apply seq_plain; [reflexivity|]. cbn [ro_spec]. unfold with_id, with_cell. now rewrite Ei, Hd.
Qed.

Lemma step_rec t op : (match rf_pcs s t with QId _ _ | QRLock _ _ | QRead _ _ | QRUnlock _ _ _ | QLock _ _ _ | QWrite _ _ _ | QUnlock _ _ _ => True | _ => False end) ->
  good V a st (fst (rf_step s t op)) (snd (rf_step s t op)).
Proof.
  pose proof (r_pcs _ _ _ _ H t) as K. pose proof (r_rel _ _ _ _ H) as R. pose proof (r_names _ _ _ _ H) as NM. unfold rf_step.
  destruct (rf_pcs s t) as [| | | | |o p|o p|o p|o p r|o p v|o p v|o p r| | | | | | | | | | | | | |]; intros M; try contradiction; cbn in K; cbn [fst snd].
  - pose proof (olookup 0 0 _ a p ltac:(lia) R) as L. destruct (ocell (as_list a) p) as [c|] eqn:Ec.
    + destruct L as (g & r & L1 & L2 & L3 & L4 & L5 & L6). rewrite L4, L5. cbn [fst snd]. eapply g_lin; [apply K| |exact H|].
      * apply seq_plain; [apply idop_text; apply K|]. eapply id_spec; eauto; apply K.
      * cbn. split; [reflexivity|]. unfold shown. rewrite idop_text by apply K. discriminate.
    + rewrite L. eapply dead; [apply K|]. eapply pan_rec; eauto. apply K.
  - destruct (lk_w (rf_lk s p)); [now apply g_stay|]. apply g_tau; [now apply rel_lock|]. exact K.
  - pose proof (olookup 0 0 _ a p ltac:(lia) R) as L. destruct (ocell (as_list a) p) as [c|] eqn:Ec.
    + destruct L as (g & r & L1 & L2 & L3 & L4 & L5 & L6). rewrite L4. cbn [fst snd]. eapply g_lin; [apply K| |exact H|].
      * apply seq_plain; [apply rdop_text; apply K|]. eapply rd_spec; eauto; try apply K; now rewrite L3.
      * cbn. split; [reflexivity|]. apply rdop_text; apply K.
    + rewrite L. eapply dead; [apply K|]. eapply pan_rec; eauto. apply K.
  - apply g_tau; [now apply rel_lock|]. cbn. split; [apply K|]. unfold shown. destruct K. congruence.
  - destruct (lk_w (rf_lk s p)); [now apply g_stay|]. destruct (lk_rs (rf_lk s p)); [|now apply g_stay]. apply g_tau; [now apply rel_lock|]. exact K.
  - destruct p as [i j]. pose proof (oset_sim 0 0 _ a i j v ltac:(lia) R) as L. pose proof (olookup 0 0 _ a (i, j) ltac:(lia) R) as L'.
    destruct (ocell (as_list a) (i, j)) as [c|] eqn:Ec.
    + destruct (ro_step (rf_regs s) (OSet (Some (i, j)) v)) as [[rg' r]| |] eqn:Es; cbn [fst snd]; cbn [ro_spec] in L; unfold with_cell in L; rewrite Ec in L; cbn [bind] in L; try contradiction.
      cbn in L. destruct L as [L1 L2].
      eapply g_lin; [apply K|apply seq_plain; [eapply wrop_text; apply K|eapply wr_spec; eauto; apply K]| |].
      * constructor; [exact L2| | |apply H].
        -- cbn. rewrite (set_shape _ _ _ _ _ Es). apply H.
        -- destruct NM as [N1 N2]. split; [exact N1|]. cbn. now rewrite set_names.
      * cbn. split; [congruence|]. eapply wrop_text. apply K.
    + cbn [ro_spec] in L. unfold with_cell in L. rewrite Ec in L. cbn [bind] in L. destruct (ro_step (rf_regs s) (OSet (Some (i, j)) v)) as [[rg' r]| |] eqn:Es; cbn [fst snd]; try contradiction; (eapply dead; [apply K|]; eapply pan_rec; eauto; apply K).
  - apply g_tau; [now apply rel_lock|]. cbn. split; [apply K|]. unfold shown. destruct K. congruence.
Qed.

Lemma seq_text b op r : is_text op = true -> same_names a0 b -> ro_spec b op = Ok (b, r) -> rf_seq a op r a.
Proof.
  intros E N K. unfold rf_seq. rewrite E. split; [reflexivity|]. exists b. split; [|exact K]. eapply same_trans; [|exact N]. apply same_sym, (r_names _ _ _ _ H).
Qed.
Lemma ret_text t op b x : st t = TPend op -> is_text op = true -> same_names a0 b -> held (V t) b -> ro_spec b op = Ok (b, RText x) -> good V a st (rf_go s t (QRet op (RText x))) [].
Proof.
  intros E T N Hb K. eapply g_lin; [exact E|eapply seq_text; eauto|exact H|]. cbn. split; [reflexivity|]. intros _. eauto.
Qed.
Lemma step_text t op : (match rf_pcs s t with QFlag _ | QCount _ _ | QHead _ _ _ _ | QLine _ _ | QLRLock _ _ | QLRead _ _ | QLRUnlock _ _ => True | _ => False end) ->
  good V a st (fst (rf_step s t op)) (snd (rf_step s t op)).
Proof.
  pose proof (r_pcs _ _ _ _ H t) as K. pose proof (r_rel _ _ _ _ H) as R. pose proof (r_names _ _ _ _ H) as NM. unfold rf_step.
  assert (LEN : length (rs_list (rf_regs s)) = length (as_list a)). { destruct R as [_ Hm]. apply (f_equal (@length _)) in Hm. now rewrite !map_length in Hm. }
  destruct (rf_pcs s t) as [| | | | | | | | | | | |o|o buf|o buf g all|o x|o x|o x|o x| | | | | | |]; intros M; try contradiction; cbn in K; cbn [fst snd].
  - apply g_tau; [exact H|]. cbn. destruct K as [K1 ->]. split; [exact K1|]. split; [now right|]. cbn. destruct R as [(RL & _) _]. rewrite RL. cbn. destruct NM as [-> _]. reflexivity.
  - destruct K as (K1 & K2 & K3). unfold zlen. rewrite LEN. assert (TT : top_text o a = top_text o a0). { unfold top_text. destruct NM as [-> _]. reflexivity. }
    destruct (Nat.ltb_spec 0 (length (as_list a))) as [B|B].
    + apply g_tau; [exact H|]. cbn. split; [exact K1|]. rewrite (same_len a NM). split; [rewrite <- (same_len a NM); auto|]. exists a. split; [exact NM|]. split; [apply cur|].
      unfold zlen. rewrite TT, (same_len a NM), K3. now rewrite <- !app_assoc.
    + apply (ret_text t o a); [exact K1|now destruct K2; subst o|exact NM|apply cur|].
      * destruct (as_list a) eqn:El; [|cbn in B; lia]. destruct K2; subst o; cbn [ro_spec]; rewrite El; unfold aregs_text; cbn [areger_texts]; rewrite app_nil_r; unfold zlen; do 3 f_equal.
        -- now rewrite K3.
        -- rewrite K3, <- TT. unfold top_text. now rewrite <- !app_assoc.
  - destruct K as (K1 & K2 & b & N & Hb & K3). destruct (nth_error (rs_list (rf_regs s)) g) as [p|] eqn:E; cbn [fst snd]; [|eapply dead; eauto; eapply pan_head; eauto; eapply rel_none; eauto].
    destruct (rel_rec 0 0 _ a g p 0 ltac:(lia) R E) as (q & Q1 & Q2 & Q3 & Q4 & Q5 & Q6 & _).
    pose proof (same_trans _ _ _ (same_sym _ _ NM) N) as N'. pose proof (names_nth _ _ g (proj2 N')) as NN. rewrite Q1 in NN. destruct (nth_error (as_list b) g) as [q'|] eqn:Q'; [|discriminate].
    cbn in NN. unfold names in NN. assert (C1 : ag_name q = ag_name q') by congruence. assert (C2 : ag_max q = ag_max q') by congruence.
    assert (C3 : length (ag_cells q) = length (ag_cells q')). { assert (C : map fst (ag_cells q) = map fst (ag_cells q')) by congruence. apply (f_equal (@length _)) in C. now rewrite !map_length in C. }
    assert (C4 : length (rg_list p) = length (ag_cells q')). { rewrite <- C3, <- Q5. now rewrite map_length. }
    apply g_tau; [exact H|]. cbn. split; [exact K1|]. split; [exact K2|]. exists b, q'. cbn [tx_g tx_n tx_buf tx_i tx_all]. repeat split; try apply N; auto; [lia|].
    cbn [firstn cell_lines]. rewrite app_nil_r. rewrite K3. f_equal. unfold head_text, range_text. rewrite Q2, Q3, Q4. cbn [rval rmin rmax]. unfold zlen. rewrite C1, C2, C3. now cbn [bytes_of app]; rewrite <- ?app_assoc.
  - destruct K as (K1 & K2). destruct (Nat.ltb_spec (tx_i x) (tx_n x)) as [B|B].
    + apply g_tau; [exact H|]. cbn. auto.
    + destruct K2 as (K2 & b & q & N & Hb & Q & E1 & E2 & E3). assert (E : firstn (tx_i x) (ag_cells q) = ag_cells q) by (apply firstn_all2; lia). rewrite E, <- head_ok in E3. clear E.
      unfold rf_next. destruct (tx_all x) as [n|] eqn:Ea; cbn in K2.
      * destruct K2 as (O & -> & G). pose proof (same_len b N) as SL.
        assert (F : pre_text o b (tx_g x) (Some (length (as_list a0))) ++ areger_text (Z.of_nat (tx_g x) + 1) q =
                    top_text o b ++ bytes_of "[Uint32Regers] count:" ++ fmt_d (zlen (as_list b)) ++ areger_texts 1 (firstn (S (tx_g x)) (as_list b))).
        { cbn [pre_text]. rewrite (firstn_S_nth _ _ _ Q), texts_snoc. assert (zlen (firstn (tx_g x) (as_list b)) = Z.of_nat (tx_g x)) as ->.
          { unfold zlen. rewrite firstn_length. lia. } rewrite (Z.add_comm 1). now rewrite <- !app_assoc. }
        rewrite F in E3. destruct (Nat.ltb_spec (S (tx_g x)) (length (as_list a0))) as [B2|B2].
        -- apply g_tau; [exact H|]. cbn. split; [exact K1|]. split; [auto|]. exists b. split; [exact N|]. split; [exact Hb|]. rewrite E3. now rewrite <- !app_assoc.
        -- apply (ret_text t o b); [exact K1|now destruct O; subst o|exact N|exact Hb|].
           rewrite firstn_all2 in E3 by lia. destruct O; subst o; cbn [ro_spec]; unfold aregs_text; rewrite E3; cbn [top_text app]; rewrite <- ?app_assoc; reflexivity.
      * destruct K2 as (g' & -> & G1 & G2). apply (ret_text t _ b); auto. cbn [ro_spec]. rewrite <- G2, Q. cbn [pre_text app] in E3. rewrite E3.
        assert (Z.of_nat (tx_g x) + 1 = g' + 1) as <- by lia. apply nth_error_some_lt in Q. unfold zlen.
        assert ((0 <=? g') && (g' <? Z.of_nat (length (as_list b))) = true) as -> by lia. reflexivity.
  - destruct (lk_w (rf_lk s (tx_g x, tx_i x))); [now apply g_stay|]. apply g_tau; [now apply rel_lock|]. exact K.
  - destruct K as (K1 & K2 & K3). pose proof (olookup 0 0 _ a (tx_g x, tx_i x) ltac:(lia) R) as L. destruct (ocell (as_list a) (tx_g x, tx_i x)) as [c|] eqn:Ec; [|exfalso; eapply text_cell; eauto].
    destruct L as (g & r & L1 & L2 & L3 & L4 & L5 & L6). rewrite L4. cbn [fst snd] in *. apply g_tau; [exact H|]. cbn [pc_ok]. split; [exact K1|].
    destruct K2 as (K2 & b & q & N & Hb & Q & E1 & E2 & E3). split; [exact K2|].
    pose proof (same_trans _ _ _ (same_sym _ _ NM) N) as N'. pose proof (names_cell _ _ (tx_g x, tx_i x) (proj2 N')) as NC. rewrite Ec in NC.
    destruct (ocell (as_list b) (tx_g x, tx_i x)) as [d|] eqn:Ed; [|discriminate]. cbn in NC. assert (FC : fst c = fst d) by congruence. clear NC.
    assert (Ed' := Ed). unfold ocell in Ed'. cbn [fst snd] in Ed'. rewrite Q in Ed'.
    exists (ARegs (as_locked b) (set_ocell (as_list b) (tx_g x, tx_i x) (snd c))), (AReger (ag_name q) (ag_max q) (upd (ag_cells q) (tx_i x) (fst d, snd c))).
    assert (GL := nth_error_some_lt _ _ _ Q). assert (IL := nth_error_some_lt _ _ _ Ed').
    assert (SO : set_ocell (as_list b) (tx_g x, tx_i x) (snd c) = upd (as_list b) (tx_g x) (AReger (ag_name q) (ag_max q) (upd (ag_cells q) (tx_i x) (fst d, snd c)))).
    { unfold set_ocell. cbn [fst snd]. now rewrite Q, Ed'. }
    cbn [tx_g tx_i tx_n tx_all tx_buf as_list ag_cells as_locked]. split; [split; [apply N|cbn; rewrite set_names; apply N]|]. split; [|split; [|split; [|split]]].
    + intros p' c' Hc'. cbn [as_list] in Hc'. rewrite SO in Hc'. unfold ocell in Hc'. rewrite nth_error_upd, Q in Hc'.
      destruct (Nat.eqb_spec (fst p') (tx_g x)) as [Eg|Ng]; [|apply Hb; exact Hc'].
      cbn [ag_cells] in Hc'. rewrite nth_error_upd, Ed' in Hc'. destruct (Nat.eqb_spec (snd p') (tx_i x)) as [Ei|Ni].
      * injection Hc' as <-. cbn [snd]. apply cur. destruct p' as [g1 i1]. cbn in Eg, Ei. subst. exact Ec.
      * apply Hb. unfold ocell. now rewrite Eg, Q.
    + rewrite SO, nth_error_upd, Nat.eqb_refl, Q. reflexivity.
    + now rewrite upd_length.
    + lia.
    + rewrite E3. rewrite <- !app_assoc. rewrite (rec_lines_ok [r]) by (unfold zlen; cbn [length]; lia). cbn [map cell_lines]. rewrite app_nil_r.
      assert ((rc_name r, rc_val r) = (fst d, snd c)) as -> by (rewrite <- FC, L3; reflexivity).
      rewrite (firstn_S_nth _ _ (fst d, snd c)) by (rewrite nth_error_upd, Nat.eqb_refl, Ed'; reflexivity).
      rewrite firstn_upd_le by lia. rewrite lines_snoc. assert (zlen (firstn (tx_i x) (ag_cells q)) = Z.of_nat (tx_i x)) as ->. { unfold zlen. rewrite firstn_length. lia. }
      rewrite (Z.add_comm 1). f_equal.
      * unfold pre_text. destruct (tx_all x); [|reflexivity]. unfold top_text, zlen. cbn [as_locked as_list]. rewrite SO, upd_length, firstn_upd_le by lia. reflexivity.
      * unfold head_text. cbn [ag_name ag_max ag_cells]. unfold zlen. rewrite upd_length. reflexivity.
  - apply g_tau; [now apply rel_lock|]. cbn. exact K.
Qed.

Lemma lin_step t op : rf_safe op -> good V a st (fst (rf_step s t op)) (snd (rf_step s t op)).
Proof.
  intros Hs. pose proof (r_pcs _ _ _ _ H t) as K. destruct (rf_pcs s t) eqn:Hpc; try (cbn in K; contradiction);
    try (apply step_get; now rewrite Hpc); try (apply step_rec; now rewrite Hpc); try (apply step_text; now rewrite Hpc).
  - now apply step_idle.
  - unfold rf_step. rewrite Hpc. cbn [fst snd]. destruct K as [K1 K2]. exists [ARet t op0 r], a, (fupd st t TIdle). split; [reflexivity|]. split.
    + eapply lr_ret; [exact K1|constructor].
    + now apply move.
  - unfold rf_step. rewrite Hpc. cbn [fst snd]. now apply g_stay.
Qed.
End Step2.
End Lin.

(** ** The theorems *)
Lemma rel_init V r0 a0 : ro_rel 0 0 r0 a0 -> rel r0 a0 V (rf_init r0) a0 (fun _ => TIdle).
Proof. intros R. constructor; cbn; auto. apply same_refl. Qed.
Theorem reg_linearizable r0 a0 sched : ro_rel 0 0 r0 a0 -> rf_sched_ok sched -> linearizable rf_seq a0 (snd (crun rf_step (rf_init r0) sched)).
Proof.
  intros R Hs. destruct (lin_sim_on rf_seq rf_step (rel r0 a0 (fun _ _ _ => True)) (fun _ op => rf_safe op)) with (sched := sched) (s := rf_init r0) (a := a0) (st := fun _ : nat => @TIdle ro_op ro_res)
    as (evs & a' & st' & E & L & _).
  - intros s a st t op Ho H. apply (lin_step r0 a0 R (fun _ _ _ => True) s a st H (fun _ _ _ _ => Logic.I) t op Ho).
  - exact Hs.
  - now apply rel_init.
  - exists evs, a', st'. auto.
Qed.
Lemma run_rel r0 a0 sched : ro_rel 0 0 r0 a0 -> rf_sched_ok sched -> exists evs a st,
  erase evs = snd (crun rf_step (rf_init r0) sched) /\ lin_run rf_seq a0 (fun _ => TIdle) evs a st /\ rel r0 a0 (fun _ _ _ => True) (fst (crun rf_step (rf_init r0) sched)) a st.
Proof.
  intros R Hs. apply (lin_sim_on rf_seq rf_step (rel r0 a0 (fun _ _ _ => True)) (fun _ op => rf_safe op)); [|exact Hs|now apply rel_init].
  intros s a st t op Ho H. apply (lin_step r0 a0 R (fun _ _ _ => True) s a st H (fun _ _ _ _ => Logic.I) t op Ho).
Qed.
Lemma lin_pend {A Op Res} (spec : A -> Op -> Res -> A -> Prop) a st evs a' st' t op : lin_run spec a st evs a' st' -> st' t = TPend op -> st t = TPend op \/ In (Inv t op) (erase evs).
Proof.
  intros L. induction L as [a st|a st u o h a' st' Hu L IH|a st u o r b h a' st' Hu Hs L IH|a st u o r h a' st' Hu L IH]; intros E; cbn [erase]; auto.
  - destruct (IH E) as [K|K]; [|now right; right]. unfold fupd in K. destruct (Nat.eqb_spec t u) as [->|N]; [|now left]. injection K as ->. right. now left.
  - destruct (IH E) as [K|K]; [|now right]. unfold fupd in K. destruct (Nat.eqb_spec t u) as [->|N]; [discriminate|now left].
  - destruct (IH E) as [K|K]; [|now right; right]. unfold fupd in K. destruct (Nat.eqb_spec t u) as [->|N]; [discriminate|now left].
Qed.
(** A goroutine panics only in a call that panics when made alone. *)
Theorem reg_panics r0 a0 sched t : ro_rel 0 0 r0 a0 -> rf_sched_ok sched -> rf_pcs (fst (crun rf_step (rf_init r0) sched)) t = QDead ->
  exists op, In (Inv t op) (snd (crun rf_step (rf_init r0) sched)) /\ forall b, same_names a0 b -> ro_spec b op = Panic.
Proof.
  intros R Hs E. destruct (run_rel r0 a0 sched R Hs) as (evs & a & st & E1 & L & K). pose proof (r_pcs _ _ _ _ _ _ K t) as P. rewrite E in P. destruct P as (op & P1 & P2).
  exists op. split; [|exact P2]. rewrite <- E1. destruct (lin_pend _ _ _ _ _ _ _ _ L P1) as [X|X]; [discriminate|exact X].
Qed.

Lemma idle_regs s t op : rf_pcs s t = QIdle -> rf_regs (fst (rf_step s t op)) = rf_regs s.
Proof. intros E. unfold rf_step. rewrite E. now destruct (rf_start op). Qed.
Lemma inv_idle s t op : snd (rf_step s t op) = [Inv t op] -> rf_pcs s t = QIdle.
Proof.
  unfold rf_step. destruct (rf_pcs s t); cbn; auto; try discriminate;
    repeat match goal with
    | |- context [match ?x with _ => _ end] => destruct x; cbn; try discriminate
    end.
Qed.
Lemma ret_at s t op' o r : snd (rf_step s t op') = [Ret t o r] -> rf_pcs s t = QRet o r.
Proof.
  unfold rf_step. destruct (rf_pcs s t); cbn; try discriminate;
    repeat match goal with
    | |- context [match ?x with _ => _ end] => destruct x; cbn; try discriminate
    end.
  intros E. injection E as -> ->. reflexivity.
Qed.
(** Every value a text shows was in its cell at some moment of the call. *)
Theorem reg_text_fresh r0 a0 s1 t op s2 op' o r : ro_rel 0 0 r0 a0 -> rf_sched_ok (s1 ++ (t, op) :: s2) ->
  snd (rf_step (fst (crun rf_step (rf_init r0) s1)) t op) = [Inv t op] ->
  snd (rf_step (fst (crun rf_step (rf_init r0) (s1 ++ (t, op) :: s2))) t op') = [Ret t o r] -> is_text o = true ->
  exists b, same_names a0 b /\ ro_spec b o = Ok (b, r) /\ forall p c, ocell (as_list b) p = Some c ->
    exists s2a s2b rc, s2 = s2a ++ s2b /\ rec_at (rf_regs (fst (crun rf_step (rf_init r0) (s1 ++ (t, op) :: s2a)))) p = Ok rc /\ rc_val rc = snd c.
Proof.
  intros R Hs Hi Hr Ht. apply Forall_app in Hs. destruct Hs as [Hs1 Hs2]. inversion Hs2 as [|? ? Hop Hs3]; subst. cbn [snd] in Hop.
  set (at_ l := fst (crun rf_step (rf_init r0) (s1 ++ (t, op) :: l))) in *.
  set (W := fun (l : list (nat * ro_op)) (u : nat) (p : nat * nat) (v : Z) => u <> t \/ exists l1 l2 rc, l = l1 ++ l2 /\ rec_at (rf_regs (at_ l1)) p = Ok rc /\ rc_val rc = v).
  assert (G : forall l, rf_sched_ok l -> exists a st, rel r0 a0 (W l) (at_ l) a st).
  { induction l as [|[u o'] l IH] using rev_ind; intros Hl.
    - destruct (run_rel r0 a0 s1 R Hs1) as (evs & a & st & E1 & L & K). set (s := fst (crun rf_step (rf_init r0) s1)) in *.
      assert (K' : rel r0 a0 (W []) s a st).
      { destruct K as [A B C D]. constructor; auto. intros u. destruct (Nat.eq_dec u t) as [->|N].
        - pose proof (D t) as Dt. rewrite (inv_idle _ _ _ Hi) in Dt |- *. exact Dt.
        - eapply pc_mono; [|apply D]. intros p v _. now left. }
      assert (Es : at_ [] = fst (rf_step s t op)). { unfold at_, s. now rewrite crun_snoc. }
      destruct (lin_step r0 a0 R (W []) s a st K') with (t := t) (op := op) as (evs' & a' & st' & _ & _ & F); auto.
      + intros u p c Hc. right. pose proof (olookup 0 0 _ a p ltac:(lia) (r_rel _ _ _ _ _ _ K')) as O. rewrite Hc in O. destruct O as (g & rc & _ & _ & O1 & O2 & _).
        exists [], [], rc. split; [reflexivity|]. rewrite Es, (idle_regs _ _ _ (inv_idle _ _ _ Hi)). split; [exact O2|]. now rewrite O1.
      + exists a', st'. now rewrite Es.
    - apply Forall_app in Hl. destruct Hl as [Hl1 Hl2]. inversion Hl2 as [|? ? Ho' _]; subst. cbn [snd] in Ho'. destruct (IH Hl1) as (a & st & K).
      assert (K' : rel r0 a0 (W (l ++ [(u, o')])) (at_ l) a st).
      { eapply rel_mono; [|exact K]. intros u' p v [N|(l1 & l2 & rc & -> & X)]; [now left|]. right. exists l1, (l2 ++ [(u, o')]), rc. split; [now rewrite app_assoc|exact X]. }
      assert (Es : at_ (l ++ [(u, o')]) = fst (rf_step (at_ l) u o')). { unfold at_. now rewrite app_comm_cons, app_assoc, crun_snoc. }
      destruct (lin_step r0 a0 R _ (at_ l) a st K') with (t := u) (op := o') as (evs' & a' & st' & _ & _ & F); auto.
      + intros u' p c Hc. right. pose proof (olookup 0 0 _ a p ltac:(lia) (r_rel _ _ _ _ _ _ K')) as O. rewrite Hc in O. destruct O as (g & rc & _ & _ & O1 & O2 & _).
        exists l, [(u, o')], rc. split; [reflexivity|]. split; [exact O2|]. now rewrite O1.
      + exists a', st'. now rewrite Es. }
  destruct (G s2 Hs3) as (a & st & K). pose proof (r_pcs _ _ _ _ _ _ K t) as P. assert (Er := ret_at _ _ _ _ _ Hr). fold (at_ s2) in Er. rewrite Er in P. destruct P as [_ P].
  destruct (P Ht) as (b & B1 & B2 & B3). exists b. split; [exact B1|]. split; [exact B3|]. intros p c Hc. destruct (B2 p c Hc) as [N|X]; [congruence|exact X].
Qed.
