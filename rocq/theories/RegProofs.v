(** Proofs about mappings, registries and error ids. *)
From Coq Require Import String.
From Coq Require Import ZArith List Bool Lia ZifyBool ZifyNat.
From Verif Require Import GoBase GoLists GoMap GoStrings MathModel RegModel RegSpec QueueProofs RingProofs.
Import ListNotations.
Ltac Zify.zify_post_hook ::= Z.div_mod_to_equations.
Open Scope Z_scope.

(** ** Mapping *)
Definition swap (p : Z * Z) : Z * Z := (snd p, fst p).
Definition mp_inv (s : mapping) (a : option (list (Z * Z))) : Prop :=
  match a with
  | None => s = mp_zero
  | Some l => s = Mapping (Some l) (Some (map swap l)) /\ NoDup (map fst l) /\ NoDup (map snd l)
  end.

Lemma Zeqb_eq x y : (x =? y) = true <-> x = y.
Proof. apply Z.eqb_eq. Qed.

Lemma find_key k l : mfind Z.eqb k l = match pair_of_key k l with Some p => Some (snd p) | None => None end.
Proof.
  induction l as [|[k1 v1] t IH]; cbn; [reflexivity|]. rewrite Z.eqb_sym. destruct (k1 =? k); auto.
Qed.
Lemma find_value v l : mfind Z.eqb v (map swap l) = match pair_of_value v l with Some p => Some (fst p) | None => None end.
Proof.
  induction l as [|[k1 v1] t IH]; cbn; [reflexivity|]. rewrite Z.eqb_sym. destruct (v1 =? v); auto.
Qed.
Lemma pair_of_key_some k l p : pair_of_key k l = Some p -> In p l /\ fst p = k.
Proof. intros H. apply find_some in H. destruct H as [H1 H2]. split; auto. now apply Z.eqb_eq. Qed.
Lemma pair_of_value_some v l p : pair_of_value v l = Some p -> In p l /\ snd p = v.
Proof. intros H. apply find_some in H. destruct H as [H1 H2]. split; auto. now apply Z.eqb_eq. Qed.
Lemma pair_of_key_none k l : pair_of_key k l = None -> ~ In k (map fst l).
Proof.
  intros H Hin. apply in_map_iff in Hin. destruct Hin as (p & <- & Hin).
  apply (find_none _ _ H) in Hin. rewrite Z.eqb_refl in Hin. discriminate.
Qed.
Lemma pair_of_value_none v l : pair_of_value v l = None -> ~ In v (map snd l).
Proof.
  intros H Hin. apply in_map_iff in Hin. destruct Hin as (p & <- & Hin).
  apply (find_none _ _ H) in Hin. rewrite Z.eqb_refl in Hin. discriminate.
Qed.

Lemma del_key k l : mdel Z.eqb k l = filter (fun p : Z * Z => negb (fst p =? k)) l.
Proof. unfold mdel. apply filter_ext. intros p. now rewrite Z.eqb_sym. Qed.
Lemma del_value v l : mdel Z.eqb v (map swap l) = map swap (filter (fun p : Z * Z => negb (snd p =? v)) l).
Proof.
  unfold mdel. induction l as [|[k1 v1] t IH]; cbn; [reflexivity|]. rewrite Z.eqb_sym.
  destruct (v1 =? v); cbn; rewrite IH; reflexivity.
Qed.

Lemma in_snd_unique l (p q : Z * Z) : NoDup (map snd l) -> In p l -> In q l -> snd p = snd q -> p = q.
Proof.
  induction l as [|x t IH]; cbn; intros N Hp Hq E; [contradiction|]. inversion N as [|? ? N1 N2]; subst.
  destruct Hp as [->|Hp], Hq as [->|Hq]; auto.
  - exfalso. apply N1. rewrite E. now apply in_map.
  - exfalso. apply N1. rewrite <- E. now apply in_map.
Qed.
Lemma in_fst_unique l (p q : Z * Z) : NoDup (map fst l) -> In p l -> In q l -> fst p = fst q -> p = q.
Proof.
  induction l as [|x t IH]; cbn; intros N Hp Hq E; [contradiction|]. inversion N as [|? ? N1 N2]; subst.
  destruct Hp as [->|Hp], Hq as [->|Hq]; auto.
  - exfalso. apply N1. rewrite E. now apply in_map.
  - exfalso. apply N1. rewrite <- E. now apply in_map.
Qed.

Lemma filter_key_value l k v : NoDup (map fst l) -> NoDup (map snd l) -> In (k, v) l ->
  filter (fun p : Z * Z => negb (fst p =? k)) l = filter (fun p : Z * Z => negb (snd p =? v)) l.
Proof.
  intros N1 N2 Hin. apply filter_ext_in. intros p Hp. f_equal.
  destruct (Z.eqb_spec (fst p) k) as [Ek|Ek], (Z.eqb_spec (snd p) v) as [Ev|Ev]; auto; exfalso.
  - apply Ev. assert (p = (k, v)) by (eapply in_fst_unique; eauto). now subst p.
  - apply Ek. assert (p = (k, v)) by (eapply in_snd_unique; eauto). now subst p.
Qed.

Lemma NoDup_map_filter {A B} (f : A -> B) g l : NoDup (map f l) -> NoDup (map f (filter g l)).
Proof.
  induction l as [|x t IH]; cbn; auto. intros N. inversion N as [|? ? N1 N2]; subst.
  destruct (g x); cbn; auto. constructor; auto. intros H. apply N1. apply in_map_iff in H.
  destruct H as (y & E & H). apply filter_In in H. rewrite <- E. apply in_map. tauto.
Qed.

Lemma mp_step_sim s a op : mp_inv s a -> sim_out mp_inv (mp_step s op) (bi_step a op).
Proof.
  intros R. destruct a as [l|].
  - destruct R as (-> & N1 & N2). destruct op as [|k v|k|v|k|v|]; unfold mp_step, bi_step; cbn [pairs mp_normal mp_reverse nfind ndel nset];
      rewrite ?find_value, ?find_key.
    + cbn. repeat split; constructor.
    + destruct (pair_of_key k l) eqn:Ek; [cbn; auto|]. destruct (pair_of_value v l) eqn:Ev; [cbn; auto|].
      cbn [bind]. rewrite !mset_new by (rewrite ?find_value, ?find_key, ?Ek, ?Ev; reflexivity).
      cbn. split; auto. split; [now rewrite map_app|]. rewrite !map_app. split; apply NoDup_snoc; auto.
      * now apply pair_of_key_none.
      * now apply pair_of_value_none.
    + destruct (pair_of_key k l) as [[k1 v]|] eqn:Ek; [|cbn; auto]. apply pair_of_key_some in Ek. cbn [fst snd] in *. destruct Ek as [Hin ->].
      cbn. split; auto. rewrite del_key, del_value, (filter_key_value l k v) by auto. split; [reflexivity|].
      split; now apply NoDup_map_filter.
    + destruct (pair_of_value v l) as [[k v1]|] eqn:Ek; [|cbn; auto]. apply pair_of_value_some in Ek. cbn [fst snd] in *. destruct Ek as [Hin ->].
      cbn. split; auto. rewrite del_key, del_value, (filter_key_value l k v) by auto. split; [reflexivity|].
      split; now apply NoDup_map_filter.
    + destruct (pair_of_key k l); cbn; auto.
    + destruct (pair_of_value v l); cbn; auto.
    + cbn. repeat split; constructor.
  - cbn in R. subst s. destruct op; cbn; auto; repeat split; constructor.
Qed.

Lemma mp_inv_holds s a : mp_inv s a -> holds s a.
Proof.
  destruct a as [l|]; cbn; auto. intros (-> & N1 & N2). exists l, (map swap l). cbn.
  repeat split; auto; try tauto.
  - intros H. apply in_map_iff in H. destruct H as ([k1 v1] & E & H). injection E as -> ->. exact H.
  - intros H. change (v, k) with (swap (k, v)). now apply in_map.
  - now rewrite map_length.
Qed.

Lemma mapping_history ops : sim_out holds (run_ops mp_step mp_zero ops) (run_ops bi_step None ops).
Proof.
  pose proof (run_ops_sim mp_inv mp_step bi_step mp_step_sim ops mp_zero None eq_refl) as H.
  destruct (run_ops mp_step mp_zero ops) as [[s os]| |], (run_ops bi_step None ops) as [[a os']| |]; cbn in *; auto.
  destruct H as [-> H]. split; auto. now apply mp_inv_holds.
Qed.

(** ** Packing of ids *)
Lemma land24 x : Z.land x 16777215 = x mod 2 ^ 24.
Proof. change 16777215 with (Z.ones 24). now apply Z.land_ones. Qed.
Lemma shiftr24 x : Z.shiftr x 24 = x / 2 ^ 24.
Proof. now apply Z.shiftr_div_pow2. Qed.

Lemma lor_add a b n : 0 <= n -> 0 <= b < 2 ^ n -> Z.lor (a * 2 ^ n) b = a * 2 ^ n + b.
Proof.
  intros Hn Hb. assert (L : Z.land (a * 2 ^ n) b = 0).
  { apply Z.bits_inj'. intros i Hi. rewrite Z.land_spec, Z.bits_0. destruct (Z.ltb_spec i n).
    - rewrite Z.mul_pow2_bits_low by lia. reflexivity.
    - replace (Z.testbit b i) with false; [apply andb_false_r|]. symmetry.
      rewrite <- (Z.mod_small b (2 ^ n)) by auto. apply Z.mod_pow2_bits_high. lia. }
  symmetry. now rewrite Z.add_nocarry_lxor, Z.lxor_lor.
Qed.

Lemma make_id_any g n : 0 <= g -> 0 <= n -> make_reged_id g n = (g mod 2 ^ 8) * 2 ^ 24 + n mod 2 ^ 24.
Proof.
  intros Hg Hn. unfold make_reged_id. rewrite land24, Z.shiftl_mul_pow2 by lia. unfold wrap.
  assert (E : (g * 2 ^ 24) mod 2 ^ 32 = (g mod 2 ^ 8) * 2 ^ 24).
  { change (2 ^ 32) with (2 ^ 8 * 2 ^ 24). rewrite Z.mul_mod_distr_r by lia. reflexivity. }
  rewrite E. apply lor_add; [lia|]. apply Z.mod_pos_bound. lia.
Qed.
Lemma make_id g n : 0 <= g < 256 -> 0 <= n < 2 ^ 24 -> make_reged_id g n = g * 2 ^ 24 + n.
Proof. intros Hg Hn. rewrite make_id_any by lia. rewrite !Z.mod_small by lia. reflexivity. Qed.
Lemma ids_val id : reged_ids id = (id / 2 ^ 24, id mod 2 ^ 24).
Proof. unfold reged_ids. now rewrite land24, shiftr24. Qed.

Lemma reged_id_pack g n : 0 <= g < 256 -> 0 <= n < 2 ^ 24 ->
  reged_ids (make_reged_id g n) = (g, n) /\ 0 <= make_reged_id g n < 2 ^ 32.
Proof.
  intros Hg Hn. rewrite ids_val, make_id by auto. split; [|lia].
  f_equal; lia.
Qed.

(** ** Registry *)
Definition reg_rel1 (i : nat) (p : reger) (c : list (list Z * Z)) : Prop :=
  rg_id p = Z.of_nat i + 1 /\ rval (rg_gen p) = zlen c + 1 /\ rmin (rg_gen p) = 0 /\
  map (fun r => (rc_name r, rc_val r)) (rg_list p) = c /\
  (forall j r, nth_error (rg_list p) j = Some r -> rc_id r = Z.of_nat j + 1).

Definition reg_rel (bn br : Z) (s : regs) (a : areg) : Prop :=
  rs_locked s = ar_locked a /\ rs_gen s = Range (zlen (ar_cells a) + 1) 0 255 /\
  length (rs_list s) = length (ar_cells a) /\
  (forall i p, nth_error (rs_list s) i = Some p -> exists c, nth_error (ar_cells a) i = Some c /\ reg_rel1 i p c) /\
  zlen (ar_cells a) + bn <= 255 /\ br < 2 ^ 24 /\ (forall c, In c (ar_cells a) -> zlen c + br < 2 ^ 24).

Lemma nth_error_some_lt {A} (l : list A) i x : nth_error l i = Some x -> (i < length l)%nat.
Proof. intros H. apply nth_error_Some. congruence. Qed.
Lemma nth_error_upd {A} (l : list A) i j v :
  nth_error (upd l i v) j = if (j =? i)%nat then (match nth_error l i with Some _ => Some v | None => None end) else nth_error l j.
Proof.
  revert i j. induction l as [|x t IH]; intros [|i] [|j]; cbn; auto. destruct (j =? i)%nat; reflexivity.
Qed.
Lemma in_upd {A} (l : list A) i v x : In x (upd l i v) -> x = v \/ In x l.
Proof. revert i. induction l as [|y t IH]; intros [|i]; cbn; auto. - intros [->|H]; auto. - intros [->|H]; auto. destruct (IH _ H); auto. Qed.

Lemma aget_some {A} (l : list A) i x : nth_error l i = Some x -> aget l i = Ok x.
Proof. intros H. unfold aget. now rewrite H. Qed.
Lemma aset_lt {A} (l : list A) i x : (i < length l)%nat -> aset l i x = Ok (upd l i x).
Proof. intros H. unfold aset. now rewrite (proj2 (Nat.ltb_lt _ _) H). Qed.

Lemma zget_some {A} (l : list A) i x : 0 <= i -> nth_error l (Z.to_nat i) = Some x -> zget l i = Ok x.
Proof. intros H E. unfold zget. destruct (Z.ltb_spec i 0); [lia|]. now apply aget_some. Qed.
Lemma zget_none {A} (l : list A) i : nth_error l (Z.to_nat i) = None -> zget l i = Panic.
Proof. intros E. unfold zget, aget. rewrite E. now destruct (i <? 0). Qed.

Lemma reg_lookup bn br s a id : 0 <= bn -> 0 <= br -> reg_rel bn br s a -> 0 <= id < 2 ^ 32 ->
  match cell_at (ar_cells a) id with
  | None => reg_get s id = Panic
  | Some c => exists p r i j, i = Z.to_nat (id / 2 ^ 24 - 1) /\ j = Z.to_nat (id mod 2 ^ 24 - 1) /\
       reg_get s id = Ok (i, j, r, true) /\ nth_error (rs_list s) i = Some p /\ nth_error (rg_list p) j = Some r /\
       c = (rc_name r, rc_val r) /\ rc_id r = id mod 2 ^ 24 /\ nth_error (nth i (ar_cells a) []) j = Some c
  end.
Proof.
  intros Hbn Hbr (Hlk & Hg & Hlen & Hrel & B1 & B3 & B2) Hid. unfold cell_at, reg_get. rewrite ids_val.
  set (g := id / 2 ^ 24). set (n := id mod 2 ^ 24).
  assert (Rg : 0 <= g < 256) by (unfold g; lia). assert (Rn : 0 <= n < 2 ^ 24) by (unfold n; lia).
  assert (BL : zlen (rs_list s) <= 255) by (unfold zlen in *; lia).
  rewrite !Z.sub_0_r. destruct (Z.leb_spec 1 g) as [G1|G1]; cbn [andb].
  2:{ assert (g = 0) as -> by lia. change (wrap 32 (0 - 1)) with 4294967295.
      rewrite zget_none; [reflexivity|]. apply nth_error_None. unfold zlen in BL. lia. }
  assert (W1 : wrap 32 (g - 1) = g - 1) by (apply wrap_small; lia). rewrite W1.
  destruct (nth_error (rs_list s) (Z.to_nat (g - 1))) as [p|] eqn:Ep.
  - destruct (Hrel _ _ Ep) as (c & Ec & (R1 & R2 & R3 & R4 & R5)). rewrite Ec.
    assert (Lc : zlen c + br < 2 ^ 24) by (apply B2; eapply nth_error_In; eauto).
    assert (LP : length (rg_list p) = length c) by (rewrite <- R4, map_length; reflexivity).
    assert (Hlt : (Z.to_nat (g - 1) < length (rs_list s))%nat) by (eapply nth_error_some_lt; eauto).
    rewrite (zget_some (rs_list s) (g - 1) p) by (auto; lia). cbn [bind].
    destruct (Z.leb_spec 1 n) as [N1|N1].
    + assert (W2 : wrap 32 (n - 1) = n - 1) by (apply wrap_small; lia). rewrite W2.
      destruct (nth_error (rg_list p) (Z.to_nat (n - 1))) as [r|] eqn:Er.
      * assert (Hlt2 : (Z.to_nat (n - 1) < length c)%nat) by (rewrite <- LP; eapply nth_error_some_lt; eauto).
        rewrite (zget_some (rg_list p) (n - 1) r) by (auto; lia). cbn [bind].
        assert (EC : nth_error c (Z.to_nat (n - 1)) = Some (rc_name r, rc_val r)).
        { rewrite <- R4. rewrite nth_error_map, Er. reflexivity. }
        rewrite EC. exists p, r, (Z.to_nat (g - 1)), (Z.to_nat (n - 1)).
        split; [reflexivity|]. split; [reflexivity|]. split.
        { do 2 f_equal. unfold in_current_range. rewrite Hg. cbn [rmin rval]. rewrite R2, R3. unfold zlen in *. lia. }
        split; [auto|]. split; [auto|]. split; [auto|]. split; [rewrite (R5 _ _ Er); lia|].
        rewrite (nth_error_nth _ _ [] Ec). exact EC.
      * rewrite (zget_none _ _ Er). cbn [bind].
        rewrite (proj2 (nth_error_None c _)); [reflexivity|]. rewrite <- LP. now apply nth_error_None.
    + assert (n = 0) as -> by lia. change (wrap 32 (0 - 1)) with 4294967295.
      rewrite zget_none; [reflexivity|]. apply nth_error_None. unfold zlen in Lc. lia.
  - rewrite (zget_none _ _ Ep). cbn [bind].
    destruct (1 <=? n); [|reflexivity].
    rewrite (proj2 (nth_error_None (ar_cells a) _)); [reflexivity|]. rewrite <- Hlen. now apply nth_error_None.
Qed.

Lemma zget_handle {A} (l : list A) g : 0 <= g < zlen l -> exists p, nth_error l (Z.to_nat g) = Some p /\ zget l g = Ok p.
Proof.
  intros H. destruct (nth_error l (Z.to_nat g)) as [p|] eqn:E.
  - exists p. split; auto. unfold zget. destruct (Z.ltb_spec g 0); [lia|]. now apply aget_some.
  - apply nth_error_None in E. unfold zlen in H. lia.
Qed.
Lemma zget_no_handle {A} (l : list A) g : ~ 0 <= g < zlen l -> zget l g = Panic.
Proof.
  intros H. unfold zget. destruct (Z.ltb_spec g 0); auto. unfold aget.
  rewrite (proj2 (nth_error_None _ _)); auto. unfold zlen in H. lia.
Qed.

Definition cost_new (op : rg_op) : Z := if is_new op then 1 else 0.
Definition cost_reg (op : rg_op) : Z := if is_reg op then 1 else 0.

Lemma rel_upd bn br s a i p q c d : reg_rel bn br s a -> nth_error (rs_list s) i = Some p -> nth_error (ar_cells a) i = Some c ->
  reg_rel1 i q d -> zlen d + br < 2 ^ 24 ->
  reg_rel bn br (Regs (rs_locked s) (rs_gen s) (upd (rs_list s) i q)) (AReg (ar_locked a) (upd (ar_cells a) i d)).
Proof.
  intros (Hlk & Hg & Hlen & Hrel & B1 & B3 & B2) Ep Ec Hq Hd.
  assert (LL : zlen (upd (ar_cells a) i d) = zlen (ar_cells a)) by (unfold zlen; now rewrite upd_length).
  split; [auto|]. split; [cbn [rs_gen ar_cells]; now rewrite LL|]. split; [cbn; now rewrite !upd_length|]. split.
  - cbn [rs_list ar_cells]. intros j x Hx. rewrite nth_error_upd in Hx. rewrite nth_error_upd. destruct (Nat.eqb_spec j i) as [->|n].
    + rewrite Ep in Hx. injection Hx as <-. rewrite Ec. eauto.
    + auto.
  - cbn [ar_cells]. split; [rewrite LL; auto|]. split; [auto|]. intros x Hx. apply in_upd in Hx. destruct Hx as [->|Hx]; auto.
Qed.

Lemma rel_mono bn br bn' br' s a : bn' <= bn -> br' <= br -> reg_rel bn br s a -> reg_rel bn' br' s a.
Proof.
  intros H1 H2 (Hlk & Hg & Hlen & Hrel & B1 & B3 & B2). do 4 (split; [auto|]).
  split; [lia|]. split; [lia|]. intros c Hc. specialize (B2 c Hc). lia.
Qed.

Lemma nth_upd_self {A} (l : list A) i d : upd l i (nth i l d) = l.
Proof. revert i. induction l as [|x t IH]; intros [|i]; cbn; auto. now rewrite IH. Qed.

Lemma upd_same {A} (l : list A) i x : nth_error l i = Some x -> upd l i x = l.
Proof. revert i. induction l as [|y t IH]; intros [|i]; cbn; intros H; try discriminate; [congruence|]. now rewrite IH. Qed.

Lemma map_upd {A B} (f : A -> B) l i x : map f (upd l i x) = upd (map f l) i (f x).
Proof. revert i. induction l as [|y t IH]; intros [|i]; cbn; auto. now rewrite IH. Qed.


Lemma step_new bn br s a name : 0 <= bn -> 0 <= br -> reg_rel (bn + 1) br s a ->
  sim_out (reg_rel bn br) (rg_step s (GNew name)) (ar_step a (GNew name)).
Proof.
  intros Hbn Hbr (Hlk & Hg & Hlen & Hrel & B1 & B3 & B2). unfold rg_step, ar_step.
  assert (ZL : zlen (rs_list s) = zlen (ar_cells a)) by (unfold zlen; now rewrite Hlen).
  rewrite Hlk. destruct (ar_locked a) eqn:La; [exact I|]. rewrite Hg.
  pose proof (zlen_nonneg (ar_cells a)) as Nn. unfold range_inc, range_set, range_verify. cbn [rval rmin rmax].
  assert (W : wrap 32 (zlen (ar_cells a) + 1 + 1) = zlen (ar_cells a) + 1 + 1) by (apply wrap_small; lia).
  rewrite W. assert (V : forall b : bool, (if b then true else true) = true) by (destruct b; auto).
  rewrite V. cbn [snd fst negb sim_out].
  split; [now rewrite ZL|].
  assert (LL : zlen (ar_cells a ++ [[]]) = zlen (ar_cells a) + 1) by (rewrite zlen_app; reflexivity).
  split; [reflexivity|]. split; [cbn [rs_gen ar_cells]; now rewrite LL|]. split; [cbn [rs_list ar_cells]; rewrite !app_length; cbn [length]; now rewrite Hlen|]. split.
  - cbn [rs_list ar_cells]. intros i p Hp. destruct (Nat.lt_ge_cases i (length (rs_list s))) as [L|L].
    + rewrite nth_error_app1 in Hp by auto. rewrite nth_error_app1 by lia. auto.
    + assert (i = length (rs_list s)) as ->.
      { apply nth_error_some_lt in Hp. rewrite app_length in Hp. cbn in Hp. lia. }
      rewrite nth_error_app2, Nat.sub_diag in Hp by lia. cbn in Hp. injection Hp as <-.
      exists []. rewrite nth_error_app2, Hlen, Nat.sub_diag by lia. split; [reflexivity|].
      split; cbn [rg_id].
      * unfold zlen in *. rewrite wrap_small; lia.
      * repeat split; auto. intros j r Hj. destruct j; discriminate.
  - cbn [ar_cells]. rewrite LL. split; [lia|]. split; [auto|]. intros c Hc. apply in_app_iff in Hc.
    destruct Hc as [Hc|[<-|[]]]; auto.
Qed.

Lemma step_max bn br s a g m : 0 <= bn -> 0 <= br -> reg_rel bn br s a ->
  sim_out (reg_rel bn br) (rg_step s (GMaxReg g m)) (ar_step a (GMaxReg g m)).
Proof.
  intros Hbn Hbr R. pose proof R as (Hlk & Hg & Hlen & Hrel & B1 & B3 & B2). unfold rg_step, ar_step.
  assert (ZL : zlen (rs_list s) = zlen (ar_cells a)) by (unfold zlen; now rewrite Hlen).
  destruct (Z.leb_spec 0 g), (Z.ltb_spec g (zlen (ar_cells a))); cbn [andb];
    try (rewrite zget_no_handle by lia; exact I).
  destruct (zget_handle (rs_list s) g ltac:(lia)) as (p & Ep & ->). cbn [bind].
  destruct (Hrel _ _ Ep) as (c & Ec & (R1 & R2 & R3 & R4 & R5)).
  change (2 ^ 24) with 16777216.
  destruct (Z.ltb_spec m 1), (Z.ltb_spec 16777215 m), (Z.leb_spec 1 m), (Z.ltb_spec m 16777216); cbn [orb andb]; try lia;
    try (cbn [sim_out]; auto; fail).
  cbn [range_init verify_range negb]. rewrite zset_Ok by lia. cbn [bind sim_out rmax].
  split; [reflexivity|].
  replace a with (AReg (ar_locked a) (upd (ar_cells a) (Z.to_nat g) c)).
  - eapply rel_upd; eauto. + repeat split; auto. + apply B2. eapply nth_error_In; eauto.
  - rewrite (upd_same _ _ _ Ec). now destruct a.
Qed.

Lemma step_reg bn br s a g name val : 0 <= bn -> 0 <= br -> reg_rel bn (br + 1) s a ->
  sim_out (reg_rel bn br) (rg_step s (GReg g name val)) (ar_step a (GReg g name val)).
Proof.
  intros Hbn Hbr R. pose proof R as (Hlk & Hg & Hlen & Hrel & B1 & B3 & B2). unfold rg_step, ar_step.
  assert (ZL : zlen (rs_list s) = zlen (ar_cells a)) by (unfold zlen; now rewrite Hlen).
  destruct (Z.leb_spec 0 g), (Z.ltb_spec g (zlen (ar_cells a))); cbn [andb];
    try (rewrite zget_no_handle by lia; exact I).
  destruct (zget_handle (rs_list s) g ltac:(lia)) as (p & Ep & ->). cbn [bind].
  destruct (Hrel _ _ Ep) as (c & Ec & (R1 & R2 & R3 & R4 & R5)).
  assert (Lc : zlen c + (br + 1) < 2 ^ 24) by (apply B2; eapply nth_error_In; eauto).
  pose proof (zlen_nonneg c) as Nc.
  rewrite Hlk. destruct (ar_locked a) eqn:La; [exact I|]. cbn [negb].
  unfold range_inc, range_set, range_verify. rewrite R2.
  assert (W : wrap 32 (zlen c + 1 + 1) = zlen c + 1 + 1) by (apply wrap_small; lia).
  rewrite W. assert (V : forall b : bool, (if b then true else true) = true) by (destruct b; auto).
  rewrite V. cbn [snd fst negb]. rewrite zset_Ok by lia. cbn [bind sim_out].
  rewrite (nth_error_nth _ _ [] Ec). split.
  { f_equal. rewrite R1, make_id by (unfold zlen in *; lia). lia. }
  assert (LL : zlen (c ++ [(name, val)]) = zlen c + 1) by (rewrite zlen_app; reflexivity).
  assert (LP : length (rg_list p) = length c) by (rewrite <- R4, map_length; reflexivity).
  rewrite <- Hlk at 1. rewrite <- La. eapply rel_upd; eauto.
  - apply (rel_mono bn (br + 1)); auto; lia.
  - split; [auto|]. cbn [rval rmin rmax rg_gen rg_list]. rewrite LL. repeat split; auto.
    + now rewrite map_app, R4.
    + intros j r Hj. destruct (Nat.lt_ge_cases j (length (rg_list p))) as [L|L].
      * rewrite nth_error_app1 in Hj by auto. auto.
      * assert (j = length (rg_list p)) as ->.
        { apply nth_error_some_lt in Hj. rewrite app_length in Hj. cbn in Hj. lia. }
        rewrite nth_error_app2, Nat.sub_diag in Hj by lia. cbn in Hj. injection Hj as <-. cbn [rc_id]. unfold zlen. lia.
  - lia.
Qed.

Lemma step_set bn br s a id v : 0 <= bn -> 0 <= br -> 0 <= id < 2 ^ 32 -> reg_rel bn br s a ->
  sim_out (reg_rel bn br) (rg_step s (GSet id v)) (ar_step a (GSet id v)).
Proof.
  intros Hbn Hbr Hid R. pose proof R as (Hlk & Hg & Hlen & Hrel & B1 & B3 & B2). unfold rg_step, ar_step.
  pose proof (reg_lookup bn br s a id Hbn Hbr R Hid) as L. destruct (cell_at (ar_cells a) id) as [c|]; [|rewrite L; exact I].
  destruct L as (p & r & i & j & Ei & Ej & -> & Ep & Er & -> & Eid & Ec). cbn [bind negb].
  rewrite (aget_some _ _ _ Ep). cbn [bind]. rewrite aset_Ok by (eapply nth_error_some_lt; eauto). cbn [bind].
  rewrite aset_Ok by (eapply nth_error_some_lt; eauto). cbn [bind sim_out]. split; [reflexivity|].
  destruct (Hrel _ _ Ep) as (cs & Ecs & (R1 & R2 & R3 & R4 & R5)).
  unfold set_cell. rewrite <- Ei, <- Ej. rewrite (nth_error_nth _ _ [] Ecs).
  eapply rel_upd; eauto.
  - repeat split; cbn [rg_id rg_gen rg_list]; auto.
    + unfold zlen. rewrite upd_length. exact R2.
    + now rewrite map_upd, R4.
    + intros k x Hx. rewrite nth_error_upd in Hx. destruct (Nat.eqb_spec k j) as [->|n]; [|auto].
      rewrite Er in Hx. injection Hx as <-. cbn [rc_id]. apply R5. exact Er.
  - unfold zlen. rewrite upd_length. apply B2. eapply nth_error_In; eauto.
Qed.

Lemma rg_step_sim bn br s a op : 0 <= bn -> 0 <= br -> id_ok op -> reg_rel (bn + cost_new op) (br + cost_reg op) s a ->
  sim_out (reg_rel bn br) (rg_step s op) (ar_step a op).
Proof.
  intros Hbn Hbr Hok R. unfold cost_new, cost_reg in R.
  destruct op as [name|g m|g name val| |id|id|id v|id|id|id]; cbn [id_ok is_new is_reg] in *; rewrite ?Z.add_0_r in R.
  - now apply step_new.
  - now apply step_max.
  - now apply step_reg.
  - cbn [rg_step ar_step sim_out]. split; auto. destruct R as (Hlk & Hg & Hlen & Hrel & B1 & B3 & B2). repeat split; auto.
  - unfold rg_step, ar_step. pose proof (reg_lookup bn br s a id Hbn Hbr R Hok) as L. destruct (cell_at (ar_cells a) id) as [c|]; [|rewrite L; exact I].
    destruct L as (p & r & i & j & Ei & Ej & -> & Ep & Er & -> & Eid & Ec). cbn. auto.
  - unfold rg_step, ar_step. pose proof (reg_lookup bn br s a id Hbn Hbr R Hok) as L. destruct (cell_at (ar_cells a) id) as [c|]; [|rewrite L; exact I].
    destruct L as (p & r & i & j & Ei & Ej & -> & Ep & Er & -> & Eid & Ec). cbn. auto.
  - now apply step_set.
  - unfold rg_step, ar_step. pose proof (reg_lookup bn br s a id Hbn Hbr R Hok) as L. destruct (cell_at (ar_cells a) id) as [c|]; [|rewrite L; exact I].
    destruct L as (p & r & i & j & Ei & Ej & -> & Ep & Er & -> & Eid & Ec). cbn. auto.
  - unfold rg_step, ar_step. rewrite ids_val. cbn. auto.
  - unfold rg_step, ar_step. pose proof (reg_lookup bn br s a id Hbn Hbr R Hok) as L. destruct (cell_at (ar_cells a) id) as [c|]; [|rewrite L; exact I].
    destruct L as (p & r & i & j & Ei & Ej & -> & Ep & Er & -> & Eid & Ec). cbn [bind sim_out]. rewrite Eid. auto.
Qed.

Lemma rg_run ops : Forall id_ok ops -> forall s a, reg_rel (count_new ops) (count_reg ops) s a ->
  results (run_ops rg_step s ops) = results (run_ops ar_step a ops).
Proof.
  induction ops as [|op ops IH]; intros Hf s a R; [reflexivity|]. cbn [run_ops]. inversion Hf as [|? ? Hop Hrest]; subst.
  assert (C1 : count_new (op :: ops) = count_new ops + cost_new op).
  { unfold count_new, cost_new. cbn [filter]. destruct (is_new op); unfold zlen; cbn [length]; lia. }
  assert (C2 : count_reg (op :: ops) = count_reg ops + cost_reg op).
  { unfold count_reg, cost_reg. cbn [filter]. destruct (is_reg op); unfold zlen; cbn [length]; lia. }
  rewrite C1, C2 in R.
  pose proof (rg_step_sim _ _ s a op (zlen_nonneg _) (zlen_nonneg _) Hop R) as S.
  destruct (rg_step s op) as [[s1 o]| |], (ar_step a op) as [[a1 o']| |]; cbn in S; try contradiction; auto.
  destruct S as [-> R1]. specialize (IH Hrest s1 a1 R1). cbn [bind].
  destruct (run_ops rg_step s1 ops) as [[s2 os]| |], (run_ops ar_step a1 ops) as [[a2 os']| |]; cbn in *; congruence.
Qed.

Lemma registry_cells ops : Forall id_ok ops -> count_new ops <= 255 -> count_reg ops < 2 ^ 24 ->
  results (run_ops rg_step regs_init ops) = results (run_ops ar_step (AReg false []) ops).
Proof.
  intros Hf Hn Hr. apply rg_run; auto. split; [reflexivity|]. split; [reflexivity|]. split; [reflexivity|]. split.
  - intros [|i] p Hp; discriminate.
  - repeat split; auto. intros c [].
Qed.

(** ** Error ids *)
Definition er_rel (s : errs) (a : list (list Z)) : Prop :=
  s = Errs (bytes_of "unknown error" :: a) (1001 + zlen a) /\ zlen a <= 8998.

Lemma err_get_spec s a id : er_rel s a -> 0 <= id < 2 ^ 32 ->
  err_get s id = Ok (match err_name a id with Some n => (n, true) | None => ([], false) end).
Proof.
  intros (-> & Ha) Hid. pose proof (zlen_nonneg a) as Na. unfold err_get, err_valid, err_name. cbn [er_cur er_names]. unfold g_id_min.
  destruct (Z.leb_spec 1001 id), (Z.leb_spec id (1001 + zlen a)); cbn [andb].
  - rewrite wrap_small by lia. unfold zget, aget. destruct (Z.ltb_spec (id - 1001) 0); [lia|].
    destruct (Z.eqb_spec id 1001) as [->|n].
    + reflexivity.
    + destruct (Z.leb_spec 1002 id); [|lia]. replace (Z.to_nat (id - 1001)) with (S (Z.to_nat (id - 1002))) by lia. cbn [nth_error].
      destruct (nth_error a (Z.to_nat (id - 1002))) as [x|] eqn:E; [reflexivity|].
      apply nth_error_None in E. unfold zlen in *. lia.
  - destruct (Z.eqb_spec id 1001); [lia|]. destruct (Z.leb_spec 1002 id); [|lia].
    rewrite (proj2 (nth_error_None _ _)); [reflexivity|]. unfold zlen in *. lia.
  - destruct (Z.eqb_spec id 1001); [lia|]. destruct (Z.leb_spec 1002 id); [lia|]. reflexivity.
  - lia.
Qed.

Lemma err_string_spec s a id : er_rel s a -> 0 <= id < 2 ^ 32 ->
  err_string s id = Ok (match err_name a id with Some n => err_line id n | None => bytes_of "invalid error id:" ++ fmt_d id end).
Proof.
  intros R Hid. unfold err_string. rewrite (err_get_spec s a id R Hid). destruct (err_name a id); reflexivity.
Qed.

Lemma err_show_loop_spec s a b : forall c fuel buf, er_rel s a -> bytes_of "unknown error" :: a = b ++ c -> (length c <= fuel)%nat ->
  err_show_loop fuel s (1001 + zlen b) buf = Ok (buf ++ err_lines (1001 + zlen b) c).
Proof.
  intros c. revert b. induction c as [|x c IH]; intros b fuel buf R E Hf.
  - rewrite app_nil_r in E. destruct R as (-> & Ha). cbn [err_lines]. rewrite app_nil_r.
    assert (zlen b = zlen a + 1) by (rewrite <- E; unfold zlen; cbn [length]; lia).
    destruct fuel; cbn [err_show_loop er_cur]; (destruct (Z.leb_spec (1001 + zlen b) (1001 + zlen a)); [lia|]); reflexivity.
  - assert (L : zlen a + 1 = zlen b + zlen c + 1).
    { apply (f_equal (@length _)) in E. rewrite app_length in E. cbn [length] in E. unfold zlen. lia. }
    pose proof (zlen_nonneg b) as Nb. pose proof (zlen_nonneg c) as Nc. pose proof R as (Es & Ha).
    destruct fuel as [|f]; [cbn in Hf; lia|]. cbn [err_show_loop].
    assert (C : er_cur s = 1001 + zlen a) by (rewrite Es; reflexivity). rewrite C.
    destruct (Z.leb_spec (1001 + zlen b) (1001 + zlen a)); [|lia].
    rewrite (err_string_spec s a) by (auto; lia).
    assert (N : err_name a (1001 + zlen b) = Some x).
    { unfold err_name. destruct b as [|y b].
      - cbn in E. injection E as <- <-. reflexivity.
      - assert (E2 : a = b ++ x :: c) by (cbn [app] in E; congruence). clear E.
        assert (Hz : zlen (y :: b) = zlen b + 1) by (unfold zlen; cbn [length]; lia). rewrite Hz.
        pose proof (zlen_nonneg b). destruct (Z.eqb_spec (1001 + (zlen b + 1)) 1001); [lia|].
        destruct (Z.leb_spec 1002 (1001 + (zlen b + 1))); [|lia]. rewrite E2.
        rewrite nth_error_app2 by (unfold zlen in *; lia).
        replace (Z.to_nat (1001 + (zlen b + 1) - 1002) - length b)%nat with O by (unfold zlen in *; lia). reflexivity. }
    rewrite N. cbn [bind]. rewrite wrap_small by lia.
    replace (1001 + zlen b + 1) with (1001 + zlen (b ++ [x])) by (rewrite zlen_app; unfold zlen; cbn [length]; lia).
    rewrite (IH (b ++ [x])).
    + cbn [err_lines]. rewrite <- !app_assoc. do 4 f_equal. f_equal. rewrite zlen_app. unfold zlen; cbn [length]; lia.
    + auto.
    + rewrite <- app_assoc. exact E.
    + cbn in Hf. lia.
Qed.

Lemma er_step_sim s a op : er_ok op -> er_rel s a ->
  exists s', er_step s op = Ok (s', snd (er_spec a op)) /\ er_rel s' (fst (er_spec a op)).
Proof.
  intros Hok R. pose proof R as (Es & Ha). pose proof (zlen_nonneg a) as Na.
  destruct op as [name|id|id|id msg|]; cbn [er_ok] in Hok; unfold er_step, er_spec.
  - unfold err_reg. assert (C : er_cur s = 1001 + zlen a) by (rewrite Es; reflexivity). rewrite C. unfold g_id_max.
    destruct (Z.ltb_spec (1001 + zlen a) 9999), (Z.ltb_spec (zlen a) 8998); try lia; cbn [fst snd].
    + rewrite wrap_small by lia. eexists. split; [do 3 f_equal; lia|]. subst s. split; cbn [er_names].
      * rewrite zlen_app. replace (1001 + zlen a + 1) with (1001 + (zlen a + zlen [name])) by (unfold zlen; cbn [length]; lia). reflexivity.
      * rewrite zlen_app. unfold zlen in *. cbn [length]. lia.
    + exists s. split; [reflexivity|]. exact R.
  - rewrite (err_get_spec s a id R Hok). exists s. destruct (err_name a id); cbn; auto.
  - rewrite (err_string_spec s a id R Hok). exists s. cbn. auto.
  - unfold err_text. rewrite (err_get_spec s a id R Hok). exists s. split; auto. cbn [bind snd].
    destruct (err_name a id); cbn [bind]; unfold err_invalid, err_line; [|reflexivity].
    do 3 f_equal. rewrite <- !app_assoc. reflexivity.
  - unfold err_show_all. exists s. split; auto. cbn [snd].
    pose proof (err_show_loop_spec s a [] (bytes_of "unknown error" :: a) (length (er_names s) + 1)
      (bytes_of "[errors] Count:" ++ fmt_d (wrap 32 (wrap 32 (er_cur s - g_id_min) + 1))) R eq_refl) as H.
    change (1001 + zlen (@nil (list Z))) with g_id_min in H. rewrite H.
    + cbn [bind]. do 3 f_equal. rewrite <- app_assoc. do 2 f_equal. f_equal. rewrite Es. cbn [er_cur]. unfold g_id_min.
      rewrite (wrap_small 32 (1001 + zlen a - 1001)) by lia. rewrite wrap_small by lia. lia.
    + rewrite Es. cbn [er_names]. lia.
Qed.

Lemma er_run ops : Forall er_ok ops -> forall s a, er_rel s a ->
  exists s', run_ops er_step s ops = Ok (s', snd (spec_ops er_spec a ops)) /\ er_rel s' (fst (spec_ops er_spec a ops)).
Proof.
  induction ops as [|op ops IH]; intros Hf s a R; [exists s; cbn; auto|]. inversion Hf as [|? ? Hop Hrest]; subst.
  destruct (er_step_sim s a op Hop R) as (s1 & E1 & R1). destruct (IH Hrest s1 _ R1) as (s2 & E2 & R2).
  exists s2. cbn [run_ops spec_ops]. rewrite E1. cbn [bind]. rewrite E2. cbn [bind].
  destruct (er_spec a op) as [a1 o]. cbn [fst snd] in *. destruct (spec_ops er_spec a1 ops). cbn in *. auto.
Qed.

Lemma err_start_val : err_start = (Errs [bytes_of "unknown error"] 1001, 1001).
Proof. reflexivity. Qed.
Lemma er_rel_start : er_rel (fst err_start) [].
Proof. split; [reflexivity|]. cbn. lia. Qed.

Lemma errors_history ops : Forall er_ok ops ->
  results (run_ops er_step (fst err_start) ops) = Ok (snd (spec_ops er_spec [] ops)).
Proof.
  intros Hf. destruct (er_run ops Hf _ _ er_rel_start) as (s & -> & _). reflexivity.
Qed.

(** The ids handed out count up from 1002. *)
Lemma spec_reg_ids ops : forall a, reg_ids (snd (spec_ops er_spec a ops)) =
  map (fun i => 1002 + zlen a + Z.of_nat i) (seq 0 (length (fst (spec_ops er_spec a ops)) - length a)) /\
  exists b, fst (spec_ops er_spec a ops) = a ++ b.
Proof.
  induction ops as [|op ops IH]; intros a.
  - cbn. rewrite Nat.sub_diag. split; [reflexivity|]. exists []. now rewrite app_nil_r.
  - cbn [spec_ops]. destruct (er_spec a op) as [a1 o] eqn:E. destruct (IH a1) as (H1 & b & H2).
    destruct (spec_ops er_spec a1 ops) as [a2 os]. cbn [fst snd] in *.
    assert (C : (a1 = a /\ (forall id, o <> EId id true)) \/ (exists n, a1 = a ++ [n] /\ o = EId (1002 + zlen a) true)).
    { destruct op as [name|id|id|id msg|]; unfold er_spec in E.
      1: destruct (zlen a <? 8998); [right; exists name; split; congruence|].
      all: left; split; [congruence|]; apply (f_equal snd) in E; cbn [snd] in E; subst o; intros i D; try (destruct (err_name a id)); discriminate D. }
    destruct C as [(-> & No)|(n & -> & ->)].
    + split; [|eauto]. destruct o as [id [|]| |]; cbn [reg_ids]; auto. exfalso. now apply (No id).
    + split; [|exists (n :: b); rewrite H2, <- app_assoc; reflexivity]. cbn [reg_ids].
      rewrite H1. subst a2. rewrite !app_length. cbn [length].
      replace (length a + 1 + length b - length a)%nat with (S (length b)) by lia.
      replace (length a + 1 + length b - (length a + 1))%nat with (length b) by lia.
      cbn [seq map]. rewrite Z.add_0_r. f_equal. rewrite <- seq_shift, map_map. apply map_ext. intros i.
      rewrite zlen_app. unfold zlen. cbn [length]. lia.
Qed.

Lemma errors_ids ops s os : Forall er_ok ops -> run_ops er_step (fst err_start) ops = Ok (s, os) ->
  zlen (reg_ids os) <= 8998 /\
  forall i id, nth_error (reg_ids os) i = Some id -> id = 1002 + Z.of_nat i.
Proof.
  intros Hf E. destruct (er_run ops Hf _ _ er_rel_start) as (s' & E' & R). rewrite E in E'. injection E' as -> ->.
  destruct (spec_reg_ids ops []) as (H1 & _). rewrite H1. destruct R as (_ & R). unfold zlen in *. cbn [length] in *. split.
  - rewrite map_length, seq_length. lia.
  - intros i id H. rewrite nth_error_map in H. destruct (nth_error (seq 0 _) i) as [j|] eqn:Ej; [|discriminate].
    assert (i < length (fst (spec_ops er_spec [] ops)) - 0)%nat by (apply nth_error_some_lt in Ej; rewrite seq_length in Ej; exact Ej).
    rewrite (nth_error_nth' _ 0%nat) in Ej by (rewrite seq_length; lia). rewrite seq_nth in Ej by lia.
    injection Ej as <-. injection H as <-. cbn. lia.
Qed.

(** ** Ids of a registry are distinct *)
Lemma cell_upd_app l g c id x : nth_error l g = Some c -> cell_at l id <> None -> cell_at (upd l g (c ++ [x])) id <> None.
Proof.
  intros Hg. unfold cell_at. destruct ((1 <=? id / 2 ^ 24) && (1 <=? id mod 2 ^ 24)); auto. rewrite nth_error_upd.
  destruct (Nat.eqb_spec (Z.to_nat (id / 2 ^ 24 - 1)) g) as [->|n]; auto. rewrite Hg.
  intros H. rewrite nth_error_app1; auto. now apply nth_error_Some.
Qed.
Lemma cell_snoc l id : cell_at l id <> None -> cell_at (l ++ [[]]) id <> None.
Proof.
  unfold cell_at. destruct ((1 <=? id / 2 ^ 24) && (1 <=? id mod 2 ^ 24)); auto. intros H.
  destruct (nth_error l (Z.to_nat (id / 2 ^ 24 - 1))) as [c|] eqn:E; [|contradiction].
  rewrite nth_error_app1 by (eapply nth_error_some_lt; eauto). now rewrite E.
Qed.
Lemma cell_set l i x id : cell_at l id <> None -> cell_at (set_cell l i x) id <> None.
Proof.
  unfold cell_at, set_cell. destruct ((1 <=? id / 2 ^ 24) && (1 <=? id mod 2 ^ 24)); auto. rewrite nth_error_upd.
  destruct (Nat.eqb_spec (Z.to_nat (id / 2 ^ 24 - 1)) (Z.to_nat (i / 2 ^ 24 - 1))) as [->|n]; auto.
  destruct (nth_error l (Z.to_nat (i / 2 ^ 24 - 1))) as [c|] eqn:E; auto. rewrite (nth_error_nth _ _ [] E).
  intros H. apply nth_error_Some. rewrite upd_length. now apply nth_error_Some.
Qed.

Lemma cells_kept a op a' o id : ar_step a op = Ok (a', o) -> cell_at (ar_cells a) id <> None -> cell_at (ar_cells a') id <> None.
Proof.
  intros E H. destruct op as [name|g m|g name val| |i|i|i v|i|i|i]; unfold ar_step in E;
    try (destruct (cell_at (ar_cells a) i) as [c|] eqn:Ec; [|discriminate]).
  all: repeat match goal with E : (if ?b then _ else _) = _ |- _ => destruct b eqn:?; try discriminate end.
  all: injection E as <- <-; auto; cbn [ar_cells].
  - now apply cell_snoc.
  - apply cell_upd_app; auto. apply nth_error_nth'. unfold zlen in *. lia.
  - now apply cell_set.
Qed.

Lemma cell_new a g name val a' o : ar_step a (GReg g name val) = Ok (a', o) -> (forall c, In c (ar_cells a) -> zlen c + 1 < 2 ^ 24) ->
  exists id, o = GId id /\ cell_at (ar_cells a) id = None /\ cell_at (ar_cells a') id = Some (name, val).
Proof.
  unfold ar_step. intros E B. destruct ((0 <=? g) && (g <? zlen (ar_cells a)) && negb (ar_locked a)) eqn:G; [|discriminate].
  injection E as <- <-. exists ((g + 1) * 2 ^ 24 + (zlen (nth (Z.to_nat g) (ar_cells a) []) + 1)). split; [reflexivity|].
  assert (Ec : nth_error (ar_cells a) (Z.to_nat g) = Some (nth (Z.to_nat g) (ar_cells a) [])) by (apply nth_error_nth'; unfold zlen in *; lia).
  specialize (B _ (nth_error_In _ _ Ec)). set (c := nth (Z.to_nat g) (ar_cells a) []) in *. pose proof (zlen_nonneg c) as Nc.
  assert (D1 : ((g + 1) * 2 ^ 24 + (zlen c + 1)) / 2 ^ 24 = g + 1) by lia.
  assert (D2 : ((g + 1) * 2 ^ 24 + (zlen c + 1)) mod 2 ^ 24 = zlen c + 1) by lia.
  unfold cell_at. fold c. rewrite D1, D2. destruct (Z.leb_spec 1 (g + 1)); [|lia]. destruct (Z.leb_spec 1 (zlen c + 1)); [|lia]. cbn [andb ar_cells].
  replace (g + 1 - 1) with g by lia. replace (Z.to_nat (zlen c + 1 - 1)) with (length c) by (unfold zlen; lia).
  rewrite nth_error_upd, Nat.eqb_refl, Ec. split; [now apply nth_error_None|].
  rewrite nth_error_app2, Nat.sub_diag by auto. reflexivity.
Qed.

Definition len_ok (br : Z) (a : areg) : Prop := br < 2 ^ 24 /\ forall c, In c (ar_cells a) -> zlen c + br < 2 ^ 24.
Lemma len_step a op a' o br : 0 <= br -> ar_step a op = Ok (a', o) -> len_ok (br + cost_reg op) a -> len_ok br a'.
Proof.
  unfold cost_reg. intros H0 E (B3 & B2). destruct op as [name|g m|g name val| |i|i|i v|i|i|i]; cbn [is_reg] in *; unfold ar_step in E;
    try (destruct (cell_at (ar_cells a) i) as [c|] eqn:Ec; [|discriminate]).
  all: repeat match goal with E : (if ?b then _ else _) = _ |- _ => destruct b eqn:?; try discriminate end.
  all: injection E as <- <-; split; cbn [ar_cells]; try lia; intros x Hx; rewrite ?Z.add_0_r in *; auto.
  - apply in_app_iff in Hx. destruct Hx as [Hx|[<-|[]]]; [auto|]. change (zlen (@nil (list Z * Z))) with 0. lia.
  - apply in_upd in Hx. destruct Hx as [->|Hx].
    + rewrite zlen_app. change (zlen [(name, val)]) with 1.
      assert (In (nth (Z.to_nat g) (ar_cells a) []) (ar_cells a)) as Hin by (apply nth_In; unfold zlen in *; lia).
      specialize (B2 _ Hin). lia.
    + specialize (B2 _ Hx). lia.
  - unfold set_cell in Hx. apply in_upd in Hx. destruct Hx as [->|Hx]; auto.
    unfold zlen. rewrite upd_length.
    destruct (Nat.lt_ge_cases (Z.to_nat (i / 2 ^ 24 - 1)) (length (ar_cells a))) as [L|L].
    + apply (B2 _ (nth_In _ [] L)).
    + rewrite nth_overflow by auto. cbn [length]. lia.
Qed.

Lemma ids_distinct ops : forall a a' os, run_ops ar_step a ops = Ok (a', os) -> len_ok (count_reg ops) a ->
  NoDup (issued ops os) /\ forall id, In id (issued ops os) -> cell_at (ar_cells a) id = None.
Proof.
  induction ops as [|op ops IH]; intros a a' os E B.
  - cbn in E. injection E as <- <-. cbn. split; [constructor|tauto].
  - cbn [run_ops] in E. destruct (ar_step a op) as [[a1 o]| |] eqn:E1; try discriminate. cbn [bind] in E.
    destruct (run_ops ar_step a1 ops) as [[a2 os2]| |] eqn:E2; try discriminate. cbn [bind] in E. injection E as <- <-.
    assert (C2 : count_reg (op :: ops) = count_reg ops + cost_reg op).
    { unfold count_reg, cost_reg. cbn [filter]. destruct (is_reg op); unfold zlen; cbn [length]; lia. }
    rewrite C2 in B. pose proof (len_step _ _ _ _ _ (zlen_nonneg _) E1 B) as B1.
    destruct (IH _ _ _ E2 B1) as (N & D).
    assert (D' : forall id, In id (issued ops os2) -> cell_at (ar_cells a) id = None).
    { intros id Hid. destruct (cell_at (ar_cells a) id) eqn:Ec; auto. exfalso.
      apply (cells_kept _ _ _ _ id E1); [congruence|auto]. }
    destruct op; cbn [issued]; try (split; auto; fail).
    destruct B as (B3 & B2). unfold cost_reg in B2. cbn [is_reg] in B2. destruct (cell_new _ _ _ _ _ _ E1) as (id & -> & C0 & C1).
    { intros c Hc. specialize (B2 c Hc). pose proof (zlen_nonneg (filter is_reg ops)). unfold count_reg in *. lia. }
    split.
    + constructor; auto. intros Hin. apply D in Hin. congruence.
    + intros i [<-|Hin]; auto.
Qed.

Lemma registry_ids ops s os : Forall id_ok ops -> count_new ops <= 255 -> count_reg ops < 2 ^ 24 ->
  run_ops rg_step regs_init ops = Ok (s, os) -> NoDup (issued ops os).
Proof.
  intros Hf Hn Hr E. pose proof (registry_cells ops Hf Hn Hr) as H. rewrite E in H. cbn in H.
  destruct (run_ops ar_step (AReg false []) ops) as [[a os']| |] eqn:E2; try discriminate. cbn in H. injection H as ->.
  apply (ids_distinct _ _ _ _ E2). split; auto. intros c [].
Qed.

(** ** FinishReg is final *)
Lemma lock_kept ops : forall s s' os, rs_locked s = true -> run_ops rg_step s ops = Ok (s', os) ->
  rs_locked s' = true /\ issued ops os = [] /\ count_new ops = 0 /\ count_reg ops = 0.
Proof.
  induction ops as [|op ops IH]; intros s s' os L E.
  - cbn in E. injection E as <- <-. auto.
  - cbn [run_ops] in E. destruct (rg_step s op) as [[s1 o]| |] eqn:E1; try discriminate. cbn [bind] in E.
    destruct (run_ops rg_step s1 ops) as [[s2 os2]| |] eqn:E2; try discriminate. cbn [bind] in E. injection E as <- <-.
    assert (H : rs_locked s1 = true /\ is_new op = false /\ is_reg op = false).
    { destruct op as [name|g m|g name val| |i|i|i v|i|i|i]; unfold rg_step in E1; rewrite ?L in E1; try discriminate; split; auto.
      - destruct (zget (rs_list s) g) as [p| |]; try discriminate. cbn [bind] in E1.
        destruct ((m <? 1) || (16777215 <? m)); [congruence|]. cbn [range_init verify_range negb] in E1.
        destruct (zset (rs_list s) g _); try discriminate. cbn [bind] in E1. injection E1 as <- <-; auto.
      - destruct (zget (rs_list s) g); discriminate.
      - destruct (zget (rs_list s) g); discriminate.
      - injection E1 as <- <-; auto.
      - destruct (reg_get s i) as [[[[? ?] ?] ?]| |]; try discriminate. cbn in E1. congruence.
      - destruct (reg_get s i) as [[[[? ?] ?] ?]| |]; try discriminate. cbn in E1. congruence.
      - destruct (reg_get s i) as [[[[? ?] ?] ok]| |]; try discriminate. cbn [bind] in E1. destruct (negb ok); [congruence|].
        destruct (aget (rs_list s) _); try discriminate. cbn [bind] in E1. destruct (aset (rg_list _) _ _); try discriminate. cbn [bind] in E1.
        destruct (aset (rs_list s) _ _); try discriminate. cbn [bind] in E1. injection E1 as <- <-; auto.
      - destruct (reg_get s i) as [[[[? ?] ?] ?]| |]; try discriminate. cbn in E1. congruence.
      - destruct (reged_ids i). congruence.
      - destruct (reg_get s i) as [[[[? ?] ?] ?]| |]; try discriminate. cbn in E1. congruence. }
    destruct H as (L1 & Hn & Hr). destruct (IH _ _ _ L1 E2) as (K1 & K2 & K3 & K4). split; auto.
    unfold count_new, count_reg in *. cbn [filter]. rewrite Hn, Hr. repeat split; auto.
    destruct op; cbn [issued]; auto; discriminate.
Qed.

Lemma run_after_finish before after s os :
  run_ops rg_step regs_init (before ++ GFinish :: after) = Ok (s, os) -> count_new after = 0 /\ count_reg after = 0.
Proof.
  intros E. rewrite run_ops_app in E. destruct (run_ops rg_step regs_init before) as [[s1 os1]| |]; try discriminate.
  cbn [bind run_ops rg_step] in E. destruct (run_ops rg_step _ after) as [[s2 os2]| |] eqn:E2; try discriminate.
  apply lock_kept in E2; auto. tauto.
Qed.

Lemma max_reg_exact g m name :
  run_ops rg_step regs_init [GNew name; GMaxReg g m] =
  if g =? 0 then
    if (1 <=? m) && (m <? 2 ^ 24)
    then Ok (Regs false (Range 2 0 255) [Reger 1 name (Range 1 0 m) []], [GHandle 0; GLimit m true])
    else Ok (Regs false (Range 2 0 255) [Reger 1 name (Range 1 0 1024) []], [GHandle 0; GLimit 0 false])
  else Panic.
Proof.
  transitivity (' (s, o) <- rg_step (Regs false (Range 2 0 255) [Reger 1 name (Range 1 0 1024) []]) (GMaxReg g m) ;;
     Ok (s, [GHandle 0; o])).
  { cbn [run_ops]. change (rg_step regs_init (GNew name)) with
      (Ok (Regs false (Range 2 0 255) [Reger 1 name (Range 1 0 1024) []], GHandle 0)). cbn [bind].
    destruct (rg_step _ (GMaxReg g m)) as [[? ?]| |]; reflexivity. }
  unfold rg_step. cbn [rs_list rs_locked rs_gen]. destruct (Z.eqb_spec g 0) as [->|n].
  - cbn [zget aget nth_error Z.to_nat Z.ltb Z.compare bind]. change (2 ^ 24) with 16777216.
    destruct (Z.ltb_spec m 1), (Z.ltb_spec 16777215 m), (Z.leb_spec 1 m), (Z.ltb_spec m 16777216); try lia; reflexivity.
  - rewrite zget_no_handle; [reflexivity|]. unfold zlen. cbn [length]. lia.
Qed.
