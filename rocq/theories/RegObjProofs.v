(** Proofs: objects and texts of package regable. *)
From Coq Require Import String.
From Coq Require Import ZArith List Bool Lia ZifyBool.
From Verif Require Import GoBase GoLists GoStrings MathModel QueueProofs RingProofs RegModel RegSpec RegProofs RegObjModel RegObjSpec.
Import ListNotations.
Open Scope Z_scope.
Ltac Zify.zify_post_hook ::= Z.div_mod_to_equations.

Definition proj (a : aregs) : areg := AReg (as_locked a) (map ag_cells (as_list a)).
Definition meta (p : reger) : list Z * Z := (rg_name p, rmax (rg_gen p)).
Definition ameta (g : areger) : list Z * Z := (ag_name g, ag_max g).
Definition ro_rel (bn br : Z) (s : regs) (a : aregs) : Prop :=
  reg_rel bn br s (proj a) /\ map meta (rs_list s) = map ameta (as_list a).

Lemma zlen_map {A B} (f : A -> B) l : zlen (map f l) = zlen l.
Proof. unfold zlen. now rewrite map_length. Qed.
Lemma cell_icell l id : cell_at (map ag_cells l) id = match icell l id with Some p => ocell l p | None => None end.
Proof.
  unfold cell_at, icell, ocell. cbn [fst snd]. destruct (_ && _); [|reflexivity]. rewrite nth_error_map.
  destruct (nth_error l (Z.to_nat (id / 2 ^ 24 - 1))) as [g|] eqn:E; cbn [option_map]; [|reflexivity].
  destruct (nth_error (ag_cells g) (Z.to_nat (id mod 2 ^ 24 - 1))) eqn:E2; [|reflexivity]. cbn [fst snd]. now rewrite E.
Qed.
Lemma icell_some l id p : icell l id = Some p -> p = (Z.to_nat (id / 2 ^ 24 - 1), Z.to_nat (id mod 2 ^ 24 - 1)) /\ 1 <= id mod 2 ^ 24 /\ exists c, ocell l p = Some c.
Proof.
  unfold icell. destruct ((1 <=? id / 2 ^ 24) && (1 <=? id mod 2 ^ 24)) eqn:B; [|discriminate].
  destruct (ocell l _) as [c|] eqn:E; [|discriminate]. intros H. injection H as <-. split; [reflexivity|]. split; [lia|eauto].
Qed.

Definition pres (x : outcome (aregs * ro_res)) : outcome (areg * rg_res) :=
  match x with Ok (a, RRes r) => Ok (proj a, r) | Ok _ => Diverge | Panic => Panic | Diverge => Diverge end.

Lemma with_id_cell l id (f : nat * nat -> list Z * Z -> ro_res) g (a : aregs) :
  (forall p c, f p c = RRes (g c)) -> as_list a = l ->
  pres (r <- with_id l id f ;; Ok (a, r)) = match cell_at (map ag_cells l) id with Some c => Ok (proj a, g c) | None => Panic end.
Proof.
  intros Hf El. rewrite cell_icell. unfold with_id, with_cell. destruct (icell l id) as [p|]; [|reflexivity].
  destruct (ocell l p); cbn; [|reflexivity]. now rewrite Hf.
Qed.
Lemma map_upd' {A B} (f : A -> B) l i x : map f (upd l i x) = upd (map f l) i (f x).
Proof. apply map_upd. Qed.

Lemma set_proj l id p v c : icell l id = Some p -> ocell l p = Some c ->
  map ag_cells (set_ocell l p v) = set_cell (map ag_cells l) id (fst c, v).
Proof.
  intros Hi Ho. apply icell_some in Hi. destruct Hi as (-> & _ & _). unfold set_ocell, set_cell. cbn [fst snd].
  unfold ocell in Ho. cbn [fst snd] in Ho. destruct (nth_error l (Z.to_nat (id / 2 ^ 24 - 1))) as [g|] eqn:E; [|discriminate].
  rewrite Ho, map_upd. cbn [ag_cells].
  assert (nth (Z.to_nat (id / 2 ^ 24 - 1)) (map ag_cells l) [] = ag_cells g) as ->; [|reflexivity].
  apply nth_error_nth. now rewrite nth_error_map, E.
Qed.

Lemma spec_base a op : pres (ro_spec a (RBase op)) = ar_step (proj a) op.
Proof.
  destruct op; cbn [ro_spec ar_step proj ar_locked ar_cells].
  - destruct (as_locked a) eqn:E; [reflexivity|]. cbn [pres]. unfold proj. cbn [as_locked as_list]. rewrite map_app. now rewrite zlen_map.
  - rewrite zlen_map. destruct ((0 <=? g) && (g <? zlen (as_list a))) eqn:Hg; [|reflexivity].
    destruct ((1 <=? m) && (m <? 2 ^ 24)) eqn:Hm; [|reflexivity].
    destruct (nth_error (as_list a) (Z.to_nat g)) as [r|] eqn:E.
    + cbn [pres]. unfold proj. cbn [as_locked as_list]. rewrite map_upd. cbn [ag_cells]. rewrite upd_same; [reflexivity|]. now rewrite nth_error_map, E.
    + apply nth_error_None in E. unfold zlen in Hg. lia.
  - rewrite zlen_map. destruct ((0 <=? g) && (g <? zlen (as_list a)) && negb (as_locked a)) eqn:Hg; [|reflexivity].
    destruct (nth_error (as_list a) (Z.to_nat g)) as [r|] eqn:E.
    + cbn [pres]. unfold proj. cbn [as_locked as_list]. rewrite map_upd. cbn [ag_cells].
      assert (nth (Z.to_nat g) (map ag_cells (as_list a)) [] = ag_cells r) as ->; [|reflexivity].
      apply nth_error_nth. now rewrite nth_error_map, E.
    + apply nth_error_None in E. unfold zlen in Hg. lia.
  - reflexivity.
  - now apply with_id_cell with (g := fun _ => GBool true).
  - now apply with_id_cell with (g := fun c => GVal (snd c) true).
  - rewrite cell_icell. unfold with_id, with_cell. destruct (icell (as_list a) id) as [p|] eqn:E; [|reflexivity].
    destruct (ocell (as_list a) p) eqn:E2; [|reflexivity]. cbn [bind pres]. unfold proj. cbn [as_locked as_list]. now rewrite (set_proj _ id p v p0).
  - now apply with_id_cell with (g := fun c => GStr (fst c) true).
  - reflexivity.
  - now apply with_id_cell with (g := fun _ => GId (id mod 2 ^ 24)).
Qed.

(** ** Names and limits *)
Definition meta_after (op : rg_op) (l : list (list Z * Z)) : list (list Z * Z) :=
  match op with
  | GNew name => l ++ [(name, 1024)]
  | GMaxReg g m => if (1 <=? m) && (m <=? 16777215) then match nth_error l (Z.to_nat g) with Some (n, _) => upd l (Z.to_nat g) (n, m) | None => l end else l
  | _ => l
  end.
Lemma zset_ok {A} (l l' : list A) i v : zset l i v = Ok l' -> l' = upd l (Z.to_nat i) v.
Proof. unfold zset, aset. destruct (i <? 0); [discriminate|]. destruct (_ <? _)%nat; [|discriminate]. intros H. now injection H as <-. Qed.
Lemma aset_ok {A} (l l' : list A) i v : aset l i v = Ok l' -> l' = upd l i v.
Proof. unfold aset. destruct (_ <? _)%nat; [|discriminate]. intros H. now injection H as <-. Qed.
Lemma aget_ok {A} (l : list A) i x : aget l i = Ok x -> nth_error l i = Some x.
Proof. unfold aget. destruct (nth_error l i); congruence. Qed.
Lemma zget_ok {A} (l : list A) i x : zget l i = Ok x -> 0 <= i /\ nth_error l (Z.to_nat i) = Some x.
Proof. unfold zget. destruct (Z.ltb_spec i 0); [discriminate|]. intros H1. split; [lia|now apply aget_ok]. Qed.
Lemma bind_ok {A B} (x : outcome A) (f : A -> outcome B) y : bind x f = Ok y -> exists a, x = Ok a /\ f a = Ok y.
Proof. destruct x; cbn; try discriminate. eauto. Qed.
Lemma meta_upd l i p q : nth_error l i = Some p -> meta q = meta p -> map meta (upd l i q) = map meta l.
Proof. intros H E. rewrite map_upd, E. apply upd_same. now rewrite nth_error_map, H. Qed.

Lemma step_meta s op s' r : rg_step s op = Ok (s', r) -> map meta (rs_list s') = meta_after op (map meta (rs_list s)).
Proof.
  destruct op; cbn [rg_step meta_after]; intros H.
  - destruct (rs_locked s); [discriminate|]. unfold range_inc, range_set in H. destruct (range_verify _ _); [|discriminate]. cbn in H.
    injection H as <- _. cbn [rs_list]. now rewrite map_app.
  - apply bind_ok in H. destruct H as (p & Hp & H). apply zget_ok in Hp. destruct Hp as [Hg Hp]. rewrite nth_error_map, Hp. cbn [option_map meta].
    destruct ((m <? 1) || (16777215 <? m)) eqn:B.
    + injection H as <- _. assert ((1 <=? m) && (m <=? 16777215) = false) as -> by lia. reflexivity.
    + assert ((1 <=? m) && (m <=? 16777215) = true) as -> by lia. cbn [range_init verify_range negb] in H.
      unfold range_init in H. cbn [verify_range negb] in H. apply bind_ok in H. destruct H as (l & Hl & H). apply zset_ok in Hl. injection H as <- _. cbn [rs_list].
      rewrite Hl, map_upd. reflexivity.
  - apply bind_ok in H. destruct H as (p & Hp & H). apply zget_ok in Hp. destruct Hp as [Hg Hp].
    destruct (rs_locked s); [discriminate|]. unfold range_inc, range_set in H. destruct (range_verify _ _); [|discriminate]. cbn [fst snd negb] in H.
    apply bind_ok in H. destruct H as (l & Hl & H). apply zset_ok in Hl. injection H as <- _. cbn [rs_list]. subst l.
    apply (meta_upd _ _ p); auto.
  - now injection H as <- _.
  - apply bind_ok in H. destruct H as ([[[i j] x] ok] & _ & H). now injection H as <- _.
  - apply bind_ok in H. destruct H as ([[[i j] x] ok] & _ & H). now injection H as <- _.
  - apply bind_ok in H. destruct H as ([[[i j] x] ok] & _ & H). destruct (negb ok); [now injection H as <- _|].
    apply bind_ok in H. destruct H as (p & Hp & H). apply aget_ok in Hp. apply bind_ok in H. destruct H as (recs & _ & H).
    apply bind_ok in H. destruct H as (l & Hl & H). apply aset_ok in Hl. injection H as <- _. subst l. cbn [rs_list]. now apply (meta_upd _ _ p).
  - apply bind_ok in H. destruct H as ([[[i j] x] ok] & _ & H). now injection H as <- _.
  - destruct (reged_ids id). now injection H as <- _.
  - apply bind_ok in H. destruct H as ([[[i j] x] ok] & _ & H). now injection H as <- _.
Qed.
Lemma set_ocell_meta l p v : map ameta (set_ocell l p v) = map ameta l.
Proof.
  unfold set_ocell. destruct (nth_error l (fst p)) as [g|] eqn:E; [|reflexivity]. destruct (nth_error (ag_cells g) (snd p)); [|reflexivity].
  rewrite map_upd. apply upd_same. now rewrite nth_error_map, E.
Qed.
Lemma spec_meta a op a' r : ro_spec a (RBase op) = Ok (a', r) -> map ameta (as_list a') = meta_after op (map ameta (as_list a)).
Proof.
  destruct op; cbn [ro_spec meta_after]; intros H;
    try (apply bind_ok in H; destruct H as (x & Hx & H)); try (now injection H as <- _).
  - destruct (as_locked a); [discriminate|]. injection H as <- _. cbn. now rewrite map_app.
  - destruct (_ && _); [|discriminate].
    destruct ((1 <=? m) && (m <? 2 ^ 24)) eqn:B.
    + assert ((1 <=? m) && (m <=? 16777215) = true) as -> by lia. rewrite nth_error_map.
      destruct (nth_error (as_list a) (Z.to_nat g)) as [q|]; [|discriminate]. cbn [option_map ameta]. injection H as <- _. cbn. now rewrite map_upd.
    + assert ((1 <=? m) && (m <=? 16777215) = false) as -> by lia. now injection H as <- _.
  - destruct (_ && _); [|discriminate]. destruct (nth_error (as_list a) (Z.to_nat g)) as [q|] eqn:E; [|discriminate].
    injection H as <- _. cbn [as_list]. rewrite map_upd. apply upd_same. now rewrite nth_error_map, E.
  - unfold with_id, with_cell in Hx. destruct (icell (as_list a) id) as [p|]; [|discriminate]. destruct (ocell (as_list a) p); [|discriminate].
    injection Hx as <-. injection H as <- _. apply set_ocell_meta.
Qed.

(** ** Texts *)
Lemma rel_rec bn br s a p g j : 0 <= br -> ro_rel bn br s a -> nth_error (rs_list s) p = Some g ->
  exists q, nth_error (as_list a) p = Some q /\ rg_id g = Z.of_nat p + 1 /\ rg_name g = ag_name q /\
    rg_gen g = Range (zlen (ag_cells q) + 1) 0 (ag_max q) /\ map (fun r => (rc_name r, rc_val r)) (rg_list g) = ag_cells q /\
    zlen (ag_cells q) < 2 ^ 24 /\ (nth_error (rg_list g) j = None -> nth_error (ag_cells q) j = None) /\
    forall r, nth_error (rg_list g) j = Some r -> rc_id r = Z.of_nat j + 1 /\ nth_error (ag_cells q) j = Some (rc_name r, rc_val r).
Proof.
  intros Hbr [(Hlk & Hg & Hlen & Hrel & B1 & B3 & B2) Hm] Hp. cbn [proj ar_cells ar_locked] in *.
  destruct (Hrel p g Hp) as (c & Hc & R1 & R2 & R3 & R4 & R5). rewrite nth_error_map in Hc.
  destruct (nth_error (as_list a) p) as [q|] eqn:Eq; [|discriminate]. injection Hc as <-.
  assert (E : meta g = ameta q).
  { assert (nth_error (map meta (rs_list s)) p = nth_error (map ameta (as_list a)) p) by now rewrite Hm.
    rewrite !nth_error_map, Hp, Eq in H. cbn in H. congruence. }
  exists q. split; [reflexivity|]. split; [exact R1|]. unfold meta, ameta in E. split; [congruence|].
  split; [destruct (rg_gen g); cbn in *; congruence|]. split; [exact R4|]. split.
  { specialize (B2 (ag_cells q)). assert (In (ag_cells q) (map ag_cells (as_list a))) by (apply in_map; eapply nth_error_In; eauto). specialize (B2 H). lia. }
  split.
  - intros Hn. rewrite <- R4, nth_error_map, Hn. reflexivity.
  - intros r Hr. split; [now apply R5|]. rewrite <- R4, nth_error_map, Hr. reflexivity.
Qed.
Lemma rel_none bn br s a p : ro_rel bn br s a -> nth_error (rs_list s) p = None -> nth_error (as_list a) p = None.
Proof.
  intros [(Hlk & Hg & Hlen & Hrel & B1 & B3 & B2) Hm] Hp. apply nth_error_None in Hp. apply nth_error_None.
  cbn [proj ar_cells] in Hlen. rewrite map_length in Hlen. lia.
Qed.

Lemma fmt0 : fmt_d 0 = bytes_of "0". Proof. reflexivity. Qed.
Lemma rec_text_ok r n : rc_id r = n -> 1 <= n < 2 ^ 24 -> rec_text r = obj_text n (rc_name r, rc_val r).
Proof.
  intros E H. unfold rec_text, obj_text. rewrite E, ids_val. assert (n / 2 ^ 24 = 0) as -> by lia. assert (n mod 2 ^ 24 = n) as -> by lia.
  cbn [fst snd]. rewrite fmt0. cbn [bytes_of app]. reflexivity.
Qed.
Lemma rec_lines_ok l : forall i, 0 <= i -> i + zlen l < 2 ^ 24 -> rec_lines i l = cell_lines (i + 1) (map (fun r => (rc_name r, rc_val r)) l).
Proof.
  induction l as [|r t IH]; intros i Hi Hl; [reflexivity|]. cbn [rec_lines map cell_lines]. unfold cell_text. cbn [fst snd].
  assert (Z1 : zlen (r :: t) = zlen t + 1) by (unfold zlen; cbn [length]; lia). pose proof (zlen_nonneg t).
  rewrite IH by lia. assert (wrap 32 (wrap 32 (wrap 32 i + 0) + 1) = i + 1) as ->.
  { rewrite Z.add_0_r, (wrap_small 32 i), (wrap_small 32 i), (wrap_small 32 (i + 1)) by lia. reflexivity. }
  now rewrite <- !app_assoc.
Qed.
Lemma reger_text_ok bn br s a p g q : 0 <= br -> ro_rel bn br s a -> nth_error (rs_list s) p = Some g -> nth_error (as_list a) p = Some q ->
  reger_text g = areger_text (Z.of_nat p + 1) q.
Proof.
  intros Hbr R Hp Hq. destruct (rel_rec bn br s a p g 0 Hbr R Hp) as (q' & Hq' & E1 & E2 & E3 & E4 & E5 & _).
  assert (q' = q) as -> by congruence. unfold reger_text, areger_text, range_text. rewrite E1, E2, E3. cbn [rval rmin rmax].
  assert (EL : zlen (rg_list g) = zlen (ag_cells q)) by (rewrite <- E4; now rewrite zlen_map).
  rewrite rec_lines_ok by lia. rewrite E4, fmt0, <- !app_assoc. reflexivity.
Qed.
Lemma regers_ok bn br s a : 0 <= br -> ro_rel bn br s a -> regers_text s = aregs_text (as_list a).
Proof.
  intros Hbr R. unfold regers_text, aregs_text.
  assert (EL : length (rs_list s) = length (as_list a)).
  { destruct R as [_ Hm]. apply (f_equal (@length _)) in Hm. now rewrite !map_length in Hm. }
  assert (EZ : zlen (rs_list s) = zlen (as_list a)) by (unfold zlen; now rewrite EL). rewrite EZ. do 2 f_equal.
  assert (G : forall p, nth_error (rs_list s) p = None \/ exists g q, nth_error (rs_list s) p = Some g /\ nth_error (as_list a) p = Some q /\ reger_text g = areger_text (Z.of_nat p + 1) q).
  { intros p. destruct (nth_error (rs_list s) p) as [g|] eqn:E; [right|now left].
    destruct (rel_rec bn br s a p g 0 Hbr R E) as (q & Hq & _). exists g, q. repeat split; auto. eapply reger_text_ok; eauto. }
  clear R EZ. revert G EL. generalize (rs_list s) (as_list a). intros l1 l2 G EL.
  assert (K : forall l1 l2 n, length l1 = length l2 -> 0 <= n ->
    (forall p, nth_error l1 p = None \/ exists g q, nth_error l1 p = Some g /\ nth_error l2 p = Some q /\ reger_text g = areger_text (Z.of_nat p + 1 + n) q) ->
    flat_map (fun p => [10] ++ reger_text p) l1 = areger_texts (n + 1) l2).
  { clear. induction l1 as [|g l1 IH]; intros [|q l2] n EL Hn G; try discriminate; [reflexivity|].
    cbn [flat_map areger_texts]. rewrite <- app_assoc. f_equal.
    destruct (G O) as [K|(g' & q' & K1 & K2 & K3)]; [discriminate|]. cbn in K1, K2. injection K1 as <-. injection K2 as <-.
    rewrite K3. assert (Z.of_nat 0 + 1 + n = n + 1) as -> by lia. f_equal.
    apply (IH l2 (n + 1)); [now injection EL|lia|].
    intros p. destruct (G (S p)) as [K|(g' & q' & K1 & K2 & K4)]; [now left|right]. exists g', q'. repeat split; auto. rewrite K4. f_equal. lia. }
  apply (K l1 l2 0); [exact EL|lia|]. intros p. destruct (G p) as [H|(g & q & H1 & H2 & H3)]; [now left|right].
  exists g, q. repeat split; auto. now rewrite Z.add_0_r.
Qed.

(** ** The calls *)
Definition rcost_new (op : ro_op) : Z := if ro_new op then 1 else 0.
Definition rcost_reg (op : ro_op) : Z := if ro_reg op then 1 else 0.

Lemma base_sim bn br s a op : 0 <= bn -> 0 <= br -> id_ok op -> ro_rel (bn + cost_new op) (br + cost_reg op) s a ->
  sim_out (ro_rel bn br) (ro_step s (RBase op)) (ro_spec a (RBase op)).
Proof.
  intros Hbn Hbr Hok [R Hm]. pose proof (rg_step_sim bn br s (proj a) op Hbn Hbr Hok R) as S.
  pose proof (spec_base a op) as E. unfold ro_step.
  destruct (ro_spec a (RBase op)) as [[a' r']| |] eqn:Es; cbn [pres] in E.
  - assert (K : exists q, r' = RRes q).
    { clear - Es. destruct op; cbn [ro_spec] in Es; unfold with_id, with_cell in Es;
        repeat match type of Es with
        | context [if ?b then _ else _] => destruct b; try discriminate
        | context [match ?x with Some _ => _ | None => _ end] => destruct x; cbn [bind] in Es; try discriminate
        end; cbn [bind] in Es; try discriminate; injection Es as _ <-; eauto. }
    destruct K as (q & ->). cbn [pres] in E. rewrite <- E in S. destruct (rg_step s op) as [[s1 o]| |] eqn:Eg; cbn in S; try contradiction.
    destruct S as [-> R1]. cbn. split; [reflexivity|]. split; [exact R1|]. rewrite (step_meta _ _ _ _ Eg), (spec_meta _ _ _ _ Es). now rewrite Hm.
  - rewrite <- E in S. destruct (rg_step s op) as [[s1 o]| |]; cbn in S; try contradiction. exact I.
  - rewrite <- E in S. destruct (rg_step s op) as [[s1 o]| |]; cbn in S; try contradiction; exact I.
Qed.
Lemma lookup bn br s a id : 0 <= bn -> 0 <= br -> ro_rel bn br s a -> 0 <= id < 2 ^ 32 ->
  match icell (as_list a) id with
  | None => reg_get s id = Panic
  | Some p => exists r, ocell (as_list a) p = Some (rc_name r, rc_val r) /\ reg_get s id = Ok (fst p, snd p, r, true) /\ rc_id r = Z.of_nat (snd p) + 1
  end.
Proof.
  intros Hbn Hbr [R Hm] Hid. pose proof (reg_lookup bn br s (proj a) id Hbn Hbr R Hid) as L. cbn [proj ar_cells] in L. rewrite cell_icell in L.
  destruct (icell (as_list a) id) as [p|] eqn:E; [|exact L]. apply icell_some in E. destruct E as (-> & H1 & c & Hc). rewrite Hc in *.
  destruct L as (p & r & i & j & Ei & Ej & L1 & L2 & L3 & L4 & L5 & L6). exists r. cbn [fst snd]. rewrite <- Ei, <- Ej. rewrite L4.
  split; [reflexivity|]. split; [exact L1|]. lia.
Qed.
Lemma olookup bn br s a p : 0 <= br -> ro_rel bn br s a ->
  match ocell (as_list a) p with
  | None => rec_at s p = Panic
  | Some c => exists g r, nth_error (rs_list s) (fst p) = Some g /\ nth_error (rg_list g) (snd p) = Some r /\ c = (rc_name r, rc_val r) /\
      rec_at s p = Ok r /\ rc_id r = Z.of_nat (snd p) + 1 /\ Z.of_nat (snd p) + 1 < 2 ^ 24
  end.
Proof.
  intros Hbr R. unfold ocell, rec_at. destruct (nth_error (rs_list s) (fst p)) as [g|] eqn:E.
  - destruct (rel_rec bn br s a (fst p) g (snd p) Hbr R E) as (q & Hq & E1 & E2 & E3 & E4 & E5 & E6 & E7). rewrite Hq. rewrite (aget_some _ _ _ E). cbn [bind].
    destruct (nth_error (rg_list g) (snd p)) as [r|] eqn:Er.
    + destruct (E7 r eq_refl) as [H1 H2]. rewrite H2. exists g, r. repeat split; auto. { now apply aget_some. }
      assert (snd p < length (ag_cells q))%nat by (apply nth_error_Some; congruence). unfold zlen in E5. lia.
    + rewrite (E6 eq_refl). unfold aget. now rewrite Er.
  - rewrite (rel_none _ _ _ _ _ R E). unfold aget. now rewrite E.
Qed.
Lemma sim_same {S R A} (rel : S -> A -> Prop) s a (r : R) : rel s a -> sim_out rel (Ok (s, r)) (Ok (a, r)).
Proof. cbn. auto. Qed.

Lemma oset_sim bn br s a i j v : 0 <= br -> ro_rel bn br s a -> sim_out (ro_rel bn br) (ro_step s (OSet (Some (i, j)) v)) (ro_spec a (OSet (Some (i, j)) v)).
Proof.
  intros Hbr R. unfold ro_step, ro_spec. pose proof (olookup bn br s a (i, j) Hbr R) as L. unfold with_cell.
  destruct (ocell (as_list a) (i, j)) as [c|] eqn:Ec.
  - destruct L as (g & r & L1 & L2 & L3 & L4 & L5 & L6). cbn [fst snd] in *. rewrite (aget_some _ _ _ L1). cbn [bind]. rewrite (aget_some _ _ _ L2). cbn [bind].
    rewrite aset_lt by (eapply nth_error_some_lt; eauto). cbn [bind]. rewrite aset_lt by (eapply nth_error_some_lt; eauto). cbn [bind].
    split; [reflexivity|]. destruct (rel_rec bn br s a i g j Hbr R L1) as (q & Hq & E1 & E2 & E3 & E4 & E5 & E6 & E7).
    destruct R as [R Hm]. destruct (E7 r L2) as [E8 E9]. split.
    + unfold set_ocell. cbn [fst snd]. rewrite Hq, E9. cbn [fst snd]. unfold proj. cbn [as_locked as_list]. rewrite map_upd. cbn [ag_cells].
      apply (rel_upd bn br s (proj a) i g) with (c := ag_cells q); auto.
      * cbn [proj ar_cells]. now rewrite nth_error_map, Hq.
      * repeat split; cbn [rg_id rg_gen rg_list]; auto.
        -- rewrite E3. cbn. unfold zlen. now rewrite upd_length.
        -- rewrite E3. reflexivity.
        -- now rewrite map_upd, E4.
        -- intros k x Hx. rewrite nth_error_upd in Hx. destruct (Nat.eqb_spec k j) as [->|n].
           ++ rewrite L2 in Hx. injection Hx as <-. exact L5.
           ++ destruct R as (Hlk & Hg & Hlen & Hrel & B1 & B3 & B2). destruct (Hrel _ _ L1) as (cs & Ecs & (R1 & R2 & R3 & R4 & R5)). now apply R5.
      * destruct R as (Hlk & Hg & Hlen & Hrel & B1 & B3 & B2). unfold zlen. rewrite upd_length. apply (B2 (ag_cells q)). cbn [proj ar_cells].
        apply in_map. eapply nth_error_In; eauto.
    + cbn [rs_list as_list]. rewrite set_ocell_meta, <- Hm. now apply (meta_upd _ _ g).
  - unfold rec_at in L. cbn [fst snd] in L. destruct (aget (rs_list s) i) as [g| |]; cbn [bind] in *; try exact I; [|discriminate].
    rewrite L. cbn. exact I.
Qed.

Lemma new_icell l g r name val : nth_error l g = Some r -> zlen (ag_cells r) + 1 < 2 ^ 24 ->
  icell (upd l g (AReger (ag_name r) (ag_max r) (ag_cells r ++ [(name, val)]))) ((Z.of_nat g + 1) * 2 ^ 24 + (Z.of_nat (length (ag_cells r)) + 1)) =
  Some (g, length (ag_cells r)).
Proof.
  intros Hg Hl. set (n := length (ag_cells r)) in *. change (zlen (ag_cells r)) with (Z.of_nat n) in Hl. unfold icell.
  assert (D1 : ((Z.of_nat g + 1) * 2 ^ 24 + (Z.of_nat n + 1)) / 2 ^ 24 = Z.of_nat g + 1) by lia.
  assert (D2 : ((Z.of_nat g + 1) * 2 ^ 24 + (Z.of_nat n + 1)) mod 2 ^ 24 = Z.of_nat n + 1) by lia. rewrite D1, D2.
  destruct (Z.leb_spec 1 (Z.of_nat g + 1)); [|lia]. destruct (Z.leb_spec 1 (Z.of_nat n + 1)); [|lia]. cbn [andb].
  replace (Z.to_nat (Z.of_nat g + 1 - 1)) with g by lia. replace (Z.to_nat (Z.of_nat n + 1 - 1)) with n by lia.
  unfold ocell. cbn [fst snd]. rewrite nth_error_upd, Nat.eqb_refl, Hg. cbn [ag_cells]. unfold n. rewrite nth_error_app2, Nat.sub_diag by auto. reflexivity.
Qed.

Lemma rego_sim bn br s a g name val : 0 <= bn -> 0 <= br -> ro_rel bn (br + 1) s a ->
  sim_out (ro_rel bn br) (ro_step s (RRegO g name val)) (ro_spec a (RRegO g name val)).
Proof.
  intros Hbn Hbr R. assert (R0 := R).
  assert (B : sim_out (ro_rel bn br) (ro_step s (RBase (GReg g name val))) (ro_spec a (RBase (GReg g name val)))).
  { apply base_sim; auto; [exact I|]. unfold cost_new, cost_reg. cbn [is_new is_reg]. now rewrite Z.add_0_r. }
  destruct R0 as [(Hlk & Hg & Hlen & Hrel & B1 & B3 & B2) Hm]. cbn [proj ar_cells] in B1, B2. rewrite zlen_map in B1.
  unfold ro_step in *. cbn [ro_spec] in *.
  destruct ((0 <=? g) && (g <? zlen (as_list a)) && negb (as_locked a)) eqn:G.
  - destruct (nth_error (as_list a) (Z.to_nat g)) as [r|] eqn:E.
    + destruct (rg_step s (GReg g name val)) as [[s1 o]| |]; cbn [bind sim_out] in B; try contradiction. destruct B as [Eo R1].
      assert (o = GId ((g + 1) * 2 ^ 24 + (Z.of_nat (length (ag_cells r)) + 1))) as -> by congruence. cbn [bind].
      specialize (B2 (ag_cells r) (in_map _ _ _ (nth_error_In _ _ E))).
      pose proof (new_icell (as_list a) (Z.to_nat g) r name val E ltac:(lia)) as N. rewrite Z2Nat.id in N by lia.
      pose proof (lookup bn br s1 _ ((g + 1) * 2 ^ 24 + (Z.of_nat (length (ag_cells r)) + 1)) Hbn Hbr R1) as L. cbn [as_list] in L. rewrite N in L.
      assert (Hid : 0 <= (g + 1) * 2 ^ 24 + (Z.of_nat (length (ag_cells r)) + 1) < 2 ^ 32). { unfold zlen in *. lia. }
      specialize (L Hid). destruct L as (q & L1 & L2 & L3). rewrite L2. cbn [fst snd bind]. now apply sim_same.
    + destruct (rg_step s (GReg g name val)) as [[s1 o]| |]; cbn [bind sim_out] in B; try contradiction. exact I.
  - destruct (rg_step s (GReg g name val)) as [[s1 o]| |]; cbn [bind sim_out] in B; try contradiction. exact I.
Qed.

Lemma ro_sim bn br s a op : 0 <= bn -> 0 <= br -> ro_ok op -> ro_rel (bn + rcost_new op) (br + rcost_reg op) s a ->
  sim_out (ro_rel bn br) (ro_step s op) (ro_spec a op).
Proof.
  intros Hbn Hbr Hok R. destruct op as [op|g name val|id|o|o|o|o v|o|o|o|id|id|g| |]; cbn [ro_ok] in Hok;
    [| |unfold rcost_new, rcost_reg in R; cbn [ro_new ro_reg] in R; rewrite !Z.add_0_r in R ..].
  - apply base_sim; auto.
  - apply rego_sim; auto. unfold rcost_new, rcost_reg in R. cbn [ro_new ro_reg] in R. now rewrite Z.add_0_r in R.
  - unfold ro_step, ro_spec, with_id, with_cell. pose proof (lookup bn br s a id Hbn Hbr R Hok) as L.
    destruct (icell (as_list a) id) as [p|]; [|rewrite L; exact I]. destruct L as (r & -> & -> & L3). destruct p. now apply sim_same.
  - now apply sim_same.
  - destruct o as [p|]; [|now apply sim_same]. unfold ro_step, ro_spec, with_cell. pose proof (olookup bn br s a p Hbr R) as L.
    destruct (ocell (as_list a) p) as [c|]; [|rewrite L; exact I]. destruct L as (g & r & L1 & L2 & -> & -> & L5 & L6). now apply sim_same.
  - destruct o as [p|]; [|exact I]. unfold ro_step, ro_spec, with_cell. pose proof (olookup bn br s a p Hbr R) as L.
    destruct (ocell (as_list a) p) as [c|]; [|rewrite L; exact I]. destruct L as (g & r & L1 & L2 & -> & -> & L5 & L6). now apply sim_same.
  - destruct o as [[i j]|]; [now apply oset_sim|now apply sim_same].
  - destruct o as [p|]; [|now apply sim_same]. unfold ro_step, ro_spec, with_cell. pose proof (olookup bn br s a p Hbr R) as L.
    destruct (ocell (as_list a) p) as [c|]; [|rewrite L; exact I]. destruct L as (g & r & L1 & L2 & -> & -> & L5 & L6). now apply sim_same.
  - destruct o as [p|]; [|now apply sim_same]. unfold ro_step, ro_spec, with_cell. pose proof (olookup bn br s a p Hbr R) as L.
    destruct (ocell (as_list a) p) as [c|]; [|rewrite L; exact I]. destruct L as (g & r & L1 & L2 & -> & -> & L5 & L6). cbn [bind]. rewrite L5. now apply sim_same.
  - destruct o as [p|]; [|now apply sim_same]. unfold ro_step, ro_spec, with_cell. pose proof (olookup bn br s a p Hbr R) as L.
    destruct (ocell (as_list a) p) as [c|]; [|rewrite L; exact I]. destruct L as (g & r & L1 & L2 & -> & -> & L5 & L6). cbn [bind].
    rewrite (rec_text_ok r _ L5) by lia. now apply sim_same.
  - unfold ro_step, ro_spec, with_id, with_cell. pose proof (lookup bn br s a id Hbn Hbr R Hok) as L.
    destruct (icell (as_list a) id) as [p|]; [|rewrite L; exact I]. destruct L as (r & -> & -> & L3). now apply sim_same.
  - unfold ro_step, ro_spec, with_id, with_cell. pose proof (lookup bn br s a id Hbn Hbr R Hok) as L.
    destruct (icell (as_list a) id) as [p|] eqn:Ei; [|rewrite L; exact I]. destruct L as (r & Eo & -> & L3). rewrite Eo. cbn [bind].
    pose proof (olookup bn br s a p Hbr R) as K. rewrite Eo in K. destruct K as (_ & _ & _ & _ & _ & _ & _ & K).
    rewrite ids_val, (rec_text_ok r _ L3) by lia. now apply sim_same.
  - unfold ro_step, ro_spec. destruct R as [R1 Hm]. pose proof R1 as (Hlk & Hg & Hlen & Hrel & B1 & B3 & B2). cbn [proj ar_cells] in Hlen. rewrite map_length in Hlen.
    destruct ((0 <=? g) && (g <? zlen (as_list a))) eqn:G.
    + destruct (zget_handle (rs_list s) g) as (p & Hp & ->). { unfold zlen in *. lia. } cbn [bind].
      destruct (rel_rec bn br s a (Z.to_nat g) p 0 Hbr (conj R1 Hm) Hp) as (q & Hq & _). rewrite Hq.
      rewrite (reger_text_ok bn br s a (Z.to_nat g) p q Hbr (conj R1 Hm) Hp Hq). rewrite Z2Nat.id by lia. apply sim_same. now split.
    + rewrite zget_no_handle; [exact I|]. unfold zlen in *. lia.
  - unfold ro_step, ro_spec. rewrite (regers_ok bn br s a Hbr R). now apply sim_same.
  - unfold ro_step, ro_spec, all_text. rewrite (regers_ok bn br s a Hbr R). assert (rs_locked s = as_locked a) as -> by apply R. now apply sim_same.
Qed.

Lemma ro_run ops : Forall ro_ok ops -> forall s a, ro_rel (ro_count_new ops) (ro_count_reg ops) s a ->
  results (run_ops ro_step s ops) = results (run_ops ro_spec a ops).
Proof.
  induction ops as [|op ops IH]; intros Hf s a R; [reflexivity|]. cbn [run_ops]. inversion Hf as [|? ? Hop Hrest]; subst.
  assert (C1 : ro_count_new (op :: ops) = ro_count_new ops + rcost_new op).
  { unfold ro_count_new, rcost_new. cbn [filter]. destruct (ro_new op); unfold zlen; cbn [length]; lia. }
  assert (C2 : ro_count_reg (op :: ops) = ro_count_reg ops + rcost_reg op).
  { unfold ro_count_reg, rcost_reg. cbn [filter]. destruct (ro_reg op); unfold zlen; cbn [length]; lia. }
  rewrite C1, C2 in R.
  pose proof (ro_sim _ _ s a op (zlen_nonneg _) (zlen_nonneg _) Hop R) as S.
  destruct (ro_step s op) as [[s1 o]| |], (ro_spec a op) as [[a1 o']| |]; cbn in S; try contradiction; auto.
  destruct S as [-> R1]. specialize (IH Hrest s1 a1 R1). cbn [bind].
  destruct (run_ops ro_step s1 ops) as [[s2 os]| |], (run_ops ro_spec a1 ops) as [[a2 os']| |]; cbn in *; congruence.
Qed.

Lemma registry_objects ops : Forall ro_ok ops -> ro_count_new ops <= 255 -> ro_count_reg ops < 2 ^ 24 ->
  results (run_ops ro_step regs_init ops) = results (run_ops ro_spec (ARegs false []) ops).
Proof.
  intros Hf Hn Hr. apply ro_run; auto. split; [|reflexivity]. split; [reflexivity|]. split; [reflexivity|]. split; [reflexivity|]. split.
  - intros [|i] p Hp; discriminate.
  - repeat split; auto. intros c [].
Qed.

Lemma ro_reach ops : Forall ro_ok ops -> forall s a, ro_rel (ro_count_new ops) (ro_count_reg ops) s a ->
  forall s' os, run_ops ro_step s ops = Ok (s', os) -> exists a', ro_rel 0 0 s' a'.
Proof.
  induction ops as [|op ops IH]; intros Hf s a R s' os E.
  { cbn in E. injection E as <- _. exists a. exact R. }
  cbn [run_ops] in E. inversion Hf as [|? ? Hop Hrest]; subst.
  assert (C1 : ro_count_new (op :: ops) = ro_count_new ops + rcost_new op).
  { unfold ro_count_new, rcost_new. cbn [filter]. destruct (ro_new op); unfold zlen; cbn [length]; lia. }
  assert (C2 : ro_count_reg (op :: ops) = ro_count_reg ops + rcost_reg op).
  { unfold ro_count_reg, rcost_reg. cbn [filter]. destruct (ro_reg op); unfold zlen; cbn [length]; lia. }
  rewrite C1, C2 in R.
  pose proof (ro_sim _ _ s a op (zlen_nonneg _) (zlen_nonneg _) Hop R) as S.
  destruct (ro_step s op) as [[s1 o]| |], (ro_spec a op) as [[a1 o']| |]; cbn in S; try contradiction; try discriminate.
  destruct S as [-> R1]. cbn [bind] in E. destruct (run_ops ro_step s1 ops) as [[s2 os2]| |] eqn:E2; try discriminate. cbn in E. injection E as <- _. eauto.
Qed.

Lemma object_id ops s os id s' o : Forall ro_ok ops -> ro_count_new ops <= 255 -> ro_count_reg ops < 2 ^ 24 -> 0 <= id < 2 ^ 32 ->
  run_ops ro_step regs_init ops = Ok (s, os) -> ro_step s (RObject id) = Ok (s', RObj o) ->
  ro_step s' (OId o) = Ok (s', RRes (GId (id mod 2 ^ 24))) /\ ro_step s' (OGet o) = ro_step s' (RBase (GGet id)) /\
  ro_step s' (OName o) = ro_step s' (RBase (GName id)) /\ ro_step s' (OString o) = ro_step s' (IString id) /\
  (forall v, ro_step s' (OSet o v) = ro_step s' (RBase (GSet id v))).
Proof.
  intros Hf Hn Hr Hid E Ho.
  assert (R0 : ro_rel (ro_count_new ops) (ro_count_reg ops) regs_init (ARegs false [])).
  { split; [|reflexivity]. split; [reflexivity|]. split; [reflexivity|]. split; [reflexivity|]. split.
    - intros [|i] p Hp; discriminate.
    - repeat split; auto. intros c []. }
  destruct (ro_reach ops Hf _ _ R0 _ _ E) as (a & R).
  pose proof (lookup 0 0 s a id ltac:(lia) ltac:(lia) R Hid) as L. cbn [ro_step] in Ho.
  destruct (icell (as_list a) id) as [p|] eqn:Ei; [|rewrite L in Ho; discriminate].
  destruct L as (r & L1 & L2 & L3). rewrite L2 in Ho. cbn [bind] in Ho.
  assert (s' = s /\ o = Some p) as [-> ->]. { destruct p. cbn [fst snd] in Ho. split; congruence. }
  pose proof (olookup 0 0 s a p ltac:(lia) R) as K. rewrite L1 in K.
  destruct K as (g & r' & K1 & K2 & K3 & K4 & K5 & K6).
  apply icell_some in Ei. destruct Ei as (Ep & H1 & _).
  assert (r' = r) as ->.
  { unfold reg_get in L2. destruct (reged_ids id) as [ir ij]. cbn in L2. clear - L2 K1 K2.
    apply bind_ok in L2. destruct L2 as (g' & G1 & L2). apply bind_ok in L2. destruct L2 as (r0 & G2 & L2).
    injection L2 as E1 E2 E3 _. subst r0.
    apply zget_ok in G1. destruct G1 as [_ G1]. apply zget_ok in G2. destruct G2 as [_ G2]. rewrite E1 in G1. rewrite K1 in G1. injection G1 as <-.
    rewrite E2 in G2. congruence. }
  unfold ro_step. rewrite K4. cbn [bind]. cbn [rg_step]. rewrite L2. cbn [bind negb]. rewrite ids_val.
  assert (Er : rc_id r = id mod 2 ^ 24) by (rewrite K5, Ep; cbn [snd]; lia).
  split; [now rewrite Er|]. do 3 (split; [reflexivity|]). intros v. destruct p as [i j]. cbn [fst snd] in *.
  rewrite (aget_some _ _ _ K1). cbn [bind]. rewrite (aget_some _ _ _ K2). cbn [bind]. rewrite !aset_lt by (eapply nth_error_some_lt; eauto). cbn [bind].
  rewrite !aset_lt by (eapply nth_error_some_lt; eauto). reflexivity.
Qed.
