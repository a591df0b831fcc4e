(** Proofs: the accesses listed for package regable are those of its steps, and what registering concurrently leads to. *)
From Coq Require Import ZArith List Bool Arith Lia.
From Verif Require Import GoBase GoLists ConcBase RaceSpec RaceWit RegModel RegProofs RegObjModel RegObjProofs RegFineModel.
Import ListNotations.
Open Scope nat_scope.

Definition rcd (r : regs) (p : nat * nat) : option rrec := match nth_error (rs_list r) (fst p) with Some q => nth_error (rg_list q) (snd p) | None => None end.
Lemma rec_at_rcd r p : rec_at r p = match rcd r p with Some c => Ok c | None => Panic end.
Proof. unfold rec_at, rcd, aget. destruct (nth_error (rs_list r) (fst p)); cbn; [|reflexivity]. now destruct (nth_error (rg_list r0) (snd p)). Qed.

(** Writing a record, as the locations see it. *)
Lemma set_ok r i j v c : rcd r (i, j) = Some c -> exists r', ro_step r (OSet (Some (i, j)) v) = Ok (r', RRes (GVal v true)) /\
  rs_locked r' = rs_locked r /\ rs_gen r' = rs_gen r /\ zlen (rs_list r') = zlen (rs_list r) /\
  (forall g, option_map (fun p => (rg_id p, rg_name p, rg_gen p, zlen (rg_list p))) (nth_error (rs_list r') g) = option_map (fun p => (rg_id p, rg_name p, rg_gen p, zlen (rg_list p))) (nth_error (rs_list r) g)) /\
  (forall p, p <> (i, j) -> rcd r' p = rcd r p) /\ rcd r' (i, j) = Some (RRec (rc_name c) v (rc_id c)).
Proof.
  unfold rcd. cbn [fst snd]. destruct (nth_error (rs_list r) i) as [q|] eqn:E1; [|discriminate]. intros E2.
  exists (Regs (rs_locked r) (rs_gen r) (upd (rs_list r) i (Reger (rg_id q) (rg_name q) (rg_gen q) (upd (rg_list q) j (RRec (rc_name c) v (rc_id c)))))).
  assert (L1 := nth_error_some_lt _ _ _ E1). assert (L2 := nth_error_some_lt _ _ _ E2).
  split; [|split; [|split; [|split; [|split; [|split]]]]]; cbn [rs_locked rs_gen rs_list]; try reflexivity.
  - cbn [ro_step]. rewrite (aget_some _ _ _ E1). cbn [bind]. rewrite (aget_some _ _ _ E2). cbn [bind]. unfold aset. apply Nat.ltb_lt in L1, L2. rewrite L2. cbn [bind]. rewrite L1. reflexivity.
  - unfold zlen. now rewrite upd_length.
  - intros g. rewrite nth_error_upd, E1. destruct (Nat.eqb_spec g i) as [->|N]; [|reflexivity]. rewrite E1. cbn. unfold zlen. now rewrite upd_length.
  - intros [g k] N. cbn [fst snd]. rewrite nth_error_upd, E1. destruct (Nat.eqb_spec g i) as [->|N1]; [|reflexivity]. rewrite E1. cbn [rg_list]. rewrite nth_error_upd, E2.
    destruct (Nat.eqb_spec k j) as [->|N2]; [congruence|reflexivity].
  - rewrite nth_error_upd, Nat.eqb_refl, E1. cbn [rg_list]. now rewrite nth_error_upd, Nat.eqb_refl, E2.
Qed.
Lemma set_none r i j v : rcd r (i, j) = None -> ro_step r (OSet (Some (i, j)) v) = Panic.
Proof.
  unfold rcd. cbn [fst snd ro_step]. unfold aget. destruct (nth_error (rs_list r) i) as [q|]; [|reflexivity]. intros E. cbn [bind]. now rewrite E.
Qed.
Lemma meta4 (r r' : regs) : (forall g, option_map (fun p => (rg_id p, rg_name p, rg_gen p, zlen (rg_list p))) (nth_error (rs_list r') g) = option_map (fun p => (rg_id p, rg_name p, rg_gen p, zlen (rg_list p))) (nth_error (rs_list r) g)) ->
  forall g {X} (f : Z * list Z * MathModel.range * Z -> X), option_map (fun p => f (rg_id p, rg_name p, rg_gen p, zlen (rg_list p))) (nth_error (rs_list r') g) = option_map (fun p => f (rg_id p, rg_name p, rg_gen p, zlen (rg_list p))) (nth_error (rs_list r) g).
Proof. intros H g X f. specialize (H g). destruct (nth_error (rs_list r') g), (nth_error (rs_list r) g); try discriminate; cbn in *; congruence. Qed.

Lemma other_pc s t op u : u <> t -> rf_pcs (fst (rf_step s t op)) u = rf_pcs s u.
Proof.
  intros Hu. unfold rf_step. destruct (rf_pcs s t) eqn:E;
    [destruct (rf_start op)|..|reflexivity]; try reflexivity; cbn [fst];
    try destruct (nth_error (rs_list (rf_regs s)) g); try destruct (rec_at (rf_regs s) p); try destruct (lk_w (rf_lk s p)); try destruct (lk_rs (rf_lk s p));
    try destruct (lk_w (rf_lk s (tx_g x, tx_i x))); try destruct (rec_at (rf_regs s) (tx_g x, tx_i x));
    try destruct (ro_step (rf_regs s) (OSet (Some p) v)) as [[rg' ?]| |]; try destruct (MathModel.range_inc 32 (rg_gen _));
    cbn [fst rf_go rf_pcs rf_set_lock rf_set_regs]; now rewrite ?fupd_other by exact Hu.
Qed.

Theorem rf_honest : honest rf_step rf_accs rf_at rf_pcs rf_lk.
Proof.
  split; [|split].
  - intros s t op l. unfold rf_step, rf_accs. destruct (rf_pcs s t) eqn:E; try (right; destruct l; reflexivity).
    + right. destruct (rf_start op); destruct l; reflexivity.
    + right. destruct (nth_error (rs_list (rf_regs s)) g); destruct l; reflexivity.
    + right. destruct (nth_error (rs_list (rf_regs s)) g); destruct l; reflexivity.
    + right. destruct (rec_at (rf_regs s) p); destruct l; reflexivity.
    + right. destruct (lk_w (rf_lk s p)); destruct l; reflexivity.
    + right. destruct (rec_at (rf_regs s) p); destruct l; reflexivity.
    + right. destruct (lk_w (rf_lk s p)), (lk_rs (rf_lk s p)); destruct l; reflexivity.
    + destruct p as [i j]. destruct (rcd (rf_regs s) (i, j)) as [c|] eqn:Ec.
      * destruct (set_ok _ _ _ v _ Ec) as (r' & -> & A1 & A2 & A3 & A4 & A5 & A6).
        pose proof (meta4 _ _ A4) as A7. cbn [fst rf_at rf_regs rf_go rf_set_regs].
        destruct l as [| | |g|g|g|g|p|p|p|p|p|p u]; try (right; cbn; congruence).
        -- right. cbn. specialize (A4 g). destruct (nth_error (rs_list r') g), (nth_error (rs_list (rf_regs s)) g); try discriminate; reflexivity.
        -- right. cbn. f_equal. apply (A7 g _ (fun x => (fst (fst (fst x)), snd (fst (fst x))))).
        -- right. cbn. f_equal. apply (A7 g _ (fun x => snd (fst x))).
        -- right. cbn. f_equal. apply (A7 g _ snd).
        -- right. cbn. fold (rcd r' p). fold (rcd (rf_regs s) p). assert (D : p = (i, j) \/ p <> (i, j)) by (destruct p as [x y]; destruct (Nat.eq_dec x i), (Nat.eq_dec y j); [left|right|right|right]; congruence).
           destruct D as [->|D]; [now rewrite A6, Ec|now rewrite A5].
        -- right. cbn. fold (rcd r' p). fold (rcd (rf_regs s) p). assert (D : p = (i, j) \/ p <> (i, j)) by (destruct p as [x y]; destruct (Nat.eq_dec x i), (Nat.eq_dec y j); [left|right|right|right]; congruence).
           destruct D as [->|D]; [now rewrite A6, Ec|now rewrite A5].
        -- assert (D : p = (i, j) \/ p <> (i, j)) by (destruct p as [x y]; destruct (Nat.eq_dec x i), (Nat.eq_dec y j); [left|right|right|right]; congruence).
           destruct D as [->|D]; [left; exists (PWrite (XVal (i, j))); cbn; auto|]. right. cbn. fold (rcd r' p). fold (rcd (rf_regs s) p). now rewrite A5.
        -- right. cbn. fold (rcd r' p). fold (rcd (rf_regs s) p). assert (D : p = (i, j) \/ p <> (i, j)) by (destruct p as [x y]; destruct (Nat.eq_dec x i), (Nat.eq_dec y j); [left|right|right|right]; congruence).
           destruct D as [->|D]; [now rewrite A6, Ec|now rewrite A5].
      * rewrite (set_none _ _ _ v Ec). right. destruct l; reflexivity.
    + right. destruct (nth_error (rs_list (rf_regs s)) g); destruct l; reflexivity.
    + right. destruct (lk_w (rf_lk s (tx_g x, tx_i x))); destruct l; reflexivity.
    + right. destruct (rec_at (rf_regs s) (tx_g x, tx_i x)); destruct l; reflexivity.
    + right. destruct (nth_error (rs_list (rf_regs s)) g) as [p|]; [|destruct l; reflexivity]. destruct (MathModel.range_inc 32 (rg_gen p)). destruct l; reflexivity.
    + destruct (nth_error (rs_list (rf_regs s)) g) as [p|] eqn:Ep; [|right; destruct l; reflexivity].
      destruct l as [| | |h|h|h|h|q|q|q|q|q|q u]; try (right; reflexivity).
      * right. cbn. unfold zlen. now rewrite upd_length.
      * right. cbn. rewrite nth_error_upd, Ep. destruct (Nat.eqb_spec h g) as [->|N]; [now rewrite Ep|reflexivity].
      * right. cbn. rewrite nth_error_upd, Ep. destruct (Nat.eqb_spec h g) as [->|N]; [now rewrite Ep|reflexivity].
      * destruct (Nat.eq_dec h g) as [->|N]; [left; exists (PWrite (XGen g)); cbn; auto|]. right. cbn. rewrite nth_error_upd. apply Nat.eqb_neq in N. now rewrite N.
      * right. cbn. rewrite nth_error_upd, Ep. destruct (Nat.eqb_spec h g) as [->|N]; [now rewrite Ep|reflexivity].
      * right. cbn. rewrite nth_error_upd, Ep. destruct (Nat.eqb_spec (fst q) g) as [->|N]; [now rewrite Ep|reflexivity].
      * right. cbn. rewrite nth_error_upd, Ep. destruct (Nat.eqb_spec (fst q) g) as [->|N]; [now rewrite Ep|reflexivity].
      * right. cbn. rewrite nth_error_upd, Ep. destruct (Nat.eqb_spec (fst q) g) as [->|N]; [now rewrite Ep|reflexivity].
      * right. cbn. rewrite nth_error_upd, Ep. destruct (Nat.eqb_spec (fst q) g) as [->|N]; [now rewrite Ep|reflexivity].
    + destruct (nth_error (rs_list (rf_regs s)) g) as [p|] eqn:Ep; [|right; destruct l; reflexivity].
      assert (RC : forall q, q = (g, length (rg_list p)) \/
        rcd (Regs (rs_locked (rf_regs s)) (rs_gen (rf_regs s)) (upd (rs_list (rf_regs s)) g (Reger (rg_id p) (rg_name p) (rg_gen p) (rg_list p ++ [RRec name val id])))) q = rcd (rf_regs s) q).
      { intros [h k]. unfold rcd. cbn [fst snd rs_list]. rewrite nth_error_upd, Ep. destruct (Nat.eqb_spec h g) as [->|N]; [|now right]. rewrite Ep. cbn [rg_list].
        destruct (Nat.lt_trichotomy k (length (rg_list p))) as [L|[->|L]]; [right|now left|right].
        - now rewrite nth_error_app1.
        - rewrite (proj2 (nth_error_None _ _)) by (rewrite app_length; cbn; lia). now rewrite (proj2 (nth_error_None _ _)) by lia. }
      destruct l as [| | |h|h|h|h|q|q|q|q|q|q u]; try (right; reflexivity).
      * right. cbn. unfold zlen. now rewrite upd_length.
      * right. cbn. rewrite nth_error_upd, Ep. destruct (Nat.eqb_spec h g) as [->|N]; [now rewrite Ep|reflexivity].
      * right. cbn. rewrite nth_error_upd, Ep. destruct (Nat.eqb_spec h g) as [->|N]; [now rewrite Ep|reflexivity].
      * right. cbn. rewrite nth_error_upd, Ep. destruct (Nat.eqb_spec h g) as [->|N]; [now rewrite Ep|reflexivity].
      * destruct (Nat.eq_dec h g) as [->|N]; [left; exists (PWrite (XList g)); cbn; tauto|]. right. cbn. rewrite nth_error_upd. apply Nat.eqb_neq in N. now rewrite N.
      * destruct (RC q) as [->|K]; [left; exists (PWrite (XElem (g, length (rg_list p)))); cbn; tauto|]. right. cbn. unfold rcd in K. cbn in K. now rewrite K.
      * destruct (RC q) as [->|K]; [left; exists (PWrite (XName (g, length (rg_list p)))); cbn; tauto|]. right. cbn. unfold rcd in K. cbn in K. now rewrite K.
      * destruct (RC q) as [->|K]; [left; exists (PWrite (XVal (g, length (rg_list p)))); cbn; tauto|]. right. cbn. unfold rcd in K. cbn in K. now rewrite K.
      * destruct (RC q) as [->|K]; [left; exists (PWrite (XId (g, length (rg_list p)))); cbn; tauto|]. right. cbn. unfold rcd in K. cbn in K. now rewrite K.
    + destruct l; try (right; reflexivity). left. exists (PWrite XLocked). cbn. auto.
  - intros s t op u Hu. now apply other_pc.
  - intros s s' t op Ho He Hr. revert Hr. unfold rf_step, rf_accs. rewrite <- Ho, <- He.
    destruct (rf_pcs s t) eqn:E; intros Hr.
    + destruct (rf_start op); cbn; rewrite ?fupd_same; repeat split; try congruence; contradiction.
    + destruct (Z.eqb_spec (fst (reged_ids id)) 0) as [Z0|Z0].
      * cbn. rewrite !fupd_same. repeat split; contradiction.
      * assert (G : VRange (Some (rs_gen (rf_regs s))) = VRange (Some (rs_gen (rf_regs s')))) by (apply (Hr (PRead XGens)); cbn; auto).
        assert (rs_gen (rf_regs s') = rs_gen (rf_regs s)) as -> by congruence. cbn. rewrite !fupd_same. repeat split. intros a [<-|[]]. discriminate.
    + assert (G : VLen (Some (zlen (rs_list (rf_regs s)))) = VLen (Some (zlen (rs_list (rf_regs s'))))) by (apply (Hr (PRead XRegers)); cbn; auto).
      assert (zlen (rs_list (rf_regs s')) = zlen (rs_list (rf_regs s))) as -> by congruence. cbn [fst snd rf_pcs rf_go]. rewrite !fupd_same. repeat split.
      intros a [<-|Ha]; [discriminate|]. destruct (_ && _)%bool; [destruct Ha as [<-|[]]; discriminate|contradiction].
    + assert (G : VRange (option_map rg_gen (nth_error (rs_list (rf_regs s)) g)) = VRange (option_map rg_gen (nth_error (rs_list (rf_regs s')) g))) by (apply (Hr (PRead (XGen g))); cbn; auto).
      destruct (nth_error (rs_list (rf_regs s)) g) as [p|], (nth_error (rs_list (rf_regs s')) g) as [p'|]; try discriminate; cbn in G |- *; rewrite !fupd_same;
        [assert (rg_gen p' = rg_gen p) as -> by congruence|]; repeat split; intros a [<-|[]]; discriminate.
    + assert (G : VLen (option_map (fun p => zlen (rg_list p)) (nth_error (rs_list (rf_regs s)) g)) = VLen (option_map (fun p => zlen (rg_list p)) (nth_error (rs_list (rf_regs s')) g))).
      { apply (Hr (PRead (XList g))); [|reflexivity]. destruct (nth_error (rs_list (rf_regs s)) g); now left. }
      destruct (nth_error (rs_list (rf_regs s)) g) as [p|], (nth_error (rs_list (rf_regs s')) g) as [p'|]; try discriminate; cbn [option_map] in G.
      * assert (zlen (rg_list p') = zlen (rg_list p)) as -> by congruence. cbn [fst snd rf_pcs rf_go]. rewrite !fupd_same. repeat split.
        intros a [<-|Ha]; [discriminate|]. destruct (_ && _)%bool; [destruct Ha as [<-|[]]; discriminate|contradiction].
      * cbn. rewrite !fupd_same. repeat split. intros a [<-|[]]. discriminate.
    + assert (G : VWord (option_map rc_id (rcd (rf_regs s) p)) = VWord (option_map rc_id (rcd (rf_regs s') p))) by (apply (Hr (PRead (XId p))); cbn; auto).
      rewrite !rec_at_rcd. destruct (rcd (rf_regs s) p) as [c|], (rcd (rf_regs s') p) as [c'|]; try discriminate; cbn in G |- *; rewrite !fupd_same;
        [assert (rc_id c' = rc_id c) as -> by congruence|]; repeat split; intros a [<-|[]]; discriminate.
    + destruct (lk_w (rf_lk s p)); cbn; rewrite ?fupd_same; repeat split; try congruence; try contradiction. intros a [<-|[]]; discriminate.
    + rewrite !rec_at_rcd.
      assert (G : match op0 with
        | RBase (GName _) | OName _ => option_map rc_name (rcd (rf_regs s) p) = option_map rc_name (rcd (rf_regs s') p)
        | IString _ | OString _ => option_map rc_id (rcd (rf_regs s) p) = option_map rc_id (rcd (rf_regs s') p) /\ option_map rc_name (rcd (rf_regs s) p) = option_map rc_name (rcd (rf_regs s') p) /\
            option_map rc_val (rcd (rf_regs s) p) = option_map rc_val (rcd (rf_regs s') p)
        | _ => option_map rc_val (rcd (rf_regs s) p) = option_map rc_val (rcd (rf_regs s') p)
        end).
      { assert (X : forall l, VWord l = VWord l -> True) by auto.
        assert (I1 : forall a b, VText a = VText b -> a = b) by congruence. assert (I2 : forall a b, VWord a = VWord b -> a = b) by congruence.
        destruct op0 as [[]| | | | | | | | | | | | | |];
          first [apply I1, (Hr (PRead (XName p))); [now left|reflexivity] | apply I2, (Hr (PRead (XVal p))); [now left|reflexivity] |
                 split; [apply I2, (Hr (PRead (XId p))); [now left|reflexivity]|split; [apply I1, (Hr (PRead (XName p))); [right; now left|reflexivity]|apply I2, (Hr (PRead (XVal p))); [right; right; now left|reflexivity]]]]. }
      assert (N : forall a, In a (match op0 with RBase (GName _) | OName _ => [PRead (XName p)] | IString _ | OString _ => [PRead (XId p); PRead (XName p); PRead (XVal p)] | _ => [PRead (XVal p)] end) -> writes a = true -> False).
      { intros a Ha Hw. destruct op0 as [[]| | | | | | | | | | | | | |]; repeat (destruct Ha as [<-|Ha]; [discriminate|]); contradiction. }
      destruct (rcd (rf_regs s) p) as [c|], (rcd (rf_regs s') p) as [c'|]; cbn [fst snd rf_pcs rf_go]; rewrite !fupd_same.
      * repeat split; [|intros a Ha Hw; destruct (N a Ha Hw)]. f_equal. cbn [option_map] in G. unfold rf_read, rec_text.
        destruct op0 as [[]| | | | | | | | | | | | | |]; try destruct G as (G1 & G2 & G3); try congruence;
          assert (rc_id c' = rc_id c) as -> by congruence; assert (rc_name c' = rc_name c) as -> by congruence; assert (rc_val c' = rc_val c) as -> by congruence; reflexivity.
      * destruct op0 as [[]| | | | | | | | | | | | | |]; try destruct G as (G1 & G2 & G3); discriminate.
      * destruct op0 as [[]| | | | | | | | | | | | | |]; try destruct G as (G1 & G2 & G3); discriminate.
      * repeat split. intros a Ha Hw; destruct (N a Ha Hw).
    + cbn. rewrite !fupd_same. repeat split. intros a [<-|[]]. reflexivity.
    + destruct (lk_w (rf_lk s p)), (lk_rs (rf_lk s p)); cbn; rewrite ?fupd_same; repeat split; try congruence; intros a Ha Hw; try contradiction.
      destruct Ha as [<-|Ha]; [discriminate|]. apply in_map_iff in Ha. destruct Ha as (u & <- & _). discriminate.
    + destruct p as [i j]. assert (G : VPtr (match rcd (rf_regs s) (i, j) with Some _ => true | None => false end) = VPtr (match rcd (rf_regs s') (i, j) with Some _ => true | None => false end)) by (apply (Hr (PRead (XElem (i, j)))); cbn; auto).
      destruct (rcd (rf_regs s) (i, j)) as [c|] eqn:Ec, (rcd (rf_regs s') (i, j)) as [c'|] eqn:Ec'; try discriminate.
      * destruct (set_ok _ _ _ v _ Ec) as (r1 & -> & _ & _ & _ & _ & _ & A6). destruct (set_ok _ _ _ v _ Ec') as (r2 & -> & _ & _ & _ & _ & _ & B6).
        cbn [fst snd rf_pcs rf_go]. rewrite !fupd_same. repeat split. intros a [<-|[<-|[]]] Hw; [discriminate|]. cbn. unfold rcd in A6, B6. cbn in A6, B6. now rewrite A6, B6.
      * rewrite (set_none _ _ _ v Ec), (set_none _ _ _ v Ec'). cbn. rewrite !fupd_same. repeat split. intros a [<-|[<-|[]]] Hw; [discriminate|]. cbn. unfold rcd in Ec, Ec'. cbn in Ec, Ec'. now rewrite Ec, Ec'.
    + cbn. rewrite !fupd_same. repeat split. intros a [<-|[]]. reflexivity.
    + assert (G : VFlag (rs_locked (rf_regs s)) = VFlag (rs_locked (rf_regs s'))) by (apply (Hr (PRead XLocked)); cbn; auto).
      assert (rs_locked (rf_regs s') = rs_locked (rf_regs s)) as -> by congruence. cbn [fst snd rf_pcs rf_go]. rewrite !fupd_same. repeat split. intros a [<-|[]]. discriminate.
    + assert (G : VLen (Some (zlen (rs_list (rf_regs s)))) = VLen (Some (zlen (rs_list (rf_regs s'))))) by (apply (Hr (PRead XRegers)); cbn; auto).
      assert (G1 : zlen (rs_list (rf_regs s')) = zlen (rs_list (rf_regs s))) by congruence. assert (length (rs_list (rf_regs s')) = length (rs_list (rf_regs s))) as -> by (unfold zlen in G1; lia).
      rewrite G1. cbn [fst snd rf_pcs rf_go]. rewrite !fupd_same. repeat split. intros a [<-|[]]. discriminate.
    + assert (G1 : VName (option_map (fun p => (rg_id p, rg_name p)) (nth_error (rs_list (rf_regs s)) g)) = VName (option_map (fun p => (rg_id p, rg_name p)) (nth_error (rs_list (rf_regs s')) g))) by (apply (Hr (PRead (XReger g))); cbn; auto).
      assert (G2 : VRange (option_map rg_gen (nth_error (rs_list (rf_regs s)) g)) = VRange (option_map rg_gen (nth_error (rs_list (rf_regs s')) g))) by (apply (Hr (PRead (XGen g))); cbn; auto).
      assert (G3 : VLen (option_map (fun p => zlen (rg_list p)) (nth_error (rs_list (rf_regs s)) g)) = VLen (option_map (fun p => zlen (rg_list p)) (nth_error (rs_list (rf_regs s')) g))) by (apply (Hr (PRead (XList g))); cbn; auto).
      assert (W : forall a : acc rf_loc, In a [PRead (XSlot g); PRead (XReger g); PRead (XGen g); PRead (XList g)] -> writes a = true -> False).
      { intros a Ha Hw. repeat (destruct Ha as [<-|Ha]; [discriminate|]); contradiction. }
      destruct (nth_error (rs_list (rf_regs s)) g) as [p|], (nth_error (rs_list (rf_regs s')) g) as [p'|]; try discriminate; cbn [option_map] in G1, G2, G3; cbn [fst snd rf_pcs rf_go]; rewrite !fupd_same.
      * assert (rg_id p' = rg_id p) as -> by congruence. assert (rg_name p' = rg_name p) as -> by congruence. assert (rg_gen p' = rg_gen p) as -> by congruence.
        assert (zlen (rg_list p') = zlen (rg_list p)) by congruence. assert (length (rg_list p') = length (rg_list p)) as -> by (unfold zlen in *; lia).
        repeat split. intros a Ha Hw. destruct (W a Ha Hw).
      * repeat split. intros a Ha Hw. destruct (W a Ha Hw).
    + cbn [fst snd rf_pcs rf_go]. rewrite !fupd_same. repeat split. destruct (_ <? _); intros a Ha Hw; [destruct Ha as [<-|[]]; discriminate|contradiction].
    + destruct (lk_w (rf_lk s (tx_g x, tx_i x))); cbn; rewrite ?fupd_same; repeat split; try congruence; try contradiction. intros a [<-|[]]; discriminate.
    + rewrite !rec_at_rcd. set (p := (tx_g x, tx_i x)) in *.
      assert (G1 : VText (option_map rc_name (rcd (rf_regs s) p)) = VText (option_map rc_name (rcd (rf_regs s') p))) by (apply (Hr (PRead (XName p))); cbn; auto).
      assert (G2 : VWord (option_map rc_val (rcd (rf_regs s) p)) = VWord (option_map rc_val (rcd (rf_regs s') p))) by (apply (Hr (PRead (XVal p))); cbn; auto).
      destruct (rcd (rf_regs s) p) as [c|], (rcd (rf_regs s') p) as [c'|]; try discriminate; cbn [option_map] in G1, G2; cbn [fst snd rf_pcs rf_go rec_lines]; rewrite !fupd_same;
        [assert (rc_name c' = rc_name c) as -> by congruence; assert (rc_val c' = rc_val c) as -> by congruence|]; repeat split; intros a [<-|[<-|[]]]; discriminate.
    + cbn. rewrite !fupd_same. repeat split. intros a [<-|[]]. reflexivity.
    + assert (G : VFlag (rs_locked (rf_regs s)) = VFlag (rs_locked (rf_regs s'))) by (apply (Hr (PRead XLocked)); cbn; auto).
      assert (rs_locked (rf_regs s') = rs_locked (rf_regs s)) as -> by congruence. cbn [fst snd rf_pcs rf_go]. rewrite !fupd_same. repeat split. intros a [<-|[]]. discriminate.
    + assert (G : VRange (option_map rg_gen (nth_error (rs_list (rf_regs s)) g)) = VRange (option_map rg_gen (nth_error (rs_list (rf_regs s')) g))) by (apply (Hr (PRead (XGen g))); cbn; auto).
      destruct (nth_error (rs_list (rf_regs s)) g) as [p|], (nth_error (rs_list (rf_regs s')) g) as [p'|]; try discriminate; cbn [option_map] in G.
      * assert (rg_gen p' = rg_gen p) as -> by congruence. destruct (MathModel.range_inc 32 (rg_gen p)). cbn [fst snd rf_pcs rf_go]. rewrite !fupd_same. repeat split. intros a [<-|[]]; discriminate.
      * cbn. rewrite !fupd_same. repeat split. intros a [<-|[]]; discriminate.
    + assert (G : VPtr (match nth_error (rs_list (rf_regs s)) g with Some _ => true | None => false end) = VPtr (match nth_error (rs_list (rf_regs s')) g with Some _ => true | None => false end)) by (apply (Hr (PRead (XSlot g))); cbn; auto).
      destruct (nth_error (rs_list (rf_regs s)) g) as [p|] eqn:Ep, (nth_error (rs_list (rf_regs s')) g) as [p'|] eqn:Ep'; try discriminate; cbn [fst snd rf_pcs rf_go]; rewrite !fupd_same; repeat split; intros a [<-|[<-|[]]] Hw; try discriminate.
      * cbn. rewrite !nth_error_upd, Nat.eqb_refl, Ep, Ep'. reflexivity.
      * cbn. now rewrite Ep, Ep'.
    + assert (G3 : VLen (option_map (fun p => zlen (rg_list p)) (nth_error (rs_list (rf_regs s)) g)) = VLen (option_map (fun p => zlen (rg_list p)) (nth_error (rs_list (rf_regs s')) g))).
      { apply (Hr (PRead (XList g))); [|reflexivity]. destruct (nth_error (rs_list (rf_regs s)) g); cbn; tauto. }
      destruct (nth_error (rs_list (rf_regs s)) g) as [p|] eqn:Ep, (nth_error (rs_list (rf_regs s')) g) as [p'|] eqn:Ep'; try discriminate; cbn [option_map] in G3.
      * assert (G1 : VName (option_map (fun p => (rg_id p, rg_name p)) (nth_error (rs_list (rf_regs s)) g)) = VName (option_map (fun p => (rg_id p, rg_name p)) (nth_error (rs_list (rf_regs s')) g))) by (apply (Hr (PRead (XReger g))); cbn; tauto).
        rewrite Ep, Ep' in G1. cbn [option_map] in G1. assert (rg_id p' = rg_id p) as -> by congruence.
        assert (GL : zlen (rg_list p') = zlen (rg_list p)) by congruence. assert (GN : length (rg_list p') = length (rg_list p)) by (unfold zlen in *; lia). rewrite GN.
        cbn [fst snd rf_pcs rf_go]. rewrite !fupd_same. repeat split.
        assert (NE : nth_error (rg_list p' ++ [RRec name val id]) (length (rg_list p)) = nth_error (rg_list p ++ [RRec name val id]) (length (rg_list p))).
        { rewrite !nth_error_app2 by lia. now rewrite GN. }
        intros a Ha Hw. repeat (destruct Ha as [<-|Ha]; [try discriminate; cbn; rewrite !nth_error_upd, Nat.eqb_refl, Ep, Ep'; cbn; rewrite ?NE; try reflexivity; unfold zlen; rewrite !app_length, ?GN; reflexivity|]). contradiction.
      * cbn. rewrite !fupd_same. repeat split. intros a [<-|[]]; discriminate.
    + cbn. rewrite !fupd_same. repeat split. intros a [<-|[]]. reflexivity.
    + cbn. rewrite !fupd_same. repeat split. contradiction.
    + cbn. repeat split; [congruence|contradiction].
Qed.
