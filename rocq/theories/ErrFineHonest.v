(** Proofs: the accesses listed for package errors are those of its steps, and a race. *)
From Coq Require Import ZArith List Bool Arith Lia.
From Verif Require Import GoBase ConcBase RaceSpec RaceWit RegModel ErrFineModel.
Import ListNotations.
Open Scope nat_scope.

Theorem ef_honest grow : honest (ef_step grow) ef_accs ef_at ef_pcs ef_env.
Proof.
  split; [|split].
  - intros s t op l. unfold ef_step, ef_accs. destruct (ef_pcs s t) eqn:E;
      try (right; destruct l; reflexivity);
      try (right; destruct (ef_w s), (ef_rs s); destruct l; reflexivity).
    + unfold ef_append. destruct (ef_len s <? ef_cap s) eqn:Ec; cbn [fst].
      * destruct l; try (right; reflexivity).
        -- left. exists (PWrite ESlice). cbn. auto.
        -- destruct (Nat.eq_dec a (ef_arr s)) as [->|Na]; [destruct (Nat.eq_dec i (ef_len s)) as [->|Ni]|].
           ++ left. exists (PWrite (EElt (ef_arr s) (ef_len s))). cbn. auto.
           ++ right. cbn. now rewrite fupd_same, fupd_other.
           ++ right. cbn. now rewrite fupd_other.
      * destruct l; try (right; reflexivity).
        -- left. exists (PWrite ESlice). split; [|now split]. right. apply in_or_app. right. apply in_or_app. right. now left.
        -- destruct (Nat.eq_dec a (ef_fresh s)) as [->|Na].
           ++ destruct (le_lt_dec i (ef_len s)) as [Hi|Hi].
              ** left. exists (PWrite (EElt (ef_fresh s) i)). split; [|now split]. right. apply in_or_app. right. apply in_or_app. left.
                 apply (in_map (fun i => PWrite (EElt (ef_fresh s) i))). apply in_seq. lia.
              ** right. cbn [fst ef_at ef_mem ef_go]. rewrite fupd_same.
                 assert (i <? ef_len s = false) as -> by (apply Nat.ltb_ge; lia). assert (i =? ef_len s = false) as -> by (apply Nat.eqb_neq; lia). reflexivity.
           ++ right. cbn. now rewrite fupd_other.
    + destruct l; try (right; reflexivity). left. exists (PWrite ECur). cbn. auto.
  - intros s t op u Hu. unfold ef_step, ef_append. destruct (ef_pcs s t); try (destruct (ef_w s); [|destruct (ef_rs s)]); try destruct (_ <? _); cbn;
      rewrite ?fupd_other by exact Hu; reflexivity.
  - intros s s' t op Ho He Hr. unfold ef_env in He.
    assert (E1 : ef_w s' = ef_w s) by congruence. assert (E2 : ef_rs s' = ef_rs s) by congruence.
    assert (E3 : ef_seen s' = ef_seen s) by congruence. assert (E4 : ef_fresh s' = ef_fresh s) by congruence.
    revert Hr. unfold ef_step, ef_accs. rewrite <- Ho, E1, E2, E3.
    destruct (ef_pcs s t) eqn:E; intros Hr.
    + cbn. rewrite !fupd_same. repeat split. contradiction.
    + destruct (ef_w s), (ef_rs s); cbn; rewrite ?fupd_same; repeat split; try congruence; intros a Ha Hw; try contradiction.
      destruct Ha as [<-|Ha]; [discriminate|]. apply in_map_iff in Ha. destruct Ha as (u & <- & _). discriminate.
    + assert (Ec : ef_cur s = ef_cur s') by (specialize (Hr (PRead ECur) ltac:(now left) eq_refl); cbn in Hr; congruence).
      rewrite <- Ec. cbn. rewrite !fupd_same. repeat split. intros a [<-|[]] Hw. discriminate.
    + assert (Es : VSlice (ef_arr s) (ef_len s) (ef_cap s) = VSlice (ef_arr s') (ef_len s') (ef_cap s')).
      { apply (Hr (PRead ESlice)); [|reflexivity]. destruct (_ <? _); now left. }
      assert (Ea : ef_arr s' = ef_arr s) by congruence. assert (El : ef_len s' = ef_len s) by congruence. assert (Ep : ef_cap s' = ef_cap s) by congruence.
      rewrite Ea, El, Ep, E4. unfold ef_append. rewrite Ea, El, Ep, E4. destruct (ef_len s <? ef_cap s).
      * cbn. rewrite !fupd_same. repeat split. intros a [<-|[<-|[<-|[]]]] Hw; try discriminate; cbn; [now rewrite !fupd_same|congruence].
      * cbn [fst snd ef_pcs ef_go]. rewrite !fupd_same. repeat split. intros a [<-|Ha] Hw; [discriminate|]. apply in_app_or in Ha. destruct Ha as [Ha|Ha].
        { apply in_map_iff in Ha. destruct Ha as (i & <- & _). discriminate. }
        apply in_app_or in Ha. destruct Ha as [Ha|[<-|[]]].
        -- apply in_map_iff in Ha. destruct Ha as (i & <- & Hi). apply in_seq in Hi. cbn [fst ef_at ef_mem ef_go loc_of]. rewrite !fupd_same.
           destruct (Nat.ltb_spec i (ef_len s)) as [Hlt|Hge].
           ++ symmetry. apply (Hr (PRead (EElt (ef_arr s) i))); [|reflexivity]. right. apply in_or_app. left.
              apply (in_map (fun i => PRead (EElt (ef_arr s) i))). apply in_seq. lia.
           ++ assert (i =? ef_len s = true) as -> by (apply Nat.eqb_eq; lia). reflexivity.
        -- cbn. congruence.
    + assert (Ec : ef_cur s = ef_cur s') by (specialize (Hr (PRead ECur) ltac:(now left) eq_refl); cbn in Hr; congruence).
      rewrite <- Ec. cbn. rewrite !fupd_same. repeat split. intros a [<-|[<-|[]]] Hw; [discriminate|]. reflexivity.
    + assert (Ec : ef_cur s = ef_cur s') by (specialize (Hr (PRead ECur) ltac:(now left) eq_refl); cbn in Hr; congruence).
      rewrite <- Ec. cbn. rewrite !fupd_same. repeat split. intros a [<-|[]] Hw. discriminate.
    + cbn. rewrite !fupd_same. repeat split. intros a [<-|[]] Hw. reflexivity.
    + destruct (ef_w s); cbn; rewrite ?fupd_same; repeat split; try congruence; intros a Ha Hw; try contradiction. destruct Ha as [<-|[]]. discriminate.
    + destruct (g_id_min <=? for_id k)%Z.
      * assert (Ec : ef_cur s = ef_cur s') by (specialize (Hr (PRead ECur) ltac:(now left) eq_refl); cbn in Hr; congruence).
        rewrite <- Ec. cbn. rewrite !fupd_same. repeat split. intros a [<-|[]] Hw. discriminate.
      * cbn. rewrite !fupd_same. repeat split. contradiction.
    + assert (Es : VSlice (ef_arr s) (ef_len s) (ef_cap s) = VSlice (ef_arr s') (ef_len s') (ef_cap s')).
      { apply (Hr (PRead ESlice)); [|reflexivity]. now left. }
      assert (Ea : ef_arr s' = ef_arr s) by congruence. assert (El : ef_len s' = ef_len s) by congruence.
      cbv zeta in *. rewrite Ea, El. destruct (_ && _).
      * assert (Ev : ef_mem s (ef_arr s) (Z.to_nat (wrap 32 (for_id k - g_id_min))) = ef_mem s' (ef_arr s) (Z.to_nat (wrap 32 (for_id k - g_id_min)))).
        { specialize (Hr (PRead (EElt (ef_arr s) (Z.to_nat (wrap 32 (for_id k - g_id_min))))) ltac:(right; now left) eq_refl). cbn in Hr. congruence. }
        rewrite <- Ev. cbn [fst snd ef_pcs ef_go]. rewrite !fupd_same. repeat split. intros a [<-|[<-|[]]] Hw; discriminate.
      * cbn [fst snd ef_pcs ef_go]. rewrite !fupd_same. repeat split. intros a [<-|[]] Hw; discriminate.
    + cbn. rewrite !fupd_same. repeat split. intros a [<-|[]] Hw. reflexivity.
    + assert (Ec : ef_cur s = ef_cur s') by (specialize (Hr (PRead ECur) ltac:(now left) eq_refl); cbn in Hr; congruence).
      rewrite <- Ec. cbn [fst snd ef_pcs ef_go]. rewrite !fupd_same. repeat split. intros a [<-|[]] Hw. discriminate.
    + assert (Ec : ef_cur s = ef_cur s') by (specialize (Hr (PRead ECur) ltac:(now left) eq_refl); cbn in Hr; congruence).
      rewrite <- Ec. cbn [fst snd ef_pcs ef_go]. rewrite !fupd_same. repeat split. intros a [<-|[]] Hw. discriminate.
    + cbn. rewrite !fupd_same. repeat split. contradiction.
    + cbn. repeat split; try congruence. contradiction.
Qed.

Definition ef_eqb (a b : ef_loc) : bool :=
  match a, b with EMu, EMu | ECur, ECur | ESlice, ESlice => true | ERd x, ERd y => x =? y | EElt x i, EElt y j => (x =? y) && (i =? j) | _, _ => false end.
Lemma ef_eqb_ok a b : a = b -> ef_eqb a b = true.
Proof. intros ->. destruct b; cbn; rewrite ?Nat.eqb_refl; auto. Qed.

(** Goroutine 0 registers, goroutine 1 lists. *)
Definition show_bad : list (nat * er_op) := repeat (0, EReg [97%Z]) 5 ++ [(1, EShowAll); (1, EShowAll)].
Theorem show_races : forall grow, exists sched i j, race (trace_of (ef_step grow) ef_accs ef_init sched) i j.
Proof.
  intros grow. exists show_bad, 8, 9. exists 0, 1, (PWrite ECur), (PRead ECur).
  split; [lia|]. split; [reflexivity|]. split; [reflexivity|]. split; [discriminate|].
  split; [repeat split; auto|]. apply (not_hb ef_eqb ef_eqb_ok _ (fun i => i =? 8)); vm_compute; reflexivity.
Qed.
