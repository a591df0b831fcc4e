From Coq Require Import ZArith List Bool Arith Lia.
From Verif Require Import GoBase ConcBase SpinSpec SpinProofs FileLockModel FileLockSpec FileLockProofs FileLockMore.
Import ListNotations.
Open Scope Z_scope.
Local Notation run busy file := (crun (fl_step busy file)).

Lemma crun_cons {Op Res S} (step : S -> nat -> Op -> S * list (ext Op Res)) s t op l :
  crun step s ((t, op) :: l) = (fst (crun step (fst (step s t op)) l), snd (step s t op) ++ snd (crun step (fst (step s t op)) l)).
Proof. cbn. destruct (step s t op) as [s1 h1]. cbn. now destruct (crun step s1 l). Qed.

Lemma step_other busy file s t u op : u <> t -> fl_pcs (fst (fl_step busy file s u op)) t = fl_pcs s t.
Proof.
  intros N. unfold fl_step. destruct (fl_pcs s u) as [|o|o|o|o r|o r]; cbn; try (apply fupd_other; auto).
  - destruct (fl_w s (fl_obj o)); cbn; auto. apply fupd_other; auto.
  - destruct o as [m p|m|m]; [destruct (fl_path s m =? 0)%nat|destruct (create_file _ _ _ _) as [|e]; [|destruct (negb (e =? EACCES))]|];
      cbn; apply fupd_other; auto.
Qed.

(** ** One goroutine per value: Init and Unlock return; so does Lock if it never waits *)
Definition fl_left (pc : fl_pc) : Z :=
  match pc with FIdle => 0 | FEnter _ => 4 | FBody _ => 3 | FSleep _ => 4 | FLeave _ _ => 2 | FRet _ _ => 1 end.

Lemma own_w busy file sched t op : own sched -> fl_pcs (fst (run busy file fl_init sched)) t = FEnter op ->
  fl_w (fst (run busy file fl_init sched)) (fl_obj op) = None.
Proof.
  intros O E. destruct (FLO_reach busy file sched O) as [_ F]. destruct (FLW_reach busy file sched) as [W _].
  destruct (fl_w _ (fl_obj op)) as [v|] eqn:Ew; auto. exfalso. apply W in Ew.
  assert (fl_obj op = t) by (apply (o_obj _ _ _ _ _ _ (F t)); now rewrite E).
  assert (fl_obj op = v).
  { pose proof (o_obj _ _ _ _ _ _ (F v)) as G.
    destruct (fl_pcs (fst (run busy file fl_init sched)) v) eqn:Ev; cbn in Ew; try discriminate;
      injection Ew as Ew; rewrite <- Ew; apply G; reflexivity. }
  assert (Ev : v = t) by congruence. rewrite Ev, E in Ew. discriminate.
Qed.

Lemma own_returns busy file l : forall sched t op, own sched -> own l ->
  pc_op (fl_pcs (fst (run busy file fl_init sched)) t) = Some op ->
  busy <> 536870913 \/ op <> FLock t ->
  fl_left (fl_pcs (fst (run busy file fl_init sched)) t) <= mine t l ->
  exists r, In (Ret t op r) (snd (run busy file (fst (run busy file fl_init sched)) l)).
Proof.
  induction l as [|[u o] l IH]; intros sched t op O1 O2 Hc Hb Hl.
  { exfalso. destruct (fl_pcs _ t); cbn in *; try discriminate; unfold mine, zlen in Hl; cbn in Hl; lia. }
  inversion O2 as [|? ? Eo O2']; subst. cbn in Eo.
  assert (O' : own (sched ++ [(u, o)])) by (apply Forall_app; split; auto).
  rewrite crun_cons. cbn [snd]. rewrite mine_cons in Hl.
  pose proof (own_w busy file sched t) as Hw.
  destruct (fl_reach busy file sched) as (evs & a & st & _ & _ & R).
  pose proof (FLO_reach busy file sched O1) as [_ F].
  specialize (IH (sched ++ [(u, o)]) t op O' O2'). rewrite crun_snoc in IH. cbn [fst snd] in IH.
  set (s := fst (run busy file fl_init sched)) in *.
  destruct (Nat.eqb_spec u t) as [->|N].
  - assert (D : (exists r, In (Ret t op r) (snd (fl_step busy file s t o))) \/
       pc_op (fl_pcs (fst (fl_step busy file s t o)) t) = Some op /\
       fl_left (fl_pcs (fst (fl_step busy file s t o)) t) < fl_left (fl_pcs s t)).
    { unfold fl_step. destruct (fl_pcs s t) as [|q|q|q|q r|q r] eqn:Ep; cbn in Hc; try discriminate; injection Hc as ->.
      - right. rewrite (Hw _ O1 eq_refl). cbn. rewrite fupd_same. cbn. split; auto; lia.
      - right. destruct op as [m p|m|m].
        + destruct (fl_path s m =? 0)%nat; cbn; rewrite fupd_same; cbn; split; auto; lia.
        + assert (m = t) by (apply (o_obj _ _ _ _ _ _ (F t) (FLock m)); rewrite Ep; reflexivity). subst m.
          destruct Hb as [Hb|Hb]; [|congruence].
          destruct (create_file busy file s (fl_path s t)) as [k|e] eqn:Ec; cbn; [rewrite fupd_same; cbn; split; auto; lia|].
          assert (e <> EACCES).
          { revert Ec. unfold create_file, EACCES, ENOFILE. destruct (_ && _); [|intros [= <-]; lia].
            destruct (fl_open s (fl_path s t)); [|discriminate]. intros [= <-]. auto. }
          destruct (Z.eqb_spec e EACCES); [congruence|]. cbn. rewrite fupd_same. cbn. split; auto; lia.
        + cbn. rewrite fupd_same. cbn. split; auto; lia.
      - exfalso. destruct (f_sleep _ _ _ _ _ R t op Ep) as (E1 & m & ->).
        assert (m = t) by (apply (o_obj _ _ _ _ _ _ (F t) (FLock m)); rewrite Ep; reflexivity). subst m.
        destruct Hb; congruence.
      - right. cbn. rewrite fupd_same. cbn. split; auto; lia.
      - left. exists r. cbn. auto. }
    destruct D as [(r & D)|(D1 & D2)].
    + exists r. apply in_or_app. auto.
    + destruct IH as (r & Hr); auto; try lia. exists r. apply in_or_app. auto.
  - rewrite (step_other busy file s t u o N) in IH. destruct IH as (r & Hr); auto; try lia.
    exists r. apply in_or_app. auto.
Qed.

Lemma fl_own_returns busy file sched l t op : own sched -> own l ->
  in_call (snd (run busy file fl_init sched)) t = Some op ->
  busy <> 536870913 \/ op <> FLock t -> 4 <= mine t l ->
  exists r, In (Ret t op r) (snd (run busy file (fst (run busy file fl_init sched)) l)).
Proof.
  intros O1 O2 Hc Hb Hm. rewrite (w_call _ _ (FLW_reach busy file sched)) in Hc.
  apply own_returns; auto. destruct (fl_pcs _ t); cbn in *; lia.
Qed.

(** ** Lock gets a free file *)
Definition FLE busy (file : nat -> bool) (s : fl_state) : Prop :=
  forall t r, fl_pcs s t = FLeave (FLock t) r \/ fl_pcs s t = FRet (FLock t) r ->
    r = FErr None \/ busy <> 536870913 \/ fl_path s t = 0%nat \/ file (fl_path s t) = false.
Lemma FLE_reach busy file sched : own sched -> FLE busy file (fst (run busy file fl_init sched)).
Proof.
  induction sched as [|[t op] l IH] using rev_ind; intros O; [intros t e [A|A]; discriminate|].
  apply Forall_app in O. destruct O as (O1 & O2). specialize (IH O1).
  destruct (FLO_reach busy file l O1) as [_ F]. rewrite crun_snoc. cbn [fst].
  set (s := fst (run busy file fl_init l)) in *. pose proof (o_obj _ _ _ _ _ _ (F t)) as Ho. clear F.
  assert (K : forall pc, (forall r, pc = FLeave (FLock t) r \/ pc = FRet (FLock t) r ->
                r = FErr None \/ busy <> 536870913 \/ fl_path s t = 0%nat \/ file (fl_path s t) = false) ->
              forall w h o n, FLE busy file (FL w h (fl_path s) o n (fupd (fl_pcs s) t pc))).
  { intros pc Hpc w h o n u e. cbn. unfold fupd. destruct (Nat.eqb_spec u t) as [->|N]; [apply Hpc|apply IH]. }
  unfold fl_step. destruct (fl_pcs s t) as [|o|o|o|o r|o r] eqn:Ep; cbn [fst].
  - apply K. intuition discriminate.
  - destruct (fl_w s (fl_obj o)); cbn [fst]; [exact IH|]. apply K. intuition discriminate.
  - specialize (Ho o eq_refl). destruct o as [m p|m|m]; cbn in Ho; subst m.
    + destruct (Nat.eqb_spec (fl_path s t) 0) as [E0|E0]; cbn [fst]; [|apply K; intuition discriminate].
      intros u e. cbn. unfold fupd. destruct (Nat.eqb_spec u t) as [->|N]; [intuition discriminate|apply IH].
    + unfold create_file. destruct (negb (fl_path s t =? 0)%nat && file (fl_path s t)) eqn:Ef.
      * destruct (fl_open s (fl_path s t)); cbn [fst]; [|apply K; intros r [A|A]; [left; congruence|discriminate]].
        destruct (Z.eqb_spec busy EACCES); cbn [fst negb]; apply K; [intuition discriminate|]. auto.
      * change (ENOFILE =? EACCES) with false. cbn [negb fst]. apply K. intros ? _. right. right.
        destruct (Nat.eqb_spec (fl_path s t) 0); cbn in Ef; auto.
    + cbn [fst]. apply K. intuition discriminate.
  - apply K. intuition discriminate.
  - apply K. intros e [A|A]; [discriminate|]. injection A as -> ->. apply (IH t e). auto.
  - apply K. intuition discriminate.
Qed.

Lemma fl_lock_free file sched h t p o1 o2 o3 o4 : own sched -> h = snd (run 536870913 file fl_init sched) ->
  in_call h t = Some (FLock t) -> has_lock h t = false ->
  (forall u, u <> t -> in_call h u = None /\ has_lock h u = false) ->
  In (Ret t (FInit t p) (FOk true)) h -> p <> 0%nat -> file p = true ->
  In (Ret t (FLock t) (FErr None)) (snd (run 536870913 file (fst (run 536870913 file fl_init sched)) [(t, o1); (t, o2); (t, o3); (t, o4)])).
Proof.
  intros O -> Hc Hl Hu Hi Np Hf.
  pose proof (FLE_reach 536870913 file sched O t) as He.
  destruct (FLO_reach 536870913 file sched O) as [_ F]. pose proof (own_w 536870913 file sched t (FLock t) O) as Hw.
  destruct (fl_reach 536870913 file sched) as (evs & a & st & _ & _ & R).
  pose proof (w_call _ _ (FLW_reach 536870913 file sched)) as C. rewrite C in Hc.
  assert (Hp : fl_path (fst (run 536870913 file fl_init sched)) t = p) by (apply (o_path _ _ _ _ _ _ (F t)); auto).
  assert (Hop : fl_pcs (fst (run 536870913 file fl_init sched)) t = FLeave (FLock t) (FErr None) \/
                fl_pcs (fst (run 536870913 file fl_init sched)) t = FRet (FLock t) (FErr None) \/
                fl_open (fst (run 536870913 file fl_init sched)) p = None).
  { destruct (fa_held a p) as [m|] eqn:Eh; [|right; right; now apply (f_free _ _ _ _ _ R)].
    apply (f_held _ _ _ _ _ R) in Eh. destruct Eh as (_ & Nm & _).
    destruct (Nat.eq_dec m t) as [->|N].
    - destruct (o_not _ _ _ _ _ _ (F t) Hl) as [A|[A|[A|[A|A]]]]; auto; try tauto; rewrite A in Hc; discriminate.
    - destruct (Hu m N) as (U1 & U2). rewrite C in U1.
      destruct (o_not _ _ _ _ _ _ (F m) U2) as [A|[A|[A|[A|A]]]]; try tauto; rewrite A in U1; discriminate. }
  clear C R F Hu Hi Hl.
  set (s := fst (run 536870913 file fl_init sched)) in *. clearbody s.
  assert (P0 : negb (p =? 0)%nat && file p = true).
  { rewrite Hf. destruct (Nat.eqb_spec p 0); [congruence|reflexivity]. }
  assert (L1 : forall s x, fl_pcs s t = FRet (FLock t) (FErr None) -> In (Ret t (FLock t) (FErr None)) (snd (run 536870913 file s [(t, x)]))).
  { intros s1 x E. rewrite crun_cons. cbn [snd]. apply in_or_app. left. unfold fl_step. rewrite E. cbn. auto. }
  assert (L2 : forall s x y, fl_pcs s t = FLeave (FLock t) (FErr None) -> In (Ret t (FLock t) (FErr None)) (snd (run 536870913 file s [(t, x); (t, y)]))).
  { intros s1 x y E. rewrite crun_cons. cbn [snd]. apply in_or_app. right. apply L1. unfold fl_step. rewrite E. cbn. apply fupd_same. }
  assert (B : forall s o, fl_pcs s t = FBody (FLock t) -> fl_path s t = p -> fl_open s p = None ->
              fl_pcs (fst (fl_step 536870913 file s t o)) t = FLeave (FLock t) (FErr None)).
  { intros s1 o E1 E2 E3. unfold fl_step. rewrite E1. unfold create_file. rewrite E2, P0, E3. cbn. now rewrite fupd_same. }
  assert (L3 : forall s x y z, fl_pcs s t = FBody (FLock t) -> fl_path s t = p -> fl_open s p = None ->
              In (Ret t (FLock t) (FErr None)) (snd (run 536870913 file s [(t, x); (t, y); (t, z)]))).
  { intros s1 x y z E1 E2 E3. rewrite crun_cons. cbn [snd]. apply in_or_app. right. apply L2. now apply B. }
  assert (app1 : forall l1 l2, In (Ret t (FLock t) (FErr None)) (snd (run 536870913 file s l1)) -> In (Ret t (FLock t) (FErr None)) (snd (run 536870913 file s (l1 ++ l2)))).
  { intros l1 l2 H. rewrite crun_app. cbn [snd]. apply in_or_app. auto. }
  destruct Hop as [Hop|[Hop|Hop]].
  - apply (app1 [(t, o1); (t, o2)] [(t, o3); (t, o4)]). now apply L2.
  - apply (app1 [(t, o1)] [(t, o2); (t, o3); (t, o4)]). now apply L1.
  - destruct (fl_pcs s t) as [|o|o|o|o r|o r] eqn:Ep; cbn in Hc; try discriminate; injection Hc as ->.
    + rewrite crun_cons. cbn [snd]. apply in_or_app. right. assert (E1 : fst (fl_step 536870913 file s t o1) = FL (fupd (fl_w s) t (Some t)) (fl_h s) (fl_path s) (fl_open s) (fl_next s) (fupd (fl_pcs s) t (FBody (FLock t)))) by (unfold fl_step; rewrite Ep; cbn [fl_obj] in *; rewrite (Hw eq_refl); reflexivity). rewrite E1.
      apply L3; cbn; auto. apply fupd_same.
    + apply (app1 [(t, o1); (t, o2); (t, o3)] [(t, o4)]). now apply L3.
    + rewrite crun_cons. cbn [snd]. apply in_or_app. right. assert (E1 : fst (fl_step 536870913 file s t o1) = FL (fl_w s) (fl_h s) (fl_path s) (fl_open s) (fl_next s) (fupd (fl_pcs s) t (FBody (FLock t)))) by (unfold fl_step; rewrite Ep; reflexivity). rewrite E1.
      apply L3; cbn; auto. apply fupd_same.
    + destruct (He r (or_introl eq_refl)) as [->|[A|[A|A]]]; try congruence.
      apply (app1 [(t, o1); (t, o2)] [(t, o3); (t, o4)]). now apply L2.
    + destruct (He r (or_intror eq_refl)) as [->|[A|[A|A]]]; try congruence.
      apply (app1 [(t, o1)] [(t, o2); (t, o3); (t, o4)]). now apply L1.
Qed.

(** ** If Lock never waits, every call can return *)
Lemma fl_no_wait busy file sched t op : busy <> 536870913 ->
  in_call (snd (run busy file fl_init sched)) t = Some op ->
  exists l r, (length l <= 6)%nat /\ In (Ret t op r) (snd (run busy file (fst (run busy file fl_init sched)) l)).
Proof.
  intros Hb Hc. destruct (FLW_reach busy file sched) as [W C]. rewrite C in Hc. clear C.
  destruct (fl_reach busy file sched) as (evs & a & st & _ & _ & R). pose proof (f_sleep _ _ _ _ _ R) as SL. clear R.
  set (s := fst (run busy file fl_init sched)) in *. clearbody s.
  assert (CF : forall s p e, create_file busy file s p = inr e -> (e =? EACCES) = false).
  { intros s1 p e. unfold create_file, EACCES, ENOFILE. destruct (_ && _); [|intros [= <-]; reflexivity].
    destruct (fl_open s1 p); [|discriminate]. intros [= <-]. now apply Z.eqb_neq. }
  assert (B : forall s u o q, fl_pcs s u = FBody q -> (exists r, fl_pcs (fst (fl_step busy file s u o)) u = FLeave q r) /\ fl_w (fst (fl_step busy file s u o)) = fl_w s).
  { intros s1 u o q E. unfold fl_step. rewrite E. destruct q as [m p|m|m].
    - destruct (fl_path s1 m =? 0)%nat; cbn; rewrite fupd_same; eauto.
    - destruct (create_file busy file s1 (fl_path s1 m)) as [k|e] eqn:Ec; [|rewrite (CF _ _ _ Ec)]; cbn; rewrite fupd_same; eauto.
    - cbn. rewrite fupd_same. eauto. }
  assert (L1 : forall s q r, fl_pcs s t = FRet q r -> In (Ret t q r) (snd (run busy file s [(t, op)]))).
  { intros s1 q r E. rewrite crun_cons. cbn [snd]. apply in_or_app. left. unfold fl_step. rewrite E. cbn. auto. }
  assert (L2 : forall s q r, fl_pcs s t = FLeave q r -> In (Ret t q r) (snd (run busy file s [(t, op); (t, op)]))).
  { intros s1 q r E. rewrite crun_cons. cbn [snd]. apply in_or_app. right. apply L1. unfold fl_step. rewrite E. cbn. apply fupd_same. }
  assert (L3 : forall s q, fl_pcs s t = FBody q -> exists r, In (Ret t q r) (snd (run busy file s [(t, op); (t, op); (t, op)]))).
  { intros s1 q E. destruct (B s1 t op q E) as ((r & E1) & _). exists r. rewrite crun_cons. cbn [snd]. apply in_or_app. right. apply L2. exact E1. }
  assert (L4 : forall s q, fl_pcs s t = FEnter q -> fl_w s (fl_obj q) = None -> exists r, In (Ret t q r) (snd (run busy file s [(t, op); (t, op); (t, op); (t, op)]))).
  { intros s1 q E E1. destruct (L3 (fst (fl_step busy file s1 t op)) q) as (r & Hr).
    - unfold fl_step. rewrite E, E1. cbn. apply fupd_same.
    - exists r. rewrite crun_cons. cbn [snd]. apply in_or_app. auto. }
  assert (PRE : forall s u x l r q, In (Ret t q r) (snd (run busy file (fst (fl_step busy file s u x)) l)) -> In (Ret t q r) (snd (run busy file s ((u, x) :: l)))).
  { intros. rewrite crun_cons. cbn [snd]. apply in_or_app. auto. }
  assert (LV : forall s u q r, fl_pcs s u = FLeave q r -> fl_w (fst (fl_step busy file s u op)) (fl_obj q) = None).
  { intros s1 u q r E. unfold fl_step. rewrite E. cbn. apply fupd_same. }
  destruct (fl_pcs s t) as [|o|o|o|o r|o r] eqn:Ep; cbn in Hc; try discriminate; injection Hc as ->.
  - destruct (fl_w s (fl_obj op)) as [u|] eqn:Ew.
    + assert (Nu : u <> t) by (intros ->; apply W in Ew; rewrite Ep in Ew; discriminate).
      apply W in Ew.
      assert (L5 : forall s u q r, u <> t -> fl_obj q = fl_obj op -> fl_pcs s t = FEnter op -> fl_pcs s u = FLeave q r ->
                exists r, In (Ret t op r) (snd (run busy file s [(u, op); (t, op); (t, op); (t, op); (t, op)]))).
      { intros s1 v q r N1 Eq E1 E2. destruct (L4 (fst (fl_step busy file s1 v op)) op) as (r1 & Hr).
        - rewrite step_other; auto.
        - rewrite <- Eq. eapply LV; eauto.
        - exists r1. apply PRE. exact Hr. }
      destruct (fl_pcs s u) as [|q|q|q|q r|q r] eqn:Eu; cbn in Ew; try discriminate; injection Ew as Ew.
      * destruct (B s u op q Eu) as ((r & E1) & _).
        destruct (L5 (fst (fl_step busy file s u op)) u q r) as (r1 & Hr); auto; [rewrite step_other; auto|].
        exists ((u, op) :: [(u, op); (t, op); (t, op); (t, op); (t, op)]), r1. split; [cbn; lia|]. apply PRE. exact Hr.
      * exfalso. destruct (SL _ _ Eu). auto.
      * destruct (L5 s u q r) as (r1 & Hr); auto. eexists _, r1. split; [|exact Hr]. cbn; lia.
    + destruct (L4 s op Ep Ew) as (r & Hr). eexists _, r. split; [|exact Hr]. cbn; lia.
  - destruct (L3 s op Ep) as (r & Hr). eexists _, r. split; [|exact Hr]. cbn; lia.
  - exfalso. destruct (SL _ _ Ep). auto.
  - eexists _, r. split; [|apply L2; exact Ep]. cbn; lia.
  - eexists _, r. split; [|apply L1; exact Ep]. cbn; lia.
Qed.

(** ** A Lock that waits keeps everybody else out of the value *)
Record FDead (file : nat -> bool) (s : fl_state) (t m : nat) : Prop := {
  d_pc : fl_pcs s t = FBody (FLock m) \/ fl_pcs s t = FSleep (FLock m);
  d_w : fl_w s m = Some t;
  d_open : fl_open s (fl_path s m) = Some (fl_h s m);
  d_path : fl_path s m <> 0%nat;
  d_file : file (fl_path s m) = true;
  d_inj : forall n, n <> m -> fl_h s n <> fl_h s m;
  d_nz : fl_h s m <> 0%nat;
  d_lt : (fl_h s m < fl_next s)%nat;
  d_pend : forall u op, u <> t -> pc_op (fl_pcs s u) = Some op -> fl_obj op = m -> fl_pcs s u = FEnter op
}.
Ltac pu := let o := fresh in let E := fresh in let F := fresh in intros o E F; cbn [pc_op] in E; injection E as E; subst o; cbn [fl_obj] in F; congruence.
Lemma FDead_step file s t m u op : FDead file s t m ->
  FDead file (fst (fl_step 536870913 file s u op)) t m /\
  forall v o r, In (Ret v o r) (snd (fl_step 536870913 file s u op)) -> fl_obj o <> m.
Proof.
  intros D. destruct (Nat.eq_dec u t) as [->|N].
  - unfold fl_step. destruct (d_pc _ _ _ _ D) as [E|E]; rewrite E.
    + unfold create_file. rewrite (d_open _ _ _ _ D), (d_file _ _ _ _ D).
      destruct (Nat.eqb_spec (fl_path s m) 0) as [E0|_]; [destruct (d_path _ _ _ _ D E0)|].
      change (536870913 =? EACCES) with true. cbn [negb andb fst snd]. split; [|cbn; tauto].
      constructor; cbn; try apply D; [rewrite fupd_same; auto|].
      intros v o Nv. rewrite fupd_other by auto. apply D; auto.
    + cbn [fst snd]. split; [|cbn; tauto].
      constructor; cbn; try apply D; [rewrite fupd_same; auto|].
      intros v o Nv. rewrite fupd_other by auto. apply D; auto.
  - pose proof (d_pend _ _ _ _ D u) as P.
    assert (PU : forall pc, (forall o, pc_op pc = Some o -> fl_obj o = m -> pc = FEnter o) ->
      forall v o, v <> t -> pc_op (fupd (fl_pcs s) u pc v) = Some o -> fl_obj o = m -> fupd (fl_pcs s) u pc v = FEnter o).
    { intros pc Hpc v o Nv. unfold fupd. destruct (Nat.eqb_spec v u) as [->|]; [apply Hpc|now apply D]. }
    assert (PT : forall pc, fupd (fl_pcs s) u pc t = fl_pcs s t) by (intros; apply fupd_other; auto).
    unfold fl_step. destruct (fl_pcs s u) as [|o|o|o|o r|o r] eqn:Ep; cbn [pc_op] in P.
    + split; [|cbn; intuition discriminate]. constructor; cbn; try apply D; [rewrite PT; apply D|].
      apply PU; pu.
    + destruct (fl_w s (fl_obj o)) eqn:Ew; cbn [fst snd]; (split; [|cbn; tauto]); [exact D|].
      assert (No : fl_obj o <> m) by (intros Eo; rewrite Eo, (d_w _ _ _ _ D) in Ew; discriminate).
      constructor; cbn; try apply D; [rewrite PT; apply D|rewrite fupd_other by auto; apply D|].
      apply PU; pu.
    + assert (No : fl_obj o <> m) by (intros Eo; specialize (P o N eq_refl Eo); discriminate).
      destruct o as [n p|n|n]; cbn in No.
      * destruct (fl_path s n =? 0)%nat; cbn [fst snd]; (split; [|cbn; tauto]);
          constructor; cbn; try rewrite fupd_other by auto; try apply D; try (rewrite PT; apply D); apply PU; pu.
      * unfold create_file. destruct (negb (fl_path s n =? 0)%nat && file (fl_path s n)); [|].
        -- destruct (fl_open s (fl_path s n)) eqn:Eo.
           ++ change (536870913 =? EACCES) with true. cbn [negb fst snd]. (split; [|cbn; tauto]).
              constructor; cbn; try apply D; try (rewrite PT; apply D). apply PU; pu.
           ++ cbn [fst snd]. (split; [|cbn; tauto]).
              assert (fl_path s m <> fl_path s n) by (intros E; pose proof (d_open _ _ _ _ D); congruence).
              pose proof (d_lt _ _ _ _ D).
              constructor; cbn; try rewrite !fupd_other by auto; try apply D; try (rewrite PT; apply D).
              ** intros k Nk. unfold fupd. destruct (k =? n)%nat; [lia|now apply D].
              ** lia.
              ** apply PU; pu.
        -- change (ENOFILE =? EACCES) with false. cbn [negb fst snd]. (split; [|cbn; tauto]).
           constructor; cbn; try apply D; try (rewrite PT; apply D). apply PU; pu.
      * cbn [fst snd]. split; [|cbn; tauto].
        constructor; cbn; try rewrite !fupd_other by auto; try apply D; try (rewrite PT; apply D).
        -- unfold close_handle. rewrite (d_open _ _ _ _ D). destruct (Nat.eqb_spec (fl_h s m) (fl_h s n)) as [E|]; auto.
           exfalso. apply (d_inj _ _ _ _ D n); auto.
        -- intros k Nk. unfold fupd. destruct (k =? n)%nat; [|now apply D].
           intros E. symmetry in E. revert E. apply D.
        -- apply PU; pu.
    + assert (No : fl_obj o <> m) by (intros Eo; specialize (P o N eq_refl Eo); discriminate).
      cbn [fst snd]. split; [|cbn; tauto].
      constructor; cbn; try apply D; try (rewrite PT; apply D). apply PU; pu.
    + assert (No : fl_obj o <> m) by (intros Eo; specialize (P o N eq_refl Eo); discriminate).
      cbn [fst snd]. split; [|cbn; tauto].
      constructor; cbn; try rewrite fupd_other by auto; try apply D; try (rewrite PT; apply D). apply PU; pu.
    + assert (No : fl_obj o <> m) by (intros Eo; specialize (P o N eq_refl Eo); discriminate).
      cbn [fst snd]. split; [|cbn; intuition congruence].
      constructor; cbn; try apply D; try (rewrite PT; apply D). apply PU; cbn; congruence.
Qed.

Lemma FDead_run file t m l : forall s, FDead file s t m ->
  forall v o r, In (Ret v o r) (snd (run 536870913 file s l)) -> fl_obj o <> m.
Proof.
  induction l as [|[u x] l IH]; intros s D v o r; [cbn; tauto|].
  rewrite crun_cons. cbn [snd]. destruct (FDead_step file s t m u x D) as (D' & H).
  intros A. apply in_app_or in A. destruct A as [A|A]; [eapply H; eauto|eapply IH; eauto].
Qed.

Lemma held_file busy file a0 st0 evs a st : lin_run (fl_spec busy file) a0 st0 evs a st ->
  (forall p k, fa_held a0 p = Some k -> file p = true) -> forall p k, fa_held a p = Some k -> file p = true.
Proof.
  intros H. induction H as [a st|a0 st0 t op h a1 st1 E0 H IH|a0 st0 t op r b h a1 st1 E0 Sp H IH|a0 st0 t op r h a1 st1 E0 H IH]; auto.
  intros Hp. apply IH. intros p k Hk. destruct op as [m q|m|m]; cbn in Sp.
  - destruct (fa_path a0 m); destruct Sp as (_ & ->); eauto.
  - destruct (negb (fa_path a0 m =? 0)%nat && file (fa_path a0 m)) eqn:E; [|destruct Sp as (_ & ->); eauto].
    destruct (fa_held a0 (fa_path a0 m)); [destruct Sp as (_ & _ & ->); eauto|]. destruct Sp as (_ & ->). cbn in Hk.
    unfold fupd in Hk. destruct (Nat.eqb_spec p (fa_path a0 m)) as [->|]; [|eauto]. apply andb_true_iff in E. tauto.
  - destruct Sp as (_ & _ & Sp). rewrite Sp in Hk. destruct (fa_held a0 p) eqn:E; [eauto|discriminate].
Qed.

Lemma fl_deadlock file sched h m t o l : own sched -> h = snd (run 536870913 file fl_init sched) ->
  has_lock h m = true -> in_call h m = None -> in_call h t = None ->
  forall v op r, In (Ret v op r) (snd (run 536870913 file (fst (run 536870913 file fl_init sched)) ((t, FLock m) :: (t, o) :: l))) ->
  fl_obj op <> m.
Proof.
  intros O -> Hm Cm Ct v op r.
  destruct (FLO_reach 536870913 file sched O) as [_ F]. destruct (FLW_reach 536870913 file sched) as [W C].
  rewrite C in Cm, Ct. clear C.
  destruct (fl_reach 536870913 file sched) as (evs & a & st & _ & L & R).
  assert (FA : forall p k, fa_held a p = Some k -> file p = true) by (apply (held_file _ _ _ _ _ _ _ L); discriminate).
  set (s := fst (run 536870913 file fl_init sched)) in *.
  destruct (o_has _ _ _ _ _ _ (F m) Hm) as (Hh & _). pose proof (f_hnd _ _ _ _ _ R m Hh) as Hd.
  destruct (f_held _ _ _ _ _ R _ _ Hd) as (Hop & _ & _ & Hp0).
  assert (Pt : fl_pcs s t = FIdle) by (destruct (fl_pcs s t); cbn in Ct; try discriminate; auto).
  assert (Pm : fl_pcs s m = FIdle) by (destruct (fl_pcs s m); cbn in Cm; try discriminate; auto).
  assert (Wm : fl_w s m = None).
  { destruct (fl_w s m) as [k|] eqn:E; auto. exfalso. apply W in E.
    assert (k = m).
    { pose proof (o_obj _ _ _ _ _ _ (F k)) as G. destruct (fl_pcs s k); cbn in E; try discriminate; injection E as E; rewrite <- E; symmetry; apply G; reflexivity. }
    subst k. rewrite Pm in E. discriminate. }
  set (s1 := FL (fl_w s) (fl_h s) (fl_path s) (fl_open s) (fl_next s) (fupd (fl_pcs s) t (FEnter (FLock m)))).
  assert (E1 : fl_step 536870913 file s t (FLock m) = (s1, [Inv t (FLock m)])) by (unfold fl_step; rewrite Pt; reflexivity).
  assert (E2 : fl_step 536870913 file s1 t o = (FL (fupd (fl_w s) m (Some t)) (fl_h s) (fl_path s) (fl_open s) (fl_next s) (fupd (fl_pcs s1) t (FBody (FLock m))), [])).
  { unfold fl_step. cbn [s1 fl_pcs fl_w]. rewrite fupd_same. cbn [fl_obj]. rewrite Wm. reflexivity. }
  rewrite crun_cons, E1. cbn [fst snd]. rewrite crun_cons, E2. cbn [fst snd].
  intros A. apply in_app_or in A. destruct A as [A|A]; [cbn in A; intuition discriminate|].
  apply in_app_or in A. destruct A as [A|A]; [cbn in A; intuition discriminate|].
  revert A. apply (FDead_run file t m).
  constructor; cbn; auto.
  - left. apply fupd_same.
  - apply fupd_same.
  - eapply FA; eauto.
  - intros n Nn E. symmetry in E. apply (f_inj _ _ _ _ _ R m n) in E; auto.
  - apply R.
  - intros u q Nu. rewrite !fupd_other by auto. intros A B. pose proof (o_obj _ _ _ _ _ _ (F u) q A) as E.
    assert (Eu : u = m) by congruence. rewrite Eu, Pm in A. discriminate.
Qed.

(** ** RWMutex *)
Lemma fr_returns (sched : list (nat * fr_op)) t op : forall s, s t = Some op -> forall o,
  snd (fr_step s t o) = [Ret t op tt] /\ fst (fr_step s t o) t = None.
Proof. intros s E o. unfold fr_step. rewrite E. cbn. now rewrite fupd_same. Qed.
Lemma fr_running sched t : running (snd (crun fr_step (fun _ => None) sched)) t = match fst (crun fr_step (fun _ => None) sched) t with None => false | Some _ => true end.
Proof.
  induction sched as [|[u o] l IH] using rev_ind; [reflexivity|]. rewrite crun_snoc. cbn [fst snd].
  unfold fr_step at 2 4. destruct (fst (crun fr_step (fun _ => None) l) u) as [q|] eqn:E; cbn [fst snd]; rewrite running_app, IH; cbn;
    unfold fupd; rewrite (Nat.eqb_sym u t); destruct (Nat.eqb_spec t u); auto.
Qed.
Lemma fr_never_blocks sched t o h : h = snd (crun fr_step (fun _ => None) sched) -> running h t = true ->
  exists op, snd (crun fr_step (fun _ => None) (sched ++ [(t, o)])) = h ++ [Ret t op tt].
Proof.
  intros -> H. rewrite fr_running in H. destruct (fst (crun fr_step (fun _ => None) sched) t) as [op|] eqn:E; [|discriminate].
  exists op. rewrite crun_snoc. cbn [snd]. destruct (fr_returns sched t op _ E o) as (-> & _). reflexivity.
Qed.
