(** Proofs about copying to several destinations. *)
From Coq Require Import ZArith List Bool Lia ZifyBool ZifyNat.
From Verif Require Import GoBase GoLists IoModel IoSpec.
Import ListNotations.
Open Scope Z_scope.

Definition weight (s : source) : nat := (length (sr_plan s) + length (sr_data s))%nat.

Lemma src_read_spec blen s s1 p er : src_read blen s = (s1, p, er) ->
  sr_data s = p ++ sr_data s1 /\ sr_end s1 = sr_end s /\
  match er with
  | RNil => (0 < blen -> weight s1 < weight s)%nat
  | REof => sr_data s1 = [] /\ sr_end s = None
  | RErr e => sr_data s1 = [] /\ sr_end s = Some e
  end.
Proof.
  unfold src_read, weight. destruct s as [data plan fin]. cbn [sr_data sr_plan sr_end].
  destruct plan as [|[k early] rest].
  - intros E. injection E as <- <- <-. cbn [sr_data sr_plan sr_end length]. rewrite firstn_skipn. split; auto. split; auto.
    set (n := Nat.min blen (Nat.min blen (length data))).
    destruct (skipn n data) as [|x t] eqn:D.
    + rewrite orb_false_r. destruct (Nat.eqb_spec n 0) as [H|H].
      * destruct fin; auto.
      * intros B. assert (length data <> 0)%nat by (unfold n in H; lia). cbn [length]. lia.
    + intros B. apply (f_equal (@length Z)) in D. rewrite skipn_length in D. cbn [length] in *. unfold n in D. lia.
  - intros E. injection E as <- <- <-. cbn [sr_data sr_plan sr_end length]. rewrite firstn_skipn. split; auto. split; auto.
    set (n := Nat.min k (Nat.min blen (length data))).
    destruct (skipn n data) as [|x t] eqn:D.
    + destruct ((n =? 0)%nat || early).
      * destruct fin; auto.
      * intros B. cbn [length]. lia.
    + intros B. apply (f_equal (@length Z)) in D. rewrite skipn_length in D. cbn [length] in *. lia.
Qed.

Lemma dst_write_spec p d d' n e : dst_write p d = (d', (n, e)) ->
  (n <= length p)%nat /\ ds_got d' = ds_got d ++ firstn n p /\ incl (ds_plan d') (ds_plan d) /\
  match e with
  | None => honest d -> n = length p
  | Some x => exists k, In (WFail k x) (ds_plan d)
  end.
Proof.
  unfold dst_write. destruct d as [got plan]. cbn [ds_got ds_plan]. destruct plan as [|[|k x|k] r]; intros E; injection E as <- <- <-; cbn [ds_got ds_plan].
  - rewrite firstn_all. repeat split; auto. apply incl_refl.
  - rewrite firstn_all. repeat split; auto. apply incl_tl, incl_refl.
  - rewrite firstn_length, Nat.min_comm. split; [lia|]. split; [|split; [apply incl_tl, incl_refl|exists k; now left]].
    f_equal. destruct (Nat.min_spec (length p) k) as [[H ->]|[H ->]]; auto. rewrite firstn_all. now apply firstn_all2; lia.
  - rewrite firstn_length, Nat.min_comm. split; [lia|]. split; [|split; [apply incl_tl, incl_refl|]].
    + f_equal. destruct (Nat.min_spec (length p) k) as [[H ->]|[H ->]]; auto. rewrite firstn_all. now apply firstn_all2; lia.
    + intros H. inversion H as [|? ? H1 H2]; subst. exfalso. now apply (H1 k).
Qed.

Lemma incl_honest d d' : incl (ds_plan d') (ds_plan d) -> honest d -> honest d'.
Proof. unfold honest. rewrite !Forall_forall. auto. Qed.

Lemma write_each_spec p ds : forall nw ds' n e, write_each p nw ds = (ds', n, e) -> Forall honest ds ->
  Forall2 (fun d d' => incl (ds_plan d') (ds_plan d)) ds ds' /\
  match e with
  | None => received p ds ds' (repeat (length p) (length ds)) /\ n = match ds with [] => nw | _ => length p end
  | Some x => (exists ns, received p ds ds' ns /\ desc ns) /\ exists d k, In d ds /\ In (WFail k x) (ds_plan d)
  end.
Proof.
  induction ds as [|d ds IH]; intros nw ds' n e E H.
  - cbn in E. injection E as <- <- <-. cbn. repeat split; constructor.
  - cbn [write_each] in E. inversion H as [|? ? H1 H2]; subst.
    destruct (dst_write p d) as [d1 [n1 e1]] eqn:E1. apply dst_write_spec in E1. destruct E1 as (L1 & G1 & I1 & C1).
    destruct e1 as [x|].
    + injection E as <- <- <-. split.
      * constructor; auto. clear. induction ds; constructor; auto. apply incl_refl.
      * split; [|destruct C1 as (k & C1); exists d, k; cbn; auto].
        exists (n1 :: repeat 0%nat (length ds)). split.
        -- constructor; auto. clear. induction ds as [|d ds IH]; cbn; constructor; auto; [lia|]. cbn. now rewrite app_nil_r.
        -- cbn [desc]. clear - L1. assert (D : desc (repeat 0%nat (length ds))).
           { induction ds; cbn; auto. split; auto. clear. induction ds; cbn; constructor; auto. }
           split; auto. apply Forall_forall. intros m Hm. apply repeat_spec in Hm. lia.
    + destruct (write_each p n1 ds) as [[t1 n2] e2] eqn:E2. injection E as <- <- <-.
      specialize (C1 H1). subst n1. destruct (IH _ _ _ _ E2 H2) as (I2 & C2). split; [constructor; auto|].
      destruct e2 as [x|].
      * destruct C2 as ((ns & R & D) & dd & k & Hin & Hk). split; [|exists dd, k; cbn; auto].
        exists (length p :: ns). split; [constructor; auto|]. cbn. split; auto.
        clear - R. induction R; constructor; auto.
      * destruct C2 as (R & Hn). split; [cbn [length repeat]; constructor; auto|]. subst n2. now destruct ds.
Qed.

Lemma received_app p q ds ds1 : forall ds2 ns, received p ds ds1 (repeat (length p) (length ds)) -> received q ds1 ds2 ns ->
  received (p ++ q) ds ds2 (map (fun n => length p + n)%nat ns).
Proof.
  intros ds2 ns R1. remember (repeat (length p) (length ds)) as ms eqn:Em. revert Em ds2 ns.
  induction R1 as [|d d1 m ds ds1 ms Hm Hg R1 IH]; intros Em ds2 ns R2.
  - inversion R2; subst. constructor.
  - inversion R2 as [|? d2 n ? ds2' ns' Hn Hg2 R2']; subst. cbn [length repeat] in Em. injection Em as -> Em.
    cbn [map]. constructor.
    + rewrite app_length. lia.
    + rewrite Hg2, Hg, firstn_all, <- app_assoc. f_equal. rewrite firstn_app, (firstn_all2 p) by lia. do 2 f_equal. lia.
    + now apply IH.
Qed.

Lemma received_pre p q ds ds1 ns : received p ds ds1 ns -> received (p ++ q) ds ds1 ns.
Proof.
  induction 1 as [|d d1 m ds ds1 ms Hm Hg R1 IH]; constructor; auto.
  - rewrite app_length. lia.
  - rewrite Hg. f_equal. rewrite firstn_app. replace (m - length p)%nat with 0%nat by lia. cbn [firstn]. now rewrite app_nil_r.
Qed.

Lemma desc_map k ns : desc ns -> desc (map (fun n => k + n)%nat ns).
Proof.
  induction ns as [|n t IH]; cbn; auto. intros (H1 & H2). split; auto. rewrite Forall_map.
  eapply Forall_impl; [|exact H1]. cbn. lia.
Qed.
Lemma desc_repeat k m : desc (repeat k m).
Proof. induction m; cbn; auto. split; auto. apply Forall_forall. intros x Hx. apply repeat_spec in Hx. lia. Qed.
Lemma received_le p ds ds1 ns : received p ds ds1 ns -> Forall (fun n => (n <= length p)%nat) ns.
Proof. induction 1; constructor; auto. Qed.
Lemma received_len p ds ds1 ns : received p ds ds1 ns -> length ds1 = length ds /\ length ns = length ds.
Proof. induction 1 as [|d d1 m ds ds1 ms Hm Hg R1 IH]; cbn; lia. Qed.
Lemma received_none ds : received [] ds ds (repeat 0%nat (length ds)).
Proof. induction ds; cbn; constructor; auto. cbn. now rewrite app_nil_r. Qed.

Lemma plan_in ds ds1 d k x : Forall2 (fun d d' => incl (ds_plan d') (ds_plan d)) ds ds1 -> In d ds1 -> In (WFail k x) (ds_plan d) ->
  exists d0, In d0 ds /\ In (WFail k x) (ds_plan d0).
Proof.
  induction 1 as [|d0 d1 ds ds1 H F IH]; intros Hin Hk; [contradiction|]. destruct Hin as [->|Hin].
  - exists d0. cbn. auto.
  - destruct (IH Hin Hk) as (d2 & ? & ?). exists d2. cbn. auto.
Qed.
Lemma plans_honest ds ds1 : Forall2 (fun d d' => incl (ds_plan d') (ds_plan d)) ds ds1 -> Forall honest ds -> Forall honest ds1.
Proof.
  induction 1 as [|d0 d1 ds ds1 H F IH]; intros Hh; constructor; inversion Hh; subst; auto. eapply incl_honest; eauto.
Qed.

(** One chunk delivered, then the rest. *)
Lemma copy_ok_step s p s1 ds ds1 s' ds' w err :
  sr_data s = p ++ sr_data s1 -> sr_end s1 = sr_end s ->
  Forall2 (fun d d' => incl (ds_plan d') (ds_plan d)) ds ds1 ->
  received p ds ds1 (repeat (length p) (length ds)) ->
  copy_ok s1 ds1 s' ds' w err -> copy_ok s ds s' ds' (zlen p + w) err.
Proof.
  intros E1 E2 I R (c & ns & Hc & Hs & R1 & D & F & Hw & He).
  exists (length p + c)%nat, (map (fun n => length p + n)%nat ns). rewrite E1, app_length.
  split; [lia|]. split.
  { rewrite Hs, skipn_app, (skipn_all2 p) by lia. cbn [app]. f_equal. lia. }
  split; [eapply received_app; eauto|]. split; [now apply desc_map|]. split.
  { rewrite Forall_map. eapply Forall_impl; [|exact F]. cbn. unfold zlen. intros a [? ?]. lia. }
  split; [unfold zlen; lia|]. rewrite <- E2. unfold zlen in *. rewrite app_length.
  destruct err as [[|e]|]; auto.
  - destruct He as [[-> He]|(d & k & Hin & Hk)]; [left; split; auto; lia|]. right.
    destruct (plan_in _ _ _ _ _ I Hin Hk) as (d0 & H1 & H2). eauto.
  - destruct He as [-> He]. split; auto. lia.
Qed.

Lemma incl_self ds : Forall2 (fun d d' : dest => incl (ds_plan d') (ds_plan d)) ds ds.
Proof. induction ds; constructor; auto. apply incl_refl. Qed.

Lemma copy_loop_honest blen : (0 < blen)%nat -> forall fuel s ds w0, (weight s < fuel)%nat -> ds <> [] -> Forall honest ds ->
  exists s' ds' w err, copy_loop fuel blen s ds w0 = Ok (s', ds', w0 + w, err) /\ copy_ok s ds s' ds' w err.
Proof.
  intros Hb. induction fuel as [|f IH]; intros s ds w0 Hf Hd Hh; [lia|]. cbn [copy_loop].
  destruct (src_read blen s) as [[s1 p] er] eqn:ER. apply src_read_spec in ER. destruct ER as (E1 & E2 & E3).
  assert (A : forall ds1 w1, ds1 <> [] -> Forall honest ds1 ->
     exists s' ds' w err, match er with RNil => copy_loop f blen s1 ds1 w1 | REof => Ok (s1, ds1, w1, None) | RErr e => Ok (s1, ds1, w1, Some (ErrUser e)) end
       = Ok (s', ds', w1 + w, err) /\ copy_ok s1 ds1 s' ds' w err).
  { intros ds1 w1 N1 H1. destruct er as [| |e].
    - specialize (E3 Hb). apply IH; auto. lia.
    - destruct E3 as (D & En). exists s1, ds1, 0, None. rewrite Z.add_0_r. split; auto.
      exists 0%nat, (repeat 0%nat (length ds1)). rewrite D. cbn [length skipn]. split; [lia|]. split; [auto|]. split; [apply received_none|].
      split; [apply desc_repeat|]. split; [apply Forall_forall; intros x Hx; apply repeat_spec in Hx; lia|].
      split; [lia|]. rewrite E2. auto.
    - destruct E3 as (D & En). exists s1, ds1, 0, (Some (ErrUser e)). rewrite Z.add_0_r. split; auto.
      exists 0%nat, (repeat 0%nat (length ds1)). rewrite D. cbn [length skipn]. split; [lia|]. split; [auto|]. split; [apply received_none|].
      split; [apply desc_repeat|]. split; [apply Forall_forall; intros x Hx; apply repeat_spec in Hx; lia|].
      split; [lia|]. rewrite E2. auto. }
  destruct (Nat.ltb_spec 0 (length p)) as [Lp|Lp].
  - destruct (write_each p 0 ds) as [[ds1 nw] ew] eqn:EW. destruct (write_each_spec _ _ _ _ _ _ EW Hh) as (I & C).
    destruct ew as [x|].
    + destruct C as ((ns & R & D) & d & k & Hin & Hk). exists s1, ds1, 0, (Some (ErrUser x)). rewrite Z.add_0_r. split; auto.
      exists (length p), ns. rewrite E1, app_length. split; [lia|]. split; [rewrite skipn_app, skipn_all, Nat.sub_diag; reflexivity|].
      split; [now apply received_pre|]. split; auto. split; [eapply Forall_impl; [|apply (received_le _ _ _ _ R)]; cbn; lia|].
      split; [lia|]. right. eauto.
    + destruct C as (R & ->). destruct ds as [|d0 ds0] eqn:Eds; [contradiction|]. rewrite <- Eds in *. rewrite Nat.eqb_refl.
      assert (N1 : ds1 <> []) by (intros ->; apply received_len in R; rewrite Eds in R; cbn in R; lia).
      destruct (A ds1 (w0 + Z.of_nat (length p)) N1 (plans_honest _ _ I Hh)) as (s' & ds' & w & err & EA & CA).
      exists s', ds', (zlen p + w), err. split; [rewrite EA; unfold zlen; do 3 f_equal; lia|].
      eapply copy_ok_step; eauto.
  - destruct p; [|cbn in Lp; lia]. destruct (A ds w0 Hd Hh) as (s' & ds' & w & err & EA & CA).
    exists s', ds', w, err. split; auto. change w with (zlen (@nil Z) + w). eapply copy_ok_step; eauto.
    + apply incl_self.
    + apply received_none.
Qed.

Definition blen_of (buf : option nat) : nat := match buf with None => Z.to_nat 32768 | Some n => n end.
Lemma blen_pos buf : buf <> Some 0%nat -> (0 < blen_of buf)%nat.
Proof. destruct buf as [n|]; cbn [blen_of]; [|lia]. destruct n; [congruence|lia]. Qed.

Lemma copys_honest s buf ds : buf <> Some 0%nat -> ds <> [] -> Forall honest ds ->
  exists s' ds' w err, copys_plain s buf ds = Ok (s', ds', w, err) /\ copy_ok s ds s' ds' w err.
Proof.
  intros Hb Hd Hh. unfold copys_plain. apply copy_loop_honest; auto. - apply (blen_pos _ Hb). - unfold weight. lia.
Qed.

Lemma takes_all_honest ds : Forall takes_all ds -> Forall honest ds.
Proof.
  intros H. eapply Forall_impl; [|exact H]. unfold takes_all, honest. intros d Hd. eapply Forall_impl; [|exact Hd].
  cbn. intros r -> n. discriminate.
Qed.

Lemma received_all data ds ds' ns : received data ds ds' ns -> Forall (fun n => zlen data <= Z.of_nat n) ns -> all_received data ds ds'.
Proof.
  induction 1 as [|d d1 m ds ds1 ms Hm Hg R1 IH]; intros F; constructor; inversion F; subst.
  - rewrite Hg. f_equal. apply firstn_all2. unfold zlen in *. lia.
  - now apply IH.
Qed.

Lemma copys_all s buf ds : buf <> Some 0%nat -> ds <> [] -> Forall takes_all ds -> sr_end s = None ->
  exists s' ds', copys_plain s buf ds = Ok (s', ds', zlen (sr_data s), None) /\ all_received (sr_data s) ds ds'.
Proof.
  intros Hb Hd Ht He. destruct (copys_honest s buf ds Hb Hd (takes_all_honest _ Ht)) as (s' & ds' & w & err & E & (c & ns & Hc & Hs & R & D & F & Hw & Er)).
  destruct err as [[|e]|].
  - contradiction.
  - exfalso. destruct Er as [[_ Er]|(d & n & Hin & Hk)]; [congruence|]. rewrite Forall_forall in Ht. specialize (Ht _ Hin).
    unfold takes_all in Ht. rewrite Forall_forall in Ht. specialize (Ht _ Hk). discriminate.
  - destruct Er as [-> _]. exists s', ds'. split; auto. eapply received_all; eauto. eapply Forall_impl; [|exact F]. cbn. tauto.
Qed.

(** ** The last destination, whatever the others do *)
Lemma write_each_last p ds d : forall nw ds' n, write_each p nw (ds ++ [d]) = (ds', n, None) ->
  exists ds1 d', ds' = ds1 ++ [d'] /\ length ds1 = length ds /\ (n = length p -> ds_got d' = ds_got d ++ p).
Proof.
  induction ds as [|x ds IH]; intros nw ds' n E; cbn [app write_each] in E.
  - destruct (dst_write p d) as [d1 [n1 e1]] eqn:E1. apply dst_write_spec in E1. destruct E1 as (L1 & G1 & _).
    destruct e1; [discriminate|]. injection E as <- <-. exists [], d1. repeat split; auto. intros ->. now rewrite firstn_all in G1.
  - destruct (dst_write p x) as [d1 [n1 e1]] eqn:E1. destruct e1; [discriminate|].
    destruct (write_each p n1 (ds ++ [d])) as [[t n2] e2] eqn:E2. injection E as <- <- ->.
    destruct (IH _ _ _ E2) as (ds1 & d' & -> & L & H). exists (d1 :: ds1), d'. cbn. auto.
Qed.

Lemma copy_loop_last blen : forall fuel s ds d w0 s' ds' w,
  copy_loop fuel blen s (ds ++ [d]) w0 = Ok (s', ds', w, None) ->
  w = w0 + zlen (sr_data s) /\ sr_end s = None /\ exists ds1 d', ds' = ds1 ++ [d'] /\ length ds1 = length ds /\ ds_got d' = ds_got d ++ sr_data s.
Proof.
  induction fuel as [|f IH]; intros s ds d w0 s' ds' w E; [discriminate|]. cbn [copy_loop] in E.
  destruct (src_read blen s) as [[s1 p] er] eqn:ER. apply src_read_spec in ER. destruct ER as (E1 & E2 & E3).
  rewrite E1, <- E2.
  destruct (Nat.ltb_spec 0 (length p)) as [Lp|Lp].
  - destruct (write_each p 0 (ds ++ [d])) as [[ds1 nw] ew] eqn:EW. destruct ew; [discriminate|].
    destruct (Nat.eqb_spec (length p) nw) as [<-|]; [|discriminate].
    destruct (write_each_last _ _ _ _ _ _ EW) as (ds2 & d2 & -> & L & G). specialize (G eq_refl).
    destruct er as [| |e]; [|injection E as <- <- <-|discriminate].
    + destruct (IH _ _ _ _ _ _ _ E) as (-> & He & ds3 & d3 & -> & L3 & G3). split; [unfold zlen; rewrite app_length; lia|].
      split; auto. exists ds3, d3. split; auto. split; [lia|]. now rewrite G3, G, <- app_assoc.
    + destruct E3 as (D & En). rewrite D, app_nil_r. split; [reflexivity|]. split; [congruence|]. exists ds2, d2. auto.
  - destruct p; [|cbn in Lp; lia]. cbn [app].
    destruct er as [| |e]; [|injection E as <- <- <-|discriminate].
    + apply (IH _ _ _ _ _ _ _ E).
    + destruct E3 as (D & En). rewrite D. split; [unfold zlen; cbn; lia|]. split; [congruence|]. exists ds, d. rewrite app_nil_r. auto.
Qed.

Lemma copys_last s buf ds d s' ds' w : copys_plain s buf (ds ++ [d]) = Ok (s', ds', w, None) ->
  w = zlen (sr_data s) /\ exists ds1 d', ds' = ds1 ++ [d'] /\ length ds1 = length ds /\ ds_got d' = ds_got d ++ sr_data s.
Proof. intros E. apply copy_loop_last in E. destruct E as (-> & _ & H). split; auto. Qed.

(** ** Sources with WriteTo *)
Lemma dst_write_all p d : takes_all d -> exists d', dst_write p d = (d', (length p, None)) /\ ds_got d' = ds_got d ++ p.
Proof.
  unfold takes_all, dst_write. destruct d as [got [|r plan]]; cbn [ds_plan ds_got]; intros H.
  - eexists. split; [reflexivity|]. reflexivity.
  - inversion H; subst. eexists. split; [reflexivity|]. reflexivity.
Qed.

Lemma writer_to_rest ds : forall w, copys_writer_to [] ds w None = ([], ds, match ds with [] => w | _ => 0 end, None).
Proof. induction ds as [|d ds IH]; intros w; cbn; auto. rewrite IH. destruct ds; reflexivity. Qed.

Lemma writer_to_exact data d ds : takes_all d ->
  exists d', copys_writer_to data (d :: ds) 0 None = ([], d' :: ds, match ds with [] => zlen data | _ => 0 end, None) /\
    ds_got d' = ds_got d ++ data.
Proof.
  intros H. cbn [copys_writer_to]. unfold write_to. destruct data as [|x data].
  - exists d. rewrite writer_to_rest. rewrite app_nil_r. split; destruct ds; reflexivity.
  - destruct (dst_write_all (x :: data) d H) as (d' & -> & G). rewrite Nat.eqb_refl, skipn_all, writer_to_rest.
    exists d'. split; auto.
Qed.

(** ** No destination, and an empty buffer *)
Lemma copys_nowhere s buf : buf <> Some 0%nat -> sr_data s <> [] ->
  exists s', copys_plain s buf [] = Ok (s', [], 0, Some ErrShort).
Proof.
  intros Hb Hd. unfold copys_plain. fold (blen_of buf). pose proof (blen_pos _ Hb) as B. generalize (blen_of buf) B. clear Hb B buf.
  intros blen B. assert (G : forall fuel s, (weight s < fuel)%nat -> sr_data s <> [] -> exists s', copy_loop fuel blen s [] 0 = Ok (s', [], 0, Some ErrShort)).
  { clear s Hd. induction fuel as [|f IH]; intros s Hf Hd; [lia|]. cbn [copy_loop].
    destruct (src_read blen s) as [[s1 p] er] eqn:ER. apply src_read_spec in ER. destruct ER as (E1 & E2 & E3).
    destruct p as [|x p].
    - cbn [length]. cbn [app] in E1. destruct er as [| |e].
      + apply IH; [specialize (E3 B); lia|congruence].
      + destruct E3; congruence.
      + destruct E3; congruence.
    - cbn. eauto. }
  apply G; auto. unfold weight. lia.
Qed.

Lemma copys_stuck fuel s ds w : sr_data s <> [] -> copy_loop fuel 0 s ds w = Diverge.
Proof.
  revert s. induction fuel as [|f IH]; intros s Hd; [reflexivity|]. cbn [copy_loop].
  assert (E : exists rest, src_read 0 s = (Source (sr_data s) rest (sr_end s), [], RNil)).
  { unfold src_read. destruct s as [[|x data] plan fin]; [contradiction|]. cbn [sr_data sr_plan sr_end].
    destruct plan as [|[k early] rest]; rewrite Nat.min_0_l, ?Nat.min_0_r; cbn [firstn skipn]; eauto. }
  destruct E as (rest & ->). cbn [length Nat.ltb Nat.leb]. apply IH. exact Hd.
Qed.

Lemma copy_loop_ends blen : (0 < blen)%nat -> forall fuel s ds w, (weight s < fuel)%nat ->
  exists r, copy_loop fuel blen s ds w = Ok r /\ forall more, copy_loop (fuel + more) blen s ds w = Ok r.
Proof.
  intros Hb. induction fuel as [|f IH]; intros s ds w Hf; [lia|]. cbn [copy_loop Nat.add].
  destruct (src_read blen s) as [[s1 p] er] eqn:ER. apply src_read_spec in ER. destruct ER as (E1 & E2 & E3).
  destruct (write_each p 0 ds) as [[ds1 nw] ew].
  destruct (0 <? length p)%nat; [destruct ew; [eauto|]; destruct (length p =? nw)%nat; [|eauto]|];
    (destruct er as [| |e]; [specialize (E3 Hb); apply IH; lia|eauto|eauto]).
Qed.

Lemma copys_ends s buf ds : buf <> Some 0%nat -> exists r, copys_plain s buf ds = Ok r.
Proof.
  intros Hb. destruct (copy_loop_ends (blen_of buf) (blen_pos _ Hb) (length (sr_plan s) + length (sr_data s) + 2) s ds 0) as (r & E & _).
  - unfold weight. lia.
  - eauto.
Qed.

Lemma writer_to_error data d ds n e r : data <> [] -> ds_plan d = WFail n e :: r ->
  copys_writer_to data (d :: ds) 0 None =
  (skipn n data, Dest (ds_got d ++ firstn n data) r :: ds, zlen (firstn n data), Some (ErrUser e)).
Proof.
  intros Hd Hp. cbn [copys_writer_to]. unfold write_to, dst_write. rewrite Hp. destruct data as [|b data]; [congruence|].
  assert (E : skipn (length (firstn n (b :: data))) (b :: data) = skipn n (b :: data)).
  2: { now rewrite E. }
  rewrite firstn_length. destruct (Nat.le_gt_cases n (length (b :: data))) as [H|H].
  - now rewrite Nat.min_l.
  - rewrite Nat.min_r by lia. rewrite (skipn_all2 (b :: data) (n := n)) by lia. apply skipn_all.
Qed.
